(** Model of /repo/net/IpTree.go for a nil *Tree: [var t *net.Tree]. The fields
    t.root and t.merge of a nil pointer cannot be read or written: that panics. *)
From Verif Require Import Base.Go Base.GoNet Base.NetApi Model.Net.
Local Open Scope N_scope.

(** t.root, where t is nil *)
Definition root_of_nil {A} : outcome A := Panic.

(** IpTree.go:106-109  AddIp *)
Definition AddIp_nil (ip : list N) : outcome unit :=
  let! u := Ipv4ToUint ip in
  root_of_nil.
(** IpTree.go:112-130  AddRange: the first round of the loop comes to line 127 *)
Definition AddRange_nil (start end_ : list N) : outcome unit :=
  let! uStart := Ipv4ToUint start in
  let! uEnd := Ipv4ToUint end_ in
  if uStart <=? uEnd then
    let! m := shrink 33 uStart uEnd (N.land (sub32 uStart 1) (not32 uStart)) in
    let! bit := bit_len 33 m 0 in
    root_of_nil
  else Ret tt.
(** IpTree.go:138-142  AddCidr *)
Definition AddCidr_nil (cidr : option ipnet) : outcome unit :=
  match cidr with
  | None => Panic
  | Some cidr => let! u := Ipv4ToUint (IP cidr) in root_of_nil
  end.
(** IpTree.go:145-154  ListCidr *)
Definition ListCidr_nil {V} : outcome (list (ipnet * V)) := root_of_nil.

Definition call_nil {V} (c : tree_call V) : outcome unit :=
  match c with
  | CAddIp ip _ => AddIp_nil ip
  | CAddRange s e _ => AddRange_nil s e
  | CAddCidr n _ => AddCidr_nil n
  end.
