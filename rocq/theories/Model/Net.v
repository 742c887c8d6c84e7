(** Model of /repo/net: Ipv4.go, Mask.go, Cidr.go, IpTree.go. *)
From Verif Require Import Base.Go Base.GoNet Base.NetApi.
Local Open Scope N_scope.

(** Ipv4.go:12-18  Ipv4ToUint; Uint32 cannot panic, To4 gives 4 bytes. *)
Definition Ipv4ToUint (ip : list N) : outcome N :=
  match To4 ip with
  | None => Ret 0
  | Some i4 => get_be32 i4
  end.
(** Ipv4.go:21-25  Ipv4FromUint *)
Definition Ipv4FromUint (u : N) : list N := be32 u.

(** Mask.go:12-17  MaskFromByte; the untyped constant takes type uint32, the
    shift count 32-b is a byte (wraps), shifting by 32 or more gives 0. *)
Definition MaskFromByte (b : N) : list N :=
  let mask := shl32 0xffffffff (sub8 32 b) in
  be32 mask.
(** Mask.go:20-23  MaskToByte *)
Definition MaskToByte (m : list N) : N := u8 (Size m).

(** Cidr.go:12-21  CidrEqual; nil pointers panic. To4 of both addresses is
    compared with bytes.Compare, for which nil equals nil. *)
Definition CidrEqual (a b : option ipnet) : outcome bool :=
  match a, b with
  | Some a, Some b =>
      if negb (bytes_same (Mask a) (Mask b)) then Ret false
      else
        let or_nil o := match o with Some l => l | None => [] end in
        Ret (bytes_same (or_nil (To4 (IP a))) (or_nil (To4 (IP b))))
  | _, _ => Panic
  end.
(** Cidr.go:24-31  FirstIpv4 *)
Definition FirstIpv4 (n : option ipnet) : outcome (list N) :=
  match n with Some n => Ret (IP n) | None => Panic end.
(** Cidr.go:34-41  LastIpv4 *)
Definition LastIpv4 (n : option ipnet) : outcome (list N) :=
  match n with
  | None => Panic
  | Some n =>
      let! i0 := idx (IP n) 0 in let! m0 := idx (Mask n) 0 in
      let! i1 := idx (IP n) 1 in let! m1 := idx (Mask n) 1 in
      let! i2 := idx (IP n) 2 in let! m2 := idx (Mask n) 2 in
      let! i3 := idx (IP n) 3 in let! m3 := idx (Mask n) 3 in
      Ret [N.lor i0 (not8 m0); N.lor i1 (not8 m1); N.lor i2 (not8 m2); N.lor i3 (not8 m3)]
  end.

(** ** IpTree.go *)

(** IpTree.go:10-49  the three node types; [none{}] and [&none{}] behave the
    same. Values are interface{}, here any type V; the merge function is taken
    to be total and without side effects here, see NetEffects for the rest. *)
Inductive node (V : Type) :=
| NNone
| NAll (v : V)
| NTree (l r : node V).
Arguments NNone {V}.
Arguments NAll {V} v.
Arguments NTree {V} l r.

(** IpTree.go:58-93  add; mask is a byte between 0 and 32, kept as nat. *)
Fixpoint add {V} (merge : V -> V -> V) (parent : node V) (pos : N) (mask : nat) (end_ : N) (value : V)
    {struct mask} : node V :=
  match parent with
  | NAll _ => parent
  | _ =>
      if N.of_nat mask <=? end_ then NAll value
      else
        let (l, r) := match parent with NTree l r => (l, r) | _ => (NNone, NNone) end in
        match mask with
        | O => NAll value (* not reached: mask <= end *)
        | S mask' =>
            let odd := N.land (N.shiftr pos (N.of_nat mask')) 1 in
            let (l, r) :=
              if odd =? 1 then (l, add merge r pos mask' end_ value)
              else (add merge l pos mask' end_ value, r) in
            match l, r with
            | NAll a, NAll b => NAll (merge a b)
            | _, _ => NTree l r
            end
        end
  end.

(** IpTree.go:23-25, 37-39, 54-57  each: the (position, mask, value) triples
    passed to output, in order; mask is a byte and wraps below 0. *)
Fixpoint each {V} (n : node V) (position mask : N) : list (N * N * V) :=
  match n with
  | NNone => []
  | NAll v => [(position, sub8 31 mask, v)]
  | NTree l r =>
      each l position (sub8 mask 1) ++ each r (N.lor position (shl32 1 mask)) (sub8 mask 1)
  end.

(** IpTree.go:95-103  Tree and New *)
Record tree (V : Type) := mkTree { root : node V; merge : V -> V -> V }.
Arguments mkTree {V} root merge.
Arguments root {V} t.
Arguments merge {V} t.
Definition New {V} (merge : V -> V -> V) : tree V := mkTree NNone merge.

Definition add_root {V} (t : tree V) (u : N) (end_ : N) (value : V) : tree V :=
  mkTree (add (merge t) (root t) u 32 end_ value) (merge t).

(** IpTree.go:106-109  AddIp *)
Definition AddIp {V} (t : tree V) (ip : list N) (value : V) : outcome (tree V) :=
  let! u := Ipv4ToUint ip in
  Ret (add_root t u 0 value).

(** IpTree.go:117-119  for uStart+m > uEnd { m >>= 1 }; 33 rounds are enough
    for a uint32. *)
Fixpoint shrink (fuel : nat) (uStart uEnd m : N) : outcome N :=
  if uEnd <? add32 uStart m then
    match fuel with
    | O => OutOfFuel
    | S fuel' => shrink fuel' uStart uEnd (N.shiftr m 1)
    end
  else Ret m.
(** IpTree.go:120-126  number of bits of m *)
Fixpoint bit_len (fuel : nat) (temp bit : N) : outcome N :=
  if temp =? 0 then Ret bit
  else match fuel with
       | O => OutOfFuel
       | S fuel' => bit_len fuel' (N.shiftr temp 1) (add8 bit 1)
       end.
(** IpTree.go:115-129  the loop of AddRange, at most [fuel] rounds *)
Fixpoint range_loop {V} (fuel : nat) (t : tree V) (uStart uEnd : N) (value : V) : outcome (tree V) :=
  if uStart <=? uEnd then
    match fuel with
    | O => OutOfFuel
    | S fuel' =>
        let m := N.land (sub32 uStart 1) (not32 uStart) in
        let! m := shrink 33 uStart uEnd m in
        let! bit := bit_len 33 m 0 in
        range_loop fuel' (add_root t uStart bit value) (add32 uStart (add32 m 1)) uEnd value
    end
  else Ret t.
(** IpTree.go:112-130  AddRange *)
Definition AddRange {V} (fuel : nat) (t : tree V) (start end_ : list N) (value : V) : outcome (tree V) :=
  let! uStart := Ipv4ToUint start in
  let! uEnd := Ipv4ToUint end_ in
  range_loop fuel t uStart uEnd value.

(** IpTree.go:138-142  AddCidr *)
Definition AddCidr {V} (t : tree V) (cidr : option ipnet) (value : V) : outcome (tree V) :=
  match cidr with
  | None => Panic
  | Some cidr =>
      let! u := Ipv4ToUint (IP cidr) in
      let b := MaskToByte (Mask cidr) in
      Ret (add_root t u (sub8 32 b) value)
  end.

(** IpTree.go:145-154  ListCidr *)
Definition ListCidr {V} (t : tree V) : list (ipnet * V) :=
  map (fun x => let '(position, bit, value) := x in
                (mkNet (Ipv4FromUint position) (MaskFromByte bit), value))
      (each (root t) 0 31).

(** A history of calls. *)
Definition apply {V} (fuel : nat) (t : tree V) (c : tree_call V) : outcome (tree V) :=
  match c with
  | CAddIp ip v => AddIp t ip v
  | CAddRange s e v => AddRange fuel t s e v
  | CAddCidr n v => AddCidr t n v
  end.
Fixpoint apply_all {V} (fuel : nat) (t : tree V) (cs : list (tree_call V)) : outcome (tree V) :=
  match cs with
  | [] => Ret t
  | c :: cs' => let! t' := apply fuel t c in apply_all fuel t' cs'
  end.
