(** Model of /repo/net/IpTree.go for a Tree that was not made with New: the zero
    value [Tree{}] (or [new(Tree)], [var t Tree]), whose root is a nil interface
    and whose merge is a nil function. Both fields are unexported, so outside the
    package this is the only tree besides those of New. *)
From Verif Require Import Base.Go Base.GoNet Base.NetApi Model.Net Model.NetEffects.
Local Open Scope N_scope.

Section Zero.
Context {V : Type}.

(** The field root (IpTree.go:96), [None] for nil. *)
Definition ztree := option (node V).
(** The value made by Tree{} *)
Definition zero_tree : ztree := None.

(** IpTree.go:58-93  add. The type assertions of lines 60 and 69 fail on a nil
    interface as they do on a none, and parent is used for nothing else; the
    children of a node are never nil (line 47). The merge function is nil. *)
Definition zadd (parent : ztree) (pos : N) (end_ : N) (value : V) : option (node V) :=
  let p := match parent with Some n => n | None => NNone end in
  snd (add_eff (St := unit) nil_merge p pos 32 end_ value (NNone, tt)).
(** t.root = add(t.root, ...): a panic leaves root alone. *)
Definition zset (t : ztree) (u : N) (end_ : N) (value : V) : ending ztree :=
  match zadd t u end_ value with
  | Some n => Returned (Some n)
  | None => Panicked t
  end.

(** IpTree.go:106-109  AddIp *)
Definition AddIp_zero (t : ztree) (ip : list N) (value : V) : ending ztree :=
  match Ipv4ToUint ip with
  | Ret u => zset t u 0 value
  | Panic => Panicked t
  | OutOfFuel => Running
  end.
(** IpTree.go:115-129  the loop of AddRange, at most [fuel] rounds *)
Fixpoint range_loop_zero (fuel : nat) (t : ztree) (uStart uEnd : N) (value : V) : ending ztree :=
  if uStart <=? uEnd then
    match fuel with
    | O => Running
    | S fuel' =>
        let m := N.land (sub32 uStart 1) (not32 uStart) in
        match (let! m := shrink 33 uStart uEnd m in
               let! bit := bit_len 33 m 0 in Ret (m, bit)) with
        | Ret (m, bit) =>
            match zset t uStart bit value with
            | Returned t' => range_loop_zero fuel' t' (add32 uStart (add32 m 1)) uEnd value
            | stop => stop
            end
        | Panic => Panicked t
        | OutOfFuel => Running
        end
    end
  else Returned t.
(** IpTree.go:112-130  AddRange *)
Definition AddRange_zero (fuel : nat) (t : ztree) (start end_ : list N) (value : V) : ending ztree :=
  match (let! uStart := Ipv4ToUint start in
         let! uEnd := Ipv4ToUint end_ in Ret (uStart, uEnd)) with
  | Ret (uStart, uEnd) => range_loop_zero fuel t uStart uEnd value
  | Panic => Panicked t
  | OutOfFuel => Running
  end.
(** IpTree.go:138-142  AddCidr *)
Definition AddCidr_zero (t : ztree) (cidr : option ipnet) (value : V) : ending ztree :=
  match cidr with
  | None => Panicked t
  | Some cidr =>
      match Ipv4ToUint (IP cidr) with
      | Ret u => zset t u (sub8 32 (MaskToByte (Mask cidr))) value
      | Panic => Panicked t
      | OutOfFuel => Running
      end
  end.
(** IpTree.go:145-154  ListCidr: t.root.each is a method call on an interface
    and panics when that is nil. *)
Definition ListCidr_zero (t : ztree) : outcome (list (ipnet * V)) :=
  match t with
  | None => Panic
  | Some n => Ret (ListCidr (mkTree n (fun a _ => a)))
  end.

(** A history of calls whose panics are recovered from: the tree at the end, and
    which calls returned. *)
Definition apply_zero (fuel : nat) (t : ztree) (c : tree_call V) : ending ztree :=
  match c with
  | CAddIp ip v => AddIp_zero t ip v
  | CAddRange s e v => AddRange_zero fuel t s e v
  | CAddCidr n v => AddCidr_zero t n v
  end.
Fixpoint run_zero (fuel : nat) (t : ztree) (cs : list (tree_call V)) : option (ztree * list bool) :=
  match cs with
  | [] => Some (t, [])
  | c :: cs' =>
      match apply_zero fuel t c with
      | Returned t' => match run_zero fuel t' cs' with Some (t2, l) => Some (t2, true :: l) | None => None end
      | Panicked t' => match run_zero fuel t' cs' with Some (t2, l) => Some (t2, false :: l) | None => None end
      | Running => None
      end
  end.

End Zero.
Arguments ztree : clear implicits.
