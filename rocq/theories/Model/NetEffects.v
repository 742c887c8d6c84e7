(** Model of /repo/net/IpTree.go with a merge function that may do anything a
    Go function may do except run forever: read and change variables, change
    the tree it was called from (by calling the methods of that tree) and panic.
    [Model.Net] takes merge to be a pure total function. *)
From Verif Require Import Base.Go Base.GoNet Base.NetApi Model.Net.
Local Open Scope N_scope.

(** How a call ends. After a panic that the caller recovers from, the world is
    what it was at the time of the panic. *)
Inductive ending (W : Type) := Returned (w : W) | Panicked (w : W) | Running.
Arguments Returned {W} w.
Arguments Panicked {W} w.
Arguments Running {W}.

Section Effects.
Context {V St : Type}.

(** The field root of the tree (IpTree.go:95-98) and everything else. *)
Definition world := (node V * St)%type.
(** A merge function: the result is absent when it panics. *)
Definition callback := world -> V -> V -> world * option V.

(** A merge function that leaves the tree alone. *)
Definition outside (f : St -> V -> V -> St * option V) : callback :=
  fun w a b => let (s, o) := f (snd w) a b in ((fst w, s), o).
(** Calling a nil function panics. *)
Definition nil_merge : callback := fun w _ _ => (w, None).

(** IpTree.go:58-93  add; the nodes are copied (treeNode is a struct held by
    value in the interface), so the tree in the world is not changed by add
    itself. *)
Fixpoint add_eff (mg : callback) (parent : node V) (pos : N) (mask : nat) (end_ : N) (value : V)
    (w : world) {struct mask} : world * option (node V) :=
  match parent with
  | NAll _ => (w, Some parent)
  | _ =>
      if N.of_nat mask <=? end_ then (w, Some (NAll value))
      else
        let (l, r) := match parent with NTree l r => (l, r) | _ => (NNone, NNone) end in
        match mask with
        | O => (w, Some (NAll value)) (* not reached: mask <= end *)
        | S mask' =>
            let odd := N.land (N.shiftr pos (N.of_nat mask')) 1 in
            let (w1, child) := add_eff mg (if odd =? 1 then r else l) pos mask' end_ value w in
            match child with
            | None => (w1, None)
            | Some c =>
                let (l, r) := if odd =? 1 then (l, c) else (c, r) in
                match l, r with
                | NAll a, NAll b =>
                    let (w2, v) := mg w1 a b in
                    (w2, match v with Some v => Some (NAll v) | None => None end)
                | _, _ => (w1, Some (NTree l r))
                end
            end
        end
  end.

(** t.root = add(t.root, ...): root is read before and set after the call. *)
Definition set_root (mg : callback) (w : world) (u : N) (end_ : N) (value : V) : ending world :=
  let (w', o) := add_eff mg (fst w) u 32 end_ value w in
  match o with
  | Some n => Returned (n, snd w')
  | None => Panicked w'
  end.

(** IpTree.go:106-109  AddIp *)
Definition AddIp_eff (mg : callback) (w : world) (ip : list N) (value : V) : ending world :=
  match Ipv4ToUint ip with
  | Ret u => set_root mg w u 0 value
  | Panic => Panicked w
  | OutOfFuel => Running
  end.

(** IpTree.go:115-129  the loop of AddRange, at most [fuel] rounds *)
Fixpoint range_loop_eff (fuel : nat) (mg : callback) (w : world) (uStart uEnd : N) (value : V) : ending world :=
  if uStart <=? uEnd then
    match fuel with
    | O => Running
    | S fuel' =>
        let m := N.land (sub32 uStart 1) (not32 uStart) in
        match (let! m := shrink 33 uStart uEnd m in
               let! bit := bit_len 33 m 0 in Ret (m, bit)) with
        | Ret (m, bit) =>
            match set_root mg w uStart bit value with
            | Returned w' => range_loop_eff fuel' mg w' (add32 uStart (add32 m 1)) uEnd value
            | stop => stop
            end
        | Panic => Panicked w
        | OutOfFuel => Running
        end
    end
  else Returned w.
(** IpTree.go:112-130  AddRange *)
Definition AddRange_eff (fuel : nat) (mg : callback) (w : world) (start end_ : list N) (value : V) : ending world :=
  match (let! uStart := Ipv4ToUint start in
         let! uEnd := Ipv4ToUint end_ in Ret (uStart, uEnd)) with
  | Ret (uStart, uEnd) => range_loop_eff fuel mg w uStart uEnd value
  | Panic => Panicked w
  | OutOfFuel => Running
  end.

(** IpTree.go:138-142  AddCidr *)
Definition AddCidr_eff (mg : callback) (w : world) (cidr : option ipnet) (value : V) : ending world :=
  match cidr with
  | None => Panicked w
  | Some cidr =>
      match Ipv4ToUint (IP cidr) with
      | Ret u => set_root mg w u (sub8 32 (MaskToByte (Mask cidr))) value
      | Panic => Panicked w
      | OutOfFuel => Running
      end
  end.

(** IpTree.go:145-154  ListCidr, which does not use merge *)
Definition ListCidr_eff (w : world) : list (ipnet * V) := ListCidr (mkTree (fst w) (fun a _ => a)).

Definition apply_eff (fuel : nat) (mg : callback) (w : world) (c : tree_call V) : ending world :=
  match c with
  | CAddIp ip v => AddIp_eff mg w ip v
  | CAddRange s e v => AddRange_eff fuel mg w s e v
  | CAddCidr n v => AddCidr_eff mg w n v
  end.
(** A history of calls whose panics are recovered from: the world at the end,
    and which calls returned. *)
Fixpoint run_eff (fuel : nat) (mg : callback) (w : world) (cs : list (tree_call V)) : option (world * list bool) :=
  match cs with
  | [] => Some (w, [])
  | c :: cs' =>
      match apply_eff fuel mg w c with
      | Returned w' => match run_eff fuel mg w' cs' with Some (w2, l) => Some (w2, true :: l) | None => None end
      | Panicked w' => match run_eff fuel mg w' cs' with Some (w2, l) => Some (w2, false :: l) | None => None end
      | Running => None
      end
  end.

End Effects.
Arguments world : clear implicits.
Arguments callback : clear implicits.
