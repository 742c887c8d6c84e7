(** Package net over shared memory: which bytes its functions read, which they
    write and which memory they return. What is computed from the bytes is in
    Model/Net.v. *)
From Verif Require Import Base.Go Base.GoNet Base.Mem Base.Heap Base.NetUse.
From Verif Require Model.Net.
Local Open Scope N_scope.

(** Ipv4.go:21-25  Ipv4FromUint *)
Definition Ipv4FromUint (h : heap) (u : N) : outcome (heap * bslice) :=
  let '(h, ret) := alloc h 4 in
  let! m := be_put32 (cells h) ret u in
  Ret (mkHeap m (brk h), mkB (off ret) 4 4).

(** Mask.go:12-17  MaskFromByte *)
Definition MaskFromByte (h : heap) (b : N) : outcome (heap * bslice) :=
  let mask := shl32 0xffffffff (sub8 32 b) in
  let '(h, ret) := alloc h 4 in
  let! m := be_put32 (cells h) ret mask in
  Ret (mkHeap m (brk h), mkB (off ret) 4 4).

(** Cidr.go:24-31  FirstIpv4: n.IP itself *)
Definition FirstIpv4 (ip m : bslice) : bslice := ip.

(** Cidr.go:34-41  LastIpv4 *)
Definition last_byte (m : mem) (ip mask : bslice) (ret : slice) (j : nat) : outcome mem :=
  let! a := load m (window ip) j in
  let! b := load m (window mask) j in
  store m ret j (N.lor a (not8 b)).
Definition LastIpv4 (h : heap) (ip mask : bslice) : outcome (heap * bslice) :=
  let '(h, ret) := alloc h 4 in
  let! m := last_byte (cells h) ip mask ret 0 in
  let! m := last_byte m ip mask ret 1 in
  let! m := last_byte m ip mask ret 2 in
  let! m := last_byte m ip mask ret 3 in
  Ret (mkHeap m (brk h), mkB (off ret) 4 4).

(** IpTree.go:145-154  ListCidr: what the function handed to each does, for every
    (position, bit, value). The slice of CidrValues and the IPNet structs are
    values here. *)
Fixpoint list_loop {V} (h : heap) (l : list (N * N * V)) : outcome (heap * list (bslice * bslice * V)) :=
  match l with
  | [] => Ret (h, [])
  | (position, bit, value) :: l' =>
      let! (h, ip) := Ipv4FromUint h position in
      let! (h, mask) := MaskFromByte h bit in
      let! (h, r) := list_loop h l' in
      Ret (h, (ip, mask, value) :: r)
  end.
Definition ListCidr {V} (h : heap) (t : Net.tree V) : outcome (heap * list (bslice * bslice * V)) :=
  list_loop h (Net.each (Net.root t) 0 31).

(** The program and its trees. A tree holds numbers and values, no slices
    (IpTree.go:16-18, 44-46, 95-98), so it has no memory of its own here. *)
Record world (V : Type) := mkWorld { hp : heap; trees : list (Net.tree V) }.
Arguments mkWorld {V} hp trees.
Arguments hp {V} w.
Arguments trees {V} w.
Definition start {V} : world V := mkWorld (mkHeap (fun _ => 0) 0) [].

Fixpoint update {A} (i : nat) (x : A) (l : list A) : list A :=
  match l, i with
  | [], _ => []
  | _ :: t, O => x :: t
  | y :: t, S i' => y :: update i' x t
  end.
Definition on_tree {V} (w : world V) (i : nat) (f : Net.tree V -> outcome (Net.tree V)) : outcome (world V * nanswer V) :=
  match nth_error (trees w) i with
  | Some t => let! t' := f t in Ret (mkWorld (hp w) (update i t' (trees w)), NDone)
  | None => Panic
  end.
Definition slice_answer {V} (w : world V) (r : outcome (heap * bslice)) : outcome (world V * nanswer V) :=
  let! (h, s) := r in Ret (mkWorld h (trees w), NSlice s).

(** One operation; AddRange gets at most [fuel] rounds. The bytes of the
    arguments are read, never written: To4, Uint32, Size and bytes.Compare only
    read (Ipv4.go:12-18, Mask.go:20-23, Cidr.go:12-21, IpTree.go:106-142). *)
Definition step {V} (fuel : nat) (w : world V) (u : nuse V) : outcome (world V * nanswer V) :=
  let get := contents (cells (hp w)) in
  match u with
  | UMake n c =>
      let '(h, s) := alloc (hp w) c in Ret (mkWorld h (trees w), NSlice (mkB (off s) n c))
  | UStore s j x =>
      let! m := store (cells (hp w)) (window s) j x in
      Ret (mkWorld (mkHeap m (brk (hp w))) (trees w), NDone)
  | UToUint ip => let! x := Net.Ipv4ToUint (get ip) in Ret (w, NNum x)
  | UFromUint u => slice_answer w (Ipv4FromUint (hp w) u)
  | UMaskFrom b => slice_answer w (MaskFromByte (hp w) b)
  | UMaskTo m => Ret (w, NNum (Net.MaskToByte (get m)))
  | UEqual ip m ip' m' =>
      let! b := Net.CidrEqual (Some (mkNet (get ip) (get m))) (Some (mkNet (get ip') (get m'))) in
      Ret (w, NBool b)
  | UFirst ip m => Ret (w, NSlice (FirstIpv4 ip m))
  | ULast ip m => slice_answer w (LastIpv4 (hp w) ip m)
  | UTree mg => Ret (mkWorld (hp w) (trees w ++ [Net.New mg]), NNew (length (trees w)))
  | UAddIp i ip v => on_tree w i (fun t => Net.AddIp t (get ip) v)
  | UAddRange i s e v => on_tree w i (fun t => Net.AddRange fuel t (get s) (get e) v)
  | UAddCidr i ip m v => on_tree w i (fun t => Net.AddCidr t (Some (mkNet (get ip) (get m))) v)
  | UList i =>
      match nth_error (trees w) i with
      | Some t => let! (h, l) := ListCidr (hp w) t in Ret (mkWorld h (trees w), NEntries l)
      | None => Panic
      end
  end.
