(** A client of the hash packages: crypto/hmac of Go 1.19 (hmac.go, not part of
    /repo) over the memory model of Model/HashMem.v. It uses a hash only through
    hash.Hash: New, Write, Sum, Reset and BlockSize. The hashes of /repo do not
    have MarshalBinary, so the branches of hmac.go for hashes that do are left
    out; so is the check that the two objects are different (they are pointers to
    different structs, /repo/hash/ripemd/ripe128.go:49-55 and so on). *)
From Verif Require Import Base.Go Base.Mem Base.Heap Base.HashUse Base.HmacUse.
From Verif Require Model.Ripemd Model.Whirlpool.
From Verif Require Import Model.HashMem.
Local Open Scope N_scope.

(** Calls of a hash.Hash. *)
Definition new_hash (w : world) (k : kind) : outcome (world * nat) :=
  let! (w, a) := step w (New k) in match a with AHash i => Ret (w, i) | _ => Panic end.
Definition write (w : world) (i : nat) (p : bslice) : outcome world :=
  let! (w, _) := step w (HashUse.Write i p) in Ret w.
Definition sum (w : world) (i : nat) (inp : bslice) (room : nat) : outcome (world * bslice) :=
  let! (w, a) := step w (Sum i inp room) in match a with ASlice s => Ret (w, s) | _ => Panic end.
Definition reset (w : world) (i : nat) : outcome world :=
  let! (w, _) := step w (Reset i) in Ret w.
(** /repo/hash/ripemd/shared.go:208, /repo/hash/whirlpool/whirlpool.go:173 *)
Definition block_size (k : kind) : nat :=
  match k with KWhirlpool => Whirlpool.BlockSize | _ => Ripemd.BlockSize end.
(** make([]byte, n) *)
Definition make (w : world) (n : nat) : outcome (world * bslice) :=
  let! (w, a) := step w (Make n n) in match a with ASlice s => Ret (w, s) | _ => Panic end.
(** s[j] = v *)
Definition set (w : world) (s : bslice) (j : nat) (v : N) : outcome world :=
  let! (w, _) := step w (Store s j v) in Ret w.
Definition nil_slice : bslice := mkB 0 0 0.
(** s[:n] and s[n:] *)
Definition upto (s : bslice) (n : nat) : outcome bslice :=
  if Nat.leb n (bcap s) then Ret (mkB (at_ s) n (bcap s)) else Panic.
Definition from (s : bslice) (n : nat) : outcome bslice :=
  if Nat.leb n (blen s) then Ret (mkB (at_ s + n) (blen s - n) (bcap s - n)) else Panic.

(** type hmac struct *)
Record mac := mkMac { outer : nat; inner : nat; ipad : bslice; opad : bslice }.

(** copy(dst, key) for a dst just made *)
Fixpoint copy_loop (cnt j : nat) (w : world) (dst key : bslice) : outcome world :=
  match cnt with
  | O => Ret w
  | S cnt' =>
      let! v := load (cells (hp w)) (window key) j in
      let! w := set w dst j v in
      copy_loop cnt' (j + 1) w dst key
  end.
Definition copy_key (w : world) (dst key : bslice) : outcome world :=
  copy_loop (Nat.min (blen dst) (blen key)) 0 w dst key.
(** for i := range s { s[i] ^= c } *)
Fixpoint xor_loop (cnt j : nat) (w : world) (s : bslice) (c : N) : outcome world :=
  match cnt with
  | O => Ret w
  | S cnt' =>
      let! v := load (cells (hp w)) (window s) j in
      let! w := set w s j (N.lxor v c) in
      xor_loop cnt' (j + 1) w s c
  end.
Definition xor_pad (w : world) (s : bslice) (c : N) : outcome world := xor_loop (blen s) 0 w s c.

(** hmac.New *)
Definition new_mac (w : world) (k : kind) (key : bslice) (room : nat) : outcome (world * mac) :=
  let! (w, o) := new_hash w k in
  let! (w, i) := new_hash w k in
  let blocksize := block_size k in
  let! (w, ip) := make w blocksize in
  let! (w, op) := make w blocksize in
  let! (w, key) :=
    (if Nat.ltb blocksize (blen key) then
       let! w := write w o key in
       sum w o nil_slice room
     else Ret (w, key)) in
  let! w := copy_key w ip key in
  let! w := copy_key w op key in
  let! w := xor_pad w ip 0x36 in
  let! w := xor_pad w op 0x5c in
  let! w := write w i ip in
  Ret (w, mkMac o i ip op).
(** hmac.Sum *)
Definition sum_mac (w : world) (h : mac) (inp : bslice) (room room' : nat) : outcome (world * bslice) :=
  let origLen := blen inp in
  let! (w, inp) := sum w (inner h) inp room in
  let! w := reset w (outer h) in
  let! w := write w (outer h) (opad h) in
  let! d := from inp origLen in
  let! w := write w (outer h) d in
  let! inp := upto inp origLen in
  sum w (outer h) inp room'.
(** hmac.Reset *)
Definition reset_mac (w : world) (h : mac) : outcome world :=
  let! w := reset w (inner h) in
  write w (inner h) (ipad h).

(** A program that uses any number of MACs. *)
Record mworld := mkMW { under : world; macs : list mac }.
Definition mstart : mworld := mkMW start [].
Definition mstep (w : mworld) (u : muse) : outcome (mworld * answer) :=
  match u with
  | MNew k key room =>
      let! (w', h) := new_mac (under w) k key room in
      Ret (mkMW w' (macs w ++ [h]), AHash (length (macs w)))
  | MWrite i p =>
      let! h := idx (macs w) i in
      let! (w', a) := step (under w) (HashUse.Write (inner h) p) in
      Ret (mkMW w' (macs w), a)
  | MSum i inp room room' =>
      let! h := idx (macs w) i in
      let! (w', s) := sum_mac (under w) h inp room room' in
      Ret (mkMW w' (macs w), ASlice s)
  | MReset i =>
      let! h := idx (macs w) i in
      let! w' := reset_mac (under w) h in
      Ret (mkMW w' (macs w), ADone)
  | MMake n c => let! (w', a) := step (under w) (Make n c) in Ret (mkMW w' (macs w), a)
  | MStore s j v => let! (w', a) := step (under w) (Store s j v) in Ret (mkMW w' (macs w), a)
  end.
