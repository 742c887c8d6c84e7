(** Memory with allocation, for code whose effects on its caller's memory
    matter: slices with a capacity, make and append. *)
From Verif Require Import Base.Go Base.Mem.
Local Open Scope N_scope.

(** A heap: its bytes, and the first address that is not allocated. Nothing is
    ever freed (Go's collector only frees what nobody can reach). *)
Record heap := mkHeap { cells : mem; brk : nat }.

(** A []byte value: address, length, capacity. *)
Record bslice := mkB { at_ : nat; blen : nat; bcap : nat }.
Definition window (s : bslice) : slice := mkSlice (at_ s) (blen s).

(** [n] bytes from address [a]. *)
Definition read (m : mem) (a n : nat) : list N := map m (seq a n).
Definition contents (m : mem) (s : bslice) : list N := read m (at_ s) (blen s).

(** new(T), make([]byte, n) or a local variable of [n] bytes: zeroed memory that
    overlaps nothing allocated before. *)
Definition zeroed (m : mem) (a n : nat) : mem :=
  fun x => if (Nat.leb a x && Nat.ltb x (a + n))%bool then 0 else m x.
Definition alloc (h : heap) (n : nat) : heap * slice :=
  (mkHeap (zeroed (cells h) (brk h) n) (brk h + n), mkSlice (brk h) n).

(** append(s, xs...): in place when the capacity suffices, otherwise in new
    memory. How much spare capacity new memory gets is up to the Go runtime:
    [room] bytes, anything. *)
Definition append (room : nat) (h : heap) (s : bslice) (xs : slice) : heap * bslice :=
  let n := (blen s + len xs)%nat in
  if Nat.leb n (bcap s) then
    (mkHeap (copy (cells h) (mkSlice (at_ s + blen s) (len xs)) xs) (brk h), mkB (at_ s) n (bcap s))
  else
    let '(h, t) := alloc h (n + room) in
    let m := copy (cells h) (mkSlice (off t) (blen s)) (window s) in
    let m := copy m (mkSlice (off t + blen s) (len xs)) xs in
    (mkHeap m (brk h), mkB (off t) n (n + room)).

(** append(s, x0, x1, ...): the values are put in a fresh array first. *)
Definition append_values (room : nat) (h : heap) (s : bslice) (xs : list N) : heap * bslice :=
  let '(h, t) := alloc h (length xs) in
  append room (mkHeap (copy_text (cells h) t xs) (brk h)) s t.

(** binary.BigEndian.PutUint64: writes b[0..7], panics when b is shorter. *)
Definition be_put64 (m : mem) (b : slice) (v : N) : outcome mem :=
  let! _ := load m b 7 in
  let! m := store m b 0 (u8 (N.shiftr v 56)) in
  let! m := store m b 1 (u8 (N.shiftr v 48)) in
  let! m := store m b 2 (u8 (N.shiftr v 40)) in
  let! m := store m b 3 (u8 (N.shiftr v 32)) in
  let! m := store m b 4 (u8 (N.shiftr v 24)) in
  let! m := store m b 5 (u8 (N.shiftr v 16)) in
  let! m := store m b 6 (u8 (N.shiftr v 8)) in
  store m b 7 (u8 v).
