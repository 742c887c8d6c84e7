(** The hash packages once more, with memory: the block buffer of a hash object
    and the slices of its user lie in one heap, so that it can be said what
    Write and Sum do to memory. The compression functions and the checksum
    arithmetic are those of the other models. *)
From Verif Require Import Base.Go Base.Mem Base.Heap Base.DigestApi Base.HashApi Base.HashUse.
From Verif Require Model.Bytes Model.Ripemd Model.Whirlpool Model.Bcc Model.Lrc Model.Fletcher.
Local Open Scope N_scope.

(** ** The block hashes: ripemd/shared.go:108-115, whirlpool/whirlpool.go:27-32.
    The word fields are here, the array block is in the heap at [oblock]. *)
Record obj := mkObj { ostate : list N; ototal : N; oblock : nat; opos : nat }.
Definition blk (c : obj) : slice := mkSlice (oblock c) 64.
Definition at_pos (c : obj) (p : nat) : obj := mkObj (ostate c) (ototal c) (oblock c) p.

(** c.hash(c): reads the block, assigns state and bPos (the functions of
    ripe128.go, ripe160.go, ripe256.go, ripe320.go and whirlpool.go:41-98). *)
Definition hash_obj (hash : ctx -> outcome ctx) (m : mem) (c : obj) : outcome obj :=
  let! t := hash (mkCtx (ostate c) (ototal c) (read m (oblock c) 64) (opos c)) in
  Ret (mkObj (state t) (total t) (oblock c) (bPos t)).

(** ripemd/shared.go:149-166, whirlpool/whirlpool.go:106-121  the loop of Write *)
Fixpoint write_loop (fuel : nat) (hash : ctx -> outcome ctx) (m : mem) (c : obj) (p : slice) (nToWrite space : nat)
    : outcome (mem * obj) :=
  if Nat.ltb 0 nToWrite then
    match fuel with
    | O => OutOfFuel
    | S fuel' =>
        if Nat.ltb nToWrite space then
          let! dst := from (blk c) (opos c) in
          Ret (copy m dst p, at_pos c (opos c + nToWrite))
        else
          let! dst := from (blk c) (opos c) in
          let! p0 := sub p 0 space in
          let m := copy m dst p0 in
          let! c := hash_obj hash m (at_pos c (opos c + space)) in
          let! p := from p space in
          write_loop fuel' hash m c p (nToWrite - space) 64
    end
  else Ret (m, c).
(** ripemd/shared.go:143-167, whirlpool/whirlpool.go:100-123  Write *)
Definition Write (hash : ctx -> outcome ctx) (h : heap) (c : obj) (p : slice) : outcome (heap * obj * nat) :=
  let n := len p in
  let c := mkObj (ostate c) (add64 (ototal c) (u64 (N.of_nat n))) (oblock c) (opos c) in
  let! (m, c) := write_loop (S n) hash (cells h) c p n (64 - opos c) in
  Ret (mkHeap m (brk h), c, n).

(** ripemd/shared.go:171-172, whirlpool/whirlpool.go:127  t := *c: a copy of the
    whole struct, array included *)
Definition clone (h : heap) (c : obj) : heap * obj :=
  let '(h, b) := alloc h 64 in
  (mkHeap (copy (cells h) b (blk c)) (brk h), mkObj (ostate c) (ototal c) (off b) (opos c)).

(** ripemd/shared.go:202-204  the loop writing out *)
Fixpoint put_le32s (cnt i : nat) (st : list N) (m : mem) (out : slice) : outcome mem :=
  match cnt with
  | O => Ret m
  | S cnt' =>
      let! b := from out (i * 4) in
      let! v := idx st i in
      let! m := le_put32 m b v in
      put_le32s cnt' (i + 1) st m out
  end.
(** ripemd/shared.go:169-206  Sum. The object itself is only read. *)
Definition SumRipe (room : nat) (hash : ctx -> outcome ctx) (stateLen : nat) (h : heap) (c : obj) (inp : bslice)
    : outcome (heap * bslice) :=
  let '(g, t) := clone h c in
  let! m := store (cells g) (blk t) (opos t) 0x80 in
  let t := at_pos t (opos t + 1) in
  let! (m, t) :=
    (if Nat.ltb 56 (opos t) then
       let! z := from (blk t) (opos t) in
       let! m := Bytes.Zero m z in
       let! t := hash_obj hash m t in
       Ret (m, t)
     else Ret (m, t)) in
  let! z := sub (blk t) (opos t) 56 in
  let! m := Bytes.Zero m z in
  let t := at_pos t 56 in
  let l := ototal t in
  let! m := store m (blk t) (opos t) (u8 (shl64 l 3)) in
  let! m := store m (blk t) (opos t + 1) (u8 (N.shiftr l 5)) in
  let! m := store m (blk t) (opos t + 2) (u8 (N.shiftr l 13)) in
  let! m := store m (blk t) (opos t + 3) (u8 (N.shiftr l 21)) in
  let! m := store m (blk t) (opos t + 4) (u8 (N.shiftr l 29)) in
  let! m := store m (blk t) (opos t + 5) (u8 (N.shiftr l 37)) in
  let! m := store m (blk t) (opos t + 6) (u8 (N.shiftr l 45)) in
  let! m := store m (blk t) (opos t + 7) (u8 (N.shiftr l 53)) in
  let t := at_pos t (opos t + 8) in
  let! t := hash_obj hash m t in
  let '(g, out) := alloc (mkHeap m (brk g)) (stateLen * 4) in
  let! m := put_le32s stateLen 0 (ostate t) (cells g) out in
  Ret (append room (mkHeap m (brk g)) inp out).

(** whirlpool/whirlpool.go:157-159  the loop writing out *)
Fixpoint put_be64s (cnt i : nat) (st : list N) (m : mem) (out : slice) : outcome mem :=
  match cnt with
  | O => Ret m
  | S cnt' =>
      let! b := from out (i * 8) in
      let! v := idx st i in
      let! m := be_put64 m b v in
      put_be64s cnt' (i + 1) st m out
  end.
(** whirlpool/whirlpool.go:125-161  Sum *)
Definition SumWhirl (room : nat) (h : heap) (c : obj) (inp : bslice) : outcome (heap * bslice) :=
  let '(g, t) := clone h c in
  let! m := store (cells g) (blk t) (opos t) 0x80 in
  let t := at_pos t (opos t + 1) in
  let! (m, t) :=
    (if Nat.ltb 32 (opos t) then
       let! z := from (blk t) (opos t) in
       let! m := Bytes.Zero m z in
       let! t := hash_obj Whirlpool.hash m t in
       Ret (m, t)
     else Ret (m, t)) in
  let! z := sub (blk t) (opos t) 55 in
  let! m := Bytes.Zero m z in
  let l := ototal c in
  let! m := store m (blk t) 63 (u8 (shl64 l 3)) in
  let! m := store m (blk t) 62 (u8 (N.shiftr l 5)) in
  let! m := store m (blk t) 61 (u8 (N.shiftr l 13)) in
  let! m := store m (blk t) 60 (u8 (N.shiftr l 21)) in
  let! m := store m (blk t) 59 (u8 (N.shiftr l 29)) in
  let! m := store m (blk t) 58 (u8 (N.shiftr l 37)) in
  let! m := store m (blk t) 57 (u8 (N.shiftr l 45)) in
  let! m := store m (blk t) 56 (u8 (N.shiftr l 53)) in
  let! m := store m (blk t) 55 (u8 (N.shiftr l 61)) in
  let! t := hash_obj Whirlpool.hash m t in
  let '(g, out) := alloc (mkHeap m (brk g)) 64 in
  let! m := put_be64s 8 0 (ostate t) (cells g) out in
  Ret (append room (mkHeap m (brk g)) inp out).

(** Reset of ripemd/shared.go:125-141 and whirlpool/whirlpool.go:163-169 does
    not touch the block: the models of the two functions on the other fields. *)
Definition reset_obj (reset : ctx -> outcome ctx) (m : mem) (c : obj) : outcome obj :=
  let! t := reset (mkCtx (ostate c) (ototal c) (read m (oblock c) 64) (opos c)) in
  Ret (mkObj (state t) (total t) (oblock c) (bPos t)).
(** new(ripeCtx) or new(ctx), then Reset: ripe128.go:49-55, ripe160.go:54-60,
    ripe256.go:85-91, ripe320.go:105-111, whirlpool/whirlpool.go:35-39 *)
Definition new_obj (reset : ctx -> outcome ctx) (words : nat) (h : heap) : outcome (heap * obj) :=
  let '(h, b) := alloc h 64 in
  let! c := reset_obj reset (cells h) (mkObj (repeat 0 words) 0 (off b) 0) in
  Ret (h, c).

(** ** A program with any number of hash objects *)

(** A hash object. The checksums have no memory but their words. *)
Inductive object := Block (c : obj) | Byte (d : N) | Words (d : Fletcher.digest).

(** checksum Sum: append(in, ...) with the bytes that the models' Sum puts after
    an empty in. bcc.go:31-34, lrc.go:32, fletcher16.go:59-61,
    fletcher32.go:65-67, fletcher64.go:73-76 *)
Definition sum_values {St} (step : St -> call -> outcome (St * result)) (d : St) (room : nat) (h : heap) (inp : bslice)
    : outcome (heap * bslice) :=
  let! (_, r) := step d (CSum []) in
  match r with RSum out => Ret (append_values room h inp out) | _ => Panic end.
(** checksum Write: the bytes are read from p *)
Definition write_values {St} (step : St -> call -> outcome (St * result)) (d : St) (m : mem) (p : bslice)
    : outcome (St * nat) :=
  let! (d, r) := step d (CWrite (contents m p)) in
  match r with RWrite n => Ret (d, n) | _ => Panic end.

(** The constructors of the four RIPEMD variants. *)
Definition variant (k : kind) : option Ripemd.variant :=
  match k with
  | KRipemd128 => Some Ripemd.V128 | KRipemd160 => Some Ripemd.V160
  | KRipemd256 => Some Ripemd.V256 | KRipemd320 => Some Ripemd.V320
  | _ => None
  end.
Definition byte_step (k : kind) : N -> call -> outcome (N * result) :=
  match k with KBcc => Bcc.step | _ => Lrc.step end.
Definition word_step (k : kind) : Fletcher.digest -> call -> outcome (Fletcher.digest * result) :=
  match k with KFletcher16 => Fletcher.step16 | KFletcher32 => Fletcher.step32 | _ => Fletcher.step64 end.
Definition new_object (k : kind) (h : heap) : outcome (heap * object) :=
  match variant k with
  | Some v => let! (h, c) := new_obj (Ripemd.Reset (Ripemd.state_len v)) 10 h in Ret (h, Block c)
  | None =>
      match k with
      | KWhirlpool => let! (h, c) := new_obj Whirlpool.Reset 8 h in Ret (h, Block c)
      | KBcc => Ret (h, Byte Bcc.New)
      | KLrc => Ret (h, Byte Lrc.New)
      | _ => Ret (h, Words Fletcher.New)
      end
  end.
Definition write_object (k : kind) (o : object) (h : heap) (p : bslice) : outcome (heap * object * nat) :=
  match o with
  | Block c =>
      let hash := match variant k with Some v => Ripemd.hash_fn v | None => Whirlpool.hash end in
      let! (h, c, n) := Write hash h c (window p) in Ret (h, Block c, n)
  | Byte d =>
      let! (d, n) := write_values (byte_step k) d (cells h) p in Ret (h, Byte d, n)
  | Words d =>
      let! (d, n) := write_values (word_step k) d (cells h) p in Ret (h, Words d, n)
  end.
Definition sum_object (k : kind) (o : object) (room : nat) (h : heap) (inp : bslice) : outcome (heap * bslice) :=
  match o with
  | Block c =>
      match variant k with
      | Some v => SumRipe room (Ripemd.hash_fn v) (Ripemd.state_len v) h c inp
      | None => SumWhirl room h c inp
      end
  | Byte d => sum_values (byte_step k) d room h inp
  | Words d => sum_values (word_step k) d room h inp
  end.
Definition reset_object (k : kind) (o : object) (m : mem) : outcome object :=
  match o with
  | Block c =>
      let reset := match variant k with Some v => Ripemd.Reset (Ripemd.state_len v) | None => Whirlpool.Reset end in
      let! c := reset_obj reset m c in Ret (Block c)
  | Byte _ => Ret (Byte (match k with KBcc => Bcc.Reset | _ => Lrc.Reset end))
  | Words _ => Ret (Words Fletcher.Reset)
  end.

(** A running program: memory and the hash objects made so far. *)
Record world := mkWorld { hp : heap; objs : list (kind * object) }.
Definition start : world := mkWorld (mkHeap (fun _ => 0) 0) [].

Definition step (w : world) (u : use) : outcome (world * answer) :=
  match u with
  | New k =>
      let! (h, o) := new_object k (hp w) in
      Ret (mkWorld h (objs w ++ [(k, o)]), AHash (length (objs w)))
  | HashUse.Write i p =>
      let! (k, o) := idx (objs w) i in
      let! (h, o, n) := write_object k o (hp w) p in
      let! os := upd (objs w) i (k, o) in
      Ret (mkWorld h os, AWrote n)
  | Sum i inp room =>
      let! (k, o) := idx (objs w) i in
      let! (h, s) := sum_object k o room (hp w) inp in
      Ret (mkWorld h (objs w), ASlice s)
  | Reset i =>
      let! (k, o) := idx (objs w) i in
      let! o := reset_object k o (cells (hp w)) in
      let! os := upd (objs w) i (k, o) in
      Ret (mkWorld (hp w) os, ADone)
  | Make n c =>
      let '(h, t) := alloc (hp w) c in
      Ret (mkWorld h (objs w), ASlice (mkB (off t) n c))
  | Store s j v =>
      let! m := store (cells (hp w)) (window s) j v in
      Ret (mkWorld (mkHeap m (brk (hp w))) (objs w), ADone)
  end.
