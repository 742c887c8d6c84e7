(** The hash packages once more, access by access: every read and write that a
    method makes of a field of its object, of the caller's slices and of memory
    it allocates is a step of its own. Local variables, the constant tables and
    the fields hash and stateLen (set before New returns, never again) are not
    in memory. The compression functions and the checksum arithmetic are those
    of the other models. *)
From Verif Require Import Base.Go Base.DigestApi Base.HashApi Base.HashUse Base.Goroutine Base.GoUse.
From Verif Require Model.Ripemd Model.Whirlpool Model.Bcc Model.Lrc Model.Fletcher Model.HashMem.
Local Open Scope N_scope.

(** ** The block hashes: the fields of ripemd/shared.go:108-115 and
    whirlpool/whirlpool.go:27-32 as cells: state from 0, len at 10, block from
    11, bPos at 75 *)
Definition fields : nat := 76.
Definition f_len (c : addr) : addr := shift c 10.
Definition f_block (c : addr) (i : nat) : addr := shift c (11 + i).
Definition f_pos (c : addr) : addr := shift c 75.
Definition get_pos (c : addr) : code nat := do v <- get (f_pos c); Return (N.to_nat v).
Definition set_pos (c : addr) (p : nat) : code unit := set (f_pos c) (N.of_nat p).
(** c.block[i] = v *)
Definition set_block (c : addr) (i : nat) (v : N) : code unit :=
  if Nat.ltb i 64 then set (f_block c i) v else Crash.
(** bytes.Zero(c.block[i:j]); /repo/bytes/Zero.go:9-17 copies zeroes over the
    bytes, in the order of their addresses *)
Definition zero_block (c : addr) (i j : nat) : code unit :=
  if (Nat.leb i j && Nat.leb j 64)%bool then sets (f_block c i) (repeat 0 (j - i)) else Crash.
(** copy(c.block[i:], p[0:n]) *)
Definition copy_block (c : addr) (i : nat) (p : addr) (n : nat) : code unit :=
  if Nat.leb i 64 then do xs <- gets p (Nat.min (64 - i) n); sets (f_block c i) xs else Crash.

Section Block.
(** The compression function, and the number of words in the array state. *)
Context (hash : ctx -> outcome ctx) (words : nat).

(** c.hash(c) (ripe128.go:17-46, ripe160.go:17-51, ripe256.go:14-82,
    ripe320.go:14-102, whirlpool.go:42-98): reads block and state, assigns state
    and bPos. Simplified: all words of state are read, once, and all are
    assigned, also those the variant leaves alone. *)
Definition hash_at (c : addr) : code unit :=
  do b <- gets (f_block c 0) 64;
  do st <- gets c words;
  do t <- lift (hash (mkCtx st 0 b 0));
  sets c (state t) ;;
  set_pos c (bPos t).

(** ripemd/shared.go:149-166, whirlpool/whirlpool.go:106-121  the loop of Write;
    p is at [p], with [n] = nToWrite bytes *)
Fixpoint write_loop (fuel : nat) (c p : addr) (n space : nat) : code unit :=
  if Nat.ltb 0 n then
    match fuel with
    | O => Crash
    | S fuel' =>
        if Nat.ltb n space then
          do i <- get_pos c;
          copy_block c i p n ;;
          do i <- get_pos c;
          set_pos c (i + n)
        else
          do i <- get_pos c;
          copy_block c i p space ;;
          do i <- get_pos c;
          set_pos c (i + space) ;;
          hash_at c ;;
          write_loop fuel' c (shift p space) (n - space) 64
    end
  else Return tt.
(** ripemd/shared.go:143-167, whirlpool/whirlpool.go:100-123  Write *)
Definition Write (c : addr) (p : gslice) : code nat :=
  let n := slen p in
  do l <- get (f_len c);
  set (f_len c) (add64 l (u64 (N.of_nat n))) ;;
  do i <- get_pos c;
  write_loop (S n) c (base p) n (64 - i) ;;
  Return n.

(** t := *c *)
Definition clone (c : addr) : code addr :=
  do t <- new true fields;
  do xs <- gets c fields;
  sets t xs ;;
  Return t.
End Block.

(** append(s, xs...), with the values xs already read *)
Definition append (room : nat) (s : gslice) (xs : list N) : code gslice :=
  let n := (slen s + length xs)%nat in
  if Nat.leb n (scap s) then
    sets (shift (base s) (slen s)) xs ;;
    Return (mkS (base s) n (scap s))
  else
    do t <- new false (n + room);
    do old <- gets (base s) (slen s);
    sets t old ;;
    sets (shift t (slen s)) xs ;;
    Return (mkS t n (n + room)).

(** ripemd/shared.go:189-196  one line: h.block[h.bPos+j] = byte(f(h.len)) *)
Definition put_len (h : addr) (j : nat) (f : N -> N) : code unit :=
  do i <- get_pos h; do v <- get (f_len h); set_block h (i + j) (u8 (f v)).
(** ripemd/shared.go:202-204  the loop writing out *)
Fixpoint put_le32s (cnt i : nat) (h out : addr) : code unit :=
  match cnt with
  | O => Return tt
  | S cnt' => do v <- get (shift h i); sets (shift out (i * 4)) (le32 v) ;; put_le32s cnt' (i + 1) h out
  end.
(** ripemd/shared.go:169-206  Sum *)
Definition SumRipe (hash : ctx -> outcome ctx) (stateLen : nat) (room : nat) (c : addr) (inp : gslice) : code gslice :=
  do h <- clone c;
  do i <- get_pos h;
  set_block h i 0x80 ;;
  set_pos h (i + 1) ;;
  do i <- get_pos h;
  (if Nat.ltb 56 i then zero_block h i 64 ;; hash_at hash 10 h else Return tt) ;;
  do i <- get_pos h;
  zero_block h i 56 ;;
  set_pos h 56 ;;
  put_len h 0 (fun l => shl64 l 3) ;;
  put_len h 1 (fun l => N.shiftr l 5) ;;
  put_len h 2 (fun l => N.shiftr l 13) ;;
  put_len h 3 (fun l => N.shiftr l 21) ;;
  put_len h 4 (fun l => N.shiftr l 29) ;;
  put_len h 5 (fun l => N.shiftr l 37) ;;
  put_len h 6 (fun l => N.shiftr l 45) ;;
  put_len h 7 (fun l => N.shiftr l 53) ;;
  do i <- get_pos h;
  set_pos h (i + 8) ;;
  hash_at hash 10 h ;;
  do out <- new true (stateLen * 4);
  put_le32s stateLen 0 h out ;;
  do xs <- gets out (stateLen * 4);
  append room inp xs.

(** whirlpool/whirlpool.go:157-159  the loop writing out *)
Fixpoint put_be64s (cnt i : nat) (h out : addr) : code unit :=
  match cnt with
  | O => Return tt
  | S cnt' => do v <- get (shift h i); sets (shift out (i * 8)) (be64 v) ;; put_be64s cnt' (i + 1) h out
  end.
(** whirlpool/whirlpool.go:145-153  one line: h.block[i] = byte(f(c.lenBytes));
    the length is read from c, not from the copy *)
Definition put_length (h c : addr) (i : nat) (f : N -> N) : code unit :=
  do v <- get (f_len c); set_block h i (u8 (f v)).
(** whirlpool/whirlpool.go:125-161  Sum *)
Definition SumWhirl (room : nat) (c : addr) (inp : gslice) : code gslice :=
  do h <- clone c;
  do i <- get_pos h;
  set_block h i 0x80 ;;
  set_pos h (i + 1) ;;
  do i <- get_pos h;
  (if Nat.ltb 32 i then zero_block h i 64 ;; hash_at Whirlpool.hash 8 h else Return tt) ;;
  do i <- get_pos h;
  zero_block h i 55 ;;
  put_length h c 63 (fun l => shl64 l 3) ;;
  put_length h c 62 (fun l => N.shiftr l 5) ;;
  put_length h c 61 (fun l => N.shiftr l 13) ;;
  put_length h c 60 (fun l => N.shiftr l 21) ;;
  put_length h c 59 (fun l => N.shiftr l 29) ;;
  put_length h c 58 (fun l => N.shiftr l 37) ;;
  put_length h c 57 (fun l => N.shiftr l 45) ;;
  put_length h c 56 (fun l => N.shiftr l 53) ;;
  put_length h c 55 (fun l => N.shiftr l 61) ;;
  hash_at Whirlpool.hash 8 h ;;
  do out <- new true 64;
  put_be64s 8 0 h out ;;
  do xs <- gets out 64;
  append room inp xs.

(** ripemd/shared.go:130-133 and 135-137  the loops of Reset *)
Fixpoint reset2_loop (cnt i n : nat) (c : addr) : code unit :=
  match cnt with
  | O => Return tt
  | S cnt' =>
      do v <- lift (Ripemd.be_from Ripemd.iv i);
      set (shift c i) v ;;
      do v <- lift (Ripemd.be_from Ripemd.iv2 i);
      set (shift c (i + n)) v ;;
      reset2_loop cnt' (i + 1) n c
  end.
Fixpoint reset1_loop (cnt i : nat) (c : addr) : code unit :=
  match cnt with
  | O => Return tt
  | S cnt' =>
      do v <- lift (Ripemd.be_from Ripemd.iv i);
      set (shift c i) v ;;
      reset1_loop cnt' (i + 1) c
  end.
(** ripemd/shared.go:125-141  Reset *)
Definition ResetRipe (stateLen : nat) (c : addr) : code unit :=
  (if Nat.ltb 5 stateLen then reset2_loop (Nat.div stateLen 2) 0 (Nat.div stateLen 2) c
   else reset1_loop stateLen 0 c) ;;
  set (f_len c) 0 ;;
  set_pos c 0.
(** whirlpool/whirlpool.go:163-169  Reset *)
Fixpoint reset_loop (cnt i : nat) (c : addr) : code unit :=
  match cnt with
  | O => Return tt
  | S cnt' => set (shift c i) 0 ;; reset_loop cnt' (i + 1) c
  end.
Definition ResetWhirl (c : addr) : code unit :=
  reset_loop 8 0 c ;;
  set (f_len c) 0 ;;
  set_pos c 0.

(** ** Any hash: [k] says which, [c] is the address of its fields. BCC and LRC
    have one field, Fletcher has a and b. *)
Definition words_of (k : kind) : nat := match k with KWhirlpool => 8 | _ => 10 end.
Definition hash_of (k : kind) : ctx -> outcome ctx :=
  match HashMem.variant k with Some v => Ripemd.hash_fn v | None => Whirlpool.hash end.
Inductive shape := SBlock | SByte | SWords.
Definition shape_of (k : kind) : shape :=
  match k with
  | KBcc | KLrc => SByte
  | KFletcher16 | KFletcher32 | KFletcher64 => SWords
  | _ => SBlock
  end.
Definition size_of (k : kind) : nat := match shape_of k with SBlock => fields | SByte => 1 | SWords => 2 end.

(** bcc.go:37-39, lrc.go:34, fletcher16.go:63-66, fletcher32.go:69-72,
    fletcher64.go:78-81 and the two above: Reset *)
Definition do_reset (k : kind) (c : addr) : code unit :=
  match HashMem.variant k with
  | Some v => ResetRipe (Ripemd.state_len v) c
  | None =>
      match shape_of k with
      | SBlock => ResetWhirl c
      | SByte => set c 0
      | SWords => set c 0 ;; set (shift c 1) 0
      end
  end.
(** New: new(digest) and so on, then Reset *)
Definition do_new (k : kind) : code addr :=
  do c <- new true (size_of k);
  do_reset k c ;;
  Return c.
(** Write of the checksums (bcc.go:18-29, lrc.go:19-30, fletcher16.go:27-57,
    fletcher32.go:26-63, fletcher64.go:26-71): the fields are read into locals,
    then the bytes of p in order, then the fields are assigned. *)
Definition do_write (k : kind) (c : addr) (p : gslice) : code nat :=
  match shape_of k with
  | SBlock => Write (hash_of k) (words_of k) c p
  | SByte =>
      do d <- get c;
      do xs <- gets (base p) (slen p);
      do (d, _) <- lift (HashMem.byte_step k d (CWrite xs));
      set c d ;;
      Return (slen p)
  | SWords =>
      do a <- get c;
      do b <- get (shift c 1);
      do xs <- gets (base p) (slen p);
      do (d, _) <- lift (HashMem.word_step k (Fletcher.mkDigest a b) (CWrite xs));
      set c (Fletcher.fa d) ;;
      set (shift c 1) (Fletcher.fb d) ;;
      Return (slen p)
  end.
(** Sum; the values that the checksums append (bcc.go:31-34, lrc.go:32,
    fletcher16.go:59-61, fletcher32.go:65-67, fletcher64.go:73-76) are those of
    the models on lists *)
Definition summed (x : outcome result) : outcome (list N) :=
  let! r := x in match r with RSum out => Ret out | _ => Panic end.
Definition do_sum (k : kind) (c : addr) (inp : gslice) (room : nat) : code gslice :=
  match shape_of k with
  | SBlock =>
      match HashMem.variant k with
      | Some v => SumRipe (Ripemd.hash_fn v) (Ripemd.state_len v) room c inp
      | None => SumWhirl room c inp
      end
  | SByte =>
      do d <- get c;
      do xs <- lift (summed (let! (_, r) := HashMem.byte_step k d (CSum []) in Ret r));
      append room inp xs
  | SWords =>
      do b <- get (shift c 1);
      do a <- get c;
      do xs <- lift (summed (let! (_, r) := HashMem.word_step k (Fletcher.mkDigest a b) (CSum []) in Ret r));
      append room inp xs
  end.

(** ** A goroutine that uses hashes. [ours] are the objects that were there
    before, [mine] those it made. *)
Definition object := (kind * addr)%type.
Definition object_of (ours mine : list object) (h : handle) : code object :=
  lift (match h with Mine i => idx mine i | Ours i => idx ours i end).
Definition do_act (ours mine : list object) (a : act) : code (list object * reply) :=
  match a with
  | Make_hash k => do c <- do_new k; Return (mine ++ [(k, c)], RHash)
  | Do_write h p => do (k, c) <- object_of ours mine h; do n <- do_write k c p; Return (mine, RWrote n)
  | Do_sum h inp room => do (k, c) <- object_of ours mine h; do s <- do_sum k c inp room; Return (mine, RSlice s)
  | Do_reset h => do (k, c) <- object_of ours mine h; do_reset k c ;; Return (mine, RDone)
  | Make n c => do t <- new false c; Return (mine, RSlice (mkS t n c))
  | Store s j v => if Nat.ltb j (slen s) then set (shift (base s) j) v ;; Return (mine, RDone) else Crash
  | Load s j => if Nat.ltb j (slen s) then do v <- get (shift (base s) j); Return (mine, RByte v) else Crash
  end.
Fixpoint behave (ours mine : list object) (g : goroutine) : code (list reply * list object) :=
  match g with
  | Stop => Return ([], mine)
  | Do a k =>
      do (mine, r) <- do_act ours mine a;
      do (rs, mine) <- behave ours mine (k r);
      Return (r :: rs, mine)
  end.
