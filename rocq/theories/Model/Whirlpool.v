(** Model of package hash/whirlpool (/repo/hash/whirlpool), and of the two
    table-building functions of its generator make_tables.go. The fields of ctx
    (whirlpool.go:27-32) are those of [DigestApi.ctx]. *)
From Verif Require Import Base.Go Base.Mem Base.DigestApi Model.HashBlock Model.WhirlpoolTables.
Local Open Scope N_scope.

(** whirlpool.go:50-58  x[i] *)
Definition load (blk : list N) (i : nat) : outcome N :=
  let j := (i * 8)%nat in
  let! b0 := idx blk j in
  let! b1 := idx blk (j + 1) in
  let! b2 := idx blk (j + 2) in
  let! b3 := idx blk (j + 3) in
  let! b4 := idx blk (j + 4) in
  let! b5 := idx blk (j + 5) in
  let! b6 := idx blk (j + 6) in
  let! b7 := idx blk (j + 7) in
  Ret (N.lor (N.lor (N.lor (N.lor (N.lor (N.lor (N.lor
    (shl64 b0 56) (shl64 b1 48)) (shl64 b2 40)) (shl64 b3 32)) (shl64 b4 24)) (shl64 b5 16)) (shl64 b6 8)) b7).
(** whirlpool.go:49-61  loop over i, [n] to go: x, K, state *)
Fixpoint init_loop (n i : nat) (c : ctx) (x K st : list N) : outcome (list N * list N * list N) :=
  match n with
  | O => Ret (x, K, st)
  | S n' =>
      let! xi := load (block c) i in
      let! x := upd x i xi in
      let! ki := idx (state c) i in
      let! K := upd K i ki in
      let! st := upd st i (N.lxor xi ki) in
      init_loop n' (i + 1) c x K st
  end.

(** (i-t)&7 on Go ints *)
Definition back (i : nat) (t : Z) : nat := Z.to_nat (Z.land (Z.of_nat i - t) 7).
(** ct[base|(w>>k&0xff)] *)
Definition look (base : N) (w k : N) : outcome N :=
  idx ct (N.to_nat (N.lor base (N.land (N.shiftr w k) 0xff))).
(** whirlpool.go:65-72 (v = K) and 78-85 (v = state): the value of the
    expression *)
Definition mixed (v : list N) (i : nat) : outcome N :=
  let! w := idx v i in          let! e0 := look 0 w 56 in
  let! w := idx v (back i 1) in let! e1 := look 256 w 48 in
  let! w := idx v (back i 2) in let! e2 := look 512 w 40 in
  let! w := idx v (back i 3) in let! e3 := look 768 w 32 in
  let! w := idx v (back i 4) in let! e4 := look 1024 w 24 in
  let! w := idx v (back i 5) in let! e5 := look 1280 w 16 in
  let! w := idx v (back i 6) in let! e6 := look 1536 w 8 in
  let! w := idx v (back i 7) in let! e7 := look 1792 w 0 in
  Ret (N.lxor (N.lxor (N.lxor (N.lxor (N.lxor (N.lxor (N.lxor e0 e1) e2) e3) e4) e5) e6) e7).

(** whirlpool.go:64-73 *)
Fixpoint key_loop (n i : nat) (K L : list N) : outcome (list N) :=
  match n with
  | O => Ret L
  | S n' =>
      let! v := mixed K i in
      let! L := upd L i v in
      key_loop n' (i + 1) K L
  end.
(** whirlpool.go:75-86 *)
Fixpoint state_loop (n i : nat) (st K L : list N) : outcome (list N * list N) :=
  match n with
  | O => Ret (K, L)
  | S n' =>
      let! li := idx L i in
      let! K := upd K i li in
      let! v := mixed st i in
      let! L := upd L i (N.lxor li v) in
      state_loop n' (i + 1) st K L
  end.
(** whirlpool.go:88-90 *)
Fixpoint copy_loop (n i : nat) (L st : list N) : outcome (list N) :=
  match n with
  | O => Ret st
  | S n' =>
      let! li := idx L i in
      let! st := upd st i li in
      copy_loop n' (i + 1) L st
  end.
(** whirlpool.go:63-91  loop over r, [n] to go *)
Fixpoint round_loop (n r : nat) (K st L : list N) : outcome (list N) :=
  match n with
  | O => Ret st
  | S n' =>
      let! L := key_loop 8 0 K L in
      let! l0 := idx L 0 in
      let! k := idx rc r in
      let! L := upd L 0 (N.lxor l0 k) in
      let! (K, L) := state_loop 8 0 st K L in
      let! st := copy_loop 8 0 L st in
      round_loop n' (r + 1) K st L
  end.
(** whirlpool.go:94-96 *)
Fixpoint final_loop (n i : nat) (cs st x : list N) : outcome (list N) :=
  match n with
  | O => Ret cs
  | S n' =>
      let! ci := idx cs i in
      let! si := idx st i in
      let! xi := idx x i in
      let! cs := upd cs i (N.lxor ci (N.lxor si xi)) in
      final_loop n' (i + 1) cs st x
  end.
(** whirlpool.go:42-98  hash *)
Definition hash (c : ctx) : outcome ctx :=
  let zero := repeat 0 8 in
  let! (x, K, st) := init_loop 8 0 c zero zero zero in
  let! st := round_loop rounds 0 K st zero in
  let! cs := final_loop 8 0 (state c) st x in
  Ret (mkCtx cs (total c) (block c) 0).

(** whirlpool.go:106-121  the loop of Write; each round consumes at least one
    byte, so [fuel] > len(p) rounds suffice (proved) *)
Fixpoint write_loop (fuel : nat) (c : ctx) (p : list N) (nToWrite space : nat) : outcome ctx :=
  if Nat.ltb 0 nToWrite then
    match fuel with
    | O => OutOfFuel
    | S fuel' =>
        if Nat.ltb nToWrite space then
          let! blk := copy_from (block c) (bPos c) p in
          Ret (mkCtx (state c) (total c) blk (bPos c + nToWrite))
        else
          let! p0 := slice_of p 0 space in
          let! blk := copy_from (block c) (bPos c) p0 in
          let! c := hash (mkCtx (state c) (total c) blk (bPos c + space)) in
          let! p := slice_of p space (length p) in
          write_loop fuel' c p (nToWrite - space) 64
    end
  else Ret c.
(** whirlpool.go:100-123  Write: the new context and n *)
Definition Write (c : ctx) (p : list N) : outcome (ctx * nat) :=
  let n := length p in
  let c := mkCtx (state c) (add64 (total c) (u64 (N.of_nat n))) (block c) (bPos c) in
  let! c := write_loop (S n) c p n (64 - bPos c) in
  Ret (c, n).

(** whirlpool.go:157-159  binary.BigEndian.PutUint64(out[i*8:], h.state[i]) *)
Fixpoint out_loop (n i : nat) (st : list N) (out : list N) : outcome (list N) :=
  match n with
  | O => Ret out
  | S n' =>
      let! v := idx st i in
      if Nat.leb (i * 8 + 8) (length out) then
        out_loop n' (i + 1) st (copy_at out (i * 8) (be64 v))
      else Panic
  end.

(** whirlpool.go:125-161  Sum: the context afterwards and the result. [h := *c]
    copies the arrays, so c itself is untouched. append is taken to return in
    followed by out. *)
Definition Sum (c : ctx) (inp : list N) : outcome (ctx * list N) :=
  let h := c in
  let! blk := upd (block h) (bPos h) 0x80 in
  let h := mkCtx (state h) (total h) blk (bPos h + 1) in
  let! h :=
    (if Nat.ltb 32 (bPos h) then
       let! blk := zero_range (block h) (bPos h) (length (block h)) in
       hash (mkCtx (state h) (total h) blk (bPos h))
     else Ret h) in
  let! blk := zero_range (block h) (bPos h) 55 in
  let l := total c in
  let! blk := upd blk 63 (u8 (shl64 l 3)) in
  let! blk := upd blk 62 (u8 (N.shiftr l 5)) in
  let! blk := upd blk 61 (u8 (N.shiftr l 13)) in
  let! blk := upd blk 60 (u8 (N.shiftr l 21)) in
  let! blk := upd blk 59 (u8 (N.shiftr l 29)) in
  let! blk := upd blk 58 (u8 (N.shiftr l 37)) in
  let! blk := upd blk 57 (u8 (N.shiftr l 45)) in
  let! blk := upd blk 56 (u8 (N.shiftr l 53)) in
  let! blk := upd blk 55 (u8 (N.shiftr l 61)) in
  let! h := hash (mkCtx (state h) (total h) blk (bPos h)) in
  let! out := make_bytes 64 in
  let! out := out_loop 8 0 (state h) out in
  Ret (c, inp ++ out).

(** whirlpool.go:164-166 *)
Fixpoint reset_loop (n i : nat) (st : list N) : outcome (list N) :=
  match n with
  | O => Ret st
  | S n' => let! st := upd st i 0 in reset_loop n' (i + 1) st
  end.
(** whirlpool.go:163-169  Reset *)
Definition Reset (c : ctx) : outcome ctx :=
  let! st := reset_loop 8 0 (state c) in
  Ret (mkCtx st 0 (block c) 0).
(** whirlpool.go:35-39  New *)
Definition New : outcome ctx := Reset (mkCtx (repeat 0 8) 0 (repeat 0 64) 0).
(** whirlpool.go:171,173 *)
Definition Size : nat := 64.
Definition BlockSize : nat := 64.

(** A call on a hash value, and a new hash used through a history of calls. *)
Definition step (c : ctx) (q : hcall) : outcome (ctx * hresult) :=
  match q with
  | HWrite p => let! (c, n) := Write c p in Ret (c, Wrote n)
  | HSum inp => let! (c, out) := Sum c inp in Ret (c, Digest out)
  | HReset => let! c := Reset c in Ret (c, Done)
  | HSize => Ret (c, Length Size)
  | HBlockSize => Ret (c, Length BlockSize)
  end.
Definition use (cs : list hcall) : outcome (list hresult) :=
  let! c := New in hobserve step c cs.

(** ** The generator, make_tables.go *)

(** make_tables.go:27 *)
Definition gfPoly : N := 0x11d.
(** math/bits.RotateLeft64 *)
Definition rotl64 (x : N) (k : Z) : N :=
  let s := Z.to_N (Z.land k 63) in
  N.lor (shl64 x s) (N.shiftr x (64 - s)).
(** make_tables.go:140-143 and twice more: double, reduced *)
Definition twice (v : N) : N :=
  let v2 := shl64 v 1 in
  if 0x100 <=? v2 then N.lxor v2 gfPoly else v2.
(** make_tables.go:158-160, the loop over t *)
Fixpoint rotate_loop (n t x : nat) (ct : list N) : outcome (list N) :=
  match n with
  | O => Ret ct
  | S n' =>
      let! v := idx ct (N.to_nat (N.lor (N.shiftl (N.of_nat (t - 1)) 8) (N.of_nat x))) in
      let! ct := upd ct (N.to_nat (N.lor (N.shiftl (N.of_nat t) 8) (N.of_nat x))) (rotl64 v (-8)) in
      rotate_loop n' (t + 1) x ct
  end.
(** make_tables.go:138-161, the loop over x *)
Fixpoint build_loop (n x : nat) (ct : list N) : outcome (list N) :=
  match n with
  | O => Ret ct
  | S n' =>
      let! v1 := idx sBox x in
      let v2 := twice v1 in
      let v4 := twice v2 in
      let v5 := N.lxor v4 v1 in
      let v8 := twice v4 in
      let v9 := N.lxor v8 v1 in
      let! ct := upd ct x
        (N.lor (N.lor (N.lor (N.lor (N.lor (N.lor (N.lor
          (shl64 v1 56) (shl64 v1 48)) (shl64 v4 40)) (shl64 v1 32)) (shl64 v8 24)) (shl64 v5 16)) (shl64 v2 8)) v9) in
      let! ct := rotate_loop 7 1 x ct in
      build_loop n' (x + 1) ct
  end.
(** make_tables.go:137-162  buildCirculantTable *)
Definition buildCirculantTable : outcome (list N) := build_loop 256 0 (repeat 0 (8 * 256)).
(** make_tables.go:165-175, the loop over r *)
Fixpoint const_loop (n r : nat) (ct rc : list N) : outcome (list N) :=
  match n with
  | O => Ret rc
  | S n' =>
      let r8 := shl64 (N.of_nat r) 3 in
      let! e0 := idx ct (N.to_nat r8) in
      let! e1 := idx ct (N.to_nat (N.lor (N.shiftl 1 8) (r8 + 1))) in
      let! e2 := idx ct (N.to_nat (N.lor (N.shiftl 2 8) (r8 + 2))) in
      let! e3 := idx ct (N.to_nat (N.lor (N.shiftl 3 8) (r8 + 3))) in
      let! e4 := idx ct (N.to_nat (N.lor (N.shiftl 4 8) (r8 + 4))) in
      let! e5 := idx ct (N.to_nat (N.lor (N.shiftl 5 8) (r8 + 5))) in
      let! e6 := idx ct (N.to_nat (N.lor (N.shiftl 6 8) (r8 + 6))) in
      let! e7 := idx ct (N.to_nat (N.lor (N.shiftl 7 8) (r8 + 7))) in
      let! rc := upd rc r
        (N.lxor (N.lxor (N.lxor (N.lxor (N.lxor (N.lxor (N.lxor
          (N.land e0 0xff00000000000000) (N.land e1 0x00ff000000000000)) (N.land e2 0x0000ff0000000000))
          (N.land e3 0x000000ff00000000)) (N.land e4 0x00000000ff000000)) (N.land e5 0x0000000000ff0000))
          (N.land e6 0x000000000000ff00)) (N.land e7 0x00000000000000ff)) in
      const_loop n' (r + 1) ct rc
  end.
(** make_tables.go:164-176  buildRoundConstants, given the table *)
Definition buildRoundConstants (ct : list N) : outcome (list N) := const_loop rounds 0 ct (repeat 0 rounds).
