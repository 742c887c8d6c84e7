(** Model of package hash/ripemd (/repo/hash/ripemd). The constant fields of
    ripeCtx (hash and stateLen, set once by New...) are parameters; the others
    are in [ctx]. Strings of bytes are lists. *)
From Verif Require Import Base.Go Base.Mem Base.DigestApi Model.Bytes.
From Verif Require Export Model.HashBlock.
Local Open Scope N_scope.

(** shared.go:18-22  f0 .. f4 *)
Definition f0 (x y z : N) : N := N.lxor (N.lxor x y) z.
Definition f1 (x y z : N) : N := N.lxor z (N.land x (N.lxor y z)).
Definition f2 (x y z : N) : N := N.lxor (N.lor x (not32 y)) z.
Definition f3 (x y z : N) : N := N.lxor y (N.land z (N.lxor x y)).
Definition f4 (x y z : N) : N := N.lxor x (N.lor y (not32 z)).
(** shared.go:102-104 *)
Definition f : list (N -> N -> N -> N) := [f0; f1; f2; f3; f4].

(** shared.go:25-35 *)
Definition r : list N :=
  [  0;  1;  2;  3;  4;  5;  6;  7;  8;  9; 10; 11; 12; 13; 14; 15;
     7;  4; 13;  1; 10;  6; 15;  3; 12;  0;  9;  5;  2; 14; 11;  8;
     3; 10; 14;  4;  9; 15;  8;  1;  2;  7;  0;  6; 13; 11;  5; 12;
     1;  9; 11; 10;  0;  8; 12;  4; 13;  3;  7; 15; 14;  5;  6;  2;
     4;  0;  5;  9;  7; 12;  2; 10; 14;  1;  3;  8; 11;  6; 15; 13].
(** shared.go:36-46 *)
Definition rr : list N :=
  [  5; 14;  7;  0;  9;  2; 11;  4; 13;  6; 15;  8;  1; 10;  3; 12;
     6; 11;  3;  7;  0; 13;  5; 10; 14; 15;  8; 12;  4;  9;  1;  2;
    15;  5;  1;  3;  7; 14;  6;  9; 11;  8; 12;  2; 10;  0;  4; 13;
     8;  6;  4;  1;  3; 11; 15;  0;  5; 12;  2; 13;  9;  7; 10; 14;
    12; 15; 10;  4;  1;  5;  8;  7;  6;  2; 13; 14;  0;  3;  9; 11].
(** shared.go:47-57 *)
Definition s : list N :=
  [ 11; 14; 15; 12;  5;  8;  7;  9; 11; 13; 14; 15;  6;  7;  9;  8;
     7;  6;  8; 13; 11;  9;  7; 15;  7; 12; 15;  9; 11;  7; 13; 12;
    11; 13;  6;  7; 14;  9; 13; 15; 14;  8; 13;  6;  5; 12;  7;  5;
    11; 12; 14; 15; 14; 15;  9;  8;  9; 14;  5;  6;  8;  6;  5; 12;
     9; 15;  5; 11;  6;  8; 13; 12;  5; 12; 13; 14; 11;  8;  5;  6].
(** shared.go:58-68 *)
Definition ss : list N :=
  [  8;  9;  9; 11; 13; 15; 15;  5;  7;  7;  8; 11; 14; 14; 12;  6;
     9; 13; 15;  7; 12;  8;  9; 11;  7;  7; 12;  7;  6; 15; 13; 11;
     9;  7; 15; 11;  8;  6;  6; 14; 12; 13;  5; 14; 13; 13;  7;  5;
    15;  5;  8; 11; 14; 14;  6; 14;  6;  9; 12;  9; 12;  5; 15;  8;
     8;  5; 12;  9; 12;  5; 14;  6;  8; 13;  6;  5; 15; 13; 11; 11].
(** shared.go:70-74 *)
Definition k : list N :=
  [  0;  0;  0;  0;
    90;130;121;153;
   110;217;235;161;
   143; 27;188;220;
   169; 83;253; 78].
(** shared.go:76-80 *)
Definition kk : list N :=
  [ 80;162;139;230;
    92; 77;209; 36;
   109;112; 62;243;
   122;109;118;233;
     0;  0;  0;  0].
(** shared.go:82-85 *)
Definition kk128 : list N :=
  [ 80;162;139;230;
    92; 77;209; 36;
   109;112; 62;243;
     0;  0;  0;  0].
(** shared.go:86-90 *)
Definition iv : list N :=
  [103; 69; 35;  1;
   239;205;171;137;
   152;186;220;254;
    16; 50; 84;118;
   195;210;225;240].
(** shared.go:91-95 *)
Definition iv2 : list N :=
  [118; 84; 50; 16;
   254;220;186;152;
   137;171;205;239;
     1; 35; 69;103;
    60; 45; 30; 15].

(** binary.BigEndian.Uint32([]byte(t[i*4 : i*4+4])) and ...(t[i*4:]) *)
Definition be_at (t : list N) (i : nat) : outcome N :=
  let! b := slice_of t (i * 4) (i * 4 + 4) in get_be32 b.
Definition be_from (t : list N) (i : nat) : outcome N :=
  let! b := slice_of t (i * 4) (length t) in get_be32 b.

(** shared.go:117-123  getX, the loop of lines 119-121 from [i], [n] to go *)
Fixpoint getX_loop (n i : nat) (blk : list N) (ret : list N) : outcome (list N) :=
  match n with
  | O => Ret ret
  | S n' =>
      let! b := slice_of blk (i * 4) (length blk) in
      let! v := get_le32 b in
      let! ret := upd ret i v in
      getX_loop n' (i + 1) blk ret
  end.
Definition getX (c : ctx) : outcome (list N) := getX_loop 16 0 (block c) (repeat 0 16).

(** The local variables a, b, c, d, aa, bb, cc, dd of hash128 and hash256 and
    a .. ee of hash160 and hash320. *)
Definition regs4 := ((N * N * N * N) * (N * N * N * N))%type.
Definition regs5 := ((N * N * N * N * N) * (N * N * N * N * N))%type.

(** ripe128.go:33-38, and the same text at ripe256.go:32-37, 43-48, 54-59 and
    65-70: loop over j, [n] iterations to go. [round] and [last]-round select
    the functions. *)
Fixpoint loop4 (n j round : nat) (tk tkk : N) (x : list N) (v : regs4) : outcome regs4 :=
  match n with
  | O => Ret v
  | S n' =>
      let '((a, b, c, d), (aa, bb, cc, dd)) := v in
      let! g := idx f round in
      let! rj := idx r j in
      let! xj := idx x (N.to_nat rj) in
      let! sj := idx s j in
      let t := rotl32 (add32 (add32 (add32 a (g b c d)) xj) tk) sj in
      let '(a, d, c, b) := (d, c, b, t) in
      let! gg := idx f (3 - round) in
      let! rrj := idx rr j in
      let! xxj := idx x (N.to_nat rrj) in
      let! ssj := idx ss j in
      let t := rotl32 (add32 (add32 (add32 aa (gg bb cc dd)) xxj) tkk) ssj in
      let '(aa, dd, cc, bb) := (dd, cc, bb, t) in
      loop4 n' (j + 1) round tk tkk x ((a, b, c, d), (aa, bb, cc, dd))
  end.
(** ripe128.go:29-39  the loop over rounds, [n] to go *)
Fixpoint rounds128 (n round : nat) (x : list N) (v : regs4) : outcome regs4 :=
  match n with
  | O => Ret v
  | S n' =>
      let! tk := be_at k round in
      let! tkk := be_at kk128 round in
      let! v := loop4 16 (round * 16) round tk tkk x v in
      rounds128 n' (round + 1) x v
  end.
(** ripe128.go:17-46  hash128 *)
Definition hash128 (ct : ctx) : outcome ctx :=
  let st := state ct in
  let! s0 := idx st 0 in let! s1 := idx st 1 in let! s2 := idx st 2 in let! s3 := idx st 3 in
  let! x := getX ct in
  let! ((a, b, c, d), (aa, bb, cc, dd)) := rounds128 4 0 x ((s0, s1, s2, s3), (s0, s1, s2, s3)) in
  let t := add32 (add32 s1 c) dd in
  let! st := upd st 1 (add32 (add32 s2 d) aa) in
  let! st := upd st 2 (add32 (add32 s3 a) bb) in
  let! st := upd st 3 (add32 (add32 s0 b) cc) in
  let! st := upd st 0 t in
  Ret (mkCtx st (total ct) (block ct) 0).

(** ripe256.go:14-82  hash256: four copies of the loop, each followed by an
    exchange *)
Definition hash256 (ct : ctx) : outcome ctx :=
  let st := state ct in
  let! s0 := idx st 0 in let! s1 := idx st 1 in let! s2 := idx st 2 in let! s3 := idx st 3 in
  let! s4 := idx st 4 in let! s5 := idx st 5 in let! s6 := idx st 6 in let! s7 := idx st 7 in
  let! x := getX ct in
  let! tk := be_at k 0 in let! tkk := be_at kk128 0 in
  let! ((a, b, c, d), (aa, bb, cc, dd)) := loop4 16 0 0 tk tkk x ((s0, s1, s2, s3), (s4, s5, s6, s7)) in
  let '(a, aa) := (aa, a) in
  let! tk := be_at k 1 in let! tkk := be_at kk128 1 in
  let! ((a, b, c, d), (aa, bb, cc, dd)) := loop4 16 16 1 tk tkk x ((a, b, c, d), (aa, bb, cc, dd)) in
  let '(b, bb) := (bb, b) in
  let! tk := be_at k 2 in let! tkk := be_at kk128 2 in
  let! ((a, b, c, d), (aa, bb, cc, dd)) := loop4 16 32 2 tk tkk x ((a, b, c, d), (aa, bb, cc, dd)) in
  let '(c, cc) := (cc, c) in
  let! tk := be_at k 3 in let! tkk := be_at kk128 3 in
  let! ((a, b, c, d), (aa, bb, cc, dd)) := loop4 16 48 3 tk tkk x ((a, b, c, d), (aa, bb, cc, dd)) in
  let '(d, dd) := (dd, d) in
  let! st := upd st 0 (add32 s0 a) in
  let! st := upd st 1 (add32 s1 b) in
  let! st := upd st 2 (add32 s2 c) in
  let! st := upd st 3 (add32 s3 d) in
  let! st := upd st 4 (add32 s4 aa) in
  let! st := upd st 5 (add32 s5 bb) in
  let! st := upd st 6 (add32 s6 cc) in
  let! st := upd st 7 (add32 s7 dd) in
  Ret (mkCtx st (total ct) (block ct) 0).

(** ripe160.go:35-41, and the same text at ripe320.go:34-40, 46-52, 58-64,
    70-76 and 82-88: loop over j, [n] iterations to go *)
Fixpoint loop5 (n j round : nat) (tk tkk : N) (x : list N) (v : regs5) : outcome regs5 :=
  match n with
  | O => Ret v
  | S n' =>
      let '((a, b, c, d, e), (aa, bb, cc, dd, ee)) := v in
      let! g := idx f round in
      let! rj := idx r j in
      let! xj := idx x (N.to_nat rj) in
      let! sj := idx s j in
      let t := add32 e (rotl32 (add32 (add32 (add32 a (g b c d)) xj) tk) sj) in
      let '(a, e, d, c, b) := (e, d, rotl32 c 10, b, t) in
      let! gg := idx f (4 - round) in
      let! rrj := idx rr j in
      let! xxj := idx x (N.to_nat rrj) in
      let! ssj := idx ss j in
      let t := add32 ee (rotl32 (add32 (add32 (add32 aa (gg bb cc dd)) xxj) tkk) ssj) in
      let '(aa, ee, dd, cc, bb) := (ee, dd, rotl32 cc 10, bb, t) in
      loop5 n' (j + 1) round tk tkk x ((a, b, c, d, e), (aa, bb, cc, dd, ee))
  end.
(** ripe160.go:31-42  the loop over rounds, [n] to go *)
Fixpoint rounds160 (n round : nat) (x : list N) (v : regs5) : outcome regs5 :=
  match n with
  | O => Ret v
  | S n' =>
      let! tk := be_at k round in
      let! tkk := be_at kk round in
      let! v := loop5 16 (round * 16) round tk tkk x v in
      rounds160 n' (round + 1) x v
  end.
(** ripe160.go:17-51  hash160 *)
Definition hash160 (ct : ctx) : outcome ctx :=
  let st := state ct in
  let! s0 := idx st 0 in let! s1 := idx st 1 in let! s2 := idx st 2 in let! s3 := idx st 3 in let! s4 := idx st 4 in
  let! x := getX ct in
  let! ((a, b, c, d, e), (aa, bb, cc, dd, ee)) :=
    rounds160 5 0 x ((s0, s1, s2, s3, s4), (s0, s1, s2, s3, s4)) in
  let t := add32 (add32 s1 c) dd in
  let! st := upd st 1 (add32 (add32 s2 d) ee) in
  let! st := upd st 2 (add32 (add32 s3 e) aa) in
  let! st := upd st 3 (add32 (add32 s4 a) bb) in
  let! st := upd st 4 (add32 (add32 s0 b) cc) in
  let! st := upd st 0 t in
  Ret (mkCtx st (total ct) (block ct) 0).

(** ripe320.go:14-102  hash320 *)
Definition hash320 (ct : ctx) : outcome ctx :=
  let st := state ct in
  let! s0 := idx st 0 in let! s1 := idx st 1 in let! s2 := idx st 2 in let! s3 := idx st 3 in let! s4 := idx st 4 in
  let! s5 := idx st 5 in let! s6 := idx st 6 in let! s7 := idx st 7 in let! s8 := idx st 8 in let! s9 := idx st 9 in
  let! x := getX ct in
  let! tk := be_at k 0 in let! tkk := be_at kk 0 in
  let! ((a, b, c, d, e), (aa, bb, cc, dd, ee)) :=
    loop5 16 0 0 tk tkk x ((s0, s1, s2, s3, s4), (s5, s6, s7, s8, s9)) in
  let '(b, bb) := (bb, b) in
  let! tk := be_at k 1 in let! tkk := be_at kk 1 in
  let! ((a, b, c, d, e), (aa, bb, cc, dd, ee)) :=
    loop5 16 16 1 tk tkk x ((a, b, c, d, e), (aa, bb, cc, dd, ee)) in
  let '(d, dd) := (dd, d) in
  let! tk := be_at k 2 in let! tkk := be_at kk 2 in
  let! ((a, b, c, d, e), (aa, bb, cc, dd, ee)) :=
    loop5 16 32 2 tk tkk x ((a, b, c, d, e), (aa, bb, cc, dd, ee)) in
  let '(a, aa) := (aa, a) in
  let! tk := be_at k 3 in let! tkk := be_at kk 3 in
  let! ((a, b, c, d, e), (aa, bb, cc, dd, ee)) :=
    loop5 16 48 3 tk tkk x ((a, b, c, d, e), (aa, bb, cc, dd, ee)) in
  let '(c, cc) := (cc, c) in
  let! tk := be_at k 4 in let! tkk := be_at kk 4 in
  let! ((a, b, c, d, e), (aa, bb, cc, dd, ee)) :=
    loop5 16 64 4 tk tkk x ((a, b, c, d, e), (aa, bb, cc, dd, ee)) in
  let '(e, ee) := (ee, e) in
  let! st := upd st 0 (add32 s0 a) in
  let! st := upd st 1 (add32 s1 b) in
  let! st := upd st 2 (add32 s2 c) in
  let! st := upd st 3 (add32 s3 d) in
  let! st := upd st 4 (add32 s4 e) in
  let! st := upd st 5 (add32 s5 aa) in
  let! st := upd st 6 (add32 s6 bb) in
  let! st := upd st 7 (add32 s7 cc) in
  let! st := upd st 8 (add32 s8 dd) in
  let! st := upd st 9 (add32 s9 ee) in
  Ret (mkCtx st (total ct) (block ct) 0).

(** ** The hash.Hash methods; [hash] and [stateLen] are the constant fields *)

(** shared.go:130-133  the loop of Reset for long states *)
Fixpoint reset2_loop (cnt i n : nat) (st : list N) : outcome (list N) :=
  match cnt with
  | O => Ret st
  | S cnt' =>
      let! v := be_from iv i in
      let! st := upd st i v in
      let! v := be_from iv2 i in
      let! st := upd st (i + n) v in
      reset2_loop cnt' (i + 1) n st
  end.
(** shared.go:135-137  the loop of Reset for short states *)
Fixpoint reset1_loop (cnt i : nat) (st : list N) : outcome (list N) :=
  match cnt with
  | O => Ret st
  | S cnt' =>
      let! v := be_from iv i in
      let! st := upd st i v in
      reset1_loop cnt' (i + 1) st
  end.
(** shared.go:125-141  Reset *)
Definition Reset (stateLen : nat) (c : ctx) : outcome ctx :=
  let n := stateLen in
  let! st :=
    (if Nat.ltb 5 n then
       let n := Nat.div n 2 in
       reset2_loop n 0 n (state c)
     else reset1_loop n 0 (state c)) in
  Ret (mkCtx st 0 (block c) 0).

(** ripe128.go:49-55, ripe160.go:54-60, ripe256.go:85-91, ripe320.go:105-111 *)
Definition New (stateLen : nat) : outcome ctx :=
  Reset stateLen (mkCtx (repeat 0 10) 0 (repeat 0 64) 0).

(** shared.go:149-166  the loop of Write; each round consumes at least one
    byte, so [fuel] > len(p) rounds suffice (proved) *)
Fixpoint write_loop (fuel : nat) (hash : ctx -> outcome ctx) (c : ctx) (p : list N) (nToWrite space : nat)
    : outcome ctx :=
  if Nat.ltb 0 nToWrite then
    match fuel with
    | O => OutOfFuel
    | S fuel' =>
        if Nat.ltb nToWrite space then
          let! blk := copy_from (block c) (bPos c) p in
          Ret (mkCtx (state c) (total c) blk (bPos c + nToWrite))
        else
          let! p0 := slice_of p 0 space in
          let! blk := copy_from (block c) (bPos c) p0 in
          let! c := hash (mkCtx (state c) (total c) blk (bPos c + space)) in
          let! p := slice_of p space (length p) in
          write_loop fuel' hash c p (nToWrite - space) 64
    end
  else Ret c.
(** shared.go:143-167  Write: the new context and n *)
Definition Write (hash : ctx -> outcome ctx) (c : ctx) (p : list N) : outcome (ctx * nat) :=
  let n := length p in
  let c := mkCtx (state c) (add64 (total c) (u64 (N.of_nat n))) (block c) (bPos c) in
  let! c := write_loop (S n) hash c p n (64 - bPos c) in
  Ret (c, n).

(** shared.go:202-204  binary.LittleEndian.PutUint32(out[i*4:], h.state[i]) *)
Fixpoint out_loop (cnt i : nat) (st : list N) (out : list N) : outcome (list N) :=
  match cnt with
  | O => Ret out
  | S cnt' =>
      let! v := idx st i in
      if Nat.leb (i * 4 + 4) (length out) then
        out_loop cnt' (i + 1) st (copy_at out (i * 4) (le32 v))
      else Panic
  end.

(** shared.go:169-206  Sum: the context afterwards and the result. [t := *c]
    copies the arrays, so c itself is untouched. append is taken to return in
    followed by out. *)
Definition Sum (hash : ctx -> outcome ctx) (stateLen : nat) (c : ctx) (inp : list N) : outcome (ctx * list N) :=
  let h := c in
  let! blk := upd (block h) (bPos h) 0x80 in
  let h := mkCtx (state h) (total h) blk (bPos h + 1) in
  let! h :=
    (if Nat.ltb 56 (bPos h) then
       let! blk := zero_range (block h) (bPos h) (length (block h)) in
       hash (mkCtx (state h) (total h) blk (bPos h))
     else Ret h) in
  let! blk := zero_range (block h) (bPos h) 56 in
  let l := total h in
  let! blk := upd blk 56 (u8 (shl64 l 3)) in
  let! blk := upd blk 57 (u8 (N.shiftr l 5)) in
  let! blk := upd blk 58 (u8 (N.shiftr l 13)) in
  let! blk := upd blk 59 (u8 (N.shiftr l 21)) in
  let! blk := upd blk 60 (u8 (N.shiftr l 29)) in
  let! blk := upd blk 61 (u8 (N.shiftr l 37)) in
  let! blk := upd blk 62 (u8 (N.shiftr l 45)) in
  let! blk := upd blk 63 (u8 (N.shiftr l 53)) in
  let! h := hash (mkCtx (state h) (total h) blk 64) in
  let! out := make_bytes (Z.of_nat (stateLen * 4)) in
  let! out := out_loop stateLen 0 (state h) out in
  Ret (c, inp ++ out).

(** shared.go:208,210 *)
Definition BlockSize : nat := 64.
Definition Size (stateLen : nat) : nat := stateLen * 4.

(** A call on a hash value. *)
Definition step (hash : ctx -> outcome ctx) (stateLen : nat) (c : ctx) (q : hcall) : outcome (ctx * hresult) :=
  match q with
  | HWrite p => let! (c, n) := Write hash c p in Ret (c, Wrote n)
  | HSum inp => let! (c, out) := Sum hash stateLen c inp in Ret (c, Digest out)
  | HReset => let! c := Reset stateLen c in Ret (c, Done)
  | HSize => Ret (c, Length (Size stateLen))
  | HBlockSize => Ret (c, Length BlockSize)
  end.

(** The four constructors: ripe128.go:49-55, ripe160.go:54-60,
    ripe256.go:85-91, ripe320.go:105-111 with the constants of
    ripe128.go:13-14, ripe160.go:13-14, ripe256.go:12 and ripe320.go:12. *)
Inductive variant := V128 | V160 | V256 | V320.
Definition hash_fn (v : variant) : ctx -> outcome ctx :=
  match v with V128 => hash128 | V160 => hash160 | V256 => hash256 | V320 => hash320 end.
Definition state_len (v : variant) : nat :=
  match v with V128 => 4 | V160 => 5 | V256 => 8 | V320 => 10 end.
(** A new hash used through a history of calls: what the user sees. *)
Definition use (v : variant) (cs : list hcall) : outcome (list hresult) :=
  let! c := New (state_len v) in hobserve (step (hash_fn v) (state_len v)) c cs.
