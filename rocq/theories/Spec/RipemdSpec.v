(** RIPEMD-128, -160, -256 and -320 after the design document (Dobbertin,
    Bosselaers, Preneel: RIPEMD-160, a strengthened version of RIPEMD). *)
From Verif Require Import Base.Go Spec.ChecksumSpec Spec.DigestSpec.
Local Open Scope N_scope.

Definition W : N := 2 ^ 32.
Definition plus (a b : N) : N := (a + b) mod W.
Definition rol (s x : N) : N := (x * 2 ^ s) mod W + x / 2 ^ (32 - s).
Definition neg (x : N) : N := W - 1 - x.

(** The boolean functions, by round of the left line. *)
Definition bool_fn (i : nat) (x y z : N) : N :=
  match i with
  | 0%nat => N.lxor (N.lxor x y) z
  | 1%nat => N.lor (N.land x y) (N.land (neg x) z)
  | 2%nat => N.lxor (N.lor x (neg y)) z
  | 3%nat => N.lor (N.land x z) (N.land y (neg z))
  | _ => N.lxor x (N.lor y (neg z))
  end.

(** Message word order: powers of rho, on the right after pi. *)
Definition rho (j : nat) : nat := nth j [7;4;13;1;10;6;15;3;12;0;9;5;2;14;11;8]%nat 0%nat.
Definition pi (j : nat) : nat := ((9 * j + 5) mod 16)%nat.
Definition left_word (i j : nat) : nat := Nat.iter i rho j.
Definition right_word (i j : nat) : nat := Nat.iter i rho (pi j).

(** Rotation amounts, by round and message word. *)
Definition shifts : list (list N) :=
  [[11;14;15;12; 5; 8; 7; 9;11;13;14;15; 6; 7; 9; 8];
   [12;13;11;15; 6; 9; 9; 7;12;15;11;13; 7; 8; 7; 7];
   [13;15;14;11; 7; 7; 6; 8;13;14;13;12; 5; 5; 6; 9];
   [14;11;12;14; 8; 6; 5; 5;15;12;15;14; 9; 9; 8; 6];
   [15;12;13;13; 9; 5; 8; 6;14;11;12;11; 8; 6; 5; 5]].
Definition shift (i w : nat) : N := nth w (nth i shifts []) 0.

(** Added constants: integer parts of 2^30 times roots. *)
Definition square_root (n : N) : N := N.sqrt n.
Definition cube_root (n : N) : N :=
  fold_left (fun c b => if (c + 2 ^ N.of_nat b) ^ 3 <=? n then c + 2 ^ N.of_nat b else c)
    (rev (seq 0 32)) 0.
Definition left_K (i : nat) : N := square_root (2 ^ 60 * nth i [0;2;3;5;7] 0).
Definition right_K (last i : nat) : N :=
  if Nat.eqb i last then 0 else cube_root (2 ^ 90 * nth i [2;3;5;7;0] 0).

(** ** Lines of four words: -128 and -256 *)

Definition line4 := (N * N * N * N)%type.
Definition step4 (g : N -> N -> N -> N) (w k s : N) (l : line4) : line4 :=
  let '(a, b, c, d) := l in
  (d, rol s (plus (plus (plus a (g b c d)) w) k), b, c).
Definition round4 (x : list N) (g : N -> N -> N -> N) (word : nat -> nat) (k : N) (i : nat) (l : line4) : line4 :=
  fold_left (fun l j => step4 g (nth (word j) x 0) k (shift i (word j)) l) (seq 0 16) l.
Definition left4 (x : list N) (i : nat) : line4 -> line4 :=
  round4 x (bool_fn i) (left_word i) (left_K i) i.
Definition right4 (x : list N) (i : nat) : line4 -> line4 :=
  round4 x (bool_fn (3 - i)) (right_word i) (right_K 3 i) i.

Definition compress128 (h : list N) (blk : list N) : list N :=
  let x := words32 blk in
  match h with
  | [h0; h1; h2; h3] =>
      let '(a, b, c, d) := fold_left (fun l i => left4 x i l) (seq 0 4) (h0, h1, h2, h3) in
      let '(a', b', c', d') := fold_left (fun l i => right4 x i l) (seq 0 4) (h0, h1, h2, h3) in
      [plus (plus h1 c) d'; plus (plus h2 d) a'; plus (plus h3 a) b'; plus (plus h0 b) c']
  | _ => h
  end.

(** Exchange the [i]-th words of two lines. *)
Definition swap4 (i : nat) (p : line4 * line4) : line4 * line4 :=
  let '((a, b, c, d), (a', b', c', d')) := p in
  match i with
  | 0%nat => ((a', b, c, d), (a, b', c', d'))
  | 1%nat => ((a, b', c, d), (a', b, c', d'))
  | 2%nat => ((a, b, c', d), (a', b', c, d'))
  | _ => ((a, b, c, d'), (a', b', c', d))
  end.
Definition compress256 (h : list N) (blk : list N) : list N :=
  let x := words32 blk in
  match h with
  | [h0; h1; h2; h3; h4; h5; h6; h7] =>
      let '((a, b, c, d), (a', b', c', d')) :=
        fold_left (fun p i => swap4 i (left4 x i (fst p), right4 x i (snd p))) (seq 0 4)
          ((h0, h1, h2, h3), (h4, h5, h6, h7)) in
      [plus h0 a; plus h1 b; plus h2 c; plus h3 d; plus h4 a'; plus h5 b'; plus h6 c'; plus h7 d']
  | _ => h
  end.

(** ** Lines of five words: -160 and -320 *)

Definition line5 := (N * N * N * N * N)%type.
Definition step5 (g : N -> N -> N -> N) (w k s : N) (l : line5) : line5 :=
  let '(a, b, c, d, e) := l in
  (e, plus (rol s (plus (plus (plus a (g b c d)) w) k)) e, b, rol 10 c, d).
Definition round5 (x : list N) (g : N -> N -> N -> N) (word : nat -> nat) (k : N) (i : nat) (l : line5) : line5 :=
  fold_left (fun l j => step5 g (nth (word j) x 0) k (shift i (word j)) l) (seq 0 16) l.
Definition left5 (x : list N) (i : nat) : line5 -> line5 :=
  round5 x (bool_fn i) (left_word i) (left_K i) i.
Definition right5 (x : list N) (i : nat) : line5 -> line5 :=
  round5 x (bool_fn (4 - i)) (right_word i) (right_K 4 i) i.

Definition compress160 (h : list N) (blk : list N) : list N :=
  let x := words32 blk in
  match h with
  | [h0; h1; h2; h3; h4] =>
      let '(a, b, c, d, e) := fold_left (fun l i => left5 x i l) (seq 0 5) (h0, h1, h2, h3, h4) in
      let '(a', b', c', d', e') := fold_left (fun l i => right5 x i l) (seq 0 5) (h0, h1, h2, h3, h4) in
      [plus (plus h1 c) d'; plus (plus h2 d) e'; plus (plus h3 e) a'; plus (plus h4 a) b'; plus (plus h0 b) c']
  | _ => h
  end.

(** The exchanges of -320: B, D, A, C, E after rounds 1 to 5. *)
Definition swap5 (i : nat) (p : line5 * line5) : line5 * line5 :=
  let '((a, b, c, d, e), (a', b', c', d', e')) := p in
  match i with
  | 0%nat => ((a, b', c, d, e), (a', b, c', d', e'))
  | 1%nat => ((a, b, c, d', e), (a', b', c', d, e'))
  | 2%nat => ((a', b, c, d, e), (a, b', c', d', e'))
  | 3%nat => ((a, b, c', d, e), (a', b', c, d', e'))
  | _ => ((a, b, c, d, e'), (a', b', c', d', e))
  end.
Definition compress320 (h : list N) (blk : list N) : list N :=
  let x := words32 blk in
  match h with
  | [h0; h1; h2; h3; h4; h5; h6; h7; h8; h9] =>
      let '((a, b, c, d, e), (a', b', c', d', e')) :=
        fold_left (fun p i => swap5 i (left5 x i (fst p), right5 x i (snd p))) (seq 0 5)
          ((h0, h1, h2, h3, h4), (h5, h6, h7, h8, h9)) in
      [plus h0 a; plus h1 b; plus h2 c; plus h3 d; plus h4 e;
       plus h5 a'; plus h6 b'; plus h7 c'; plus h8 d'; plus h9 e']
  | _ => h
  end.

(** ** Initial values and digests *)

Definition iv128 : list N := [0x67452301; 0xefcdab89; 0x98badcfe; 0x10325476].
Definition iv160 : list N := iv128 ++ [0xc3d2e1f0].
Definition iv256 : list N := iv128 ++ [0x76543210; 0xfedcba98; 0x89abcdef; 0x01234567].
Definition iv320 : list N := iv160 ++ [0x76543210; 0xfedcba98; 0x89abcdef; 0x01234567; 0x3c2d1e0f].

(** The length field: the number of bits, 64 bits, low byte first. *)
Definition bit_length (m : list N) : list N := little_endian 8 ((8 * N.of_nat (length m)) mod 2 ^ 64).
Definition ripemd (compress : list N -> list N -> list N) (iv : list N) (m : list N) : list N :=
  flat_map (little_endian 4) (iterate compress iv (padded (bit_length m) m)).
Definition RIPEMD128 := ripemd compress128 iv128.
Definition RIPEMD160 := ripemd compress160 iv160.
Definition RIPEMD256 := ripemd compress256 iv256.
Definition RIPEMD320 := ripemd compress320 iv320.
