(** The Whirlpool hash function (Barreto and Rijmen, ISO/IEC 10118-3), on
    matrices of bytes. *)
From Verif Require Import Base.Go Spec.DigestSpec.
Local Open Scope N_scope.

(** ** The field GF(2^8), polynomial x^8+x^4+x^3+x^2+1 *)

Definition xtime (a : N) : N := if a <? 128 then 2 * a else N.lxor (2 * a) 0x11d.
Fixpoint pow_x (i : nat) (a : N) : N := match i with O => a | S i' => xtime (pow_x i' a) end.
Definition xor_all (l : list N) : N := fold_left N.lxor l 0.
(** The sum over the bits i of c of x^i * a. *)
Definition gmul (c a : N) : N :=
  xor_all (map (fun i => if N.testbit c (N.of_nat i) then pow_x i a else 0) (seq 0 8)).

(** ** The S-box from its mini-boxes *)

Definition E_box : list N := [0x1; 0xB; 0x9; 0xC; 0xD; 0x6; 0xF; 0x3; 0xE; 0x8; 0x7; 0x4; 0xA; 0x2; 0x5; 0x0].
Definition R_box : list N := [0x7; 0xC; 0xB; 0xD; 0xE; 0x4; 0x9; 0xF; 0x6; 0x3; 0x8; 0xA; 0x2; 0x5; 0x1; 0x0].
Definition E (x : N) : N := nth (N.to_nat x) E_box 0.
Definition R (x : N) : N := nth (N.to_nat x) R_box 0.
Definition E_inv (y : N) : N :=
  match find (fun x => E x =? y) (map N.of_nat (seq 0 16)) with Some x => x | None => 0 end.
Definition S_box (x : N) : N :=
  let u := E (x / 16) in
  let l := E_inv (x mod 16) in
  let r := R (N.lxor u l) in
  16 * E (N.lxor u r) + E_inv (N.lxor l r).

(** ** The cipher W on 8x8 matrices, stored by rows *)

Definition cell (a : list N) (i j : nat) : N := nth (8 * i + j) a 0.
Definition matrix (f : nat -> nat -> N) : list N := flat_map (fun i => map (f i) (seq 0 8)) (seq 0 8).

Definition SubBytes (a : list N) : list N := map S_box a.
(** Column j goes down by j. *)
Definition ShiftColumns (a : list N) : list N := matrix (fun i j => cell a ((i + 8 - j) mod 8) j).
(** The circulant matrix with first row 1 1 4 1 8 5 2 9. *)
Definition circ (t j : nat) : N := nth ((j + 8 - t) mod 8) [1; 1; 4; 1; 8; 5; 2; 9] 0.
Definition MixRows (a : list N) : list N :=
  matrix (fun i j => xor_all (map (fun t => gmul (circ t j) (cell a i t)) (seq 0 8))).
Definition xor_bytes (a b : list N) : list N := map (fun p => N.lxor (fst p) (snd p)) (combine a b).

Definition rho (key a : list N) : list N := xor_bytes (MixRows (ShiftColumns (SubBytes a))) key.
(** The constant of round r = 1 .. 10: S-box entries in the first row. *)
Definition round_const (r : nat) : list N :=
  matrix (fun i j => if Nat.eqb i 0 then S_box (N.of_nat (8 * (r - 1) + j)) else 0).
Fixpoint round_key (key : list N) (r : nat) : list N :=
  match r with O => key | S r' => rho (round_const r) (round_key key r') end.
Fixpoint rounds_from (key a : list N) (r : nat) : list N := (* r rounds done *)
  match r with O => xor_bytes a key | S r' => rho (round_key key r) (rounds_from key a r') end.
Definition W_cipher (key a : list N) : list N := rounds_from key a 10.

(** ** The hash function *)

Definition compress (h m : list N) : list N := xor_bytes (xor_bytes (W_cipher h m) h) m.
Definition whirlpool_length (m : list N) : list N := big_endian 32 (8 * N.of_nat (length m)).
Definition Whirlpool (m : list N) : list N :=
  iterate compress (repeat 0 64) (padded (whirlpool_length m) m).
