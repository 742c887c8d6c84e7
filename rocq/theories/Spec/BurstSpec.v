(** What a transmission error is: independent of the code. *)
From Verif Require Import Base.Go Base.HashApi.
Local Open Scope N_scope.

(** Bit [j] of a message on the line, every byte sent low bit first or high bit
    first. *)
Definition bit_at (low_first : bool) (m : list N) (j : nat) : bool :=
  N.testbit (nth (j / 8) m 0) (N.of_nat (if low_first then j mod 8 else 7 - j mod 8)).

(** A burst of at most [k] bits turned [m] into [m']: all bits outside some
    window of [k] bits have arrived. *)
Definition burst (low_first : bool) (k : nat) (m m' : list N) : Prop :=
  length m = length m' /\
  exists s, forall j, (j < s \/ s + k <= j)%nat -> bit_at low_first m j = bit_at low_first m' j.

(** Hashing [m1] and [m2], each in one write, gives the same value. *)
Definition agree {St} step (s0 : St) (m1 m2 : list N) : Prop :=
  exists n1 n2 v,
  observe step s0 [CWrite m1; CValue] = Ret [RWrite n1; RValue v] /\
  observe step s0 [CWrite m2; CValue] = Ret [RWrite n2; RValue v].

(** One aligned word of [w] bytes is all zeros in one message and all ones in
    the other; the rest is the same. *)
Definition zeros_to_ones (w : nat) (m m' : list N) : Prop :=
  exists A B, (length A mod w = 0)%nat /\
  ((m = A ++ repeat 0 w ++ B /\ m' = A ++ repeat 255 w ++ B) \/
   (m = A ++ repeat 255 w ++ B /\ m' = A ++ repeat 0 w ++ B)).

(** The [n] bytes of a word, low byte first. *)
Fixpoint low_first_bytes (n : nat) (v : N) : list N :=
  match n with
  | O => []
  | S n' => v mod 256 :: low_first_bytes n' (v / 256)
  end.

(** The message made of whole words of [n] bytes and a tail. *)
Definition message (n : nat) (ws tail : list N) : list N := flat_map (low_first_bytes n) ws ++ tail.
