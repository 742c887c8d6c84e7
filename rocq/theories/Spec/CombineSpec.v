(** Computing with Fletcher checksums: the value of a message from the values of
    its parts, or from the value before a change. A value is two sums modulo M,
    the second in the high half ([H] = 2^half). Independent of the code. *)
From Verif Require Import Base.Go Base.HashApi.
Local Open Scope N_scope.

Section Values.
Context (M H : N).
Definition low (v : N) : N := v mod H.
Definition high (v : N) : N := v / H.
Definition pair_value (a b : N) : N := b mod M * H + a mod M.
(** The additive inverse of [x]. *)
Definition minus (x : N) : N := M - x mod M.

(** A message of value [v], then one of value [w] that has [k] words. *)
Definition join (k v w : N) : N := pair_value (low v + low w) (high v + high w + k * low v).
(** Of a message of value [v] the word [x], the [k]-th from the end, becomes [y]. *)
Definition patched (k v x y : N) : N := pair_value (low v + minus x + y) (high v + k * (minus x + y)).
(** From [n] words the first, [x], is taken away, and [y] added at the end. *)
Definition slid (n v x y : N) : N :=
  let a := low v + minus x + y in pair_value a (high v + n * minus x + a).
(** Two words that make the value zero. *)
Definition check_words (v : N) : list N :=
  let c0 := minus (low v + high v) in
  [c0; minus (low v + c0)].
End Values.

(** A fresh checksum object shows [v] after the writes [ws]. *)
Definition shows {St} (step : St -> call -> outcome (St * result)) (s0 : St) (ws : list (list N)) (v : N) : Prop :=
  observe step s0 (map CWrite ws ++ [CValue]) = Ret (map (fun p => RWrite (length p)) ws ++ [RValue v]).

(** The number of [n]-byte words of some writes; each write fills its last word
    up. *)
Definition words_in (n : N) (ws : list (list N)) : N :=
  fold_right N.add 0 (map (fun p => (N.of_nat (length p) + n - 1) / n) ws).
