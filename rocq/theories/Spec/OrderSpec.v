(** Lexicographic order of byte strings (bytes.Compare, string comparison). *)
From Verif Require Import Base.Go.
Local Open Scope N_scope.

Fixpoint lex (a b : list N) : comparison :=
  match a, b with
  | [], [] => Eq
  | [], _ :: _ => Lt
  | _ :: _, [] => Gt
  | x :: a', y :: b' => match x ?= y with Eq => lex a' b' | c => c end
  end.

(** [b] starts with [a] (bytes.HasPrefix). *)
Definition starts_with (b a : list N) : Prop := exists r, b = a ++ r.
