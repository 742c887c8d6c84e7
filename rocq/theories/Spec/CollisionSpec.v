(** Collisions of an iterated hash function. *)
From Verif Require Import Base.Go Spec.CodegenSpec Spec.DigestSpec.
Local Open Scope N_scope.

(** The calls of the compression function made while hashing: chaining value
    and block of each. *)
Fixpoint chain {St} (compress : St -> list N -> St) (h : St) (blocks : list (list N)) : list (St * list N) :=
  match blocks with
  | [] => []
  | b :: bs => (h, b) :: chain compress (compress h b) bs
  end.
Definition calls {St} (compress : St -> list N -> St) (iv : St) (text : list N) : list (St * list N) :=
  chain compress iv (pieces 64 text).

(** Two different calls, one in each list, with the same result. (That such
    pairs exist somewhere is clear; these are calls that were made.) *)
Definition collide {St} (compress : St -> list N -> St) (c1 c2 : list (St * list N)) : Prop :=
  exists x y, In x c1 /\ In y c2 /\ x <> y /\ compress (fst x) (snd x) = compress (fst y) (snd y).
