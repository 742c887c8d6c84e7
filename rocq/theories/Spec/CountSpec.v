(** Counting strings: independent of the code. *)
From Verif Require Import Base.Go.
Local Open Scope N_scope.

(** Of the strings of [n] symbols below [b], exactly [k] have the property [P]. *)
Definition number (b : N) (n : nat) (P : list N -> Prop) (k : nat) : Prop :=
  exists l, NoDup l /\ length l = k /\ forall m, In m l <-> length m = n /\ Forall (fun x => x < b) m /\ P m.
