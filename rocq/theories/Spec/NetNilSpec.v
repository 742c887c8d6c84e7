(** What an argument counts as that need not be an IPv4 address. *)
From Verif Require Import Base.Go Spec.NetSpec.
Local Open Scope N_scope.

(** What a range starts and ends with; not an IPv4 address counts as 0.0.0.0. *)
Definition reads_as (ip : list N) (u : N) : Prop := is_addr ip u \/ ((forall x, ~ is_addr ip x) /\ u = 0).
