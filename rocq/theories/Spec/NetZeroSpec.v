(** Specification vocabulary for the zero value of Tree. *)
From Verif Require Import Base.Go.

(** A merge function whose every call panics, as for Spec.NetEffectSpec. *)
Definition never {V} (s : unit) (_ _ : V) : unit * option V := (s, None).
