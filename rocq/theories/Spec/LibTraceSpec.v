(** Programs that use hashes, package hex and package codegen and do the same with
    different data. *)
From Verif Require Import Base.Go Base.Goroutine Base.GoUse Base.LibUse Spec.HexSpec Spec.TraceSpec.
Local Open Scope N_scope.

(** Texts with hex digits in the same places. *)
Definition same_shape (s1 s2 : list N) : Prop := Forall2 (fun c d => digit_value c = None <-> digit_value d = None) s1 s2.

(** Calls that differ in the bytes stored, or in the digits of texts. *)
Definition deeds_look (d1 d2 : deed) : Prop :=
  match d1, d2 with
  | Plain a1, Plain a2 => looks a1 a2
  | To_bytes s1, To_bytes s2 | To_bytes_fast s1, To_bytes_fast s2 => same_shape s1 s2
  | _, _ => d1 = d2
  end.
(** Answers may differ in bytes loaded, in the digits of texts, and in the
    character an error names (but not in where it is). *)
Definition answers_seem (r1 r2 : answer) : Prop :=
  match r1, r2 with
  | APlain r1, APlain r2 => seems r1 r2
  | AText s1, AText s2 => same_shape s1 s2
  | ABad _ i1, ABad _ i2 => i1 = i2
  | _, _ => r1 = r2
  end.
Fixpoint works_alike (g1 g2 : worker) : Prop :=
  match g1, g2 with
  | Rest, Rest => True
  | Then d1 k1, Then d2 k2 => deeds_look d1 d2 /\ forall r1 r2, answers_seem r1 r2 -> works_alike (k1 r1) (k2 r2)
  | _, _ => False
  end.
(** The argument of a call is bytes, in memory of the caller. *)
Definition argument_ok (m : memory) (d : deed) : Prop :=
  match d with
  | Plain _ => False
  | From_bytes s | To_string s | To_string_sep s _ | To_hex_sep s _ => lib (base s) = false /\ forall i, (i < slen s)%nat -> m (shift (base s) i) < 256
  | To_bytes s | To_bytes_fast s => bytes_ok s
  end.
