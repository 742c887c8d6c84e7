(** How many memory accesses the calls of packages hex and codegen may need:
    linear in the length of what they are given. *)
From Verif Require Import Base.Go Base.Goroutine Base.GoUse Base.LibUse Spec.CostSpec.
Local Open Scope nat_scope.

Definition deed_price (d : deed) : nat :=
  match d with
  | Plain a => price a
  | From_bytes src => 8 * slen src + 1
  | To_bytes s | To_bytes_fast s => length s + 1
  | To_string inp => 26 * slen inp + 9
  | To_string_sep inp _ | To_hex_sep inp _ => 35 * slen inp + 5
  end.
(** What was done, as the answers show, with the last call that was begun. *)
Fixpoint work_bill (g : worker) (rs : list answer) : nat :=
  match g with
  | Rest => 0
  | Then d k => deed_price d + match rs with r :: rs' => work_bill (k r) rs' | [] => 0 end
  end.
(** No slice is longer than memory can be: the lengths codegen computes fit in an int. *)
Definition deed_brief (d : deed) : Prop :=
  match d with
  | To_string inp | To_string_sep inp _ | To_hex_sep inp _ => (Z.of_nat (slen inp) < 2 ^ 58)%Z
  | _ => True
  end.
Fixpoint brief (g : worker) : Prop :=
  match g with
  | Rest => True
  | Then d k => deed_brief d /\ forall r, brief (k r)
  end.
