(** Specification vocabulary for package bytes. *)
From Verif Require Import Base.Go Base.Mem.
Local Open Scope N_scope.

(** The bytes of a window, in order. *)
Definition content (m : mem) (s : slice) : list N :=
  map (fun i => m (off s + i)%nat) (seq 0 (len s)).

(** Integers as digit strings in base 256, low digit first and high digit
    first. *)
Fixpoint le_value (l : list N) : N :=
  match l with
  | [] => 0
  | x :: l' => x + 256 * le_value l'
  end.
Definition be_value (l : list N) : N := le_value (rev l).

(** Address [x] is among the first [n] bytes of [s]. *)
Definition within (s : slice) (n : nat) (x : nat) : Prop := (off s <= x < off s + n)%nat.

(** The first [n] bytes of [s] and the first [k] bytes of [t] do not meet. *)
Definition apart (s : slice) (n : nat) (t : slice) (k : nat) : Prop :=
  forall x, within s n x -> within t k x -> False.

(** [m'] differs from [m] at most in the first [n] bytes of [s]. *)
Definition only_changes (m m' : mem) (s : slice) (n : nat) : Prop :=
  forall x, ~ within s n x -> m' x = m x.

(** Last [n] elements. *)
Definition lastn {A} (n : nat) (l : list A) : list A := skipn (length l - n) l.
