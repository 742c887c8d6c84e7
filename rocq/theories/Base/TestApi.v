(** What test helpers do to a testing.T: the t.Errorf calls they make. *)
From Verif Require Import Base.Go.

Inductive report :=
| LengthDiffers (want got : nat)   (* t.Errorf("Expected %d chars, got %d", want, got) *)
| Mismatch (msg : list N).         (* t.Errorf with %s only: the message *)
