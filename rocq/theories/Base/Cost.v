(** Counting the memory accesses of code. *)
From Verif Require Import Base.Go Base.Goroutine.
Local Open Scope N_scope.

(** What the next access counts; new memory has to be cleared. *)
Definition weight {A} (c : code A) : nat :=
  match c with
  | Return _ | Crash => 0
  | Get _ _ | Put _ _ _ => 1
  | New _ n _ => S n
  end.
(** The accesses of goroutine [id] alone, up to its end or a panic. *)
Fixpoint accesses {A} (id : nat) (c : code A) (m : memory) (u : bool -> nat) : nat :=
  match c with
  | Return _ | Crash => 0
  | Get a k => S (accesses id (k (m a)) m u)
  | Put a v k => S (accesses id k (put m a v) u)
  | New l n k => let a := mkA id l (u l) in S n + accesses id (k a) (clear m a n) (grow u l n)
  end.
(** An execution of several goroutines, with the accesses each has made. *)
Inductive takes {A} (w : system A) : list nat -> system A -> Prop :=
| Begin : takes w (map (fun _ => O) (snd w)) w
| Next ns m ts i t m' t' n : takes w ns (m, ts) -> nth_error ts i = Some t -> nth_error ns i = Some n ->
    advance (S i) m t = Some (m', t') -> takes w (replaced i (n + weight (todo t))%nat ns) (m', replaced i t' ts).
