(** Which memory code accesses, and in which order. *)
From Verif Require Import Base.Go Base.Goroutine.
Local Open Scope N_scope.

(** An access, without the value that is read or written. *)
Inductive access :=
| Read (a : addr)
| Wrote (a : addr)
| Made (l : bool) (n : nat).   (* n new cells *)
(** The accesses of goroutine [id] alone, and whether it came to its end (or
    panicked). *)
Fixpoint trace {A} (id : nat) (c : code A) (m : memory) (u : bool -> nat) : list access * bool :=
  match c with
  | Return _ => ([], true)
  | Crash => ([], false)
  | Get a k => let '(l, e) := trace id (k (m a)) m u in (Read a :: l, e)
  | Put a v k => let '(l, e) := trace id k (put m a v) u in (Wrote a :: l, e)
  | New b n k => let a := mkA id b (u b) in let '(l, e) := trace id (k a) (clear m a n) (grow u b n) in (Made b n :: l, e)
  end.

(** What code does next. *)
Definition next {A} (c : code A) : list access :=
  match c with
  | Return _ | Crash => []
  | Get a _ => [Read a]
  | Put a _ _ => [Wrote a]
  | New b n _ => [Made b n]
  end.
(** An execution of several goroutines, with the accesses each has made. *)
Inductive did {A} (w : system A) : list (list access) -> system A -> Prop :=
| Begun : did w (map (fun _ => []) (snd w)) w
| Then ls m ts i t m' t' l : did w ls (m, ts) -> nth_error ts i = Some t -> nth_error ls i = Some l ->
    advance (S i) m t = Some (m', t') -> did w (replaced i (l ++ next (todo t)) ls) (m', replaced i t' ts).
