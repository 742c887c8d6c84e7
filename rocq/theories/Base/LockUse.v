(** What goroutines do that share hashes and slices under a lock. *)
From Verif Require Import Base.Go Base.Goroutine Base.GoUse Base.Lock.

(** A worker does stretches of operations, each between mu.Lock() and mu.Unlock(),
    between mu.RLock() and mu.RUnlock(), or without the lock. What it does next may
    depend on the replies it got. *)
Inductive worker :=
| Rest
| Stretch (l : hold) (g : goroutine) (k : list reply -> worker).
