(** What goroutines do that share trees and slices under a lock. *)
From Verif Require Import Base.Go Base.Goroutine Base.GoUse Base.Lock Base.NetGo.

(** A worker does stretches of operations of package net, those marked [Alone]
    between mu.Lock() and mu.Unlock(), those marked [Reading] between mu.RLock() and
    mu.RUnlock(). What it does next may depend on the replies it got. *)
Inductive nworker :=
| NRest
| NStretch (l : hold) (g : ngoroutine) (k : list nreply -> nworker).
