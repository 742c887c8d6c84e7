(** Workers that use package net under a lock, as memory accesses. The operations
    are those of Model/NetAtom.v, which cites the code in /repo. The lock belongs
    to the user of the module; the module has none. *)
From Verif Require Import Base.Go Base.Goroutine Base.GoUse Base.Lock Base.NetGo Base.NetLock Model.NetAtom.

(** [ours]: the trees made before the goroutines were started; [mine]: those of the
    goroutine itself. *)
Fixpoint nlabour (ours mine : list ptree) (w : nworker) : task (list nreply * list ptree) :=
  match w with
  | NRest => Over
  | NStretch l g k => Part l (nbehave ours mine g) (fun r => nlabour ours (snd r) (k (fst r)))
  end.
(** The workers when they are started: nobody holds the lock. *)
Definition nopened (shared : list ptree) (m : memory) (ws : list nworker) : locking (list nreply * list ptree) :=
  (m, map (fun w => mkR (Between (nlabour shared [] w)) none []) ws).
