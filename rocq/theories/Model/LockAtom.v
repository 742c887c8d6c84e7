(** Workers that use hashes under a lock, as memory accesses. The operations are
    those of Model/HashAtom.v, which cites the code in /repo. The lock belongs to
    the user of the module; the module has none. *)
From Verif Require Import Base.Go Base.Goroutine Base.GoUse Base.Lock Base.LockUse Model.HashAtom.

(** [ours]: the hash objects made before the goroutines were started; [mine]: those
    of the goroutine itself. *)
Fixpoint labour (ours mine : list object) (w : worker) : task (list reply * list object) :=
  match w with
  | Rest => Over
  | Stretch l g k => Part l (behave ours mine g) (fun r => labour ours (snd r) (k (fst r)))
  end.
(** The workers when they are started: nobody holds the lock. *)
Definition opened (shared : list object) (m : memory) (ws : list worker) : locking (list reply * list object) :=
  (m, map (fun w => mkR (Between (labour shared [] w)) none []) ws).
