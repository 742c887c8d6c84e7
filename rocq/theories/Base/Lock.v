(** Goroutines that share a sync.RWMutex (or a sync.Mutex, which has no RLock). It
    is part of Go's standard library: Lock waits until no other goroutine holds the
    lock in any way, RLock until none holds it alone; Unlock and RUnlock give it
    back. (Go makes RLock wait for a waiting Lock, too; here all executions are
    allowed that do without.) By Go's memory model what is done before Unlock is
    seen after the next Lock or RLock, and what is done before RUnlock after the
    next Lock, so every execution of a program whose interleavings have no data
    race is one of these interleavings. *)
From Verif Require Import Base.Go Base.Goroutine.
Local Open Scope N_scope.

(** Code between mu.Lock() and mu.Unlock(), between mu.RLock() and mu.RUnlock(), and
    outside. *)
Inductive hold := Alone | Reading | Without.
(** Holding it one way keeps others from holding it the other way. *)
Definition excludes (l l' : hold) : Prop :=
  match l, l' with
  | Alone, Alone | Alone, Reading | Reading, Alone => True
  | _, _ => False
  end.

(** What a goroutine does: parts, one after the other, each with or without the
    lock. *)
Inductive task (B : Type) : Type :=
| Over
| Part (l : hold) (c : code B) (k : B -> task B).
Arguments Over {B}. Arguments Part {B}.

Inductive stage (B : Type) : Type :=
| Between (t : task B)                                 (* before its next part *)
| Inside (l : hold) (c : code B) (k : B -> task B).    (* in the middle of one *)
Arguments Between {B}. Arguments Inside {B}.

(** A goroutine: where it is, how many cells it has allocated, and the results of
    the parts it has finished. *)
Record runner (B : Type) := mkR { at_stage : stage B; taken : bool -> nat; got : list B }.
Arguments mkR {B}. Arguments at_stage {B}. Arguments taken {B}. Arguments got {B}.

(** The memory and the goroutines; who holds the lock is seen from where they are. *)
Definition locking (B : Type) := (memory * list (runner B))%type.
Definition obtainable {B} (l : hold) (ts : list (runner B)) : Prop :=
  forall j t l' c k, nth_error ts j = Some t -> at_stage t = Inside l' c k -> ~ excludes l l'.
(** Goroutine number [i] takes a step. *)
Inductive goes {B} (i : nat) : locking B -> locking B -> Prop :=
| Begins m ts t l c k : nth_error ts i = Some t -> at_stage t = Between (Part l c k) -> obtainable l ts ->
    goes i (m, ts) (m, replaced i (mkR (Inside l c k) (taken t) (got t)) ts)
| Accesses m ts t l c k m' t' : nth_error ts i = Some t -> at_stage t = Inside l c k ->
    advance (S i) m (mkT c (taken t)) = Some (m', t') ->
    goes i (m, ts) (m', replaced i (mkR (Inside l (todo t') k) (used t') (got t)) ts)
| Finishes m ts t l x k : nth_error ts i = Some t -> at_stage t = Inside l (Return x) k ->
    goes i (m, ts) (m, replaced i (mkR (Between (k x)) (taken t) (got t ++ [x])) ts).
Definition steps {B} (y y' : locking B) : Prop := exists i, goes i y y'.
Inductive leads {B} : locking B -> locking B -> Prop :=
| Stays w : leads w w
| Goes w w1 w2 : leads w w1 -> steps w1 w2 -> leads w w2.

(** Two goroutines are about to access the same cell, one of them to write it. *)
Definition conflict {B} (w : locking B) : Prop :=
  exists i j ti tj li ci ki lj cj kj a, i <> j
    /\ nth_error (snd w) i = Some ti /\ at_stage ti = Inside li ci ki
    /\ nth_error (snd w) j = Some tj /\ at_stage tj = Inside lj cj kj
    /\ writes (S i) (mkT ci (taken ti)) a /\ (reads (mkT cj (taken tj)) a \/ writes (S j) (mkT cj (taken tj)) a).

(** Nobody is between Lock and Unlock. *)
Definition unlocked {B} (ts : list (runner B)) : Prop := forall i t c k, nth_error ts i = Some t -> at_stage t <> Inside Alone c k.
(** A goroutine is at its end, or can go on, or waits for the lock, and then another
    one holds the lock and can go on. *)
Definition unhindered {B} (y : locking B) : Prop :=
  forall i t, nth_error (snd y) i = Some t ->
    at_stage t = Between Over \/ (exists y', goes i y y')
    \/ exists l c k j tj lj cj kj, at_stage t = Between (Part l c k) /\ nth_error (snd y) j = Some tj /\ at_stage tj = Inside lj cj kj
         /\ excludes l lj /\ exists y', goes j y y'.
