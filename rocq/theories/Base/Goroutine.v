(** Go code as a sequence of single memory accesses, and goroutines that run
    such code at the same time. Executions are the interleavings of the accesses
    of the goroutines. By Go's memory model every execution of a program whose
    interleavings have no data race is one of them. *)
From Verif Require Import Base.Go.
Local Open Scope N_scope.

(** ** Memory *)

(** An address: the goroutine that allocated it, whether that was done inside
    the library ([lib]) or for a slice that the user of the library gets, and a
    number. Go does not let a program find out how addresses are chosen, so
    every goroutine may be given numbers of its own. A cell holds a byte, or a
    whole field of a struct. *)
Record addr := mkA { who : nat; lib : bool; num : nat }.
Definition shift (a : addr) (i : nat) : addr := mkA (who a) (lib a) (num a + i).
Definition same (a b : addr) : bool := (Nat.eqb (who a) (who b) && Bool.eqb (lib a) (lib b) && Nat.eqb (num a) (num b))%bool.
Definition within (a : addr) (n : nat) (x : addr) : bool :=
  (Nat.eqb (who x) (who a) && Bool.eqb (lib x) (lib a) && Nat.leb (num a) (num x) && Nat.ltb (num x) (num a + n))%bool.

Definition memory := addr -> N.
Definition put (m : memory) (a : addr) (v : N) : memory := fun x => if same x a then v else m x.
Definition clear (m : memory) (a : addr) (n : nat) : memory := fun x => if within a n x then 0 else m x.

(** A []byte value. *)
Record gslice := mkS { base : addr; slen : nat; scap : nat }.

(** ** Code *)

Inductive code (A : Type) : Type :=
| Return (x : A)
| Crash                                        (* a panic *)
| Get (a : addr) (k : N -> code A)             (* reads a cell *)
| Put (a : addr) (v : N) (k : code A)          (* writes a cell *)
| New (l : bool) (n : nat) (k : addr -> code A).   (* n new cells, all zero *)
Arguments Return {A}. Arguments Crash {A}. Arguments Get {A}. Arguments Put {A}. Arguments New {A}.

Fixpoint thenc {A B} (c : code A) (f : A -> code B) : code B :=
  match c with
  | Return x => f x
  | Crash => Crash
  | Get a k => Get a (fun v => thenc (k v) f)
  | Put a v k => Put a v (thenc k f)
  | New l n k => New l n (fun a => thenc (k a) f)
  end.
Notation "'do' x <- c ; k" := (thenc c (fun x => k)) (at level 200, x pattern, c at level 99, k at level 200, right associativity).
Notation "c ;; k" := (thenc c (fun _ => k)) (at level 100, k at level 200, right associativity).

Definition get (a : addr) : code N := Get a Return.
Definition set (a : addr) (v : N) : code unit := Put a v (Return tt).
Definition new (l : bool) (n : nat) : code addr := New l n Return.
(** [n] cells, one after the other *)
Fixpoint gets (a : addr) (n : nat) : code (list N) :=
  match n with
  | O => Return []
  | S n' => do v <- get a; do r <- gets (shift a 1) n'; Return (v :: r)
  end.
Fixpoint sets (a : addr) (vs : list N) : code unit :=
  match vs with
  | [] => Return tt
  | v :: vs' => set a v ;; sets (shift a 1) vs'
  end.
(** A computation on values already read. *)
Definition lift {A} (x : outcome A) : code A := match x with Ret a => Return a | _ => Crash end.

(** ** Goroutines *)

(** A goroutine: what it has still to do, and how many cells it has allocated. *)
Record thread (A : Type) := mkT { todo : code A; used : bool -> nat }.
Arguments mkT {A}. Arguments todo {A}. Arguments used {A}.
Definition grow (u : bool -> nat) (l : bool) (n : nat) : bool -> nat := fun b => if Bool.eqb b l then (u b + n)%nat else u b.
Definition none : bool -> nat := fun _ => O.

(** One access of goroutine [id]. *)
Definition advance {A} (id : nat) (m : memory) (t : thread A) : option (memory * thread A) :=
  match todo t with
  | Return _ | Crash => None
  | Get a k => Some (m, mkT (k (m a)) (used t))
  | Put a v k => Some (put m a v, mkT k (used t))
  | New l n k =>
      let a := mkA id l (used t l) in
      Some (clear m a n, mkT (k a) (grow (used t) l n))
  end.

(** Goroutine [id] alone, to the end. *)
Fixpoint alone {A} (id : nat) (c : code A) (m : memory) (u : bool -> nat) : option (A * memory * (bool -> nat)) :=
  match c with
  | Return x => Some (x, m, u)
  | Crash => None
  | Get a k => alone id (k (m a)) m u
  | Put a v k => alone id k (put m a v) u
  | New l n k => let a := mkA id l (u l) in alone id (k a) (clear m a n) (grow u l n)
  end.

(** Several goroutines, numbered from 1; the goroutine that started them, number
    0, waits. *)
Fixpoint replaced {A} (i : nat) (x : A) (l : list A) : list A :=
  match l, i with
  | [], _ => []
  | _ :: t, O => x :: t
  | y :: t, S i' => y :: replaced i' x t
  end.
Definition system (A : Type) := (memory * list (thread A))%type.
Inductive moves {A} : system A -> system A -> Prop :=
| One m ts i t m' t' : nth_error ts i = Some t -> advance (S i) m t = Some (m', t') ->
    moves (m, ts) (m', replaced i t' ts).
Inductive becomes {A} : system A -> system A -> Prop :=
| Here w : becomes w w
| More w w1 w2 : becomes w w1 -> moves w1 w2 -> becomes w w2.

(** What a goroutine is about to do. *)
Definition reads {A} (t : thread A) (a : addr) : Prop :=
  match todo t with Get b _ => b = a | _ => False end.
Definition writes {A} (id : nat) (t : thread A) (a : addr) : Prop :=
  match todo t with
  | Put b _ _ => b = a
  | New l n _ => within (mkA id l (used t l)) n a = true
  | _ => False
  end.
(** Two goroutines are about to access the same cell, one of them to write it. *)
Definition race {A} (w : system A) : Prop :=
  exists i j ti tj a, i <> j /\ nth_error (snd w) i = Some ti /\ nth_error (snd w) j = Some tj
    /\ writes (S i) ti a /\ (reads tj a \/ writes (S j) tj a).
