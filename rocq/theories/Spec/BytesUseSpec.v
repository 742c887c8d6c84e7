(** Which memory the functions of package bytes use. *)
From Verif Require Import Base.Go Base.Mem Base.Goroutine Base.BytesUse.
Local Open Scope N_scope.

(** The first [n] bytes of a slice. *)
Definition first_of (s : slice) (n : nat) (x : nat) : Prop :=
  (x < off s + len s)%nat /\ (off s <= x < off s + n)%nat.
Definition bytes_of (s : slice) : nat -> Prop := first_of s (len s).

(** Additions write the first bytes of sum, as many as the width has; the
    big-endian ones as many as a has, if that is more. *)
Definition add_reach (e : byte_order) (w : width) (a : slice) : nat :=
  match e with LittleEndian => width_bytes w | BigEndian => Nat.max (width_bytes w) (len a) end.
Definition writes_to (c : call) (x : nat) : Prop :=
  match c with
  | CZero t => bytes_of t x
  | CXorEq d o => first_of d (len o) x
  | CAdd e w s a b => first_of s (add_reach e w a) x
  | CAddNative p w s a b => first_of s (add_reach p w a) x
  | CLoad _ _ => False
  | CStore s j _ => x = (off s + j)%nat
  end.
Definition reads_from (c : call) (x : nat) : Prop :=
  match c with
  | CZero _ => False
  | CXorEq d o => first_of o (len d) x
  | CAdd e w s a b => bytes_of a x \/ bytes_of b x
  | CAddNative p w s a b => bytes_of a x \/ bytes_of b x
  | CLoad s j => x = (off s + j)%nat
  | CStore _ _ _ => False
  end.

(** A goroutine that reads and writes only some memory, whatever its calls
    return. It may also read what it may write. *)
Fixpoint stays (R W : nat -> Prop) (g : job) : Prop :=
  match g with
  | Stop => True
  | Do c k => (forall x, writes_to c x -> W x) /\ (forall x, reads_from c x -> R x \/ W x) /\ forall r, stays R W (k r)
  end.
(** What one of them writes no other uses. *)
Definition apart (R W : nat -> nat -> Prop) : Prop := forall i j x, i <> j -> W i x -> ~ W j x /\ ~ R j x.
