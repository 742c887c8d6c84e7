(** Programs that do the same with different data: the same operations on the
    same slices, whatever the bytes are that they store, and whatever bytes they
    load. *)
From Verif Require Import Base.Go Base.Mem Base.Goroutine Base.GoUse.
From Verif Require Base.BytesUse.
Local Open Scope N_scope.

(** ** Hashes *)

(** Replies may differ in the bytes loaded. Slices are never in memory that
    belongs to the library. *)
Definition seems (r1 r2 : reply) : Prop :=
  match r1, r2 with
  | RByte _, RByte _ => True
  | RSlice s1, RSlice s2 => s1 = s2 /\ lib (base s1) = false
  | _, _ => r1 = r2
  end.
Definition looks (a1 a2 : act) : Prop :=
  match a1, a2 with
  | Store s1 j1 _, Store s2 j2 _ => s1 = s2 /\ j1 = j2
  | _, _ => a1 = a2
  end.
Definition outside (a : act) : Prop :=
  match a with
  | Do_write _ p => lib (base p) = false
  | Do_sum _ inp _ => lib (base inp) = false
  | Store s _ _ | Load s _ => lib (base s) = false
  | _ => True
  end.
Fixpoint alike (g1 g2 : goroutine) : Prop :=
  match g1, g2 with
  | Stop, Stop => True
  | Do a1 k1, Do a2 k2 => looks a1 a2 /\ outside a1 /\ forall r1 r2, seems r1 r2 -> alike (k1 r1) (k2 r2)
  | _, _ => False
  end.

(** ** Package bytes *)

(** Results may differ in the bytes loaded and in the carry. *)
Definition bytes_seem (r1 r2 : BytesUse.result) : Prop :=
  match r1, r2 with
  | BytesUse.RByte _, BytesUse.RByte _ => True
  | BytesUse.RAdded _ e1, BytesUse.RAdded _ e2 => e1 = e2
  | _, _ => r1 = r2
  end.
Definition bytes_look (c1 c2 : BytesUse.call) : Prop :=
  match c1, c2 with
  | BytesUse.CStore s1 j1 _, BytesUse.CStore s2 j2 _ => s1 = s2 /\ j1 = j2
  | _, _ => c1 = c2
  end.
Fixpoint bytes_alike (g1 g2 : BytesUse.job) : Prop :=
  match g1, g2 with
  | BytesUse.Stop, BytesUse.Stop => True
  | BytesUse.Do c1 k1, BytesUse.Do c2 k2 => bytes_look c1 c2 /\ forall r1 r2, bytes_seem r1 r2 -> bytes_alike (k1 r1) (k2 r2)
  | _, _ => False
  end.
