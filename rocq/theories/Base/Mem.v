(** Memory and slices, for code whose slice arguments may alias: one flat byte
    memory, a slice is a window of it (the capacity of a Go slice beyond its
    length is not used by the modelled code). *)
From Verif Require Import Base.Go.
Local Open Scope N_scope.

Definition mem := nat -> N.
Definition mem_ok (m : mem) : Prop := forall a, m a < 256.

Record slice := mkSlice { off : nat; len : nat }.

Definition set (m : mem) (a : nat) (v : N) : mem := fun x => if Nat.eqb x a then v else m x.

(** s[i] and s[i] = v *)
Definition load (m : mem) (s : slice) (i : nat) : outcome N :=
  if Nat.ltb i (len s) then Ret (m (off s + i)%nat) else Panic.
Definition store (m : mem) (s : slice) (i : nat) (v : N) : outcome mem :=
  if Nat.ltb i (len s) then Ret (set m (off s + i) v) else Panic.

(** s[i:j], s[i:] and s[:j] *)
Definition sub (s : slice) (i j : nat) : outcome slice :=
  if (Nat.leb i j && Nat.leb j (len s))%bool then Ret (mkSlice (off s + i) (j - i)) else Panic.
Definition from (s : slice) (i : nat) : outcome slice := sub s i (len s).
Definition upto (s : slice) (j : nat) : outcome slice := sub s 0 j.

(** copy(dst, src): min(len(dst), len(src)) bytes, as if through a temporary. *)
Definition copy (m : mem) (dst src : slice) : mem :=
  let k := Nat.min (len dst) (len src) in
  fun a => if (Nat.leb (off dst) a && Nat.ltb a (off dst + k))%bool
           then m (off src + (a - off dst))%nat else m a.

(** copy(dst, text) from a constant string. *)
Definition copy_text (m : mem) (dst : slice) (text : list N) : mem :=
  let k := Nat.min (len dst) (length text) in
  fun a => if (Nat.leb (off dst) a && Nat.ltb a (off dst + k))%bool
           then nth (a - off dst) text 0 else m a.

(** encoding/binary on slices: Uint16/Uint32 read b[0..1]/b[0..3],
    PutUint16/PutUint32 write them; all panic when b is shorter. *)
Definition le_uint16 (m : mem) (b : slice) : outcome N :=
  let! b1 := load m b 1 in let! b0 := load m b 0 in
  Ret (N.lor b0 (N.shiftl b1 8)).
Definition be_uint16 (m : mem) (b : slice) : outcome N :=
  let! b1 := load m b 1 in let! b0 := load m b 0 in
  Ret (N.lor b1 (N.shiftl b0 8)).
Definition le_uint32 (m : mem) (b : slice) : outcome N :=
  let! b3 := load m b 3 in let! b2 := load m b 2 in
  let! b1 := load m b 1 in let! b0 := load m b 0 in
  Ret (N.lor b0 (N.lor (N.shiftl b1 8) (N.lor (N.shiftl b2 16) (N.shiftl b3 24)))).
Definition be_uint32 (m : mem) (b : slice) : outcome N :=
  let! b3 := load m b 3 in let! b2 := load m b 2 in
  let! b1 := load m b 1 in let! b0 := load m b 0 in
  Ret (N.lor b3 (N.lor (N.shiftl b2 8) (N.lor (N.shiftl b1 16) (N.shiftl b0 24)))).

Definition le_put16 (m : mem) (b : slice) (v : N) : outcome mem :=
  let! _ := load m b 1 in
  let! m := store m b 0 (u8 v) in
  store m b 1 (u8 (N.shiftr v 8)).
Definition be_put16 (m : mem) (b : slice) (v : N) : outcome mem :=
  let! _ := load m b 1 in
  let! m := store m b 0 (u8 (N.shiftr v 8)) in
  store m b 1 (u8 v).
Definition le_put32 (m : mem) (b : slice) (v : N) : outcome mem :=
  let! _ := load m b 3 in
  let! m := store m b 0 (u8 v) in
  let! m := store m b 1 (u8 (N.shiftr v 8)) in
  let! m := store m b 2 (u8 (N.shiftr v 16)) in
  store m b 3 (u8 (N.shiftr v 24)).
Definition be_put32 (m : mem) (b : slice) (v : N) : outcome mem :=
  let! _ := load m b 3 in
  let! m := store m b 0 (u8 (N.shiftr v 24)) in
  let! m := store m b 1 (u8 (N.shiftr v 16)) in
  let! m := store m b 2 (u8 (N.shiftr v 8)) in
  store m b 3 (u8 v).
