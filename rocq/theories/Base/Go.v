(** Go semantics shared by all models: outcomes, wrap-around arithmetic,
    bounds-checked access, byte order.  Nothing here models a particular
    function of the repository. *)
From Coq Require Export NArith ZArith List Lia Bool.
Export ListNotations.
Local Open Scope N_scope.

(** Keep arithmetic folded in proofs. *)
Global Arguments N.add : simpl never.
Global Arguments N.sub : simpl never.
Global Arguments N.mul : simpl never.
Global Arguments N.div : simpl never.
Global Arguments N.modulo : simpl never.
Global Arguments N.pow : simpl never.
Global Arguments N.lxor : simpl never.
Global Arguments N.lor : simpl never.
Global Arguments N.land : simpl never.
Global Arguments N.shiftl : simpl never.
Global Arguments N.shiftr : simpl never.
Global Arguments Z.add : simpl never.
Global Arguments Z.sub : simpl never.
Global Arguments Z.mul : simpl never.
Global Arguments Z.opp : simpl never.
Global Arguments Z.div : simpl never.
Global Arguments Z.modulo : simpl never.
Global Arguments Z.pow : simpl never.
Global Arguments Z.of_N : simpl never.
Global Arguments N.to_nat : simpl never.
Global Arguments N.of_nat : simpl never.

(** ** Outcomes *)

(** What running a piece of Go code can do: return, panic, or (for loops with
    explicit fuel) not have finished within the fuel. *)
Inductive outcome (A : Type) : Type :=
| Ret (a : A)
| Panic
| OutOfFuel.
Arguments Ret {A} a.
Arguments Panic {A}.
Arguments OutOfFuel {A}.

Definition bind {A B} (x : outcome A) (f : A -> outcome B) : outcome B :=
  match x with
  | Ret a => f a
  | Panic => Panic
  | OutOfFuel => OutOfFuel
  end.

Notation "'let!' p := e 'in' k" := (bind e (fun p => k))
  (at level 200, p pattern, e at level 100, k at level 200, right associativity).

(** ** Machine words *)

(** [uN x] is Go's conversion to the N-bit unsigned type. *)
Definition u8 (x : N) : N := x mod 2^8.
Definition u16 (x : N) : N := x mod 2^16.
Definition u32 (x : N) : N := x mod 2^32.
Definition u64 (x : N) : N := x mod 2^64.

(** Wrapping addition/subtraction on operands already in range. *)
Definition add8 (a b : N) : N := u8 (a + b).
Definition add32 (a b : N) : N := u32 (a + b).
Definition add64 (a b : N) : N := u64 (a + b).
Definition sub8 (a b : N) : N := u8 (a + 2^8 - b).
Definition sub32 (a b : N) : N := u32 (a + 2^32 - b).

(** [^x] of Go on 8- and 32-bit words. *)
Definition not8 (x : N) : N := N.lxor x 0xff.
Definition not32 (x : N) : N := N.lxor x 0xffffffff.

(** [x << k] on 8-, 32- and 64-bit words. *)
Definition shl8 (x k : N) : N := u8 (N.shiftl x k).
Definition shl32 (x k : N) : N := u32 (N.shiftl x k).
Definition shl64 (x k : N) : N := u64 (N.shiftl x k).

(** math/bits.RotateLeft32 for 0 <= k < 32. *)
Definition rotl32 (x k : N) : N := N.lor (shl32 x k) (N.shiftr x (32 - k)).

(** ** Bytes *)

Definition is_byte (b : N) : Prop := b < 256.
Definition bytes_ok (l : list N) : Prop := Forall is_byte l.

(** ** Bounds-checked slices held as lists *)

(** [l[i]] : panics when [i] is out of range. *)
Definition idx {A} (l : list A) (i : nat) : outcome A :=
  match nth_error l i with Some x => Ret x | None => Panic end.

(** [l[i] = v] : panics when [i] is out of range. *)
Fixpoint upd {A} (l : list A) (i : nat) (v : A) : outcome (list A) :=
  match l, i with
  | [], _ => Panic
  | _ :: t, O => Ret (v :: t)
  | x :: t, S i' => let! t' := upd t i' v in Ret (x :: t')
  end.

(** [make([]byte, n)] : panics when [n] is negative. Memory exhaustion is not
    modelled. *)
Definition make_bytes (n : Z) : outcome (list N) :=
  if Z.ltb n 0 then Panic else Ret (repeat 0 (Z.to_nat n)).

(** [copy(dst[i:], src)] on a buffer [dst] with [i <= len(dst)]:
    min(len(dst)-i, len(src)) bytes are copied. *)
Definition copy_at (dst : list N) (i : nat) (src : list N) : list N :=
  let k := Nat.min (length dst - i) (length src) in
  firstn i dst ++ firstn k src ++ skipn (i + k) dst.

(** [l[i:j]] for [i <= j <= len(l)], panics otherwise (capacity beyond the
    length is never used by the modelled code). *)
Definition slice_of {A} (l : list A) (i j : nat) : outcome (list A) :=
  if (Nat.leb i j && Nat.leb j (length l))%bool
  then Ret (firstn (j - i) (skipn i l)) else Panic.

(** ** encoding/binary *)

(** binary.BigEndian.PutUint32/PutUint64 and LittleEndian.PutUint32 as the
    bytes they store. *)
Definition be32 (v : N) : list N :=
  [u8 (N.shiftr v 24); u8 (N.shiftr v 16); u8 (N.shiftr v 8); u8 v].
Definition be64 (v : N) : list N :=
  [u8 (N.shiftr v 56); u8 (N.shiftr v 48); u8 (N.shiftr v 40); u8 (N.shiftr v 32);
   u8 (N.shiftr v 24); u8 (N.shiftr v 16); u8 (N.shiftr v 8); u8 v].
Definition le32 (v : N) : list N :=
  [u8 v; u8 (N.shiftr v 8); u8 (N.shiftr v 16); u8 (N.shiftr v 24)].

(** binary.BigEndian.Uint32: reads b[0..3], panics when shorter. *)
Definition get_be32 (b : list N) : outcome N :=
  match b with
  | b0 :: b1 :: b2 :: b3 :: _ =>
      Ret (N.lor b3 (N.lor (shl32 b2 8) (N.lor (shl32 b1 16) (shl32 b0 24))))
  | _ => Panic
  end.

(** binary.LittleEndian.Uint32: reads b[0..3], panics when shorter. *)
Definition get_le32 (b : list N) : outcome N :=
  match b with
  | b0 :: b1 :: b2 :: b3 :: _ =>
      Ret (N.lor b0 (N.lor (shl32 b1 8) (N.lor (shl32 b2 16) (shl32 b3 24))))
  | _ => Panic
  end.

(** The byte orders of encoding/binary. *)
Inductive byte_order := LittleEndian | BigEndian.
