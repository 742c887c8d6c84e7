(** What the documentation of io.Writer and hash.Hash promises to a program
    about its own memory: "Write must not modify the slice data, even
    temporarily. Implementations must not retain p." - "Sum appends the current
    hash to b and returns the resulting slice. It does not change the underlying
    hash state." [m] is memory before an operation and [m'] after it. *)
From Verif Require Import Base.Go Base.Mem Base.Heap Base.HashUse.
From Verif Require Spec.RipemdSpec Spec.WhirlpoolSpec Spec.ChecksumSpec.
Local Open Scope N_scope.

(** What is known about the program: the addresses it can reach, and for every
    hash object its kind and the texts written since the last Reset. *)
Record view := mkView { owned : nat -> Prop; hashes : list (kind * list (list N)) }.
Definition nothing : view := mkView (fun _ => False) [].

Definition covers (s : bslice) (a : nat) : Prop := (at_ s <= a < at_ s + bcap s)%nat.
(** A slice value the program can have. *)
Definition has (v : view) (s : bslice) : Prop :=
  (blen s <= bcap s)%nat /\ forall a, covers s a -> owned v a.
Definition bytes_in (m : mem) (s : bslice) : list N := map (fun j => m (at_ s + j)%nat) (seq 0 (blen s)).

Section Use.
(** The digest of a sequence of writes, and the writes a hash can take. *)
Context (digest : kind -> list (list N) -> list N) (takes : kind -> list (list N) -> list N -> Prop).

Definition legal (m : mem) (v : view) (u : use) : Prop :=
  match u with
  | New _ => True
  | Write i p => has v p /\ exists k ws, nth_error (hashes v) i = Some (k, ws) /\ takes k ws (bytes_in m p)
  | Sum i inp _ => has v inp /\ exists k ws, nth_error (hashes v) i = Some (k, ws)
  | Reset i => exists k ws, nth_error (hashes v) i = Some (k, ws)
  | Make n c => (n <= c)%nat
  | Store s j x => has v s /\ (j < blen s)%nat /\ x < 256
  end.

(** Memory of the program changes at most at addresses in [A]. *)
Definition changes_only (A : nat -> Prop) (m : mem) (v : view) (m' : mem) : Prop :=
  forall a, owned v a -> ~ A a -> m' a = m a.
Definition unchanged := changes_only (fun _ => False).
Definition fresh (v : view) (s : bslice) : Prop := forall a, covers s a -> ~ owned v a.

(** What an operation may do, seen from the program. *)
Definition promised (m : mem) (v : view) (u : use) (a : answer) (m' : mem) : Prop :=
  match u with
  | New _ => a = AHash (length (hashes v)) /\ unchanged m v m'
  | Write i p => a = AWrote (blen p) /\ unchanged m v m'
  | Sum i inp _ =>
      forall k ws, nth_error (hashes v) i = Some (k, ws) ->
      let d := digest k ws in
      exists s, a = ASlice s /\ bytes_in m' s = bytes_in m inp ++ d
      /\ (if Nat.leb (blen inp + length d) (bcap inp)
          then at_ s = at_ inp /\ bcap s = bcap inp
               /\ changes_only (fun a => (at_ inp + blen inp <= a < at_ inp + blen inp + length d)%nat) m v m'
          else (blen s <= bcap s)%nat /\ fresh v s /\ unchanged m v m')
  | Reset i => a = ADone /\ unchanged m v m'
  | Make n c => exists s, a = ASlice s /\ blen s = n /\ bcap s = c /\ fresh v s
      /\ (forall x, covers s x -> m' x = 0) /\ unchanged m v m'
  | Store s j x => a = ADone /\ m' (at_ s + j)%nat = x
      /\ changes_only (fun a => a = at_ s + j)%nat m v m'
  end.

Fixpoint replace {A} (i : nat) (x : A) (l : list A) : list A :=
  match l, i with
  | [], _ => []
  | _ :: t, O => x :: t
  | y :: t, S i' => y :: replace i' x t
  end.
Definition with_writes (v : view) (i : nat) (f : list (list N) -> list (list N)) : list (kind * list (list N)) :=
  match nth_error (hashes v) i with
  | Some (k, ws) => replace i (k, f ws) (hashes v)
  | None => hashes v
  end.
(** What is known after it: a slice that was returned can be reached, and every
    object stands for the texts written to it, as they were when written. *)
Definition after (m : mem) (v : view) (u : use) (a : answer) : view :=
  let reach := match a with ASlice s => fun x => owned v x \/ covers s x | _ => owned v end in
  mkView reach
    match u with
    | New k => hashes v ++ [(k, [])]
    | Write i p => with_writes v i (fun ws => ws ++ [bytes_in m p])
    | Reset i => with_writes v i (fun _ => [])
    | _ => hashes v
    end.
End Use.

(** ** The hashes of the module *)

(** The digest after a sequence of writes. The block hashes and BCC depend on the
    concatenation only; the others have the laws of C22, C24, C26 and C28. *)
Definition digest_of (k : kind) (ws : list (list N)) : list N :=
  match k with
  | KRipemd128 => RipemdSpec.RIPEMD128 (concat ws)
  | KRipemd160 => RipemdSpec.RIPEMD160 (concat ws)
  | KRipemd256 => RipemdSpec.RIPEMD256 (concat ws)
  | KRipemd320 => RipemdSpec.RIPEMD320 (concat ws)
  | KWhirlpool => WhirlpoolSpec.Whirlpool (concat ws)
  | KBcc => [ChecksumSpec.xor_all (concat ws)]
  | KLrc => [Z.to_N (ChecksumSpec.alternating ws mod 256)]
  | KFletcher16 => ChecksumSpec.big_endian 2 (ChecksumSpec.f16_value ws)
  | KFletcher32 =>
      ChecksumSpec.big_endian 4 (ChecksumSpec.fletcher 65535 (2 ^ 16) (flat_map ChecksumSpec.words16 ws))
  | KFletcher64 =>
      ChecksumSpec.big_endian 8 (ChecksumSpec.fletcher 4294967295 (2 ^ 32) (flat_map ChecksumSpec.words32 ws))
  end.
(** The writes that are taken: C24 for Fletcher-16, and a length counter that
    does not overflow for Whirlpool. *)
Definition can_take (k : kind) (ws : list (list N)) (p : list N) : Prop :=
  match k with
  | KWhirlpool => N.of_nat (length (concat ws ++ p)) < 2 ^ 64
  | KFletcher16 => ChecksumSpec.f16_len p
  | _ => True
  end.
