(** HMAC as RFC 2104 defines it, and what Go's documentation of crypto/hmac and
    hash.Hash promises to a program that uses it. *)
From Verif Require Import Base.Go Base.Mem Base.Heap Base.HashUse Base.HmacUse Spec.HashUseSpec.
Local Open Scope N_scope.

(** RFC 2104, section 2: H is the hash function, B its block length in bytes, K
    the key ("keys longer than B bytes are first hashed using H"). *)
Definition block_key (H : list N -> list N) (B : nat) (K : list N) : list N :=
  let K := if Nat.ltb B (length K) then H K else K in K ++ repeat 0 (B - length K).
Definition HMAC (H : list N -> list N) (B : nat) (K text : list N) : list N :=
  let K := block_key H B K in
  H (map (N.lxor 0x5c) K ++ H (map (N.lxor 0x36) K ++ text)).

(** The block hashes of the module, all with blocks of 64 bytes. *)
Definition block_hash (k : kind) : Prop :=
  match k with KRipemd128 | KRipemd160 | KRipemd256 | KRipemd320 | KWhirlpool => True | _ => False end.
Definition H_of (k : kind) (m : list N) : list N := digest_of k [m].

(** What is known about the program: the addresses it can reach, and for every
    MAC object the hash, the key as it was at New and the text written since the
    last Reset. *)
Record mview := mkMV { mine : nat -> Prop; keyed : list (kind * list N * list N) }.
Definition no_macs : mview := mkMV (fun _ => False) [].
Definition seen (v : mview) : view := mkView (mine v) [].
(** Whirlpool's counter must not overflow. *)
Definition counted (k : kind) (n : nat) : Prop := k = KWhirlpool -> N.of_nat n < 2 ^ 64.

Definition mlegal (m : mem) (v : mview) (u : muse) : Prop :=
  match u with
  | MNew k key _ => block_hash k /\ has (seen v) key /\ counted k (blen key)
  | MWrite i p => has (seen v) p /\ exists k key text, nth_error (keyed v) i = Some (k, key, text)
      /\ counted k (64 + length text + blen p)
  | MSum i inp _ _ => has (seen v) inp /\ exists o, nth_error (keyed v) i = Some o
  | MReset i => exists o, nth_error (keyed v) i = Some o
  | MMake n c => (n <= c)%nat
  | MStore s j x => has (seen v) s /\ (j < blen s)%nat /\ x < 256
  end.

Definition mpromised (m : mem) (v : mview) (u : muse) (a : answer) (m' : mem) : Prop :=
  match u with
  | MNew _ _ _ => a = AHash (length (keyed v)) /\ unchanged m (seen v) m'
  | MWrite i p => a = AWrote (blen p) /\ unchanged m (seen v) m'
  | MSum i inp _ _ =>
      forall k key text, nth_error (keyed v) i = Some (k, key, text) ->
      let d := HMAC (H_of k) 64 key text in
      exists s, a = ASlice s /\ bytes_in m' s = bytes_in m inp ++ d
      /\ (if Nat.leb (blen inp + length d) (bcap inp)
          then at_ s = at_ inp /\ bcap s = bcap inp
               /\ changes_only (fun a => (at_ inp + blen inp <= a < at_ inp + blen inp + length d)%nat) m (seen v) m'
          else (blen s <= bcap s)%nat /\ fresh (seen v) s /\ unchanged m (seen v) m')
  | MReset i => a = ADone /\ unchanged m (seen v) m'
  | MMake n c => exists s, a = ASlice s /\ blen s = n /\ bcap s = c /\ fresh (seen v) s
      /\ (forall x, covers s x -> m' x = 0) /\ unchanged m (seen v) m'
  | MStore s j x => a = ADone /\ m' (at_ s + j)%nat = x
      /\ changes_only (fun a => a = at_ s + j)%nat m (seen v) m'
  end.

Definition with_text (v : mview) (i : nat) (f : list N -> list N) : list (kind * list N * list N) :=
  match nth_error (keyed v) i with
  | Some (k, key, text) => replace i (k, key, f text) (keyed v)
  | None => keyed v
  end.
Definition mafter (m : mem) (v : mview) (u : muse) (a : answer) : mview :=
  let reach := match a with ASlice s => fun x => mine v x \/ covers s x | _ => mine v end in
  mkMV reach
    match u with
    | MNew k key _ => keyed v ++ [(k, bytes_in m key, [])]
    | MWrite i p => with_text v i (fun t => t ++ bytes_in m p)
    | MReset i => with_text v i (fun _ => [])
    | _ => keyed v
    end.
