(** C94: the block hashes as the hash of Go's crypto/hmac. *)
From Coq Require Import String Ascii.
From Verif Require Import Base.Go Base.Mem Base.Heap Base.HashUse Base.HmacUse Spec.HashUseSpec Spec.HmacSpec.
From Verif Require Import Model.HashMem Model.Hmac Proofs.HmacProofs.
Local Open Scope N_scope.

(** The states a program can get to that makes byte slices, stores bytes, makes
    MAC objects and calls them, in any order, with any slices it was given. *)
Inductive mreachable : mworld -> mview -> Prop :=
| mstarted : mreachable mstart no_macs
| mwent_on w v u w' a : mreachable w v -> mlegal (cells (hp (under w))) v u -> mstep w u = Ret (w', a) ->
    mreachable w' (mafter (cells (hp (under w))) v u a).

Lemma mreachable_MI w v : mreachable w v -> MI w v.
Proof.
  induction 1 as [|w v u w' a _ IH Hl E]; [apply MI_start|].
  destruct (mstep_ok w v u IH Hl) as (w1 & a1 & E1 & _ & I1). rewrite E in E1. injection E1 as <- <-. exact I1.
Qed.

(** Every call returns and keeps its promise. Sum appends the RFC 2104 MAC of
    the text written since the last Reset under the key as it was at New, in
    place if and only if there is room, and changes nothing else the program
    can see; Sum does not disturb the MAC; MACs do not disturb each other. *)
Theorem C94_hmac_contract : forall w v u, mreachable w v -> mlegal (cells (hp (under w))) v u ->
  exists w' a, mstep w u = Ret (w', a) /\ mpromised (cells (hp (under w))) v u a (cells (hp (under w'))).
Proof.
  intros w v u R Hl. destruct (mstep_ok w v u (mreachable_MI w v R) Hl) as (w' & a & E & P & _). exists w', a. auto.
Qed.

(** In one formula, for the common call Sum(nil). *)
Theorem C94_sum_of_nil : forall w v i k key text room room', mreachable w v ->
  nth_error (keyed v) i = Some (k, key, text) ->
  exists w' s, mstep w (MSum i (mkB 0 0 0) room room') = Ret (w', ASlice s)
    /\ bytes_in (cells (hp (under w'))) s = HMAC (H_of k) 64 key text
    /\ mreachable w' (mkMV (fun x => mine v x \/ covers s x) (keyed v)).
Proof.
  intros w v i k key text room room' R E.
  assert (L : mlegal (cells (hp (under w))) v (MSum i (mkB 0 0 0) room room')).
  { split; [|exists (k, key, text); exact E]. split; [apply Nat.le_refl|]. intros a Ha. unfold covers in Ha. cbn [at_ bcap] in Ha. lia. }
  destruct (C94_hmac_contract w v _ R L) as (w' & a & Es & P). destruct (P k key text E) as (s & -> & B & _).
  exists w', s. split; [exact Es|]. split; [exact B|]. exact (mwent_on w v _ w' _ R L Es).
Qed.

(** The states are there: for every hash, key and text a program that computes
    the MAC. *)
Lemma fill w v s l : mreachable w v -> has (seen v) s -> blen s = length l -> Forall (fun x => x < 256) l ->
  exists w', mreachable w' v /\ bytes_in (cells (hp (under w'))) s = l.
Proof.
  intros R Hs Ls Fl.
  assert (G : forall n, (n <= length l)%nat -> exists w', mreachable w' v /\ forall j, (j < n)%nat -> cells (hp (under w')) (at_ s + j)%nat = nth j l 0).
  { induction n as [|n IH]; intros Hn; [exists w; split; [exact R|lia]|].
    destruct IH as (w1 & R1 & V1); [lia|].
    assert (L : mlegal (cells (hp (under w1))) v (MStore s n (nth n l 0))).
    { split; [exact Hs|]. split; [lia|]. apply Forall_nth; [exact Fl|lia]. }
    destruct (C94_hmac_contract w1 v _ R1 L) as (w2 & a & E2 & -> & V2 & U2). exists w2. split.
    - pose proof (mwent_on _ _ _ _ _ R1 L E2) as R2. unfold mafter in R2. destruct v; exact R2.
    - intros j Hj. destruct (Nat.eq_dec j n) as [->|N]; [exact V2|]. rewrite U2; [apply V1; lia| |lia].
      apply (proj2 Hs). unfold covers. destruct Hs. lia. }
  destruct (G (length l) (Nat.le_refl _)) as (w' & R' & V'). exists w'. split; [exact R'|].
  apply bytes_in_eq; [auto|]. rewrite Ls. exact V'.
Qed.
Lemma new_buffer w v l : mreachable w v -> Forall (fun x => x < 256) l ->
  exists w' s, mreachable w' (mkMV (fun x => mine v x \/ covers s x) (keyed v))
    /\ has (seen (mkMV (fun x => mine v x \/ covers s x) (keyed v))) s
    /\ bytes_in (cells (hp (under w'))) s = l /\ blen s = length l.
Proof.
  intros R Fl. assert (L : mlegal (cells (hp (under w))) v (MMake (length l) (length l))) by apply Nat.le_refl.
  destruct (C94_hmac_contract w v _ R L) as (w1 & a & E1 & s & -> & B1 & B2 & _).
  pose proof (mwent_on _ _ _ _ _ R L E1) as R1. unfold mafter in R1.
  assert (Hs : has (seen (mkMV (fun x => mine v x \/ covers s x) (keyed v))) s).
  { split; [lia|]. intros x Hx. right. exact Hx. }
  destruct (fill w1 _ s l R1 Hs B1 Fl) as (w2 & R2 & B). exists w2, s. auto.
Qed.
Theorem C94_every_key_and_text : forall k key text, block_hash k ->
  Forall (fun x => x < 256) key -> Forall (fun x => x < 256) text ->
  counted k (length key) -> counted k (64 + length text) ->
  exists w v, mreachable w v /\ nth_error (keyed v) 0 = Some (k, key, text).
Proof.
  intros k key text Bk Fk Ft Ck Ct.
  destruct (new_buffer mstart no_macs key mstarted Fk) as (w1 & sk & R1 & H1 & B1 & L1). set (v1 := mkMV _ _) in *.
  assert (G1 : mlegal (cells (hp (under w1))) v1 (MNew k sk 0)) by (split; [exact Bk|]; split; [exact H1|]; rewrite L1; exact Ck).
  destruct (C94_hmac_contract w1 v1 _ R1 G1) as (w2 & a2 & E2 & -> & _).
  pose proof (mwent_on _ _ _ _ _ R1 G1 E2) as R2. unfold mafter in R2. rewrite B1 in R2. cbn [v1 keyed no_macs app] in R2.
  destruct (new_buffer w2 _ text R2 Ft) as (w3 & st & R3 & H3 & B3 & L3). match type of R3 with mreachable _ ?x => set (v3 := x) in * end.
  assert (G3 : mlegal (cells (hp (under w3))) v3 (MWrite 0 st)).
  { split; [exact H3|]. exists k, key, []. split; [reflexivity|]. cbn [length]. rewrite L3, Nat.add_0_r. exact Ct. }
  destruct (C94_hmac_contract w3 v3 _ R3 G3) as (w4 & a4 & E4 & -> & _).
  pose proof (mwent_on _ _ _ _ _ R3 G3 E4) as R4. eexists w4, _. split; [exact R4|].
  unfold mafter; cbn [keyed]. rewrite B3. reflexivity.
Qed.

(** Test vectors of RFC 2286 for the specification, the last with a key of 80
    bytes. *)
Definition ascii_bytes (s : string) : list N := map N_of_ascii (list_ascii_of_string s).
Example hmac_ripemd160_1 :
  HMAC (H_of KRipemd160) 64 (repeat 0x0b 20) (ascii_bytes "Hi There")
  = [0x24;0xcb;0x4b;0xd6;0x7d;0x20;0xfc;0x1a;0x5d;0x2e;0xd7;0x73;0x2d;0xcc;0x39;0x37;0x7f;0x0a;0x56;0x68].
Proof. vm_compute. reflexivity. Qed.
Example hmac_ripemd128_1 :
  HMAC (H_of KRipemd128) 64 (repeat 0x0b 16) (ascii_bytes "Hi There")
  = [0xfb;0xf6;0x1f;0x94;0x92;0xaa;0x4b;0xbf;0x81;0xc1;0x72;0xe8;0x4e;0x07;0x34;0xdb].
Proof. vm_compute. reflexivity. Qed.
Example hmac_ripemd160_6 :
  HMAC (H_of KRipemd160) 64 (repeat 0xaa 80) (ascii_bytes "Test Using Larger Than Block-Size Key - Hash Key First")
  = [0x64;0x66;0xca;0x07;0xac;0x5e;0xac;0x29;0xe1;0xbd;0x52;0x3e;0x5a;0xda;0x76;0x05;0xb7;0x91;0xfd;0x8b].
Proof. vm_compute. reflexivity. Qed.

Print Assumptions C94_hmac_contract.
Print Assumptions C94_sum_of_nil.
Print Assumptions C94_every_key_and_text.
