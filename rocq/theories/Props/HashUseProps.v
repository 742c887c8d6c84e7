(** C85: what a program sees of its own memory when it uses the hashes. *)
From Verif Require Import Base.Go Base.Mem Base.Heap Base.HashUse Model.HashMem Spec.HashUseSpec Proofs.HashUseProofs.
Local Open Scope N_scope.

(** The states a program can get to: it makes byte slices, stores bytes, makes
    hash objects and calls them, in any order, with any slices of memory it was
    ever given. *)
Inductive reachable : world -> view -> Prop :=
| started : reachable start nothing
| went_on w v u w' a : reachable w v -> legal can_take (cells (hp w)) v u -> step w u = Ret (w', a) ->
    reachable w' (after (cells (hp w)) v u a).

Lemma reachable_Inv w v : reachable w v -> Inv w v.
Proof.
  induction 1 as [|w v u w' a _ IH Hl E]; [apply Inv_start|].
  destruct (step_ok w v u IH Hl) as (w1 & a1 & E1 & _ & I1). rewrite E in E1. injection E1 as <- <-. exact I1.
Qed.

(** Every operation returns and keeps what Go's documentation promises: Write
    takes all of p, does not change it and does not keep it; Sum appends the
    digest of what was written, in place if and only if there is room, in new
    memory otherwise, and changes nothing else; other objects do not notice. *)
Theorem C85_memory_contract : forall w v u, reachable w v -> legal can_take (cells (hp w)) v u ->
  exists w' a, step w u = Ret (w', a) /\ promised digest_of (cells (hp w)) v u a (cells (hp w')).
Proof.
  intros w v u R Hl. destruct (step_ok w v u (reachable_Inv w v R) Hl) as (w' & a & E & P & _). exists w', a. auto.
Qed.

(** For instance: whatever the program stores in its buffer after a Write, the
    digest is that of the bytes which were there. *)
Theorem C85_write_takes_a_copy : forall w v i k ws p j x inp room w1 a1 w2 a2, reachable w v ->
  nth_error (hashes v) i = Some (k, ws) -> has v p -> has v inp -> can_take k ws (bytes_in (cells (hp w)) p) ->
  (j < blen p)%nat -> x < 256 -> step w (HashUse.Write i p) = Ret (w1, a1) -> step w1 (Store p j x) = Ret (w2, a2) ->
  exists w3 s, step w2 (Sum i inp room) = Ret (w3, ASlice s)
    /\ bytes_in (cells (hp w3)) s = bytes_in (cells (hp w2)) inp ++ digest_of k (ws ++ [bytes_in (cells (hp w)) p]).
Proof.
  intros w v i k ws p j x inp room w1 a1 w2 a2 R Eh Hp Hi Ht Hj Hx E1 E2.
  assert (L1 : legal can_take (cells (hp w)) v (HashUse.Write i p)) by (split; [exact Hp|exists k, ws; auto]).
  pose proof (went_on _ _ _ _ _ R L1 E1) as R1.
  destruct (C85_memory_contract _ _ _ R L1) as (w1' & a1' & E1' & P1 & _). rewrite E1 in E1'. injection E1' as <- <-. subst a1.
  assert (L2 : legal can_take (cells (hp w1)) (after (cells (hp w)) v (HashUse.Write i p) (AWrote (blen p))) (Store p j x)) by (repeat split; assumption || apply Hp).
  pose proof (went_on _ _ _ _ _ R1 L2 E2) as R2.
  destruct (C85_memory_contract _ _ _ R1 L2) as (w2' & a2' & E2' & P2 & _). rewrite E2 in E2'. injection E2' as <- <-. subst a2.
  set (v2 := after _ _ (Store p j x) _) in R2.
  assert (H2 : nth_error (hashes v2) i = Some (k, ws ++ [bytes_in (cells (hp w)) p])).
  { unfold v2, after. cbn [hashes]. unfold with_writes. rewrite Eh, nth_replace, Nat.eqb_refl, Eh. reflexivity. }
  assert (L3 : legal can_take (cells (hp w2)) v2 (Sum i inp room)) by (split; [exact Hi|eexists _, _; exact H2]).
  destruct (C85_memory_contract _ _ _ R2 L3) as (w3 & a3 & E3 & P3). cbn [promised] in P3.
  destruct (P3 _ _ H2) as (s & -> & B & _). exists w3, s. split; [exact E3|exact B].
Qed.

(** A program that meets the hypotheses: a BCC and a RIPEMD-160 object, a slice
    of two bytes with capacity four, written to both, overwritten, then the sum
    of the BCC into the same array, in place: the digest 1 lxor 2 = 3 of the old
    bytes lands in the third byte; then once more, with no capacity left in the
    window, in new memory. *)
Definition a_program : list use :=
  [ New KBcc; New KRipemd160; Make 2 4; Store (mkB 64 2 4) 0 1; Store (mkB 64 2 4) 1 2;
    HashUse.Write 0 (mkB 64 2 4); HashUse.Write 1 (mkB 64 2 4); Store (mkB 64 2 4) 0 9; Sum 0 (mkB 64 2 4) 0; Sum 0 (mkB 64 3 3) 0 ].
Fixpoint goes (w : world) (v : view) (us : list use) : outcome (world * view * list answer) :=
  match us with
  | [] => Ret (w, v, [])
  | u :: us =>
      let! (w', a) := step w u in
      let! (w2, v2, r) := goes w' (after (cells (hp w)) v u a) us in
      Ret (w2, v2, a :: r)
  end.
Example a_program_runs :
  match goes start nothing a_program with
  | Ret (w, v, r) => r = [AHash 0; AHash 1; ASlice (mkB 64 2 4); ADone; ADone; AWrote 2; AWrote 2; ADone; ASlice (mkB 64 3 4); ASlice (mkB 70 4 4)]
      /\ hashes v = [(KBcc, [[1; 2]]); (KRipemd160, [[1; 2]])]
      /\ bytes_in (cells (hp w)) (mkB 64 3 4) = [9; 2; 3] /\ bytes_in (cells (hp w)) (mkB 70 4 4) = [9; 2; 3; 3]
  | _ => False
  end.
Proof. vm_compute. repeat split. Qed.

Lemma goes_reachable us : forall w v w' v' r, reachable w v -> goes w v us = Ret (w', v', r) ->
  (forall n w1 v1 r1 u, goes w v (firstn n us) = Ret (w1, v1, r1) -> nth_error us n = Some u -> legal can_take (cells (hp w1)) v1 u) ->
  reachable w' v'.
Proof.
  induction us as [|u us IH]; intros w v w' v' r R E L; cbn [goes] in E; [injection E as <- <- _; exact R|].
  destruct (step w u) as [[w1 a]| |] eqn:Es; cbn [bind] in E; try discriminate.
  destruct (goes w1 _ us) as [[[w2 v2] r2]| |] eqn:Eg; cbn [bind] in E; try discriminate. injection E as <- <- _.
  apply (IH w1 (after (cells (hp w)) v u a) w2 v2 r2); [|exact Eg|].
  - apply (went_on w v u w1 a R); [|exact Es]. apply (L 0%nat w v [] u); reflexivity.
  - intros n w3 v3 r3 u3 E3 Eu. apply (L (S n) w3 v3 (a :: r3) u3); [|exact Eu]. cbn [firstn goes]. rewrite Es. cbn [bind]. rewrite E3. reflexivity.
Qed.
Example a_program_reachable : exists w v r, goes start nothing a_program = Ret (w, v, r) /\ reachable w v.
Proof.
  destruct (goes start nothing a_program) as [[[w v] r]| |] eqn:E; [|pose proof a_program_runs as X; rewrite E in X; contradiction..].
  exists w, v, r. split; [reflexivity|]. apply (goes_reachable a_program _ _ _ _ _ started E).
  intros n w1 v1 r1 u E1 Eu.
  do 10 (destruct n as [|n]; [cbn [firstn a_program nth_error] in E1, Eu; injection Eu as <-;
    vm_compute in E1; injection E1 as <- <- <-; cbn [legal]; unfold has, covers; cbn [at_ blen bcap hashes owned];
    repeat split; try lia; try (intros a Ha; cbn; lia); try (eexists _, _; split; reflexivity)|]).
  destruct n; discriminate Eu.
Qed.

Print Assumptions C85_memory_contract.
Print Assumptions C85_write_takes_a_copy.
