(** Listings of the trie: order, disjointness, coverage, values. *)
From Verif Require Import Base.Go Base.GoNet Model.Net Spec.NetSpec Proofs.NetTree.
From Coq Require Import Sorted Permutation.
Local Open Scope N_scope.

(** ** Sizes and bases *)

(** Prefix length of the blocks of height k. *)
Definition pre (k : nat) : N := 32 - N.of_nat k.
Notation pw k := (2 ^ N.of_nat k).

Lemma size_pre k : (k <= 32)%nat -> size (pre k) = pw k.
Proof. intros H. unfold size, pre. f_equal. lia. Qed.
Lemma size_pos q : 0 < size q.
Proof. unfold size. apply N.neq_0_lt_0, N.pow_nonzero. lia. Qed.
Lemma pw_pos k : 0 < pw k.
Proof. apply N.neq_0_lt_0, N.pow_nonzero. lia. Qed.
Lemma pw_S k : pw (S k) = 2 * pw k.
Proof. rewrite Nat2N.inj_succ, N.pow_succ_r'. reflexivity. Qed.
Lemma size_step q : 0 < q -> q <= 32 -> size (q - 1) = 2 * size q.
Proof.
  intros H L. unfold size. replace (32 - (q - 1)) with (N.succ (32 - q)) by lia.
  apply N.pow_succ_r'.
Qed.
Lemma pw_mono j k : (j <= k)%nat -> pw j <= pw k.
Proof. intros H. apply N.pow_le_mono_r; lia. Qed.
Lemma size_as_pw q : q <= 32 -> exists j, (j <= 32)%nat /\ q = pre j /\ size q = pw j.
Proof.
  intros H. exists (N.to_nat (32 - q)). split; [lia|]. split; [unfold pre; lia|].
  unfold size. f_equal. lia.
Qed.

Lemma div_pow_dvd a b x : a <= b -> x mod 2 ^ b = 0 -> x mod 2 ^ a = 0.
Proof.
  intros H E. apply N.mod_divide in E; [|apply N.pow_nonzero; lia]. destruct E as [c ->].
  apply N.mod_divide; [apply N.pow_nonzero; lia|]. exists (c * 2 ^ (b - a)).
  rewrite <- N.mul_assoc, <- N.pow_add_r. f_equal. f_equal. lia.
Qed.

Lemma aligned_range s b x : 0 < s -> b mod s = 0 -> x / s = b / s <-> b <= x < b + s.
Proof.
  intros Hs E. assert (Eb : b = s * (b / s)) by (rewrite (N.div_mod b s) at 1; lia).
  split.
  - intros H. rewrite <- H in Eb. pose proof (N.div_mod x s ltac:(lia)) as D.
    pose proof (N.mod_lt x s ltac:(lia)) as M. revert Eb D M.
    generalize (s * (x / s)), (x mod s). intros. lia.
  - intros H. symmetry. apply N.div_unique with (x - b); lia.
Qed.
Lemma base_range s x : 0 < s -> x / s * s <= x < x / s * s + s.
Proof.
  intros Hs. pose proof (N.div_mod x s ltac:(lia)) as D. pose proof (N.mod_lt x s ltac:(lia)) as M.
  rewrite (N.mul_comm (x / s) s). revert D M. generalize (s * (x / s)), (x mod s). intros. lia.
Qed.
Lemma base_unique s b x : 0 < s -> b mod s = 0 -> b <= x < b + s -> x / s * s = b.
Proof.
  intros Hs E H. apply aligned_range in H; auto. rewrite H.
  rewrite (N.div_mod b s) at 2 by lia. lia.
Qed.
Lemma base_mod s x : 0 < s -> (x / s * s) mod s = 0.
Proof. intros. apply N.mod_mul. lia. Qed.

Lemma bit_half k p x : p mod pw (S k) = 0 -> p <= x < p + pw (S k) ->
  N.testbit x (N.of_nat k) = (p + pw k <=? x).
Proof.
  intros E H. rewrite N.testbit_eqb. rewrite pw_S in *. pose proof (pw_pos k).
  assert (Ep : p = 2 * pw k * (p / (2 * pw k))) by (rewrite (N.div_mod p (2 * pw k)) at 1; lia).
  set (c := p / (2 * pw k)) in *. clearbody c. subst p.
  destruct (N.leb_spec (2 * pw k * c + pw k) x) as [L|L].
  - replace (x / pw k) with (1 + c * 2); [rewrite N.mod_add by lia; reflexivity|].
    apply N.div_unique with (x - (2 * pw k * c + pw k)); lia.
  - replace (x / pw k) with (0 + c * 2); [rewrite N.mod_add by lia; reflexivity|].
    apply N.div_unique with (x - 2 * pw k * c); lia.
Qed.

Lemma half_aligned k p : p mod pw (S k) = 0 -> p mod pw k = 0 /\ (p + pw k) mod pw k = 0.
Proof.
  intros E. assert (E1 : p mod pw k = 0) by (apply (div_pow_dvd _ (N.of_nat (S k))); [lia|exact E]).
  split; [exact E1|]. pose proof (pw_pos k).
  replace (p + pw k) with (p + 1 * pw k) by lia. rewrite N.mod_add by lia. exact E1.
Qed.

Section Values.
Context {V : Type} (merge : V -> V -> V).
Implicit Types t l r : node V.

(** ** The listing of a node of height k at base p *)

Fixpoint lst (k : nat) t (p : N) {struct t} : list (N * N * V) :=
  match t with
  | NNone => []
  | NAll v => [(p, pre k, v)]
  | NTree l r =>
      match k with
      | O => []
      | S k' => lst k' l p ++ lst k' r (p + pw k')
      end
  end.

Lemma sub8_31 k : (k <= 32)%nat -> sub8 31 (sub8 (N.of_nat k) 1) = pre k.
Proof.
  intros H. unfold sub8, u8, pre. destruct k as [|k]; [reflexivity|].
  replace (N.of_nat (S k) + 2 ^ 8 - 1) with (N.of_nat k + 1 * 2 ^ 8) by lia.
  rewrite N.mod_add by discriminate. rewrite (N.mod_small (N.of_nat k)) by (change (2 ^ 8) with 256; lia).
  replace (31 + 2 ^ 8 - N.of_nat k) with (31 - N.of_nat k + 1 * 2 ^ 8) by (change (2 ^ 8) with 256; lia).
  rewrite N.mod_add by discriminate. rewrite N.mod_small by (change (2 ^ 8) with 256; lia). lia.
Qed.

Lemma lor_low p k : p mod pw (S k) = 0 -> N.lor p (pw k) = p + pw k.
Proof.
  intros E. rewrite <- N.lxor_lor.
  - symmetry. apply N.add_nocarry_lxor. apply N.bits_inj_0. intros i.
    rewrite N.land_spec, N.pow2_bits_eqb. destruct (N.eqb_spec (N.of_nat k) i) as [<-|]; [|apply Bool.andb_false_r].
    rewrite (bit_half k p p E) by (rewrite pw_S; pose proof (pw_pos k); lia).
    rewrite (proj2 (N.leb_gt _ _)) by (pose proof (pw_pos k); lia). reflexivity.
  - apply N.bits_inj_0. intros i.
    rewrite N.land_spec, N.pow2_bits_eqb. destruct (N.eqb_spec (N.of_nat k) i) as [<-|]; [|apply Bool.andb_false_r].
    rewrite (bit_half k p p E) by (rewrite pw_S; pose proof (pw_pos k); lia).
    rewrite (proj2 (N.leb_gt _ _)) by (pose proof (pw_pos k); lia). reflexivity.
Qed.

Lemma each_lst k : forall t p, (k <= 32)%nat -> normal k t -> p mod pw k = 0 ->
  each t p (sub8 (N.of_nat k) 1) = lst k t p.
Proof.
  induction k as [|k IH]; intros t p Hk H E; destruct t as [|v|l r]; cbn [each lst].
  - reflexivity.
  - rewrite sub8_31 by exact Hk. reflexivity.
  - destruct H.
  - reflexivity.
  - rewrite sub8_31 by exact Hk. reflexivity.
  - destruct H as (Hl & Hr & _). destruct (half_aligned k p E) as [E1 E2].
    assert (M : sub8 (N.of_nat (S k)) 1 = N.of_nat k).
    { unfold sub8, u8. replace (N.of_nat (S k) + 2 ^ 8 - 1) with (N.of_nat k + 1 * 2 ^ 8) by lia.
      rewrite N.mod_add by discriminate. apply N.mod_small. change (2 ^ 8) with 256. lia. }
    rewrite M. f_equal; [apply IH; auto; lia|].
    assert (S1 : shl32 1 (N.of_nat k) = pw k).
    { unfold shl32, u32. rewrite N.shiftl_1_l. apply N.mod_small.
      apply N.pow_lt_mono_r; lia. }
    rewrite S1, lor_low by exact E. apply IH; auto; lia.
Qed.

(** ** Entries *)

Definition entry_ok (k : nat) (p : N) (x : N * N * V) : Prop :=
  let '(u, q, _) := x in
  pre k <= q <= 32 /\ u mod size q = 0 /\ p <= u /\ u + size q <= p + pw k.

Lemma lst_ok k : forall t p, (k <= 32)%nat -> p mod pw k = 0 -> Forall (entry_ok k p) (lst k t p).
Proof.
  induction k as [|k IH]; intros t p Hk E; destruct t as [|v|l r]; cbn [lst]; auto.
  - constructor; [|constructor]. unfold entry_ok. rewrite (size_pre 0) by exact Hk. unfold pre.
    repeat split; try lia; exact E.
  - constructor; [|constructor]. unfold entry_ok. rewrite size_pre by exact Hk. unfold pre.
    repeat split; try lia; exact E.
  - destruct (half_aligned k p E) as [E1 E2]. pose proof (pw_pos k).
    apply Forall_app. split.
    + eapply Forall_impl; [|apply IH; [lia|exact E1]]. intros [[u q] v] H1. unfold entry_ok in *.
      rewrite pw_S. unfold pre in *. lia.
    + eapply Forall_impl; [|apply IH; [lia|exact E2]]. intros [[u q] v] H1. unfold entry_ok in *.
      rewrite pw_S. unfold pre in *. lia.
Qed.

Lemma lst_entry k t p u q v : (k <= 32)%nat -> p mod pw k = 0 -> In (u, q, v) (lst k t p) ->
  pre k <= q <= 32 /\ u mod size q = 0 /\ p <= u /\ u + size q <= p + pw k.
Proof.
  intros Hk E H. pose proof (lst_ok k t p Hk E) as F. rewrite Forall_forall in F.
  apply (F _ H).
Qed.

Lemma lst_top k t p u v : (k <= 32)%nat -> normal k t -> p mod pw k = 0 ->
  In (u, pre k, v) (lst k t p) -> t = NAll v /\ u = p.
Proof.
  intros Hk N E H. destruct t as [|w|l r]; cbn [lst] in H.
  - destruct H.
  - destruct H as [H|[]]. inversion H. auto.
  - destruct k as [|k]; [destruct H|]. exfalso. destruct (half_aligned k p E) as [E1 E2].
    apply in_app_or in H.
    destruct H as [H|H]; apply lst_entry in H; try lia; auto; unfold pre in H; lia.
Qed.

(** ** Order *)

Definition before (x y : N * N * V) : Prop :=
  let '(u, q, _) := x in let '(u', _, _) := y in u + size q <= u'.

Lemma sorted_app {A} (R : A -> A -> Prop) (l1 l2 : list A) : StronglySorted R l1 -> StronglySorted R l2 ->
  (forall x y, In x l1 -> In y l2 -> R x y) -> StronglySorted R (l1 ++ l2).
Proof.
  induction l1 as [|a l1 IH]; cbn [app]; intros H1 H2 H; [exact H2|].
  inversion H1; subst. constructor.
  - apply IH; auto. intros x y Hx Hy. apply H; auto. right. exact Hx.
  - apply Forall_app. split; [assumption|]. apply Forall_forall. intros y Hy. apply H; auto. left. reflexivity.
Qed.

Lemma lst_sorted k : forall t p, (k <= 32)%nat -> p mod pw k = 0 -> StronglySorted before (lst k t p).
Proof.
  induction k as [|k IH]; intros t p Hk E; destruct t as [|v|l r]; cbn [lst];
    try (constructor; auto; constructor); auto; try (constructor; fail).
  destruct (half_aligned k p E) as [E1 E2].
  apply sorted_app; [apply IH; auto; lia|apply IH; auto; lia|].
  intros [[u q] v] [[u' q'] v'] Hx Hy. unfold before.
  apply lst_entry in Hx; auto; [|lia]. apply lst_entry in Hy; auto; [|lia]. lia.
Qed.

(** ** No two halves *)

Lemma lst_no_halves k : forall t p u q v u' q' v', (k <= 32)%nat -> normal k t -> p mod pw k = 0 ->
  In (u, q, v) (lst k t p) -> In (u', q', v') (lst k t p) -> ~ halves u q u' q'.
Proof.
  induction k as [|k IH]; intros t p u q v u' q' v' Hk N E H1 H2 (Eq & Hq & Hm & Hu).
  - destruct t as [|w|l r]; cbn [lst] in *; try contradiction.
    destruct H1 as [H1|[]], H2 as [H2|[]]. inversion H1; inversion H2; subst.
    pose proof (size_pos (pre 0)). lia.
  - destruct t as [|w|l r]; cbn [lst] in *; try contradiction.
    { destruct H1 as [H1|[]], H2 as [H2|[]]. inversion H1; inversion H2; subst.
      pose proof (size_pos (pre (S k))). lia. }
    destruct N as (Nl & Nr & Nn & _). destruct (half_aligned k p E) as [E1 E2].
    apply in_app_or in H1, H2. destruct H1 as [H1|H1], H2 as [H2|H2].
    + eapply (IH l p u q v u' q' v'); eauto; [lia|]. repeat split; auto.
    + pose proof H1 as H1'. pose proof H2 as H2'.
      apply lst_entry in H1'; auto; [|lia]. apply lst_entry in H2'; auto; [|lia]. subst q'.
      destruct (size_as_pw q) as (j & Hj & Ej & Sj); [lia|].
      assert (Hjk : (j <= k)%nat) by (unfold pre in *; lia).
      rewrite size_step in Hm by lia. rewrite Sj in *.
      assert (Eu : u + pw j = p + pw k) by lia.
      destruct (Nat.eq_dec j k) as [->|Hne].
      * assert (q = pre k) as -> by exact Ej.
        apply lst_top in H1; auto; try lia. apply lst_top in H2; auto; try lia.
        destruct H1 as [-> _], H2 as [-> _]. discriminate.
      * (* 2^(j+1) divides u and p + 2^k but not their difference 2^j *)
        assert (D1 : (p + pw k) mod (2 * pw j) = 0).
        { rewrite <- pw_S. apply (div_pow_dvd _ (N.of_nat k)); [lia|exact E2]. }
        rewrite <- Eu in D1. pose proof (pw_pos j).
        rewrite N.add_mod, Hm, N.add_0_l, N.mod_mod in D1 by lia.
        rewrite N.mod_small in D1 by lia. lia.
    + apply lst_entry in H1; auto; [|lia]. apply lst_entry in H2; auto; [|lia].
      pose proof (size_pos q). pose proof (size_pos q'). subst q'. lia.
    + eapply (IH r (p + pw k) u q v u' q' v'); eauto; [lia|]. repeat split; auto.
Qed.

(** ** Coverage *)

Lemma lst_mem k : forall t p x, (k <= 32)%nat -> p mod pw k = 0 -> p <= x < p + pw k ->
  mem k t x = true <-> exists u q v, In (u, q, v) (lst k t p) /\ in_net u q x.
Proof.
  induction k as [|k IH]; intros t p x Hk E Hx; destruct t as [|v|l r]; cbn [mem lst].
  - split; [discriminate|]. intros (u & q & v & [] & _).
  - split; [|reflexivity]. intros _. exists p, (pre 0), v. split; [left; reflexivity|].
    unfold in_net. rewrite size_pre by exact Hk. apply aligned_range; auto. apply pw_pos.
  - split; [discriminate|]. intros (u & q & v & [] & _).
  - split; [discriminate|]. intros (u & q & v & [] & _).
  - split; [|reflexivity]. intros _. exists p, (pre (S k)), v. split; [left; reflexivity|].
    unfold in_net. rewrite size_pre by exact Hk. apply aligned_range; auto. apply pw_pos.
  - rewrite (bit_half k p x E Hx). destruct (half_aligned k p E) as [E1 E2]. rewrite pw_S in Hx.
    assert (Out : forall t0 p0 u q v, p0 mod pw k = 0 -> In (u, q, v) (lst k t0 p0) -> in_net u q x ->
      p0 <= x < p0 + pw k).
    { intros t0 p0 u q v E0 H I. apply lst_entry in H; auto; [|lia]. unfold in_net in I.
      apply aligned_range in I; [|apply size_pos|tauto]. lia. }
    destruct (N.leb_spec (p + pw k) x) as [L|L].
    + rewrite (IH r (p + pw k)) by (auto; lia). split; intros (u & q & v & H & I); exists u, q, v; split; auto.
      * apply in_or_app. auto.
      * apply in_app_or in H. destruct H as [H|H]; [|exact H]. exfalso. specialize (Out _ _ _ _ _ E1 H I). lia.
    + rewrite (IH l p) by (auto; lia). split; intros (u & q & v & H & I); exists u, q, v; split; auto.
      * apply in_or_app. auto.
      * apply in_app_or in H. destruct H as [H|H]; [exact H|]. exfalso. specialize (Out _ _ _ _ _ E2 H I). lia.
Qed.

Lemma lst_length k : forall t p, normal k t -> length (lst k t p) = count t.
Proof.
  induction k as [|k IH]; intros t p H; destruct t; cbn [lst count]; auto; [destruct H|].
  destruct H as (Hl & Hr & _). rewrite app_length, !IH by assumption. reflexivity.
Qed.
Lemma lst_values k : forall t p, normal k t -> map snd (lst k t p) = values t.
Proof.
  induction k as [|k IH]; intros t p H; destruct t; cbn [lst values]; auto; [destruct H|].
  destruct H as (Hl & Hr & _). rewrite map_app, !IH by assumption. reflexivity.
Qed.
End Values.

Lemma lst_shape {V} k : forall (t1 t2 : node V) p, shape t1 = shape t2 ->
  map fst (lst k t1 p) = map fst (lst k t2 p).
Proof.
  induction k as [|k IH]; intros t1 t2 p H; destruct t1, t2; try discriminate; try reflexivity.
  cbn [shape] in H. injection H as H1 H2. cbn [lst]. rewrite !map_app. f_equal; apply IH; assumption.
Qed.
