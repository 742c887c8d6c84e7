(** The binary trie of package net. *)
From Verif Require Import Base.Go Base.GoNet Model.Net Spec.NetSpec.
Local Open Scope N_scope.

(** ** Bits *)

Lemma odd_bit pos k : (N.land (N.shiftr pos k) 1 =? 1) = N.testbit pos k.
Proof.
  change 1 with (N.ones 1) at 1. rewrite N.land_ones. change (2 ^ 1) with 2.
  rewrite <- N.bit0_mod, N.shiftr_spec, N.add_0_l by apply N.le_0_l.
  destruct (N.testbit pos k); reflexivity.
Qed.

Definition low_eq (k : nat) (x y : N) : Prop :=
  forall i, (i < k)%nat -> N.testbit x (N.of_nat i) = N.testbit y (N.of_nat i).

Lemma low_eq_refl k x : low_eq k x x.
Proof. intros i _. reflexivity. Qed.
Lemma low_eq_S k x y : low_eq (S k) x y <->
  N.testbit x (N.of_nat k) = N.testbit y (N.of_nat k) /\ low_eq k x y.
Proof.
  split.
  - intros H. split; [apply H; lia|]. intros i Hi. apply H. lia.
  - intros [H1 H2] i Hi. destruct (Nat.eq_dec i k) as [->|]; [exact H1|apply H2; lia].
Qed.

(** y with bit k set to b *)
Definition put_bit (b : bool) (k : nat) (y : N) : N :=
  if b then N.setbit y (N.of_nat k) else N.clearbit y (N.of_nat k).
Lemma put_bit_top b k y : N.testbit (put_bit b k y) (N.of_nat k) = b.
Proof. destruct b; cbn [put_bit]; [apply N.setbit_eq|apply N.clearbit_eq]. Qed.
Lemma put_bit_low b k y : low_eq k (put_bit b k y) y.
Proof.
  intros i Hi. destruct b; cbn [put_bit]; [apply N.setbit_neq|apply N.clearbit_neq]; lia.
Qed.

(** ** add by cases *)

Section Merge.
Context {V : Type} (merge : V -> V -> V).
Implicit Types t l r : node V.

Definition is_all t : bool := match t with NAll _ => true | _ => false end.
Definition left t := match t with NTree l _ => l | _ => NNone end.
Definition right t := match t with NTree _ r => r | _ => NNone end.
Definition fork l r : node V :=
  match l, r with NAll a, NAll b => NAll (merge a b) | _, _ => NTree l r end.

Lemma add_all v pos k e w : add merge (NAll v) pos k e w = NAll v.
Proof. destruct k; reflexivity. Qed.
Lemma add_top t pos k e w : is_all t = false -> N.of_nat k <= e -> add merge t pos k e w = NAll w.
Proof.
  intros H L. apply N.leb_le in L. destruct t; try discriminate; destruct k; cbn [add]; rewrite L; reflexivity.
Qed.
Lemma add_step t pos k e w : is_all t = false -> e <= N.of_nat k ->
  add merge t pos (S k) e w =
  if N.testbit pos (N.of_nat k)
  then fork (left t) (add merge (right t) pos k e w)
  else fork (add merge (left t) pos k e w) (right t).
Proof.
  intros H L. assert (E : (N.of_nat (S k) <=? e) = false) by (apply N.leb_gt; lia).
  rewrite <- odd_bit. destruct t; try discriminate; cbn [add]; rewrite E; cbn [left right];
    destruct (N.land (N.shiftr pos (N.of_nat k)) 1 =? 1); reflexivity.
Qed.

(** ** Membership and the normal form *)

Fixpoint mem (k : nat) t (x : N) : bool :=
  match t with
  | NNone => false
  | NAll _ => true
  | NTree l r =>
      match k with
      | O => false
      | S k' => if N.testbit x (N.of_nat k') then mem k' r x else mem k' l x
      end
  end.

(** Nodes fork above height 0 only, never into two full or two empty halves. *)
Fixpoint normal (k : nat) t : Prop :=
  match t with
  | NTree l r =>
      match k with
      | O => False
      | S k' => normal k' l /\ normal k' r
                /\ (is_all l && is_all r)%bool = false /\ ~ (l = NNone /\ r = NNone)
      end
  | _ => True
  end.

Lemma mem_ext k : forall t x y, low_eq k x y -> mem k t x = mem k t y.
Proof.
  induction k as [|k IH]; intros t x y H; destruct t; try reflexivity. cbn [mem].
  apply low_eq_S in H. destruct H as [-> H]. destruct (N.testbit y (N.of_nat k)); apply IH, H.
Qed.

Lemma mem_fork k l r x :
  mem (S k) (fork l r) x = if N.testbit x (N.of_nat k) then mem k r x else mem k l x.
Proof.
  unfold fork. destruct l; try reflexivity. destruct r; try reflexivity.
  destruct k; cbn [mem]; destruct (N.testbit x _); reflexivity.
Qed.
Lemma mem_children k t x : is_all t = false ->
  mem (S k) t x = if N.testbit x (N.of_nat k) then mem k (right t) x else mem k (left t) x.
Proof.
  intros H. destruct t; try discriminate; cbn [mem left right].
  - destruct k; cbn [mem]; destruct (N.testbit x _); reflexivity.
  - reflexivity.
Qed.

Lemma normal_children k t : normal (S k) t -> normal k (left t) /\ normal k (right t).
Proof. destruct t; cbn [normal left right]; [destruct k; cbn; auto|destruct k; cbn; auto|tauto]. Qed.

Lemma normal_fork k l r : normal k l -> normal k r -> ~ (l = NNone /\ r = NNone) -> normal (S k) (fork l r).
Proof.
  intros Hl Hr Hn. unfold fork. destruct l; [|destruct r|]; cbn [normal]; auto.
Qed.

Lemma add_not_none t pos k e w : add merge t pos k e w <> NNone.
Proof.
  destruct k as [|k]; destruct t; cbn [add]; try discriminate;
    try (destruct (_ <=? _); discriminate);
    (destruct (_ <=? _); [discriminate|]); destruct (_ =? 1);
    repeat match goal with |- context [match ?x with _ => _ end] => destruct x end; discriminate.
Qed.

Lemma add_normal k : forall t pos e w, normal k t -> normal k (add merge t pos k e w).
Proof.
  induction k as [|k IH]; intros t pos e w H.
  - destruct (is_all t) eqn:A; [destruct t; try discriminate; rewrite add_all; exact I|].
    rewrite add_top by (auto; lia). exact I.
  - destruct (is_all t) eqn:A; [destruct t; try discriminate; rewrite add_all; exact I|].
    destruct (N.le_gt_cases (N.of_nat (S k)) e) as [L|L]; [rewrite add_top by auto; exact I|].
    rewrite add_step by (auto; lia). apply normal_children in H. destruct H as [Hl Hr].
    destruct (N.testbit pos (N.of_nat k)); apply normal_fork; auto;
      intros [E1 E2]; eapply add_not_none; eassumption.
Qed.

(** The addresses of the block of [pos] of 2^e addresses, as far as the low k
    bits tell. *)
Fixpoint agree (k : nat) (e : N) (p x : N) : bool :=
  match k with
  | O => true
  | S k' => if N.of_nat k <=? e then true
            else (Bool.eqb (N.testbit p (N.of_nat k')) (N.testbit x (N.of_nat k')) && agree k' e p x)%bool
  end.

Lemma agree_top k e p x : N.of_nat k <= e -> agree k e p x = true.
Proof. intros H. destruct k; cbn [agree]; [reflexivity|]. apply N.leb_le in H. rewrite H. reflexivity. Qed.
Lemma agree_step k e p x : e <= N.of_nat k -> agree (S k) e p x =
  (Bool.eqb (N.testbit p (N.of_nat k)) (N.testbit x (N.of_nat k)) && agree k e p x)%bool.
Proof. intros H. cbn [agree]. rewrite (proj2 (N.leb_gt _ _)) by lia. reflexivity. Qed.

Lemma agree_bits k e p x : agree k e p x = true <->
  forall i, (i < k)%nat -> e <= N.of_nat i -> N.testbit p (N.of_nat i) = N.testbit x (N.of_nat i).
Proof.
  induction k as [|k IH].
  - split; [intros _ i Hi; lia|reflexivity].
  - destruct (N.le_gt_cases (N.of_nat (S k)) e) as [L|L].
    + rewrite agree_top by exact L. split; [intros _ i Hi; lia|reflexivity].
    + rewrite agree_step by lia. rewrite Bool.andb_true_iff, Bool.eqb_true_iff, IH. split.
      * intros [H1 H2] i Hi Le. destruct (Nat.eq_dec i k) as [->|]; [exact H1|apply H2; auto; lia].
      * intros H. split; [apply H; lia|]. intros i Hi. apply H. lia.
Qed.

Lemma agree_ext k e p x y : low_eq k x y -> agree k e p x = agree k e p y.
Proof.
  intros H. apply Bool.eq_true_iff_eq. rewrite !agree_bits.
  split; intros G i Hi Le; [rewrite <- H by exact Hi|rewrite H by exact Hi]; apply G; assumption.
Qed.

Lemma agree_div k e p x : p < 2 ^ N.of_nat k -> x < 2 ^ N.of_nat k ->
  agree k e p x = true <-> p / 2 ^ e = x / 2 ^ e.
Proof.
  intros Hp Hx. rewrite agree_bits, <- !N.shiftr_div_pow2. split.
  - intros H. apply N.bits_inj. intros j. rewrite !N.shiftr_spec by apply N.le_0_l.
    destruct (N.lt_ge_cases (j + e) (N.of_nat k)) as [L|L].
    + rewrite <- (N2Nat.id (j + e)). apply H; lia.
    + assert (Hhigh : forall y, y < 2 ^ N.of_nat k -> N.testbit y (j + e) = false).
      { intros y Hy. destruct (N.eq_0_gt_0_cases y) as [->|Hpos]; [apply N.bits_0|].
        apply N.bits_above_log2. apply N.log2_lt_pow2 in Hy; lia. }
      rewrite !Hhigh by assumption. reflexivity.
  - intros H i Hi Le. apply (f_equal (fun z => N.testbit z (N.of_nat i - e))) in H.
    rewrite !N.shiftr_spec in H by apply N.le_0_l.
    replace (N.of_nat i - e + e) with (N.of_nat i) in H by lia. exact H.
Qed.

Lemma add_mem k : forall t pos e w x,
  mem k (add merge t pos k e w) x = (mem k t x || agree k e pos x)%bool.
Proof.
  induction k as [|k IH]; intros t pos e w x.
  - destruct (is_all t) eqn:A; [destruct t; try discriminate; reflexivity|].
    rewrite add_top by (auto; lia). cbn. rewrite Bool.orb_true_r. reflexivity.
  - destruct (is_all t) eqn:A; [destruct t; try discriminate; rewrite add_all; reflexivity|].
    destruct (N.le_gt_cases (N.of_nat (S k)) e) as [L|L].
    + rewrite add_top, agree_top by auto. cbn. rewrite Bool.orb_true_r. reflexivity.
    + rewrite add_step, agree_step by (auto; lia). rewrite (mem_children k t x A).
      destruct (N.testbit pos (N.of_nat k)); rewrite mem_fork;
        destruct (N.testbit x (N.of_nat k)); cbn [Bool.eqb andb]; rewrite ?IH, ?Bool.orb_false_r; reflexivity.
Qed.

Lemma full_normal k : forall t, normal k t -> (forall x, mem k t x = true) -> is_all t = true.
Proof.
  induction k as [|k IH]; intros t H F; destruct t as [|v|l r]; try reflexivity.
  - specialize (F 0). discriminate.
  - destruct H.
  - specialize (F 0). discriminate.
  - destruct H as (Hl & Hr & Hn & _).
    assert (Al : is_all l = true).
    { apply IH; [exact Hl|]. intros x. rewrite <- (F (put_bit false k x)). cbn [mem].
      rewrite put_bit_top. apply mem_ext. intros i Hi. symmetry. apply put_bit_low, Hi. }
    assert (Ar : is_all r = true).
    { apply IH; [exact Hr|]. intros x. rewrite <- (F (put_bit true k x)). cbn [mem].
      rewrite put_bit_top. apply mem_ext. intros i Hi. symmetry. apply put_bit_low, Hi. }
    rewrite Al, Ar in Hn. discriminate.
Qed.

Lemma empty_normal k : forall t, normal k t -> (forall x, mem k t x = false) -> t = NNone.
Proof.
  induction k as [|k IH]; intros t H F; destruct t as [|v|l r]; try reflexivity.
  - specialize (F 0). discriminate.
  - destruct H.
  - specialize (F 0). discriminate.
  - destruct H as (Hl & Hr & _ & Hn). exfalso. apply Hn. split.
    + apply IH; [exact Hl|]. intros x. rewrite <- (F (put_bit false k x)). cbn [mem].
      rewrite put_bit_top. apply mem_ext. intros i Hi. symmetry. apply put_bit_low, Hi.
    + apply IH; [exact Hr|]. intros x. rewrite <- (F (put_bit true k x)). cbn [mem].
      rewrite put_bit_top. apply mem_ext. intros i Hi. symmetry. apply put_bit_low, Hi.
Qed.

(** ** The shape is determined by the set *)

Fixpoint shape {A} (t : node A) : node unit :=
  match t with NNone => NNone | NAll _ => NAll tt | NTree l r => NTree (shape l) (shape r) end.

Lemma shape_unique k : forall t1 t2, normal k t1 -> normal k t2 ->
  (forall x, mem k t1 x = mem k t2 x) -> shape t1 = shape t2.
Proof.
  induction k as [|k IH]; intros t1 t2 H1 H2 E.
  - destruct t1, t2; try reflexivity; try contradiction; specialize (E 0); discriminate.
  - assert (Half : forall (b : bool) (x : N), mem k (if b then right t1 else left t1) x = mem k (if b then right t2 else left t2) x
       \/ is_all t1 = true \/ is_all t2 = true).
    { intros b x. destruct (is_all t1) eqn:A1; auto. destruct (is_all t2) eqn:A2; auto. left.
      specialize (E (put_bit b k x)). rewrite !mem_children in E by assumption.
      rewrite put_bit_top in E. rewrite <- !(mem_ext k _ (put_bit b k x) x) by apply put_bit_low.
      destruct b; exact E. }
    destruct (is_all t1) eqn:A1.
    { assert (A2 : is_all t2 = true)
        by (apply (full_normal (S k)); [exact H2|]; intros x; rewrite <- E; destruct t1; try discriminate; reflexivity).
      destruct t1, t2; try discriminate. reflexivity. }
    destruct (is_all t2) eqn:A2.
    { assert (is_all t1 = true)
        by (apply (full_normal (S k)); [exact H1|]; intros x; rewrite E; destruct t2; try discriminate; reflexivity).
      congruence. }
    destruct t1 as [|v1|l1 r1]; [|discriminate|].
    { assert (t2 = NNone) as -> by (apply (empty_normal (S k)); [exact H2|]; intros x; rewrite <- E; reflexivity).
      reflexivity. }
    destruct t2 as [|v2|l2 r2]; [|discriminate|].
    { assert (X : NTree l1 r1 = NNone) by (apply (empty_normal (S k)); [exact H1|]; intros x; rewrite E; reflexivity).
      discriminate. }
    cbn [shape]. destruct (normal_children k _ H1), (normal_children k _ H2). cbn [left right] in *.
    f_equal; apply IH; auto; intros x.
    + destruct (Half false x) as [?|[?|?]]; auto; discriminate.
    + destruct (Half true x) as [?|[?|?]]; auto; discriminate.
Qed.

(** ** Adding what is there *)

Lemma add_present k : forall t pos e w, normal k t ->
  (forall x, agree k e pos x = true -> mem k t x = true) -> add merge t pos k e w = t.
Proof.
  induction k as [|k IH]; intros t pos e w H C.
  - destruct (is_all t) eqn:A; [destruct t; try discriminate; apply add_all|].
    exfalso. specialize (C 0 eq_refl). destruct t; discriminate.
  - destruct (is_all t) eqn:A; [destruct t; try discriminate; apply add_all|].
    destruct (N.le_gt_cases (N.of_nat (S k)) e) as [L|L].
    + exfalso. enough (is_all t = true) by congruence. apply (full_normal (S k)); [exact H|].
      intros x. apply C, agree_top, L.
    + rewrite add_step by (auto; lia). destruct (normal_children k t H) as [Hl Hr].
      assert (X : forall x, agree k e pos x = true ->
        mem k (if N.testbit pos (N.of_nat k) then right t else left t) x = true).
      { intros x Hx. specialize (C (put_bit (N.testbit pos (N.of_nat k)) k x)).
        rewrite agree_step, put_bit_top, Bool.eqb_reflx in C by lia. cbn [andb] in C.
        rewrite (agree_ext k e pos _ x (put_bit_low _ k x)) in C. specialize (C Hx).
        rewrite mem_children, put_bit_top in C by exact A.
        rewrite <- (mem_ext k _ _ x (put_bit_low (N.testbit pos (N.of_nat k)) k x)).
        destruct (N.testbit pos (N.of_nat k)); exact C. }
      assert (F : t <> NNone -> fork (left t) (right t) = t).
      { intros NN. destruct t as [|v|l r]; [contradiction|discriminate|]. cbn [left right].
        destruct H as (_ & _ & Hn & _). unfold fork. destruct l, r; try reflexivity. discriminate. }
      assert (NN : t <> NNone).
      { intros ->. assert (Y : agree k e pos pos = true) by (apply agree_bits; auto).
        specialize (X pos Y). cbn [left right] in X. destruct (N.testbit pos _), k; discriminate. }
      destruct (N.testbit pos (N.of_nat k)); rewrite IH by auto; apply F, NN.
Qed.

(** ** Number of blocks *)

Fixpoint count t : nat :=
  match t with NNone => 0 | NAll _ => 1 | NTree l r => count l + count r end.

Lemma filter_split {A} (f : A -> bool) (l : list A) :
  (length (filter f l) + length (filter (fun x => negb (f x)) l) = length l)%nat.
Proof. induction l as [|x l IH]; cbn [filter]; [reflexivity|]. destruct (f x); cbn [length negb]; lia. Qed.

Lemma existsb_filter {A} (f g : A -> bool) (l : list A) :
  existsb g (filter f l) = existsb (fun x => f x && g x)%bool l.
Proof.
  induction l as [|x l IH]; cbn [filter existsb]; [reflexivity|].
  destruct (f x); cbn [existsb andb]; rewrite IH; reflexivity.
Qed.
Lemma existsb_ext {A} (f g : A -> bool) (l : list A) : (forall x, In x l -> f x = g x) -> existsb f l = existsb g l.
Proof.
  induction l as [|x l IH]; cbn [existsb]; intros H; [reflexivity|].
  rewrite H by (left; reflexivity). rewrite IH; [reflexivity|]. intros y Hy. apply H. right. exact Hy.
Qed.

Lemma count_minimal k : forall t (L : list (N * N)), normal k t ->
  (forall x, mem k t x = existsb (fun b => agree k (snd b) (fst b) x) L) -> (count t <= length L)%nat.
Proof.
  induction k as [|k IH]; intros t L H E.
  - destruct t; cbn [count]; [lia| |contradiction]. destruct L; [specialize (E 0); discriminate|cbn; lia].
  - destruct (is_all t) eqn:A.
    { destruct t; try discriminate. cbn [count]. destruct L; [specialize (E 0); discriminate|cbn; lia]. }
    destruct t as [|v|l r]; [cbn [count]; lia|discriminate|].
    assert (S : forall b, In b L -> snd b <= N.of_nat k).
    { intros b Hb. destruct (N.le_gt_cases (snd b) (N.of_nat k)) as [?|G]; [assumption|exfalso].
      enough (is_all (NTree l r) = true) by discriminate. apply (full_normal (S k)); [exact H|].
      intros x. rewrite E. apply existsb_exists. exists b. split; [exact Hb|]. apply agree_top. lia. }
    set (f := fun b : N * N => N.testbit (fst b) (N.of_nat k)).
    destruct H as (Hl & Hr & _ & _). cbn [count].
    pose proof (filter_split f L) as FS.
    assert (Cr : (count r <= length (filter f L))%nat).
    { apply IH; [exact Hr|]. intros x. rewrite existsb_filter.
      specialize (E (put_bit true k x)). cbn [mem] in E. rewrite put_bit_top in E.
      rewrite (mem_ext k r _ x (put_bit_low true k x)) in E. rewrite E. apply existsb_ext.
      intros b Hb. rewrite agree_step by auto. rewrite put_bit_top. fold (f b).
      rewrite (agree_ext k _ _ _ x (put_bit_low true k x)). destruct (f b); reflexivity. }
    assert (Cl : (count l <= length (filter (fun b => negb (f b)) L))%nat).
    { apply IH; [exact Hl|]. intros x. rewrite existsb_filter.
      specialize (E (put_bit false k x)). cbn [mem] in E. rewrite put_bit_top in E.
      rewrite (mem_ext k l _ x (put_bit_low false k x)) in E. rewrite E. apply existsb_ext.
      intros b Hb. rewrite agree_step by auto. rewrite put_bit_top. fold (f b).
      rewrite (agree_ext k _ _ _ x (put_bit_low false k x)). destruct (f b); reflexivity. }
    lia.
Qed.

(** ** Values *)

Fixpoint values t : list V :=
  match t with NNone => [] | NAll v => [v] | NTree l r => values l ++ values r end.

Lemma fork_values (P : V -> Prop) l r : (forall a b, P a -> P b -> P (merge a b)) ->
  Forall P (values l) -> Forall P (values r) -> Forall P (values (fork l r)).
Proof.
  intros M Hl Hr. unfold fork. destruct l as [|a|]; try (apply Forall_app; auto).
  destruct r as [|b|]; try (apply Forall_app; auto). cbn [values] in *.
  inversion Hl; inversion Hr; subst. auto.
Qed.

Lemma add_values (P : V -> Prop) k : (forall a b, P a -> P b -> P (merge a b)) -> forall t pos e w,
  P w -> Forall P (values t) -> Forall P (values (add merge t pos k e w)).
Proof.
  intros M. induction k as [|k IH]; intros t pos e w Hw Ht.
  - destruct (is_all t) eqn:A; [destruct t; try discriminate; rewrite add_all; exact Ht|].
    rewrite add_top by (auto; lia). cbn. auto.
  - destruct (is_all t) eqn:A; [destruct t; try discriminate; rewrite add_all; exact Ht|].
    destruct (N.le_gt_cases (N.of_nat (S k)) e) as [L|L]; [rewrite add_top by auto; cbn; auto|].
    rewrite add_step by (auto; lia).
    assert (Hl : Forall P (values (left t))) by (destruct t; cbn in *; auto; apply Forall_app in Ht; tauto).
    assert (Hr : Forall P (values (right t))) by (destruct t; cbn in *; auto; apply Forall_app in Ht; tauto).
    destruct (N.testbit pos (N.of_nat k)); apply fork_values; auto.
Qed.

End Merge.
