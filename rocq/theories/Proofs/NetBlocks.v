(** The trie against the reference block set (C45), rebuilding (C48). *)
From Verif Require Import Base.Go Base.GoNet Model.Net Spec.NetSpec Proofs.NetTree Proofs.NetList.
From Coq Require Import Sorted Permutation.
Local Open Scope N_scope.
Notation pw k := (2 ^ N.of_nat k).

(** ** Bases *)

Lemma base_below u q : base u q <= u < base u q + size q.
Proof. apply base_range, size_pos. Qed.
Lemma base_aligned u q : base u q mod size q = 0.
Proof. apply base_mod, size_pos. Qed.
Lemma base_is u q b : b mod size q = 0 -> b <= u < b + size q -> base u q = b.
Proof. apply base_unique, size_pos. Qed.
Lemma base_self b q : b mod size q = 0 -> base b q = b.
Proof. intros H. apply base_is; auto. pose proof (size_pos q). lia. Qed.

Lemma size_anti q q' : q <= q' -> size q' <= size q.
Proof. intros H. unfold size. apply N.pow_le_mono_r; lia. Qed.
Lemma aligned_anti q q' u : q <= q' -> u mod size q = 0 -> u mod size q' = 0.
Proof. intros H. unfold size. apply div_pow_dvd. lia. Qed.

(** An aligned block containing a point contains the smaller aligned blocks of
    that point. *)
Lemma base_nested u q q' b : q <= q' <= 32 -> b mod size q = 0 -> b <= u < b + size q ->
  b <= base u q' /\ base u q' + size q' <= b + size q.
Proof.
  intros H E L. pose proof (size_pos q') as P. pose proof (base_below u q') as B.
  assert (D : size q = 2 ^ (q' - q) * size q') by (unfold size; rewrite <- N.pow_add_r; f_equal; lia).
  apply N.mod_divide in E; [|pose proof (size_pos q); lia]. destruct E as [c Ec].
  unfold base in *. set (d := u / size q') in *. set (s := size q') in *. set (w := 2 ^ (q' - q)) in *.
  clearbody d s w. rewrite D in *. subst b.
  assert (c * w <= d) by nia. assert (d < c * w + w) by nia. nia.
Qed.

Section Values.
Context {V : Type} (merge : V -> V -> V).
Implicit Types t l r : node V.
Implicit Types B F G : blocks V.

(** ** Block set of a node *)

Fixpoint look (k : nat) t (p : N) (u q : N) {struct t} : option V :=
  match t with
  | NNone => None
  | NAll v => if ((u =? p) && (q =? pre k))%bool then Some v else None
  | NTree l r =>
      match k with
      | O => None
      | S k' => if p + pw k' <=? u then look k' r (p + pw k') u q else look k' l p u q
      end
  end.

Lemma single (p q0 u q : N) (w v : V) :
  (if ((u =? p) && (q =? q0))%bool then Some w else None) = Some v <-> In (u, q, v) [(p, q0, w)].
Proof.
  split.
  - destruct (N.eqb_spec u p) as [->|]; [|discriminate].
    destruct (N.eqb_spec q q0) as [->|]; [|discriminate].
    intros X. injection X as ->. left. reflexivity.
  - intros [X|[]]. injection X as -> -> ->. rewrite !N.eqb_refl. reflexivity.
Qed.

Lemma look_In k : forall t p u q v, (k <= 32)%nat -> p mod pw k = 0 ->
  look k t p u q = Some v <-> In (u, q, v) (lst k t p).
Proof.
  induction k as [|k IH]; intros t p u q v Hk E; destruct t as [|w|l r]; cbn [look lst];
    try (split; [discriminate|intros []]).
  - apply single.
  - apply single.
  - destruct (half_aligned k p E) as [E1 E2].
    destruct (N.leb_spec (p + pw k) u) as [L|L]; rewrite IH by (auto; lia); rewrite in_app_iff; split; auto.
    + intros [H|H]; auto. apply lst_entry in H; auto; try lia. pose proof (size_pos q). lia.
    + intros [H|H]; auto. apply lst_entry in H; auto; lia.
Qed.

Lemma look_none k t p u q : (k <= 32)%nat -> p mod pw k = 0 ->
  u < p \/ p + pw k <= u \/ q < pre k \/ 32 < q -> look k t p u q = None.
Proof.
  intros Hk E H. destruct (look k t p u q) eqn:L; [|reflexivity]. exfalso.
  apply look_In in L; auto. apply lst_entry in L; auto. pose proof (size_pos q). lia.
Qed.

Lemma look_children k t p u q : is_all t = false -> look (S k) t p u q =
  if p + pw k <=? u then look k (right t) (p + pw k) u q else look k (left t) p u q.
Proof.
  intros A. destruct t; try discriminate; cbn [look left right]; [|reflexivity].
  destruct (_ <=? _); reflexivity.
Qed.

Lemma look_top k t p q v : (k <= 32)%nat -> normal k t -> p mod pw k = 0 ->
  q = pre k -> look k t p p q = Some v -> t = NAll v.
Proof. intros Hk N E -> H. apply look_In in H; auto. apply lst_top in H; tauto. Qed.

(** ** The reference operations respect pointwise equality *)

Definition eqv B1 B2 : Prop := forall u q, B1 u q = B2 u q.

Lemma place_ext B1 B2 u p v : eqv B1 B2 -> eqv (place B1 u p v) (place B2 u p v).
Proof. intros H u' q'. unfold place. rewrite H. reflexivity. Qed.
Lemma join_ext n : forall B1 B2 u p, eqv B1 B2 -> eqv (join merge n B1 u p) (join merge n B2 u p).
Proof.
  induction n as [|n IH]; intros B1 B2 u p H; cbn [join]; [exact H|].
  rewrite <- !H. destruct (B1 (base u (p - 1)) p); [|exact H].
  destruct (B1 (base u (p - 1) + size p) p); [|exact H]. apply IH, place_ext, H.
Qed.
Lemma covered_ext B1 B2 u p : eqv B1 B2 -> covered B1 u p = covered B2 u p.
Proof. intros H. unfold covered. apply existsb_ext. intros q _. rewrite H. reflexivity. Qed.
Lemma insert_ext B1 B2 u p v : eqv B1 B2 -> eqv (insert merge B1 u p v) (insert merge B2 u p v).
Proof.
  intros H. unfold insert. rewrite (covered_ext _ _ _ _ H).
  destruct (covered B2 u p); [exact H|]. apply join_ext, place_ext, H.
Qed.

Lemma covered_spec B u p : covered B u p = true <-> exists q, q <= p /\ B (base u q) q <> None.
Proof.
  unfold covered. rewrite existsb_exists. split.
  - intros (q & Hq & H). apply in_seq in Hq. exists (N.of_nat q). split; [lia|].
    destruct (B _ _); [discriminate|discriminate].
  - intros (q & Hq & H). exists (N.to_nat q). rewrite N2Nat.id. split; [apply in_seq; lia|].
    destruct (B _ _); [reflexivity|contradiction].
Qed.

(** ** join *)

Definition step B u q : blocks V :=
  match B (base u (q - 1)) q, B (base u (q - 1) + size q) q with
  | Some x, Some y => place B (base u (q - 1)) (q - 1) (merge x y)
  | _, _ => B
  end.

Lemma base_base u q q' : q <= q' <= 32 -> base (base u q') q = base u q.
Proof.
  intros H. pose proof (base_below u q). pose proof (base_nested u q q' (base u q) H (base_aligned u q) ltac:(lia)).
  pose proof (size_pos q'). apply base_is; [apply base_aligned|lia].
Qed.

Lemma place_at B u q v : place B u q v (base u q) q = Some v.
Proof.
  unfold place. rewrite N.leb_refl, (base_self (base u q)) by apply base_aligned.
  rewrite !N.eqb_refl. reflexivity.
Qed.

Lemma join_snoc n : forall B u pl, N.of_nat n < pl -> pl <= 32 -> B (base u pl) pl <> None ->
  let J := join merge n B u pl in
  (join merge (S n) B u pl = J /\ exists j, (j < n)%nat /\ J (base u (pl - N.of_nat j)) (pl - N.of_nat j) <> None)
  \/ (J (base u (pl - N.of_nat n)) (pl - N.of_nat n) <> None
      /\ join merge (S n) B u pl = step J u (pl - N.of_nat n)).
Proof.
  induction n as [|n IH]; intros B u pl Hn Hp HB.
  - right. change (N.of_nat 0) with 0. rewrite N.sub_0_r. cbn [join]. split; [exact HB|].
    unfold step. destruct (B (base u (pl - 1)) pl); [|reflexivity].
    destruct (B (base u (pl - 1) + size pl) pl); reflexivity.
  - cbv zeta. change (join merge (S (S n)) B u pl) with
      (match B (base u (pl - 1)) pl, B (base u (pl - 1) + size pl) pl with
       | Some x, Some y => join merge (S n) (place B (base u (pl - 1)) (pl - 1) (merge x y)) (base u (pl - 1)) (pl - 1)
       | _, _ => B end).
    change (join merge (S n) B u pl) with
      (match B (base u (pl - 1)) pl, B (base u (pl - 1) + size pl) pl with
       | Some x, Some y => join merge n (place B (base u (pl - 1)) (pl - 1) (merge x y)) (base u (pl - 1)) (pl - 1)
       | _, _ => B end).
    assert (Stop : B = B /\ exists j, (j < S n)%nat /\ B (base u (pl - N.of_nat j)) (pl - N.of_nat j) <> None).
    { split; [reflexivity|]. exists O. change (N.of_nat 0) with 0. rewrite N.sub_0_r. split; [lia|exact HB]. }
    destruct (B (base u (pl - 1)) pl) as [x|]; [|left; exact Stop].
    destruct (B (base u (pl - 1) + size pl) pl) as [y|]; [|left; exact Stop]. clear Stop.
    set (l := base u (pl - 1)). set (B' := place B l (pl - 1) (merge x y)).
    assert (HB' : B' (base l (pl - 1)) (pl - 1) <> None) by (unfold B'; rewrite place_at; discriminate).
    assert (Bs : forall j, N.of_nat j <= pl - 1 -> base l (pl - 1 - N.of_nat j) = base u (pl - N.of_nat (S j))).
    { intros j Hj. unfold l. rewrite base_base by lia. f_equal. lia. }
    destruct (IH B' l (pl - 1) ltac:(lia) ltac:(lia) HB') as [(E & j & Hj & Hb)|(Hb & E)].
    + left. split; [exact E|]. exists (S j). split; [lia|].
      rewrite Bs in Hb by lia. replace (pl - N.of_nat (S j)) with (pl - 1 - N.of_nat j) at 2 by lia. exact Hb.
    + right. rewrite E. rewrite Bs in Hb by lia.
      replace (pl - N.of_nat (S n)) with (pl - 1 - N.of_nat n) at 2 3 by lia. split; [exact Hb|].
      unfold step. replace (base l (pl - 1 - N.of_nat n - 1)) with (base u (pl - 1 - N.of_nat n - 1)); [reflexivity|].
      unfold l. rewrite base_base by lia. reflexivity.
Qed.

(** join inside the block of base s and height k leaves other keys alone and
    sees only keys of that block. *)
Lemma join_local n : forall F G u pl s k, (k <= 32)%nat -> s mod pw k = 0 -> s <= u < s + pw k ->
  N.of_nat n + pre k <= pl -> pl <= 32 ->
  (forall u' q', s <= u' < s + pw k -> F u' q' = G u' q') ->
  (forall u' q', s <= u' < s + pw k -> join merge n F u pl u' q' = join merge n G u pl u' q')
  /\ (forall u' q', ~ (s <= u' < s + pw k) -> join merge n G u pl u' q' = G u' q').
Proof.
  induction n as [|n IH]; intros F G u pl s k Hk E Hu Hn Hp H; cbn [join]; [auto|].
  assert (S0 : size (pre k) = pw k) by (apply size_pre, Hk).
  pose proof (base_nested u (pre k) (pl - 1) s ltac:(lia)) as Nest. rewrite S0 in Nest.
  specialize (Nest E Hu). rewrite (size_step pl) in Nest by lia. pose proof (size_pos pl).
  rewrite !H by lia.
  destruct (G (base u (pl - 1)) pl) as [x|]; [|auto].
  destruct (G (base u (pl - 1) + size pl) pl) as [y|]; [|auto].
  set (b := base u (pl - 1)) in *.
  assert (In_s : forall u', base u' (pl - 1) = base b (pl - 1) -> s <= u' < s + pw k).
  { intros u' X. unfold b in X. rewrite base_base in X by lia. pose proof (base_below u' (pl - 1)) as Y.
    rewrite X, size_step in Y by lia. fold b in Y. lia. }
  destruct (IH (place F b (pl - 1) (merge x y)) (place G b (pl - 1) (merge x y)) b (pl - 1) s k) as [I1 I2];
    auto; try lia.
  { intros u' q' Hu'. unfold place. rewrite H by exact Hu'. reflexivity. }
  split; [exact I1|]. intros u' q' Hu'. rewrite I2 by exact Hu'. unfold place.
  destruct (N.eqb_spec (base u' (pl - 1)) (base b (pl - 1))) as [X|X]; [|rewrite Bool.andb_false_r; reflexivity].
  exfalso. apply Hu', In_s, X.
Qed.

(** ** add is insert *)

(** [insert] within a block of height k. *)
Definition ins (k : nat) B (pos : N) (e : nat) (w : V) : blocks V :=
  if covered B pos (pre e) then B
  else join merge (k - e) (place B pos (pre e) w) pos (pre e).

Lemma place_in B u q v u' q' b : base u q = b -> u' < b \/ b + size q <= u' -> place B u q v u' q' = B u' q'.
Proof.
  intros E H. unfold place. destruct (N.eqb_spec (base u' q) (base u q)) as [X|X].
  - exfalso. pose proof (base_below u' q). lia.
  - rewrite Bool.andb_false_r. reflexivity.
Qed.

Lemma look_fork k l r p : (is_all l && is_all r)%bool = false ->
  forall u q, look (S k) (fork merge l r) p u q =
  if p + pw k <=? u then look k r (p + pw k) u q else look k l p u q.
Proof.
  intros A u q. unfold fork. destruct l; try reflexivity. destruct r; try reflexivity. discriminate.
Qed.

Lemma add_ins k : forall t p pos e w, (k <= 32)%nat -> normal k t -> p mod pw k = 0 ->
  p <= pos < p + pw k -> (e <= k)%nat ->
  eqv (look k (add merge t pos k (N.of_nat e) w) p) (ins k (look k t p) pos e w).
Proof.
  induction k as [|k IH]; intros t p pos e w Hk N E Hpos He.
  - assert (e = 0%nat) as -> by lia. assert (pos = p) as -> by (change (pw 0) with 1 in *; lia).
    unfold ins. assert (Bp : base p (pre 0) = p).
    { apply base_self. rewrite size_pre by lia. exact E. }
    destruct t as [|v|l r]; [| |destruct N].
    + rewrite add_top by (auto; lia).
      replace (covered _ _ _) with false; [|symmetry; apply Bool.not_true_is_false; rewrite covered_spec;
        intros (q & _ & H); apply H; reflexivity].
      intros u q. cbn [look join Nat.sub]. unfold place. rewrite Bp.
      destruct (N.eqb_spec u p) as [->|Hu].
      * rewrite Bp, N.eqb_refl. rewrite (N.eqb_sym q). destruct (N.eqb_spec (pre 0) q) as [<-|];
          [rewrite N.leb_refl; reflexivity|]. cbn [andb]. destruct (_ && _)%bool; reflexivity.
      * rewrite Bool.andb_false_r. cbn [andb]. destruct (_ && _)%bool; reflexivity.
    + rewrite add_all. replace (covered _ _ _) with true; [intros u q; reflexivity|].
      symmetry. apply covered_spec. exists (pre 0). split; [lia|]. rewrite Bp. cbn [look].
      rewrite !N.eqb_refl. discriminate.
  - assert (SP : size (pre (S k)) = pw (S k)) by (apply size_pre, Hk).
    assert (Bp : base pos (pre (S k)) = p) by (apply base_is; rewrite SP; assumption).
    destruct (is_all t) eqn:A.
    { destruct t as [|v|]; try discriminate. rewrite add_all. unfold ins.
      replace (covered _ _ _) with true; [intros u q; reflexivity|].
      symmetry. apply covered_spec. exists (pre (S k)). split; [unfold pre; lia|]. rewrite Bp. cbn [look].
      rewrite !N.eqb_refl. discriminate. }
    destruct (Nat.eq_dec e (S k)) as [->|Hne].
    { rewrite add_top by (auto; lia). unfold ins. rewrite Nat.sub_diag. cbn [join].
      replace (covered _ _ _) with false.
      2:{ symmetry. apply Bool.not_true_is_false. rewrite covered_spec. intros (q & Hq & H).
        destruct (look (S k) t p (base pos q) q) eqn:L; [|contradiction].
        apply look_In in L; auto. pose proof (lst_entry _ _ _ _ _ _ Hk E L).
        assert (q = pre (S k)) as -> by lia. apply lst_top in L; auto. destruct L as [-> _]. discriminate. }
      intros u q. unfold place. rewrite Bp. cbn [look].
      destruct (N.eqb_spec (base u (pre (S k))) p) as [X|X].
      - destruct (N.leb_spec (pre (S k)) q) as [L|L]; cbn [andb].
        + rewrite (N.eqb_sym q). rewrite Bool.andb_comm. reflexivity.
        + rewrite look_none by auto. destruct (N.eqb_spec q (pre (S k))); [lia|]. rewrite Bool.andb_false_r. reflexivity.
      - rewrite Bool.andb_false_r. assert (O : u < p \/ p + pw (S k) <= u).
        { destruct (N.lt_ge_cases u p); auto. destruct (N.le_gt_cases (p + pw (S k)) u); auto.
          exfalso. apply X. apply base_is; rewrite SP; auto. }
        rewrite look_none by tauto. destruct (N.eqb_spec u p) as [->|]; [|reflexivity].
        exfalso. pose proof (pw_pos (S k)). lia. }
    assert (He' : (e <= k)%nat) by lia.
    rewrite add_step by (auto; lia). destruct (normal_children k t N) as [Nl Nr].
    destruct (half_aligned k p E) as [E1 E2]. rewrite (bit_half k p pos E Hpos).
    pose proof (pw_S k) as PS. pose proof (pw_pos k) as PP.
    remember (p + pw k <=? pos) as b eqn:Eb.
    set (s := if b then p + pw k else p).
    set (c := if b then right t else left t).
    assert (Nc : normal k c) by (unfold c; destruct b; auto).
    assert (Es : s mod pw k = 0) by (unfold s; destruct b; auto).
    assert (Hs : s <= pos < s + pw k).
    { unfold s. rewrite Eb. destruct (N.leb_spec (p + pw k) pos); lia. }
    clear Eb.
    assert (Sk : size (pre k) = pw k) by (apply size_pre; lia).
    assert (Bs : base pos (pre k) = s) by (apply base_is; rewrite Sk; auto).
    set (c2 := add merge c pos k (N.of_nat e) w).
    set (l2 := if b then left t else c2). set (r2 := if b then c2 else right t).
    replace (if b then fork merge (left t) (add merge (right t) pos k (N.of_nat e) w)
             else fork merge (add merge (left t) pos k (N.of_nat e) w) (right t))
      with (fork merge l2 r2) by (unfold l2, r2, c2, c; destruct b; reflexivity).
    specialize (IH c s pos e w ltac:(lia) Nc Es Hs He'). fold c2 in IH.
    assert (N2 : normal k c2) by (apply add_normal, Nc).
    set (F := look (S k) t p).
    assert (Fs : forall u q, s <= u < s + pw k -> F u q = look k c s u q).
    { intros u q Hu. unfold F. rewrite look_children by exact A. unfold c, s in *.
      destruct b; destruct (N.leb_spec (p + pw k) u); try reflexivity; lia. }
    assert (Cov : covered F pos (pre e) = covered (look k c s) pos (pre e)).
    { apply Bool.eq_true_iff_eq. rewrite !covered_spec.
      assert (X : forall q, q <= pre e -> F (base pos q) q = look k c s (base pos q) q).
      { intros q Hq. destruct (N.le_gt_cases (pre k) q) as [G|G].
        - apply Fs. pose proof (base_nested pos (pre k) q s) as BN. rewrite Sk in BN.
          specialize (BN ltac:(unfold pre in *; lia) Es Hs). pose proof (size_pos q). lia.
        - rewrite (look_none k c) by (auto; lia). unfold F. rewrite look_children by exact A.
          destruct (_ <=? _); apply look_none; auto; lia. }
      split; intros (q & Hq & H); exists q; split; auto; [rewrite <- X by exact Hq|rewrite X by exact Hq]; exact H. }
    unfold ins in IH |- *. fold F. rewrite Cov.
    destruct (covered (look k c s) pos (pre e)) eqn:Cv.
    + (* covered: nothing changes *)
      assert (NM : (is_all l2 && is_all r2)%bool = false).
      { destruct (is_all c2) eqn:A2; [|unfold l2, r2; destruct b; rewrite A2; [apply Bool.andb_false_r|reflexivity]].
        destruct c2 as [|v|]; try discriminate.
        assert (c = NAll v).
        { apply (look_top k c s (pre k)); auto; [lia|]. rewrite <- IH. cbn [look]. rewrite !N.eqb_refl. reflexivity. }
        destruct t as [|v'|l r]; [unfold c in H; cbn [left right] in H; destruct b; discriminate|discriminate|].
        destruct N as (_ & _ & NN & _). unfold l2, r2, c in *. cbn [left right] in *.
        destruct b; subst; exact NN. }
      intros u q. rewrite look_fork by exact NM. unfold F. rewrite look_children by exact A.
      unfold l2, r2, s, c in *. destruct b; destruct (_ <=? _); try reflexivity; apply IH.
    + assert (HB : place F pos (pre e) w (base pos (pre e)) (pre e) <> None) by (rewrite place_at; discriminate).
      replace (S k - e)%nat with (S (k - e)) by lia.
      destruct (join_local (k - e) (place (look k c s) pos (pre e) w) (place F pos (pre e) w) pos (pre e) s k)
        as [J1 J2]; auto; try (unfold pre; lia).
      { intros u q Hu. unfold place. rewrite Fs by exact Hu. reflexivity. }
      pose proof (join_snoc (k - e) (place F pos (pre e) w) pos (pre e)) as SN.
      replace (pre e - N.of_nat (k - e)) with (pre k) in SN by (unfold pre; lia).
      set (J := join merge (k - e) (place F pos (pre e) w) pos (pre e)) in *. cbv zeta in SN.
      assert (HJ : forall u q, J u q = if p + pw k <=? u then look k r2 (p + pw k) u q else look k l2 p u q).
      { intros u q.
        assert (In2 : s <= u < s + pw k -> J u q = look k c2 s u q).
        { intros Hu. rewrite <- J1 by exact Hu. symmetry. apply IH. }
        assert (Out2 : ~ (s <= u < s + pw k) -> J u q = F u q).
        { intros Hu. rewrite J2 by exact Hu.
          pose proof (base_nested pos (pre k) (pre e) s) as BN. rewrite Sk in BN.
          specialize (BN ltac:(unfold pre; lia) Es Hs).
          apply (place_in _ _ _ _ _ _ (base pos (pre e)) eq_refl). lia. }
        unfold F in Out2. rewrite look_children in Out2 by exact A.
        unfold l2, r2, s in *. destruct b.
        - destruct (N.leb_spec (p + pw k) u) as [L|L].
          + destruct (N.lt_ge_cases u (p + pw k + pw k)) as [L'|L']; [apply In2; lia|].
            rewrite Out2 by lia. rewrite !look_none; auto; lia.
          + apply Out2. lia.
        - destruct (N.leb_spec (p + pw k) u) as [L|L].
          + apply Out2. lia.
          + destruct (N.lt_ge_cases u p) as [L'|L']; [|apply In2; lia].
            rewrite Out2 by lia. rewrite !look_none; auto; lia. }
      assert (Jin : forall u q, s <= u < s + pw k -> J u q = look k c2 s u q).
      { intros u q Hu. rewrite <- J1 by exact Hu. symmetry. apply IH. }
      destruct SN as [(-> & j & Hj & Hb)|(Hb & ->)]; [unfold pre; lia|unfold pre; lia|exact HB| |].
      * (* no join at the top: the changed child is not full *)
        assert (NA : is_all c2 = false).
        { destruct c2 as [|v|]; try reflexivity. exfalso. apply Hb.
          set (q := pre e - N.of_nat j) in *.
          pose proof (base_nested pos (pre k) q s) as BN. rewrite Sk in BN.
          specialize (BN ltac:(unfold q, pre; lia) Es Hs). pose proof (size_pos q).
          rewrite Jin by lia. cbn [look]. destruct (N.eqb_spec q (pre k)); [unfold q, pre in *; lia|].
          rewrite Bool.andb_false_r. reflexivity. }
        intros u q. rewrite look_fork; [symmetry; apply HJ|].
        unfold l2, r2. destruct b; rewrite NA; [apply Bool.andb_false_r|reflexivity].
      * assert (Bt : base pos (pre k - 1) = p).
        { replace (pre k - 1) with (pre (S k)) by (unfold pre; lia). exact Bp. }
        unfold step. rewrite Bt, Sk.
        assert (Jl : J p (pre k) = look k l2 p p (pre k)).
        { rewrite HJ. rewrite (proj2 (N.leb_gt _ _)) by lia. reflexivity. }
        assert (Jr : J (p + pw k) (pre k) = look k r2 (p + pw k) (p + pw k) (pre k)).
        { rewrite HJ. rewrite N.leb_refl. reflexivity. }
        assert (Nl2 : normal k l2) by (unfold l2; destruct b; auto).
        assert (Nr2 : normal k r2) by (unfold r2; destruct b; auto).
        rewrite Jl, Jr.
        destruct (look k l2 p p (pre k)) as [x|] eqn:Lx;
          [destruct (look k r2 (p + pw k) (p + pw k) (pre k)) as [y|] eqn:Ly|].
        -- apply look_top in Lx; auto; [|lia]. apply look_top in Ly; auto; [|lia].
           rewrite Lx, Ly in *. cbn [fork look]. replace (pre k - 1) with (pre (S k)) by (unfold pre; lia).
           intros u q. unfold place.
           rewrite (base_self p) by (rewrite SP; exact E).
           destruct (N.eqb_spec (base u (pre (S k))) p) as [X|X].
           ++ destruct (N.leb_spec (pre (S k)) q) as [L|L]; cbn [andb].
              ** rewrite (N.eqb_sym q). rewrite Bool.andb_comm. reflexivity.
              ** rewrite HJ. rewrite !look_none by (auto; unfold pre in *; lia).
                 destruct (N.eqb_spec q (pre (S k))); [lia|]. rewrite Bool.andb_false_r.
                 destruct (_ <=? _); reflexivity.
           ++ rewrite Bool.andb_false_r. assert (O : u < p \/ p + pw (S k) <= u).
              { destruct (N.lt_ge_cases u p); auto. destruct (N.le_gt_cases (p + pw (S k)) u); auto.
                exfalso. apply X. apply base_is; rewrite SP; auto. }
              rewrite HJ, !look_none by (auto; lia).
              destruct (N.eqb_spec u p) as [->|]; [exfalso; lia|]. destruct (_ <=? _); reflexivity.
        -- intros u q. rewrite look_fork; [symmetry; apply HJ|].
           destruct (is_all r2) eqn:AR; [|apply Bool.andb_false_r].
           exfalso. destruct r2 as [|v|]; try discriminate. cbn [look] in Ly. rewrite !N.eqb_refl in Ly. discriminate.
        -- intros u q. rewrite look_fork; [symmetry; apply HJ|].
           destruct (is_all l2) eqn:AL; [|reflexivity].
           exfalso. destruct l2 as [|v|]; try discriminate. cbn [look] in Lx. rewrite !N.eqb_refl in Lx. discriminate.
Qed.

Lemma add_insert t pos e w : normal 32 t -> pos < 2 ^ 32 -> (e <= 32)%nat ->
  eqv (look 32 (add merge t pos 32 (N.of_nat e) w) 0) (insert merge (look 32 t 0) pos (pre e) w).
Proof.
  intros H Hp He. pose proof (add_ins 32 t 0 pos e w (le_n _) H) as A.
  unfold insert. unfold ins in A. replace (N.to_nat (pre e)) with (32 - e)%nat by (unfold pre; lia).
  apply A; try reflexivity; [|exact He]. change (pw 32) with (2 ^ 32). lia.
Qed.

(** ** Rebuilding *)

Definition add_entry (k : nat) t (x : N * N * V) : node V :=
  let '(u, q, v) := x in add merge t u k (32 - q) v.
Definition add_entries (k : nat) t (L : list (N * N * V)) : node V := fold_left (add_entry k) L t.

Lemma all_stays k L v : add_entries k (NAll v) L = NAll v.
Proof.
  unfold add_entries. induction L as [|[[u q] w] L IH]; cbn [fold_left add_entry]; [reflexivity|].
  rewrite add_all. exact IH.
Qed.
Lemma all_grows k L : forall t, is_all t = true -> is_all (add_entries k t L) = true.
Proof. intros t H. destruct t; try discriminate. rewrite all_stays. reflexivity. Qed.

Definition half_entry (k : nat) (b : bool) (x : N * N * V) : Prop :=
  let '(u, q, _) := x in N.testbit u (N.of_nat k) = b /\ 32 - q <= N.of_nat k.

(** Entries of one half only touch that half, as long as it does not join. *)
Lemma entries_half k (b : bool) L : forall t, Forall (half_entry k b) L -> is_all t = false ->
  (is_all (if b then left t else right t) && is_all (add_entries k (if b then right t else left t) L))%bool = false ->
  let t' := add_entries (S k) t L in
  is_all t' = false /\ (if b then left t' else right t') = (if b then left t else right t)
  /\ (if b then right t' else left t') = add_entries k (if b then right t else left t) L
  /\ (L <> [] -> exists l r, t' = NTree l r).
Proof.
  induction L as [|[[u q] v] L IH]; intros t F A NM.
  - cbn. split; [exact A|]. split; [reflexivity|]. split; [reflexivity|]. intros X. contradiction.
  - inversion F as [|? ? HE F']; subst. destruct HE as [Hb Hq]. subst b. cbv zeta.
    change (add_entries (S k) t ((u, q, v) :: L)) with (add_entries (S k) (add merge t u (S k) (32 - q) v) L).
    rewrite add_step by auto.
    set (X := fun c => add merge c u k (32 - q) v).
    set (t1 := if N.testbit u (N.of_nat k) then fork merge (left t) (X (right t)) else fork merge (X (left t)) (right t)).
    assert (T1 : t1 = NTree (left t1) (right t1) /\ is_all t1 = false
      /\ (if N.testbit u (N.of_nat k) then left t1 else right t1) = (if N.testbit u (N.of_nat k) then left t else right t)
      /\ (if N.testbit u (N.of_nat k) then right t1 else left t1) = X (if N.testbit u (N.of_nat k) then right t else left t)).
    { assert (NM1 : (is_all (if N.testbit u (N.of_nat k) then left t else right t)
                     && is_all (X (if N.testbit u (N.of_nat k) then right t else left t)))%bool = false).
      { destruct (is_all (if N.testbit u (N.of_nat k) then left t else right t)); [|reflexivity].
        cbn [andb] in *. destruct (is_all (X _)) eqn:AX; [|reflexivity].
        apply (all_grows k L) in AX. unfold X in AX. unfold add_entries in *. cbn [fold_left add_entry] in NM.
        rewrite AX in NM. discriminate. }
      unfold t1. destruct (N.testbit u (N.of_nat k)); unfold fork.
      - destruct (left t); try (repeat split; reflexivity).
        destruct (X (right t)); try (repeat split; reflexivity). discriminate.
      - destruct (X (left t)); try (repeat split; reflexivity).
        destruct (right t); try (repeat split; reflexivity). discriminate. }
    destruct T1 as (T1 & A1 & Sib & Ch).
    specialize (IH t1 F' A1). rewrite Sib, Ch in IH.
    specialize (IH NM). cbv zeta in IH. destruct IH as (I1 & I2 & I3 & I4).
    split; [exact I1|]. split; [exact I2|]. split; [exact I3|]. intros _.
    destruct L as [|y L]; [|apply I4; discriminate].
    exists (left t1), (right t1). exact T1.
Qed.

Lemma lst_half k t p b : (k < 32)%nat -> p mod pw (S k) = 0 ->
  Forall (half_entry k b) (lst k t (if b then p + pw k else p)).
Proof.
  intros Hk E. destruct (half_aligned k p E) as [E1 E2]. pose proof (pw_S k). pose proof (pw_pos k).
  apply Forall_forall. intros [[u q] v] H1. unfold half_entry.
  apply lst_entry in H1; [|lia|destruct b; auto]. destruct H1 as (Hq & _ & Hu).
  pose proof (size_pos q).
  split; [|unfold pre in Hq; lia].
  rewrite (bit_half k p u E) by (destruct b; lia). destruct b; [apply N.leb_le|apply N.leb_gt]; lia.
Qed.

Lemma rebuild k : forall t p, (k <= 32)%nat -> normal k t -> p mod pw k = 0 ->
  add_entries k NNone (lst k t p) = t.
Proof.
  induction k as [|k IH]; intros t p Hk N E; destruct t as [|v|l r].
  - reflexivity.
  - reflexivity.
  - destruct N.
  - reflexivity.
  - cbn [lst]. unfold add_entries. cbn [fold_left add_entry]. apply add_top; [reflexivity|]. unfold pre. lia.
  - destruct N as (Nl & Nr & NA & NN). destruct (half_aligned k p E) as [E1 E2].
    cbn [lst]. unfold add_entries. rewrite fold_left_app.
    fold (add_entries (S k) NNone (lst k l p)).
    destruct (entries_half k false (lst k l p) NNone) as (A1 & A2 & A3 & A4); auto.
    { apply (lst_half k l p false); auto; lia. }
    cbv zeta in *. cbn [left right] in A2, A3. rewrite IH in A3 by (auto; lia).
    set (t1 := add_entries (S k) NNone (lst k l p)) in *.
    fold (add_entries (S k) t1 (lst k r (p + pw k))).
    destruct (entries_half k true (lst k r (p + pw k)) t1) as (B1 & B2 & B3 & B4); auto.
    { apply (lst_half k r p true); auto; lia. }
    { rewrite A2, A3, IH by (auto; lia). exact NA. }
    cbv zeta in *. rewrite A2, IH in B3 by (auto; lia). rewrite A3 in B2.
    set (t2 := add_entries (S k) t1 (lst k r (p + pw k))) in *.
    assert (T : exists l' r', t2 = NTree l' r').
    { destruct (lst k r (p + pw k)) eqn:Lr; [|apply B4; discriminate].
      destruct (lst k l p) eqn:Ll; [|change t2 with t1; apply A4; discriminate].
      exfalso. apply NN. cbn in B3, A3.
      rewrite <- (IH l p), <- (IH r (p + pw k)) by (auto; lia). rewrite Ll, Lr. split; reflexivity. }
    destruct T as (l' & r' & T). rewrite T in B2, B3 |- *. cbn [left right] in B2, B3. rewrite B2, B3. reflexivity.
Qed.
End Values.
