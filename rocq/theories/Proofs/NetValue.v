(** What the values in a listing are made of. *)
From Coq Require Import Sorting.Permutation.
From Verif Require Import Base.Go Base.GoNet Base.NetApi Model.Net Spec.NetSpec Spec.NetOrderSpec Spec.NetValueSpec
  Proofs.NetTree Proofs.NetList Proofs.NetBasic Proofs.NetMore Proofs.NetRange Proofs.NetProofs Proofs.NetOrder.
Local Open Scope N_scope.
Notation pw k := (2 ^ N.of_nat k).

Section Nodes.
Context {V : Type} (mg : V -> V -> V).
Notation tiles := (list (tile V)).

(** A tree and the same tree with the blocks in place of the values. *)
Fixpoint hung (k : nat) (t : node V) (a : node tiles) (p : N) {struct t} : Prop :=
  match t, a with
  | NNone, NNone => True
  | NAll v, NAll l => merged mg p (pre k) l v
  | NTree l r, NTree l' r' =>
      match k with O => False | S k' => hung k' l l' p /\ hung k' r r' (p + pw k') end
  | _, _ => False
  end.
Lemma hung_all k t a p : hung k t a p -> is_all t = is_all a.
Proof. destruct t, a; cbn [hung]; intros H; try contradiction; reflexivity. Qed.
Lemma hung_children k t a p : is_all t = false -> hung (S k) t a p ->
  hung k (left t) (left a) p /\ hung k (right t) (right a) (p + pw k).
Proof. destruct t, a; cbn [hung is_all left right]; intros A H; try contradiction; try discriminate; auto; split; destruct k; exact Logic.I. Qed.
Lemma pre_S k : (S k <= 32)%nat -> pre (S k) + 1 = pre k.
Proof. unfold pre. lia. Qed.
Lemma hung_fork k l r l' r' p : (S k <= 32)%nat -> hung k l l' p -> hung k r r' (p + pw k) ->
  hung (S k) (fork mg l r) (fork (@app (tile V)) l' r') p.
Proof.
  intros K Hl Hr. pose proof (hung_all _ _ _ _ Hl) as Al. pose proof (hung_all _ _ _ _ Hr) as Ar.
  destruct (is_all l && is_all r)%bool eqn:B.
  - apply andb_prop in B. destruct B as [B1 B2].
    destruct l as [|v1|]; try discriminate. destruct r as [|v2|]; try discriminate.
    destruct l' as [|l1|]; try discriminate. destruct r' as [|l2|]; try discriminate.
    assert (H1 : merged mg p (pre k) l1 v1) by (destruct k; exact Hl).
    assert (H2 : merged mg (p + pw k) (pre k) l2 v2) by (destruct k; exact Hr).
    cbn [fork hung]. apply two_halves; rewrite pre_S by exact K; [exact H1|]. rewrite size_pre by lia. exact H2.
  - rewrite !fork_tree; [cbn [hung]; auto| |exact B]. rewrite <- Al, <- Ar. exact B.
Qed.
(** The block of 2^e addresses around pos. *)
Definition block_at (pos e : N) (v : V) : tile V := (base pos (32 - e), 32 - e, v).
Lemma half_in k p pos : p mod pw (S k) = 0 -> p <= pos < p + pw (S k) ->
  if N.testbit pos (N.of_nat k) then p + pw k <= pos < p + pw k + pw k else p <= pos < p + pw k.
Proof.
  intros A R. rewrite (bit_half k p pos A R). rewrite pw_S in R. destruct (N.leb_spec (p + pw k) pos); lia.
Qed.
Lemma add_hung : forall k t a p pos e v, (k <= 32)%nat -> e <= N.of_nat k -> p mod pw k = 0 -> p <= pos < p + pw k ->
  hung k t a p -> hung k (add mg t pos k e v) (add (@app (tile V)) a pos k e [block_at pos e v]) p.
Proof.
  assert (Top : forall k t a p pos v, (k <= 32)%nat -> p mod pw k = 0 -> p <= pos < p + pw k -> is_all t = false -> is_all a = false ->
    hung k (add mg t pos k (N.of_nat k) v) (add (@app (tile V)) a pos k (N.of_nat k) [block_at pos (N.of_nat k) v]) p).
  { intros k t a p pos v K A R Bt Ba. rewrite !add_top by (auto; lia).
    assert (E : block_at pos (N.of_nat k) v = (p, pre k, v)).
    { unfold block_at, base. fold (pre k). rewrite size_pre by exact K.
      rewrite (base_unique (pw k) p pos (pw_pos k) A R). reflexivity. }
    rewrite E. destruct k; apply one_block. }
  induction k as [|k IH]; intros t a p pos e v K L A R H; pose proof (hung_all _ _ _ _ H) as B;
    (destruct (is_all t) eqn:Bt; [destruct t as [|x|]; try discriminate; destruct a as [|y|]; try discriminate; rewrite !add_all; exact H|]);
    symmetry in B.
  - assert (e = 0) as -> by lia. apply (Top O); assumption.
  - destruct (N.eq_dec e (N.of_nat (S k))) as [->|Ne]; [apply (Top (S k)); assumption|].
    rewrite !add_step by (try assumption; lia). destruct (half_aligned k p A) as [A1 A2].
    destruct (hung_children _ _ _ _ Bt H) as [Hl Hr]. pose proof (half_in k p pos A R) as Hh.
    destruct (N.testbit pos (N.of_nat k)); apply hung_fork; try assumption; apply IH; (assumption || lia).
Qed.

(** ** Blocks lie in the place they hang at *)
Definition lies (k : nat) (p : N) (b : tile V) : Prop :=
  let '(u, q, _) := b in q <= 32 /\ pre k <= q /\ p <= u /\ u + size q <= p + pw k /\ u mod size q = 0.
Lemma lies_low k p b : (S k <= 32)%nat -> lies k p b -> lies (S k) p b.
Proof. destruct b as [[u q] v]. cbn [lies]. rewrite pw_S. pose proof (pre_S k). intros K (A & B & C & D & E). specialize (H K). repeat split; lia. Qed.
Lemma lies_high k p b : (S k <= 32)%nat -> lies k (p + pw k) b -> lies (S k) p b.
Proof. destruct b as [[u q] v]. cbn [lies]. rewrite pw_S. pose proof (pre_S k). intros K (A & B & C & D & E). specialize (H K). repeat split; lia. Qed.
Lemma merged_size u p l v : merged mg u p l v -> exists b, In b l /\ (p <= snd (fst b)).
Proof.
  induction 1 as [u p v|u p l1 l2 v1 v2 _ (b & I0 & L) _ _].
  - exists (u, p, v). split; [left; reflexivity|cbn; lia].
  - exists b. split; [apply in_or_app; left; exact I0|lia].
Qed.
(** Blocks may have no more than 32 bits for [merged] to say anything. *)
Definition real (l : tiles) : Prop := Forall (fun b : tile V => snd (fst b) <= 32) l.
Lemma merged_lies u q l v : merged mg u q l v -> real l -> forall k, (k <= 32)%nat -> q = pre k -> u mod pw k = 0 -> Forall (lies k u) l.
Proof.
  induction 1 as [u q v|u q l1 l2 v1 v2 M1 IH1 M2 IH2]; intros Re k K -> A.
  - inversion Re as [|? ? Q _]; subst. cbn [fst snd] in Q. repeat constructor; try lia; rewrite size_pre by exact K; lia.
  - apply Forall_app in Re. destruct Re as [Re1 Re2].
    assert (Hk : exists k', k = S k').
    { destruct k as [|k']; [|eauto]. exfalso. destruct (merged_size _ _ _ _ M1) as (b & I0 & L).
      unfold real in Re1. rewrite Forall_forall in Re1. specialize (Re1 b I0). unfold pre in L. lia. }
    destruct Hk as (k' & ->). destruct (half_aligned k' u A) as [A1 A2].
    apply Forall_app. split; eapply Forall_impl.
    + intros b. apply lies_low. exact K.
    + apply IH1; [exact Re1|lia|apply pre_S, K|exact A1].
    + intros b. apply lies_high. exact K.
    + assert (Sz : size (pre (S k') + 1) = pw k') by (rewrite pre_S by exact K; apply size_pre; lia). rewrite Sz in *.
      apply IH2; [exact Re2|lia|apply pre_S, K|exact A2].
Qed.
Definition leaves (a : node tiles) : tiles := concat (values a).
Lemma leaves_tree l r : leaves (NTree l r) = leaves l ++ leaves r.
Proof. unfold leaves. cbn [values]. apply concat_app. Qed.
Lemma leaves_all l : leaves (NAll l) = l.
Proof. unfold leaves. cbn [values concat]. apply app_nil_r. Qed.
Lemma leaves_fork l r : leaves (fork (@app (tile V)) l r) = leaves l ++ leaves r.
Proof. destruct l, r; cbn [fork]; try apply leaves_tree. rewrite !leaves_all. reflexivity. Qed.
Lemma hung_lies k : forall t a p, (k <= 32)%nat -> p mod pw k = 0 -> hung k t a p -> real (leaves a) -> Forall (lies k p) (leaves a).
Proof.
  induction k as [|k IH]; intros t a p K A H Re; destruct t as [|v|l r], a as [|x|l' r']; cbn [hung] in H; try contradiction; try constructor.
  - rewrite leaves_all in *. apply (merged_lies _ _ _ _ H); auto.
  - rewrite leaves_all in *. apply (merged_lies _ _ _ _ H); auto.
  - destruct (half_aligned k p A) as [A1 A2]. destruct H as [H1 H2]. rewrite leaves_tree in *. unfold real in Re. apply Forall_app in Re. destruct Re as [R1 R2].
    apply Forall_app. split; eapply Forall_impl.
    + intros b. apply lies_low. exact K.
    + apply (IH l); (assumption || lia).
    + intros b. apply lies_high. exact K.
    + apply (IH r); (assumption || lia).
Qed.

Lemma end_to_end_app u l w l' w' : @end_to_end V u l w -> end_to_end w l' w' -> end_to_end u (l ++ l') w'.
Proof. induction 1 as [u|u p v l w A H IH]; intros H'; [exact H'|]. cbn [app]. constructor; [exact A|]. apply IH, H'. Qed.
Lemma merged_end u q l v : merged mg u q l v -> real l -> aligned u q -> end_to_end u l (u + size q).
Proof.
  induction 1 as [u q v|u q l1 l2 v1 v2 M1 IH1 M2 IH2]; intros Re (Hu & Hq & A).
  - constructor; [repeat split; assumption|constructor].
  - unfold real in Re. apply Forall_app in Re. destruct Re as [R1 R2].
    assert (Q : q < 32).
    { destruct (merged_size _ _ _ _ M1) as (b & I0 & L). rewrite Forall_forall in R1. specialize (R1 b I0). lia. }
    pose proof (size_step (q + 1) ltac:(lia) ltac:(lia)) as Sz. replace (q + 1 - 1) with q in Sz by lia. pose proof (size_pos (q + 1)) as Sp.
    assert (A1 : u mod size (q + 1) = 0) by (unfold size in *; apply (div_pow_dvd _ (32 - q)); [lia|exact A]).
    assert (U2 : u + size q <= 2 ^ 32).
    { replace (2 ^ 32) with (size q * 2 ^ q) by (unfold size; rewrite <- N.pow_add_r; f_equal; lia).
      assert (D : u = size q * (u / size q)) by (rewrite (N.div_mod u (size q)) at 1 by lia; lia).
      replace (u + size q) with (size q * (u / size q + 1)) by lia. apply N.mul_le_mono_l.
      assert (u / size q < 2 ^ q); [|lia]. apply N.div_lt_upper_bound; [lia|]. unfold size. rewrite <- N.pow_add_r. replace (32 - q + q) with 32 by lia. exact Hu. }
    apply (end_to_end_app _ _ (u + size (q + 1))); [apply IH1; [exact R1|]; repeat split; try assumption; lia|].
    replace (u + size q) with (u + size (q + 1) + size (q + 1)) by lia. apply IH2; [exact R2|]. repeat split; [lia|lia|].
    replace (u + size (q + 1)) with (u + 1 * size (q + 1)) by lia. rewrite N.mod_add by lia. exact A1.
Qed.
Lemma merged_assoc u q l v : (forall a b c, mg (mg a b) c = mg a (mg b c)) -> merged mg u q l v -> in_order mg (map snd l) v.
Proof.
  intros As. assert (F : forall l x y, mg x (fold_left mg l y) = fold_left mg l (mg x y)).
  { clear - As. intros l. induction l as [|z l IH]; intros x y; cbn [fold_left]; [reflexivity|]. rewrite IH, As. reflexivity. }
  assert (G : forall l1 l2 v1 v2, in_order mg l1 v1 -> in_order mg l2 v2 -> in_order mg (l1 ++ l2) (mg v1 v2)).
  { intros [|x1 r1] [|x2 r2] v1 v2; try contradiction; cbn [in_order app]; try (intros []; fail). intros -> ->. rewrite fold_left_app. cbn [fold_left]. apply F. }
  induction 1 as [u q v|u q l1 l2 v1 v2 M1 IH1 M2 IH2]; [reflexivity|]. rewrite map_app. apply G; assumption.
Qed.
Lemma total_app (f : V -> N) l l' : total f (l ++ l') = total f l + total f l'.
Proof. unfold total. rewrite map_app. induction l as [|x l IH]; cbn [map app fold_right]; [reflexivity|]. rewrite IH. lia. Qed.
Lemma total_perm (f : V -> N) l l' : Permutation l l' -> total f l = total f l'.
Proof. unfold total. induction 1; cbn [map fold_right]; lia. Qed.
Lemma merged_total f u q l v : (forall a b, f (mg a b) = f a + f b) -> merged mg u q l v -> f v = total f (map snd l).
Proof.
  intros Hf. induction 1 as [u q v|u q l1 l2 v1 v2 M1 IH1 M2 IH2].
  - unfold total. cbn [map fold_right snd]. lia.
  - rewrite map_app, total_app, Hf, IH1, IH2. reflexivity.
Qed.

(** ** Which blocks are left *)
Lemma filter_none {A} (f : A -> bool) l : (forall x, In x l -> f x = false) -> filter f l = [].
Proof. induction l as [|x l IH]; intros H; cbn [filter]; [reflexivity|]. rewrite (H x (or_introl eq_refl)). apply IH. intros y I0. apply H. right. exact I0. Qed.
Lemma filter_all {A} (f : A -> bool) l : (forall x, In x l -> f x = true) -> filter f l = l.
Proof. induction l as [|x l IH]; intros H; cbn [filter]; [reflexivity|]. rewrite (H x (or_introl eq_refl)). f_equal. apply IH. intros y I0. apply H. right. exact I0. Qed.
Definition out (pos e : N) (b : tile V) : bool := negb (inside (base pos (32 - e)) (32 - e) b).

(** A block of another half is not inside. *)
Lemma out_other k p p' pos e b : (k <= 32)%nat -> e <= N.of_nat k -> p mod pw k = 0 -> p <= pos < p + pw k ->
  lies k p' b -> p' + pw k <= p \/ p + pw k <= p' -> out pos e b = true.
Proof.
  intros K L A R H D. destruct b as [[u q] v]. cbn [lies] in H. destruct H as (Q & _ & Hu & Hw & _).
  unfold out, inside. destruct (_ <=? q); [|reflexivity]. cbn [andb]. destruct (N.eqb_spec (base u (32 - e)) (base pos (32 - e))) as [E|]; [|reflexivity].
  exfalso. unfold base in E. assert (Sz : size (32 - e) = 2 ^ e) by (unfold size; f_equal; lia). rewrite Sz in E.
  assert (P : 0 < 2 ^ e) by (apply N.neq_0_lt_0, N.pow_nonzero; discriminate).
  assert (Ed : u / 2 ^ e = pos / 2 ^ e) by (apply (N.mul_cancel_r _ _ (2 ^ e)); lia).
  assert (Up : u / pw k = pos / pw k).
  { replace (pw k) with (2 ^ e * 2 ^ (N.of_nat k - e)) by (rewrite <- N.pow_add_r; f_equal; lia).
    rewrite <- !N.div_div by (apply N.pow_nonzero; discriminate). rewrite Ed. reflexivity. }
  rewrite (proj2 (aligned_range (pw k) p pos (pw_pos k) A)) in Up by exact R.
  apply aligned_range in Up; [|apply pw_pos|exact A]. pose proof (size_pos q). lia.
Qed.
(** All blocks of the place itself are. *)
Lemma in_place k p pos b : (k <= 32)%nat -> p mod pw k = 0 -> p <= pos < p + pw k -> lies k p b -> out pos (N.of_nat k) b = false.
Proof.
  intros K A R H. destruct b as [[u q] v]. cbn [lies] in H. destruct H as (Q & Qk & Hu & Hw & _). unfold out, inside. fold (pre k).
  rewrite (proj2 (N.leb_le _ _) Qk). unfold base. rewrite size_pre by exact K.
  rewrite (base_unique (pw k) p pos (pw_pos k) A R).
  rewrite (base_unique (pw k) p u (pw_pos k) A) by (pose proof (size_pos q); lia). rewrite N.eqb_refl. reflexivity.
Qed.
Lemma add_leaves : forall k t a p pos e v z, (k <= 32)%nat -> e <= N.of_nat k -> p mod pw k = 0 -> p <= pos < p + pw k ->
  hung k t a p -> real (leaves a) -> agree k e pos z = true -> mem k a z = false ->
  Permutation (leaves (add (@app (tile V)) a pos k e [block_at pos e v])) (filter (out pos e) (leaves a) ++ [block_at pos e v]).
Proof.
  assert (Top : forall k t a p pos v, (k <= 32)%nat -> p mod pw k = 0 -> p <= pos < p + pw k -> hung k t a p -> real (leaves a) -> is_all a = false ->
    Permutation (leaves (add (@app (tile V)) a pos k (N.of_nat k) [block_at pos (N.of_nat k) v])) (filter (out pos (N.of_nat k)) (leaves a) ++ [block_at pos (N.of_nat k) v])).
  { intros k t a p pos v K A R H Re Ba. rewrite add_top by (auto; lia). rewrite leaves_all. rewrite filter_none; [reflexivity|].
    intros b I0. apply (in_place k p); try assumption. pose proof (hung_lies k t a p K A H Re) as F. rewrite Forall_forall in F. apply F, I0. }
  induction k as [|k IH]; intros t a p pos e v z K L A R H Re Ag M; 
    (destruct (is_all a) eqn:Ba; [destruct a as [|y|]; try discriminate; cbn in M; discriminate|]).
  - assert (e = 0) as -> by lia. apply (Top O t a p); assumption.
  - destruct (N.eq_dec e (N.of_nat (S k))) as [->|Ne]; [apply (Top (S k) t a p); assumption|].
    assert (Bt : is_all t = false) by (rewrite (hung_all _ _ _ _ H); exact Ba).
    rewrite add_step by (try assumption; lia). destruct (half_aligned k p A) as [A1 A2].
    destruct (hung_children _ _ _ _ Bt H) as [Hl Hr]. pose proof (half_in k p pos A R) as Hh.
    rewrite agree_step in Ag by lia. apply andb_prop in Ag. destruct Ag as [Eb Ag]. apply Bool.eqb_prop in Eb.
    rewrite (mem_children k a z Ba), <- Eb in M.
    assert (Sp : leaves a = leaves (left a) ++ leaves (right a)).
    { destruct a as [|y|l r]; [reflexivity|discriminate|]. apply leaves_tree. }
    rewrite Sp in *. unfold real in Re. apply Forall_app in Re. destruct Re as [Rl Rr].
    assert (Fl : Forall (lies k p) (leaves (left a))) by (apply (hung_lies k (left t)); (assumption || lia)).
    assert (Fr : Forall (lies k (p + pw k)) (leaves (right a))) by (apply (hung_lies k (right t)); (assumption || lia)).
    rewrite filter_app. rewrite Forall_forall in Fl, Fr.
    destruct (N.testbit pos (N.of_nat k)); rewrite leaves_fork.
    + rewrite (filter_all (out pos e) (leaves (left a))).
      2:{ intros b I0. apply (out_other k (p + pw k) p); (assumption || lia || auto). }
      rewrite <- app_assoc. apply Permutation_app_head. apply (IH (right t) (right a) (p + pw k) pos e v z); (assumption || lia).
    + rewrite (filter_all (out pos e) (leaves (right a))).
      2:{ intros b I0. apply (out_other k p (p + pw k)); (assumption || lia || auto). }
      rewrite (IH (left t) (left a) p pos e v z) by (assumption || lia). rewrite <- !app_assoc. apply Permutation_app_head. apply Permutation_app_comm.
Qed.

(** ** Is all of a block there? *)
Lemma full_or_not k : forall (a : node tiles), (forall z, mem k a z = true) \/ exists z, mem k a z = false.
Proof.
  induction k as [|k IH]; intros a; destruct a as [|y|l r]; try (left; reflexivity); try (right; exists 0; reflexivity).
  destruct (IH l) as [Hl|(z & Hl)].
  - destruct (IH r) as [Hr|(z & Hr)].
    + left. intros z. cbn [mem]. destruct (N.testbit z _); auto.
    + right. exists (put_bit true k z). cbn [mem]. rewrite put_bit_top, (mem_ext k r _ z (put_bit_low _ _ _)). exact Hr.
  - right. exists (put_bit false k z). cbn [mem]. rewrite put_bit_top, (mem_ext k l _ z (put_bit_low _ _ _)). exact Hl.
Qed.
Lemma there_or_not k : forall (a : node tiles) pos e,
  (forall z, agree k e pos z = true -> mem k a z = true) \/ exists z, agree k e pos z = true /\ mem k a z = false.
Proof.
  induction k as [|k IH]; intros a pos e.
  - destruct (full_or_not O a) as [H|(z & H)]; [left; auto|right; exists z; auto].
  - destruct (N.le_gt_cases (N.of_nat (S k)) e) as [L|L].
    { destruct (full_or_not (S k) a) as [H|(z & H)]; [left; auto|right; exists z; rewrite agree_top by exact L; auto]. }
    destruct (is_all a) eqn:Ba; [left; intros; destruct a; try discriminate; reflexivity|].
    destruct (IH (if N.testbit pos (N.of_nat k) then right a else left a) pos e) as [H|(z & Ag & H)].
    + left. intros z. rewrite agree_step, (mem_children k a z Ba) by lia. intros Ag. apply andb_prop in Ag. destruct Ag as [Eb Ag].
      apply Bool.eqb_prop in Eb. rewrite <- Eb. specialize (H z Ag). destruct (N.testbit pos (N.of_nat k)); exact H.
    + right. exists (put_bit (N.testbit pos (N.of_nat k)) k z). rewrite agree_step, (mem_children k a _ Ba), put_bit_top, Bool.eqb_reflx by lia.
      cbn [andb]. rewrite (agree_ext k _ _ _ z (put_bit_low _ _ _)), !(mem_ext k _ _ z (put_bit_low _ _ _)). split; [exact Ag|].
      destruct (N.testbit pos (N.of_nat k)); exact H.
Qed.

(** ** Listings *)
Lemma hung_list k : forall t a p, hung k t a p ->
  Forall2 (fun e l => let '(u, q, v) := e in merged mg u q l v) (lst k t p) (values a).
Proof.
  induction k as [|k IH]; intros t a p H; destruct t as [|v|l r], a as [|x|l' r']; cbn [hung] in H; try contradiction; cbn [lst values]; try (repeat constructor; exact H).
  destruct H as [H1 H2]. apply Forall2_app; apply IH; assumption.
Qed.
End Nodes.

Section Trees.
Context {V : Type}.
Notation tiles := (list (tile V)).
Implicit Types t : tree V.

Lemma Permutation_filter {A} (f : A -> bool) l l' : Permutation l l' -> Permutation (filter f l) (filter f l').
Proof.
  induction 1 as [|x l l' P IH|x y l|l l1 l2 P1 IH1 P2 IH2]; cbn [filter].
  - constructor.
  - destruct (f x); [constructor|]; exact IH.
  - destruct (f x), (f y); try apply Permutation_refl. apply perm_swap.
  - eapply Permutation_trans; eassumption.
Qed.
Lemma base_net u p x : in_net (base u p) p x <-> in_net u p x.
Proof. unfold in_net, base. rewrite N.div_mul by (unfold size; apply N.pow_nonzero; discriminate). reflexivity. Qed.
Lemma net_small u p x : u < 2 ^ 32 -> p <= 32 -> in_net u p x -> x < 2 ^ 32.
Proof.
  intros Hu Hp H. apply (@adds_small unit (CAddCidr (Some (net_of u p)) tt)). exists u, p. split; [|exact H].
  apply net_of_cidr; assumption.
Qed.

Record linked (B : tiles) t (a : node tiles) (S : tiles) : Prop := mkLinked {
  l_hung : hung (merge t) 32 (root t) a 0;
  l_normal : normal 32 a;
  l_real : real (leaves a);
  l_mem : forall x, x < 2 ^ 32 -> mem 32 a x = true <-> covered_by (map fst B) x;
  l_stands : standing B S;
  l_leaves : Permutation (leaves a) S }.

Lemma cover_snoc (B : tiles) u p v x : covered_by (map fst (B ++ [(u, p, v)])) x <-> covered_by (map fst B) x \/ in_net u p x.
Proof.
  rewrite map_app. cbn [map fst]. split.
  - intros (a & q & I0 & H). apply in_app_or in I0. destruct I0 as [I0|[E|[]]]; [left; exists a, q; auto|]. injection E as <- <-. right. exact H.
  - intros [(a & q & I0 & H)|H]; [exists a, q|exists u, p]; (split; [apply in_or_app|exact H]); [left; exact I0|right; left; reflexivity].
Qed.
Lemma linked_add B t a S u p v : u < 2 ^ 32 -> p <= 32 -> linked B t a S ->
  exists a' S', linked (B ++ [(base u p, p, v)]) (add_root t u (32 - p) v) a' S'.
Proof.
  intros Hu Hp [H Nm Re M St Pm].
  assert (Eb : block_at u (32 - p) v = (base u p, p, v)) by (unfold block_at; replace (32 - (32 - p)) with p by lia; reflexivity).
  assert (H' : hung (merge t) 32 (root (add_root t u (32 - p) v)) (add (@app (tile V)) a u 32 (32 - p) [block_at u (32 - p) v]) 0).
  { cbn [add_root root]. apply add_hung; [lia|lia|reflexivity|change (0 + pw 32) with (2 ^ 32); lia|exact H]. }
  assert (M' : forall a', a' = add (@app (tile V)) a u 32 (32 - p) [block_at u (32 - p) v] ->
    forall x, x < 2 ^ 32 -> mem 32 a' x = true <-> covered_by (map fst (B ++ [(base u p, p, v)])) x).
  { intros a' -> x Hx. rewrite add_mem, Bool.orb_true_iff, cover_snoc, base_net, <- (M x Hx), <- (agree_in_net u p x Hu Hx). reflexivity. }
  exists (add (@app (tile V)) a u 32 (32 - p) [block_at u (32 - p) v]).
  destruct (there_or_not 32 a u (32 - p)) as [T|(z & Ag & T)].
  - assert (Ea : add (@app (tile V)) a u 32 (32 - p) [block_at u (32 - p) v] = a) by (apply add_present; assumption).
    exists S. rewrite Ea in *. split; [exact H'|exact Nm|exact Re|apply M'; reflexivity| |exact Pm].
    apply ignored; [exact St|]. intros x Hx. apply (proj1 (base_net u p x)) in Hx. pose proof (net_small u p x Hu Hp Hx) as Lx.
    apply M; [exact Lx|]. apply T. apply agree_in_net; assumption.
  - exists (filter (fun b => negb (inside (base u p) p b)) S ++ [(base u p, p, v)]).
    assert (Pl : Permutation (leaves (add (@app (tile V)) a u 32 (32 - p) [block_at u (32 - p) v]))
      (filter (fun b => negb (inside (base u p) p b)) S ++ [(base u p, p, v)])).
    { rewrite (add_leaves (merge t) 32 (root t) a 0 u (32 - p) v z); try assumption; [|lia|lia|reflexivity|change (0 + pw 32) with (2 ^ 32); lia].
      rewrite Eb. apply Permutation_app_tail. unfold out. replace (32 - (32 - p)) with p by lia. apply Permutation_filter, Pm. }
    split; [exact H'|apply add_normal, Nm| |apply M'; reflexivity| |exact Pl].
    + unfold real. apply (Permutation_Forall (Permutation_sym Pl)). apply Forall_app. split; [|repeat constructor; exact Hp].
      apply Forall_forall. intros b I0. apply filter_In in I0. destruct I0 as [I0 _]. unfold real in Re. rewrite Forall_forall in Re. apply Re.
      apply (Permutation_in _ (Permutation_sym Pm)), I0.
    + set (x := z mod 2 ^ 32). assert (Lx : x < 2 ^ 32) by (apply N.mod_lt; discriminate).
      apply (takes_over B S (base u p) p v x); [exact St| |].
      * apply base_net, agree_in_net; [exact Hu|exact Lx|]. rewrite <- (agree_ext 32 _ _ z x) by apply low_mod. exact Ag.
      * intros C. apply (M x Lx) in C. rewrite <- (mem_ext 32 a z x) in C by apply low_mod. rewrite T in C. discriminate C.
Qed.
Lemma linked_prefixes v L : forall B t a S, Forall prefix_ok L -> linked B t a S ->
  exists a' S', linked (B ++ map (fun up => (base (fst up) (snd up), snd up, v)) L) (add_prefixes t L v) a' S'.
Proof.
  induction L as [|[u p] L IH]; intros B t a S Ok H.
  - exists a, S. cbn [map]. rewrite app_nil_r. exact H.
  - inversion Ok as [|? ? [Hu Hp] Ok']; subst. cbn [fst snd] in *. destruct (linked_add B t a S u p v Hu Hp H) as (a1 & S1 & H1).
    destruct (IH _ _ _ _ Ok' H1) as (a2 & S2 & H2). exists a2, S2. rewrite <- app_assoc in H2. rewrite prefixes_cons. exact H2.
Qed.
Lemma linked_steps t cs t' : steps t cs t' -> forall B a S, linked B t a S ->
  exists B' a' S', blocks_of cs B' /\ linked (B ++ B') t' a' S'.
Proof.
  induction 1 as [t|t c L cs t' P Ok Cov St IH]; intros B a S H.
  - exists [], a, S. rewrite app_nil_r. split; [constructor|exact H].
  - destruct (linked_prefixes (call_value c) L B t a S Ok H) as (a1 & S1 & H1). destruct (IH _ _ _ H1) as (B2 & a2 & S2 & Bo & H2).
    exists (map (fun up => (base (fst up) (snd up), snd up, call_value c)) L ++ B2), a2, S2. split; [constructor; assumption|].
    rewrite app_assoc. exact H2.
Qed.

Theorem listed_values fuel mg cs t : Forall proper cs -> apply_all fuel (New mg) cs = Ret t ->
  exists B S ls, blocks_of cs B /\ standing B S /\ Permutation (concat ls) S /\
    Forall2 (fun nv l => exists u p, aligned u p /\ fst nv = net_of u p /\ end_to_end u l (u + size p) /\ merged mg u p l (snd nv)) (ListCidr t) ls.
Proof.
  intros P E. pose proof (reached_normal _ _ _ _ E) as Nm. pose proof (reached_merge _ _ _ _ E) as Em. pose proof (run_steps _ _ _ _ P E) as St.
  destruct (linked_steps _ _ _ St [] NNone []) as (B & a & S & Bo & [H _ Re _ Sd Pm]).
  { split; [exact Logic.I|exact Logic.I|constructor| |constructor|constructor]. intros x _. split; [discriminate|intros (u & p & [] & _)]. }
  exists B, S, (values a). split; [exact Bo|]. split; [exact Sd|]. split; [exact Pm|].
  rewrite (ListCidr_entries t Nm). rewrite Em in H. pose proof (hung_list mg 32 (root t) a 0 H) as F.
  pose proof (entry_aligned t) as Al. unfold entries, leaves in *. revert F Al Re. generalize (lst 32 (root t) 0), (values a). clear.
  induction 1 as [|[[u p] v] l L ls M F IH]; intros Al Re; cbn [map]; [constructor|]. cbn [concat] in Re. unfold real in Re. apply Forall_app in Re. destruct Re as [R1 R2].
  assert (Au : aligned u p) by (apply (Al u p v); left; reflexivity). constructor.
  - exists u, p. cbn [show_entry fst snd]. split; [exact Au|]. split; [reflexivity|]. split; [|exact M]. apply (merged_end mg u p l v M R1 Au).
  - apply IH; [|exact R2]. intros u' p' v' I0. apply (Al u' p' v'). right. exact I0.
Qed.

(** ** Without overlaps all blocks stand *)
Definition clear_of (b c : tile V) : Prop := forall x, in_net (fst (fst b)) (snd (fst b)) x -> ~ in_net (fst (fst c)) (snd (fst c)) x.
Lemma pairs_snoc {A} (R : A -> A -> Prop) l x : ForallOrdPairs R (l ++ [x]) -> ForallOrdPairs R l /\ Forall (fun y => R y x) l.
Proof.
  induction l as [|y l IH]; cbn [app]; intros H; [split; constructor|]. inversion H as [|? ? F H']; subst. destruct (IH H') as [I1 I2].
  apply Forall_app in F. destruct F as [F1 F2]. inversion F2; subst. split; constructor; assumption.
Qed.
Lemma all_stand (B S : tiles) : standing B S -> ForallOrdPairs clear_of B -> S = B.
Proof.
  induction 1 as [|B S u p v St IH C|B S u p v x St IH Hx C]; intros O; [reflexivity| |].
  - exfalso. apply pairs_snoc in O. destruct O as [_ F]. destruct (C u eq_refl) as (a & q & I0 & Hin). apply in_map_iff in I0.
    destruct I0 as ([[a' q'] w] & E & I0). injection E as -> ->. rewrite Forall_forall in F. apply (F _ I0 u Hin). reflexivity.
  - apply pairs_snoc in O. destruct O as [O F]. rewrite (IH O). f_equal. apply filter_all. intros [[a q] w] I0. unfold inside.
    destruct (_ && _)%bool eqn:E; [|reflexivity]. exfalso. apply andb_prop in E. destruct E as [E1 E2]. apply N.leb_le in E1. apply N.eqb_eq in E2.
    rewrite Forall_forall in F. apply (F _ I0 a); cbn [fst snd]; [reflexivity|]. unfold in_net. rewrite <- E2. unfold base.
    rewrite N.div_mul by (unfold size; apply N.pow_nonzero; discriminate). reflexivity.
Qed.
Lemma pairs_app {A} (R : A -> A -> Prop) l l' : ForallOrdPairs R l -> ForallOrdPairs R l' -> (forall x y, In x l -> In y l' -> R x y) ->
  ForallOrdPairs R (l ++ l').
Proof.
  induction 1 as [|x l F H IH]; intros H' C; [exact H'|]. cbn [app]. constructor.
  - apply Forall_app. split; [exact F|]. apply Forall_forall. intros y I0. apply C; [left; reflexivity|exact I0].
  - apply IH; [exact H'|]. intros y z Iy Iz. apply C; [right; exact Iy|exact Iz].
Qed.
Lemma apart_clear v L : Forall prefix_ok L -> apart_blocks L ->
  ForallOrdPairs clear_of (map (fun up => (base (fst up) (snd up), snd up, v)) L).
Proof.
  induction L as [|[u p] L IH]; intros Ok Ap; cbn [map]; [constructor|]. inversion Ok as [|? ? [Hu Hp] Ok']; subst. cbn [fst snd apart_blocks] in *. destruct Ap as [A1 A2].
  constructor; [|apply IH; assumption]. apply Forall_forall. intros b I0. apply in_map_iff in I0. destruct I0 as ([u' p'] & <- & I0).
  intros x. cbn [fst snd]. rewrite !base_net. intros H H'. apply (A1 x (net_small u p x Hu Hp H) H). exists u', p'. auto.
Qed.
Lemma blocks_add (cs : list (tree_call V)) B : blocks_of cs B -> Forall proper cs -> forall b x, In b B -> in_net (fst (fst b)) (snd (fst b)) x ->
  exists c, In c cs /\ adds c x.
Proof.
  induction 1 as [|c L cs B P Bo IH]; intros Pr b x I0 H; [destruct I0|]. inversion Pr as [|? ? Pc Pr']; subst.
  apply in_app_or in I0. destruct I0 as [I0|I0].
  - exists c. split; [left; reflexivity|]. apply in_map_iff in I0. destruct I0 as ([u p] & <- & I0). cbn [fst snd] in H. rewrite base_net in H.
    destruct (apply_ok c Pc) as (L' & k & P' & Ok & Cov & _). rewrite (call_prefixes_fun c L L' P P') in I0.
    rewrite Forall_forall in Ok. destruct (Ok _ I0) as [Hu Hp]. cbn [fst snd] in *. apply Cov; [apply (net_small u p x Hu Hp H)|]. exists u, p. auto.
  - destruct (IH Pr' b x I0 H) as (d & Id & Ad). exists d. split; [right; exact Id|exact Ad].
Qed.
Lemma blocks_clear (cs : list (tree_call V)) B : blocks_of cs B -> Forall proper cs -> ForallOrdPairs disjoint cs -> ForallOrdPairs clear_of B.
Proof.
  induction 1 as [|c L cs B P Bo IH]; intros Pr O; [constructor|]. inversion Pr as [|? ? Pc Pr']; subst. inversion O as [|? ? F O']; subst.
  assert (Bc : blocks_of [c] (map (fun up => (base (fst up) (snd up), snd up, call_value c)) L ++ [])) by (constructor; [exact P|constructor]).
  rewrite app_nil_r in Bc.
  apply pairs_app; [|apply IH; assumption|].
  - destruct (apply_ok c Pc) as (L' & k & P' & Ok & _ & _). rewrite <- (call_prefixes_fun c L L' P P') in Ok.
    apply apart_clear; [exact Ok|]. apply (call_apart c); assumption.
  - intros b d Ib Id x Hb Hd. destruct (blocks_add [c] _ Bc ltac:(constructor; [exact Pc|constructor]) b x Ib Hb) as (c' & [<-|[]] & Ac).
    destruct (blocks_add cs B Bo Pr' d x Id Hd) as (c' & Ic & Ad). rewrite Forall_forall in F. apply (F c' Ic x Ac Ad).
Qed.
Lemma blocks_fun (cs : list (tree_call V)) B1 B2 : blocks_of cs B1 -> blocks_of cs B2 -> B1 = B2.
Proof.
  intros H. revert B2. induction H as [|c L cs B P Bo IH]; intros B2 H2; inversion H2; subst; [reflexivity|].
  rewrite (call_prefixes_fun c L L0) by assumption. f_equal. apply IH. assumption.
Qed.
Theorem listed_apart fuel mg cs t B : Forall proper cs -> ForallOrdPairs disjoint cs -> apply_all fuel (New mg) cs = Ret t -> blocks_of cs B ->
  exists ls, Permutation (concat ls) B /\
    Forall2 (fun nv l => exists u p, aligned u p /\ fst nv = net_of u p /\ end_to_end u l (u + size p) /\ merged mg u p l (snd nv)) (ListCidr t) ls.
Proof.
  intros P O E Bo. destruct (listed_values _ _ _ _ P E) as (B' & S & ls & Bo' & St & Pm & F). rewrite (blocks_fun _ _ _ Bo Bo').
  exists ls. split; [|exact F]. rewrite <- (all_stand B' S St); [exact Pm|]. apply (blocks_clear cs); assumption.
Qed.
Theorem totals fuel mg cs t B (f : V -> N) : (forall a b, f (mg a b) = f a + f b) ->
  Forall proper cs -> ForallOrdPairs disjoint cs -> apply_all fuel (New mg) cs = Ret t -> blocks_of cs B ->
  total f (map snd (ListCidr t)) = total f (map snd B).
Proof.
  intros Hf P O E Bo. destruct (listed_apart _ _ _ _ _ P O E Bo) as (ls & Pm & F).
  transitivity (total f (map snd (concat ls))); [|apply total_perm, Permutation_map, Pm]. clear Pm.
  induction F as [|nv l L ls (u & p & _ & _ & _ & M) F IH]; [reflexivity|]. cbn [concat map]. rewrite map_app.
  transitivity (f (snd nv) + total f (map snd L)); [reflexivity|]. rewrite IH, (merged_total mg f u p l (snd nv) Hf M). symmetry. apply total_app.
Qed.

Lemma end_size u (l : tiles) w : end_to_end u l w -> w = u + fold_right N.add 0 (map (fun b => size (snd (fst b))) l).
Proof. induction 1 as [u|u p v l w A H IH]; cbn [map fold_right fst snd]; lia. Qed.
Lemma standing_in (B S : tiles) : standing B S -> incl S B.
Proof.
  induction 1 as [|B S u p v St IH C|B S u p v x St IH Hx C]; intros b I0; [exact I0|apply in_or_app; left; apply IH, I0|].
  apply in_app_or in I0. apply in_or_app. destruct I0 as [I0|I0]; [left|right; exact I0]. apply filter_In in I0. apply IH, I0.
Qed.
Theorem counted fuel mg cs t (f : V -> N) : (forall a b, f (mg a b) = f a + f b) -> Forall proper cs ->
  (forall B u p v, blocks_of cs B -> In (u, p, v) B -> f v = size p) -> apply_all fuel (New mg) cs = Ret t ->
  forall n v, In (n, v) (ListCidr t) -> exists u p, aligned u p /\ n = net_of u p /\ f v = size p.
Proof.
  intros Hf P C E n v I0. destruct (listed_values _ _ _ _ P E) as (B & S & ls & Bo & St & Pm & F).
  assert (G : exists l, (forall b, In b l -> In b B) /\ exists u p, aligned u p /\ n = net_of u p /\ end_to_end u l (u + size p) /\ merged mg u p l v).
  { assert (Q : forall b, In b (concat ls) -> In b B) by (intros b Ib; apply (standing_in B S St), (Permutation_in _ Pm), Ib).
    clear - F I0 Q. induction F as [|nv l L ls H F IH]; [destruct I0|]. destruct I0 as [->|I0].
    - exists l. split; [|exact H]. intros b Ib. apply Q. cbn [concat]. apply in_or_app. left. exact Ib.
    - apply (IH I0). intros b Ib. apply Q. cbn [concat]. apply in_or_app. right. exact Ib. }
  destruct G as (l & Q & u & p & A & -> & Ee & M). exists u, p. split; [exact A|]. split; [reflexivity|].
  rewrite (merged_total mg f u p l v Hf M). apply end_size in Ee.
  assert (T : total f (map snd l) = fold_right N.add 0 (map (fun b => size (snd (fst b))) l)).
  { clear - C Q Bo. unfold total. rewrite map_map. induction l as [|[[a q] w] l IH]; [reflexivity|]. cbn [map fold_right fst snd].
    rewrite IH by (intros b Ib; apply Q; right; exact Ib). rewrite (C B a q w Bo (Q _ (or_introl eq_refl))). reflexivity. }
  rewrite T. lia.
Qed.
End Trees.
