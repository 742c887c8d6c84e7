(** Adding a whole list of numbers in place. *)
From Verif Require Import Base.Go Base.Mem Spec.BytesSpec Spec.AccumulateSpec Model.Bytes Proofs.BytesProofs.
Local Open Scope N_scope.

Lemma firstn_seq k : forall a n, firstn k (seq a n) = seq a (Nat.min k n).
Proof.
  induction k as [|k IH]; intros a n; [reflexivity|]. destruct n as [|n]; [reflexivity|].
  cbn [seq firstn Nat.min]. f_equal. apply IH.
Qed.

Lemma content_same m m' x n b k : only_changes m m' x n -> apart x n b (Nat.min (len b) k) ->
  firstn k (content m' b) = firstn k (content m b).
Proof.
  intros F A. unfold content. rewrite !firstn_map. apply map_ext_in. intros i Hi.
  apply F. intros W. apply (A (off b + i)%nat W).
  rewrite firstn_seq in Hi. apply in_seq in Hi.
  unfold within. lia.
Qed.

Lemma split_sum W X B S x1 C : W <> 0 -> x1 + W * C = (X + B) mod W + S -> x1 + W * ((X + B) / W + C) = X + (B + S).
Proof. intros HW E. pose proof (N.div_mod (X + B) W HW). lia. Qed.

Lemma le_accumulate n f x bs : In (n, f) le_functions -> (n <= len x)%nat ->
  forall m, mem_ok m -> Forall (fun b => apart x n b (Nat.min (len b) n)) bs ->
  exists m' cs, accumulate f m x bs = Ret (m', cs) /\ only_changes m m' x n /\ length cs = length bs
  /\ le_value (firstn n (content m' x)) + 256 ^ N.of_nat n * total cs =
     le_value (firstn n (content m x)) + total (map (fun b => le_value (firstn n (content m b))) bs).
Proof.
  intros Hf L. induction bs as [|b bs IH]; intros m H A.
  - exists m, []. split; [reflexivity|]. split; [intros y _; reflexivity|]. split; [reflexivity|].
    cbn [total fold_right map]. lia.
  - inversion A as [|? ? Ab A']; subst.
    destruct (le_add n f m x x b Hf H L Ab) as (m1 & E & _ & H1 & V & F); [lia|].
    destruct (IH m1 H1 A') as (m' & cs & E2 & F2 & LC & V2).
    cbn [accumulate]. rewrite E. cbn [bind]. rewrite E2. cbn [bind].
    eexists m', _. split; [reflexivity|].
    split; [intros y Hy; rewrite F2, F by exact Hy; reflexivity|].
    split; [cbn [length]; rewrite LC; reflexivity|].
    cbn [total fold_right map]. fold (total cs). fold (total (map (fun b => le_value (firstn n (content m b))) bs)).
    apply split_sum; [apply N.pow_nonzero; discriminate|].
    rewrite V2, V. f_equal. f_equal. apply map_ext_in. intros b' Hb'. f_equal.
    apply (content_same m m1 x n b' n F). rewrite Forall_forall in A'. apply A', Hb'.
Qed.

Lemma be_inplace_ok n f m x b : In (n, f) be_functions -> mem_ok m -> (n <= len x)%nat ->
  (len b <= n)%nat -> apart x (len x) b (len b) ->
  let T := be_value (firstn n (content m x)) + be_value (content m b) in
  exists m', f m x x b = Ret (m', T / 256 ^ N.of_nat n, None) /\ mem_ok m'
  /\ be_value (firstn n (content m' x)) = T mod 256 ^ N.of_nat n /\ only_changes m m' x n.
Proof.
  intros Hf H L Lb AP T.
  destruct (be_inplace n f m x b Hf H L Lb AP) as (m1 & E1 & V1 & F1).
  pose proof (be_add_exact n f m x x b Hf H L) as X. cbv zeta in X.
  replace (Nat.max n (Nat.min (len x) (len x))) with (len x) in X by lia.
  destruct X as (m' & E & C & H' & _); [exact AP|intros ? ? ?; unfold within in *; lia|].
  rewrite E1 in E. assert (m1 = m') by congruence. subst m'. exists m1. auto.
Qed.

Lemma content_all m m' x n b : only_changes m m' x n -> (n <= len x)%nat -> apart x (len x) b (len b) ->
  content m' b = content m b.
Proof.
  intros F L A. unfold content. apply map_ext_in. intros i Hi. apply in_seq in Hi. apply F.
  intros W. apply (A (off b + i)%nat); unfold within in *; lia.
Qed.

Lemma be_accumulate n f x bs : In (n, f) be_functions -> (n <= len x)%nat ->
  forall m, mem_ok m -> Forall (fun b => (len b <= n)%nat /\ apart x (len x) b (len b)) bs ->
  exists m' cs, accumulate f m x bs = Ret (m', cs) /\ only_changes m m' x n /\ length cs = length bs
  /\ be_value (firstn n (content m' x)) + 256 ^ N.of_nat n * total cs =
     be_value (firstn n (content m x)) + total (map (fun b => be_value (content m b)) bs).
Proof.
  intros Hf L. induction bs as [|b bs IH]; intros m H A.
  - exists m, []. split; [reflexivity|]. split; [intros y _; reflexivity|]. split; [reflexivity|].
    cbn [total fold_right map]. lia.
  - inversion A as [|? ? [Lb Ab] A']; subst.
    destruct (be_inplace_ok n f m x b Hf H L Lb Ab) as (m1 & E & H1 & V & F).
    destruct (IH m1 H1 A') as (m' & cs & E2 & F2 & LC & V2).
    cbn [accumulate]. rewrite E. cbn [bind]. rewrite E2. cbn [bind].
    eexists m', _. split; [reflexivity|].
    split; [intros y Hy; rewrite F2, F by exact Hy; reflexivity|].
    split; [cbn [length]; rewrite LC; reflexivity|].
    cbn [total fold_right map]. fold (total cs). fold (total (map (fun b => be_value (content m b)) bs)).
    apply split_sum; [apply N.pow_nonzero; discriminate|].
    rewrite V2, V. f_equal. f_equal. apply map_ext_in. intros b' Hb'. f_equal.
    rewrite Forall_forall in A'. apply (content_all m m1 x n b' F L). apply A', Hb'.
Qed.
