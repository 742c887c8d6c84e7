(** Fletcher 16/32/64. *)
From Verif Require Import Base.Go Base.HashApi Spec.ChecksumSpec Model.Fletcher
  Proofs.Util Proofs.HashRun Proofs.ChecksumProofs.
Local Open Scope N_scope.

(** ** Exact running sums *)

Fixpoint fl_b (c0 c1 : N) (l : list N) : N :=
  match l with
  | [] => c1
  | x :: l' => fl_b (c0 + x) (c1 + (c0 + x)) l'
  end.

Lemma fl_b_shift l : forall c0 c1,
  fl_b c0 c1 l = c1 + N.of_nat (length l) * c0 + fl_b 0 0 l.
Proof.
  induction l as [|x l IH]; intros c0 c1; cbn [fl_b length]; [lia|].
  rewrite IH, (IH (0 + x)). lia.
Qed.

Lemma fl_b_app l1 l2 c0 c1 :
  fl_b c0 c1 (l1 ++ l2) = fl_b (c0 + sum_all l1) (fl_b c0 c1 l1) l2.
Proof.
  revert c0 c1; induction l1 as [|x l1 IH]; intros c0 c1; cbn [app fl_b sum_all fold_right].
  - rewrite N.add_0_r. reflexivity.
  - fold (sum_all l1). rewrite IH. f_equal. lia.
Qed.

Lemma prefix_sums_cons x l : prefix_sums (x :: l) = x :: map (N.add x) (prefix_sums l).
Proof.
  unfold prefix_sums. cbn [length seq map firstn sum_all fold_right].
  rewrite N.add_0_r. f_equal. rewrite <- seq_shift, !map_map. apply map_ext. intros k.
  cbn [firstn sum_all fold_right]. reflexivity.
Qed.

Lemma prefix_sums_length l : length (prefix_sums l) = length l.
Proof. unfold prefix_sums. rewrite map_length, seq_length. reflexivity. Qed.

Lemma sum_map_add x l : sum_all (map (N.add x) l) = N.of_nat (length l) * x + sum_all l.
Proof.
  induction l as [|y l IH]; cbn [map sum_all fold_right length]; [lia|].
  fold (sum_all (map (N.add x) l)). fold (sum_all l). rewrite IH. lia.
Qed.

Lemma fl_b_spec l : fl_b 0 0 l = sum_all (prefix_sums l).
Proof.
  induction l as [|x l IH]; [reflexivity|].
  rewrite prefix_sums_cons. cbn [fl_b sum_all fold_right].
  fold (sum_all (map (N.add x) (prefix_sums l))).
  rewrite fl_b_shift, sum_map_add, prefix_sums_length, IH. lia.
Qed.

Lemma fl_b_mod M l c0 c1 : M <> 0 ->
  fl_b (c0 mod M) (c1 mod M) l mod M = fl_b c0 c1 l mod M.
Proof.
  intros HM. rewrite fl_b_shift, (fl_b_shift l c0 c1).
  rewrite <- (N.add_mod_idemp_l (c1 + _)) by exact HM.
  rewrite <- (N.add_mod_idemp_l (c1 mod M + _)) by exact HM. f_equal. f_equal.
  rewrite N.add_mod_idemp_l by exact HM.
  rewrite <- N.add_mod_idemp_r, N.mul_mod_idemp_r, N.add_mod_idemp_r by exact HM.
  reflexivity.
Qed.

Lemma sum_bound m l : Forall (fun x => x <= m) l -> sum_all l <= N.of_nat (length l) * m.
Proof.
  intros H; induction H as [|x l Hx H IH]; [simpl; lia|].
  cbn [sum_all fold_right length]. fold (sum_all l). lia.
Qed.

Lemma fl_b_bound m l : Forall (fun x => x <= m) l ->
  2 * fl_b 0 0 l <= m * (N.of_nat (length l) * (N.of_nat (length l) + 1)).
Proof.
  intros H; induction H as [|x l Hx H IH]; [simpl; lia|].
  cbn [fl_b length]. rewrite fl_b_shift.
  replace (N.of_nat (S (length l))) with (N.of_nat (length l) + 1) by lia.
  set (n := N.of_nat (length l)) in *. nia.
Qed.

(** Total bound for a batch of at most [K] words each at most [m], started
    from accumulators at most [m]. *)
Lemma fl_b_total m K l c0 c1 :
  Forall (fun x => x <= m) l -> N.of_nat (length l) <= K -> c0 <= m -> c1 <= m ->
  2 * fl_b c0 c1 l <= 2 * m + 2 * (K * m) + m * (K * (K + 1)).
Proof.
  intros H HK H0 H1. rewrite fl_b_shift. pose proof (fl_b_bound m l H) as B.
  set (n := N.of_nat (length l)) in *.
  assert (n * c0 <= K * m) by (apply N.mul_le_mono; lia).
  assert (n * (n + 1) <= K * (K + 1)) by (apply N.mul_le_mono; lia).
  assert (m * (n * (n + 1)) <= m * (K * (K + 1))) by (apply N.mul_le_mono_l; lia).
  lia.
Qed.

Lemma add_mod_step W a b : W <> 0 -> (a mod W + b) mod W = (a + b) mod W.
Proof. intros H. apply N.add_mod_idemp_l, H. Qed.

(** ** Fletcher 16 *)

Lemma inner16_spec k : forall rest c0 c1,
  (k <= length rest)%nat -> c0 < 2 ^ 32 -> c1 < 2 ^ 32 ->
  inner16 k rest c0 c1 =
  Ret (skipn k rest, (c0 + sum_all (firstn k rest)) mod 2 ^ 32,
       fl_b c0 c1 (firstn k rest) mod 2 ^ 32).
Proof.
  induction k as [|k IH]; intros rest c0 c1 Hk H0 H1.
  - cbn [inner16 skipn firstn sum_all fold_right fl_b].
    rewrite N.add_0_r, !N.mod_small by assumption. reflexivity.
  - destruct rest as [|x rest]; [simpl in Hk; lia|].
    cbn [inner16 skipn firstn fl_b sum_all fold_right]. fold (sum_all (firstn k rest)).
    assert (NZ : 2 ^ 32 <> 0) by discriminate.
    rewrite IH; [|simpl in Hk; lia|apply N.mod_lt, NZ|apply N.mod_lt, NZ].
    do 2 f_equal.
    + f_equal. unfold add32, u32. rewrite add_mod_step by exact NZ. f_equal. lia.
    + unfold add32, u32. rewrite (N.add_mod_idemp_r c1) by exact NZ.
      apply fl_b_mod, NZ.
Qed.

Lemma inner16_panic k : forall rest c0 c1, (length rest < k)%nat -> inner16 k rest c0 c1 = Panic.
Proof.
  induction k as [|k IH]; intros rest c0 c1 Hk; [lia|].
  destruct rest as [|x rest]; [reflexivity|]. cbn [inner16]. apply IH. simpl in Hk. lia.
Qed.

Definition dgood (M : N) (d : digest) : Prop := fa d < M /\ fb d < M.

(** What one write of words [l] must do to the digest. *)
Definition fl_next (M : N) (d : digest) (l : list N) : digest :=
  mkDigest ((fa d + sum_all l) mod M) (fl_b (fa d) (fb d) l mod M).

Lemma fl_next_good M d l : M <> 0 -> dgood M (fl_next M d l).
Proof. intros H. split; apply N.mod_lt, H. Qed.

Lemma fl_next_nil M d : dgood M d -> fl_next M d [] = d.
Proof.
  intros [H0 H1]. destruct d as [a b]. unfold fl_next. cbn [fa fb sum_all fold_right fl_b] in *.
  rewrite N.add_0_r, !N.mod_small by assumption. reflexivity.
Qed.

Lemma fl_next_app M d l1 l2 : M <> 0 ->
  fl_next M d (l1 ++ l2) = fl_next M (fl_next M d l1) l2.
Proof.
  intros HM. unfold fl_next. cbn [fa fb]. f_equal.
  - rewrite sum_all_app, add_mod_step by exact HM. f_equal. lia.
  - rewrite fl_b_app, fl_b_mod by exact HM. reflexivity.
Qed.

Lemma fl_next_fresh M l : M <> 0 ->
  fl_next M Reset l = mkDigest (fletcher_a M l) (fletcher_b M l).
Proof.
  intros _. unfold fl_next, Reset, fletcher_a, fletcher_b. cbn [fa fb].
  rewrite fl_b_spec. reflexivity.
Qed.

Lemma bytes_le l : bytes_ok l -> Forall (fun x => x <= 255) l.
Proof. apply Forall_impl. unfold is_byte. intros; lia. Qed.

Lemma sum_le_fl_b l c0 c1 : l <> [] -> c0 + sum_all l <= fl_b c0 c1 l.
Proof.
  revert c0 c1; induction l as [|x l IH]; intros c0 c1 H; [congruence|].
  cbn [fl_b sum_all fold_right]. fold (sum_all l).
  destruct l as [|y l]; [simpl; lia|].
  specialize (IH (c0 + x) (c1 + (c0 + x))). rewrite N.add_assoc. apply IH. discriminate.
Qed.

(** One write that fits in a batch: right exactly when the 32-bit
    accumulator does not overflow. *)
Lemma update16_batch d p : p <> [] -> N.of_nat (length p) <= c1Overflow16 ->
  dgood mod16 d ->
  update16 d p = Ret (mkDigest (u8 ((fa d + sum_all p) mod 2 ^ 32 mod mod16))
                               (u8 (fl_b (fa d) (fb d) p mod 2 ^ 32 mod mod16))).
Proof.
  intros Hne Hlen [Ha Hb]. unfold update16.
  destruct (length p) as [|n] eqn:EL; [destruct p; simpl in EL; congruence|].
  cbn [outer16]. destruct p as [|x p'] eqn:Ep; [congruence|]. rewrite <- Ep in *.
  rewrite N.min_l by exact Hlen. rewrite Nat2N.id.
  assert (M32 : mod16 < 2 ^ 32) by reflexivity.
  rewrite inner16_spec by lia. cbn [bind].
  rewrite <- EL, skipn_all, firstn_all. destruct n; cbn [outer16 bind]; reflexivity.
Qed.

Lemma u8_mod16 x : u8 (x mod mod16) = x mod mod16.
Proof.
  unfold u8. apply N.mod_small. apply N.lt_trans with mod16; [apply N.mod_lt; discriminate|reflexivity].
Qed.

Lemma update16_nil d : dgood mod16 d -> update16 d [] = Ret d.
Proof.
  intros [H0 H1]. destruct d as [a b]. unfold update16. cbn [length outer16 bind fa fb] in *.
  unfold u8. rewrite !N.mod_small; [reflexivity|..];
    apply N.lt_trans with mod16; try assumption; reflexivity.
Qed.

Lemma update16_ok d p : bytes_ok p -> N.of_nat (length p) <= 5802 -> dgood mod16 d ->
  update16 d p = Ret (fl_next mod16 d p).
Proof.
  intros Hok Hlen Hd. destruct p as [|x p'] eqn:Ep.
  { rewrite update16_nil, fl_next_nil by exact Hd. reflexivity. }
  rewrite <- Ep in *. assert (Hne : p <> []) by congruence. clear Ep x p'.
  rewrite update16_batch; [|exact Hne|unfold c1Overflow16; lia|exact Hd].
  destruct Hd as [Ha Hb]. unfold mod16 in Ha, Hb.
  assert (B : fl_b (fa d) (fb d) p < 2 ^ 32).
  { rewrite fl_b_shift. pose proof (fl_b_bound 255 p (bytes_le p Hok)) as B.
    set (n := N.of_nat (length p)) in *.
    assert (n * fa d <= 5802 * 254) by (apply N.mul_le_mono; lia).
    assert (n * (n + 1) <= 5802 * 5803) by (apply N.mul_le_mono; lia).
    change (2 ^ 32) with 4294967296. lia. }
  pose proof (sum_le_fl_b p (fa d) (fb d) Hne) as S.
  rewrite !(N.mod_small _ (2 ^ 32)) by lia. rewrite !u8_mod16. reflexivity.
Qed.

(** The exact outcome of a write of 5803 bytes: the checksum is the defined
    one exactly when the accumulator does not overflow. *)
Lemma fl_b_5803 d p : bytes_ok p -> N.of_nat (length p) <= 5803 -> dgood mod16 d ->
  fl_b (fa d) (fb d) p < 2 * 2 ^ 32.
Proof.
  intros Hok Hlen [Ha Hb]. unfold mod16 in *.
  rewrite fl_b_shift. pose proof (fl_b_bound 255 p (bytes_le p Hok)) as B.
  set (n := N.of_nat (length p)) in *.
  assert (n * fa d <= 5803 * 254) by (apply N.mul_le_mono; lia).
  assert (n * (n + 1) <= 5803 * 5804) by (apply N.mul_le_mono; lia).
  change (2 ^ 32) with 4294967296. lia.
Qed.

Lemma update16_5803 d p : bytes_ok p -> N.of_nat (length p) <= 5803 -> dgood mod16 d ->
  exists d', update16 d p = Ret d' /\ dgood mod16 d' /\ fa d' = fa (fl_next mod16 d p) /\
  (fb d' = fb (fl_next mod16 d p) <-> fl_b (fa d) (fb d) p < 2 ^ 32).
Proof.
  intros Hok Hlen Hd. destruct p as [|x p'] eqn:Ep.
  { exists d. rewrite update16_nil, fl_next_nil by exact Hd. repeat split; try apply Hd.
    cbn [fl_b]. intros _. destruct Hd as [_ Hb]. unfold mod16 in Hb.
    change (2 ^ 32) with 4294967296. lia. }
  rewrite <- Ep in *. assert (Hne : p <> []) by congruence. clear Ep x p'.
  rewrite update16_batch by (try exact Hlen; assumption).
  eexists. split; [reflexivity|]. rewrite !u8_mod16. cbn [fa fb fl_next].
  split; [split; apply N.mod_lt; discriminate|].
  assert (SB : fa d + sum_all p < 2 ^ 32).
  { pose proof (sum_bound 255 p (bytes_le p Hok)). destruct Hd as [Ha _]. unfold mod16 in Ha.
    change (2 ^ 32) with 4294967296. lia. }
  split; [rewrite (N.mod_small _ (2 ^ 32)) by exact SB; reflexivity|].
  pose proof (fl_b_5803 d p Hok Hlen Hd) as B.
  set (v := fl_b (fa d) (fb d) p) in *.
  unfold fl_next. cbn [fb]. fold v.
  split.
  - intros E. destruct (N.lt_ge_cases v (2 ^ 32)) as [L|L]; [exact L|exfalso].
    assert (V : v mod 2 ^ 32 = v - 2 ^ 32).
    { symmetry. apply (N.mod_unique v (2 ^ 32) 1); lia. }
    rewrite V in E. unfold mod16 in E. change (2 ^ 32) with 4294967296 in *.
    clear -E L B.
    pose proof (N.div_mod (v - 4294967296) 255) as D1.
    pose proof (N.div_mod v 255) as D2. rewrite E in D1. lia.
  - intros L. rewrite (N.mod_small v) by exact L. reflexivity.
Qed.

(** Longer writes: a panic unless the length is a multiple of 5803. *)
Lemma outer16_panic fuel : forall total rest c0 c1,
  5803 < N.of_nat total -> (length rest <= total)%nat ->
  (length rest <= fuel)%nat -> c0 < 2 ^ 32 -> c1 < 2 ^ 32 ->
  (N.of_nat (length rest) mod 5803 <> 0 -> outer16 fuel total rest c0 c1 = Panic) /\
  (N.of_nat (length rest) mod 5803 = 0 -> exists r, outer16 fuel total rest c0 c1 = Ret r).
Proof.
  induction fuel as [|fuel IH]; intros total rest c0 c1 Ht Hr Hf H0 H1.
  - destruct rest as [|x rest]; [|simpl in Hf; lia]. cbn [outer16 length].
    split; [intros H; exfalso; apply H; reflexivity|eauto].
  - destruct rest as [|x rest'] eqn:Er.
    { cbn [outer16 length]. split; [intros H; exfalso; apply H; reflexivity|eauto]. }
    rewrite <- Er in *. assert (Hne : (0 < length rest)%nat) by (rewrite Er; simpl; lia).
    assert (U : outer16 (S fuel) total rest c0 c1 =
      let len := N.min (N.of_nat total) c1Overflow16 in
          let! (rest', c0, c1) := inner16 (N.to_nat len) rest c0 c1 in
          outer16 fuel total rest' (c0 mod mod16) (c1 mod mod16)) by (rewrite Er; reflexivity).
    rewrite U. clear U Er x rest'. cbv zeta. unfold c1Overflow16. rewrite N.min_r by lia.
    destruct (N.lt_ge_cases (N.of_nat (length rest)) 5803) as [L|L].
    + rewrite inner16_panic by lia. cbn [bind]. split; [reflexivity|].
      intros H. rewrite N.mod_small in H by exact L. lia.
    + rewrite inner16_spec by lia. cbn [bind].
      assert (LB : length (skipn (N.to_nat 5803) rest) = (length rest - N.to_nat 5803)%nat)
        by apply skipn_length.
      assert (MM : N.of_nat (length (skipn (N.to_nat 5803) rest)) mod 5803
                   = N.of_nat (length rest) mod 5803).
      { rewrite LB. replace (N.of_nat (length rest))
          with (N.of_nat (length rest - N.to_nat 5803) + 1 * 5803) at 1 by lia.
        rewrite N.mod_add by lia. reflexivity. }
      assert (SM : forall x, x mod mod16 < 2 ^ 32).
      { intros x. apply N.lt_trans with mod16; [apply N.mod_lt; discriminate|reflexivity]. }
      rewrite <- MM. apply IH; try apply SM; lia.
Qed.

Lemma update16_panic_iff d p : dgood mod16 d ->
  (update16 d p = Panic <-> 5803 < N.of_nat (length p) /\ N.of_nat (length p) mod 5803 <> 0)
  /\ update16 d p <> OutOfFuel.
Proof.
  intros Hd. assert (M32 : mod16 < 2 ^ 32) by reflexivity.
  destruct (N.lt_ge_cases 5803 (N.of_nat (length p))) as [L|L].
  - destruct Hd as [Ha Hb].
    destruct (outer16_panic (length p) (length p) p (fa d) (fb d) L (Nat.le_refl _) (Nat.le_refl _)) as [P1 P2];
      try lia.
    unfold update16. destruct (N.eq_dec (N.of_nat (length p) mod 5803) 0) as [E|E].
    + destruct (P2 E) as [[c0 c1] ->]. cbn [bind]. split; [|discriminate].
      split; [discriminate|]. intros [_ H]. congruence.
    + rewrite (P1 E). cbn [bind]. split; [|discriminate]. split; auto.
  - destruct p as [|x p'] eqn:Ep.
    + rewrite update16_nil by exact Hd. split; [|discriminate].
      split; [discriminate|]. intros [H _]. simpl in H. lia.
    + rewrite <- Ep in *. rewrite update16_batch; [|congruence|unfold c1Overflow16; lia|exact Hd].
      split; [|discriminate]. split; [discriminate|]. lia.
Qed.

(** ** Fletcher 32 *)

Lemma words16_app l1 l2 : Nat.even (length l1) = true -> words16 (l1 ++ l2) = words16 l1 ++ words16 l2.
Proof.
  induction l1 as [|x|x y l1 IH] using list_pair_ind; intros H; [reflexivity|discriminate|].
  cbn [app words16]. rewrite IH by exact H. reflexivity.
Qed.

Lemma words16_bound l : bytes_ok l -> Forall (fun x => x <= 65535) (words16 l).
Proof.
  induction l as [|x|x y l IH] using list_pair_ind; intros H; unfold bytes_ok, is_byte in *.
  - constructor.
  - inversion H; subst. cbn [words16]. constructor; [lia|constructor].
  - inversion H as [|? ? Hx H']; subst. inversion H' as [|? ? Hy H'']; subst.
    cbn [words16]. constructor; [lia|auto].
Qed.

Lemma lor_word16 x y : x < 256 -> y < 256 -> N.lor x (shl64 y 8) = x + 256 * y.
Proof.
  intros Hx Hy. unfold shl64, u64. rewrite N.mod_small.
  - rewrite lor_add_shiftl by exact Hx. change (2 ^ 8) with 256. lia.
  - rewrite N.shiftl_mul_pow2. change (2 ^ 8) with 256. change (2 ^ 64) with 18446744073709551616. lia.
Qed.

Definition up2 (k : nat) : nat := (2 * Nat.div2 (k + 1))%nat.

Lemma up2_SS k : up2 (S (S k)) = S (S (up2 k)).
Proof. unfold up2. cbn [Nat.add Nat.div2]. lia. Qed.

Lemma inner32_spec k : forall rest c0 c1,
  (k <= length rest)%nat -> bytes_ok rest -> c0 < 2 ^ 64 -> c1 < 2 ^ 64 ->
  inner32 k rest c0 c1 =
  Ret (skipn (up2 k) rest, (c0 + sum_all (words16 (firstn (up2 k) rest))) mod 2 ^ 64,
       fl_b c0 c1 (words16 (firstn (up2 k) rest)) mod 2 ^ 64).
Proof.
  assert (NZ : 2 ^ 64 <> 0) by discriminate.
  assert (P : forall k, (forall rest c0 c1,
    (k <= length rest)%nat -> bytes_ok rest -> c0 < 2 ^ 64 -> c1 < 2 ^ 64 ->
    inner32 k rest c0 c1 =
    Ret (skipn (up2 k) rest, (c0 + sum_all (words16 (firstn (up2 k) rest))) mod 2 ^ 64,
       fl_b c0 c1 (words16 (firstn (up2 k) rest)) mod 2 ^ 64)) /\
    (forall rest c0 c1,
    (S k <= length rest)%nat -> bytes_ok rest -> c0 < 2 ^ 64 -> c1 < 2 ^ 64 ->
    inner32 (S k) rest c0 c1 =
    Ret (skipn (up2 (S k)) rest, (c0 + sum_all (words16 (firstn (up2 (S k)) rest))) mod 2 ^ 64,
       fl_b c0 c1 (words16 (firstn (up2 (S k)) rest)) mod 2 ^ 64))).
  2:{ intros rest c0 c1. apply P. }
  clear k. induction k as [|k [IH1 IH2]].
  - split.
    + intros rest c0 c1 _ _ H0 H1. change (up2 0) with O.
      cbn [inner32 skipn firstn words16 sum_all fold_right fl_b].
      rewrite N.add_0_r, !N.mod_small by assumption. reflexivity.
    + intros rest c0 c1 Hk Hok H0 H1. change (up2 1) with 2%nat.
      destruct rest as [|x [|y rest]]; [simpl in Hk; lia| |].
      * cbn [inner32 skipn firstn words16 sum_all fold_right fl_b].
        unfold add64, u64. rewrite N.add_0_r, N.add_mod_idemp_r by exact NZ. reflexivity.
      * unfold bytes_ok, is_byte in Hok. inversion Hok as [|? ? Hx Hok']; subst.
        inversion Hok' as [|? ? Hy Hok'']; subst.
        cbn [inner32 skipn firstn words16 sum_all fold_right fl_b].
        rewrite lor_word16 by assumption.
        unfold add64, u64. rewrite N.add_0_r, N.add_mod_idemp_r by exact NZ. reflexivity.
  - split; [exact IH2|].
    intros rest c0 c1 Hk Hok H0 H1. rewrite up2_SS.
    destruct rest as [|x [|y rest]]; [simpl in Hk; lia|simpl in Hk; lia|].
    unfold bytes_ok, is_byte in Hok. inversion Hok as [|? ? Hx Hok']; subst.
    inversion Hok' as [|? ? Hy Hok'']; subst.
    cbn [inner32 skipn firstn words16 sum_all fold_right fl_b].
    rewrite lor_word16 by assumption.
    rewrite IH1; [|simpl in Hk; lia|exact Hok''|apply N.mod_lt, NZ|apply N.mod_lt, NZ].
    unfold add64, u64. fold (sum_all (words16 (firstn (up2 k) rest))).
    do 2 f_equal.
    + f_equal. rewrite add_mod_step by exact NZ. f_equal. lia.
    + rewrite (N.add_mod_idemp_r c1) by exact NZ. apply fl_b_mod, NZ.
Qed.

Lemma words16_split k l : words16 l = words16 (firstn (up2 k) l) ++ words16 (skipn (up2 k) l).
Proof.
  destruct (Nat.le_gt_cases (length l) (up2 k)) as [H|H].
  - rewrite firstn_all2, skipn_all2 by exact H. cbn [words16]. rewrite app_nil_r. reflexivity.
  - rewrite <- words16_app, firstn_skipn; [reflexivity|].
    rewrite firstn_length, Nat.min_l by lia. unfold up2. rewrite Nat.even_mul. reflexivity.
Qed.

Lemma words16_length l : (length (words16 l) = Nat.div2 (length l + 1))%nat.
Proof.
  induction l as [|x|x y l IH] using list_pair_ind; [reflexivity|reflexivity|].
  cbn [words16 length Nat.add Nat.div2]. rewrite IH. reflexivity.
Qed.

Lemma up2_bound k : (k <= up2 k <= k + 1)%nat.
Proof.
  unfold up2. destruct (Nat.even k) eqn:E.
  - apply Nat.even_spec in E. destruct E as [j ->].
    replace (2 * j + 1)%nat with (S (2 * j)) by lia. rewrite Nat.div2_succ_double. lia.
  - assert (O : Nat.odd k = true) by (unfold Nat.odd; rewrite E; reflexivity).
    apply Nat.odd_spec in O. destruct O as [j ->].
    replace (2 * j + 1 + 1)%nat with (2 * (j + 1))%nat by lia. rewrite Nat.div2_double. lia.
Qed.

Lemma div2_le a b : (a <= b)%nat -> (Nat.div2 a <= Nat.div2 b)%nat.
Proof. intros H. rewrite !Nat.div2_div. apply Nat.div_le_mono; lia. Qed.

Lemma bytes_ok_firstn n l : bytes_ok l -> bytes_ok (firstn n l).
Proof. intros H. rewrite <- (firstn_skipn n l) in H. apply bytes_ok_app in H. apply H. Qed.

Lemma bytes_ok_skipn n l : bytes_ok l -> bytes_ok (skipn n l).
Proof. intros H. rewrite <- (firstn_skipn n l) in H. apply bytes_ok_app in H. apply H. Qed.

Lemma outer32_spec fuel : forall rest a b,
  (length rest <= fuel)%nat -> bytes_ok rest -> a < mod32 -> b < mod32 ->
  outer32 fuel rest a b = Ret ((a + sum_all (words16 rest)) mod mod32,
                               fl_b a b (words16 rest) mod mod32).
Proof.
  induction fuel as [|fuel IH]; intros rest a b Hf Hok Ha Hb.
  - destruct rest; [|simpl in Hf; lia]. cbn [outer32 words16 sum_all fold_right fl_b].
    rewrite N.add_0_r, !N.mod_small by assumption. reflexivity.
  - destruct rest as [|x rest'] eqn:Er.
    { cbn [outer32 words16 sum_all fold_right fl_b].
      rewrite N.add_0_r, !N.mod_small by assumption. reflexivity. }
    rewrite <- Er in *. assert (Hne : (0 < length rest)%nat) by (rewrite Er; simpl; lia).
    assert (U : outer32 (S fuel) rest a b =
      let len := N.min (N.of_nat (length rest)) c1Overflow32 in
          let! (rest', c0, c1) := inner32 (N.to_nat len) rest a b in
          outer32 fuel rest' (c0 mod mod32) (c1 mod mod32)) by (rewrite Er; reflexivity).
    rewrite U. clear U Er x rest'. cbv zeta.
    set (len := N.min (N.of_nat (length rest)) c1Overflow32).
    assert (HL1 : len <= N.of_nat (length rest)) by apply N.le_min_l.
    assert (HL2 : len <= 23726746) by apply N.le_min_r.
    assert (HL3 : 0 < len) by (unfold len, c1Overflow32; lia).
    assert (M64 : mod32 < 2 ^ 64) by reflexivity.
    rewrite inner32_spec by (try assumption; lia). cbn [bind].
    set (k := N.to_nat len). pose proof (up2_bound k) as UB.
    set (ws := words16 (firstn (up2 k) rest)).
    assert (WB : Forall (fun x => x <= 65535) ws)
      by (apply words16_bound, bytes_ok_firstn, Hok).
    assert (WL : N.of_nat (length ws) <= 11863373).
    { unfold ws. rewrite words16_length.
      assert (L : (length (firstn (up2 k) rest) <= up2 k)%nat) by (rewrite firstn_length; lia).
      assert (up2 k <= N.to_nat 23726746)%nat.
      { unfold up2. assert (Q : (Nat.div2 (k + 1) <= Nat.div2 (N.to_nat 23726746 + 1))%nat)
          by (apply div2_le; lia).
        rewrite !Nat.div2_div in Q. rewrite Nat.div2_div.
        assert (E : (N.to_nat 23726746 + 1 = 1 + N.to_nat 11863373 * 2)%nat) by lia.
        rewrite E, Nat.div_add in Q by lia.
        change (1 / 2)%nat with O in Q. lia. }
      assert (Q : (Nat.div2 (length (firstn (up2 k) rest) + 1) <= Nat.div2 (N.to_nat 23726746 + 1))%nat)
        by (apply div2_le; lia).
      assert (E : (N.to_nat 23726746 + 1 = 1 + N.to_nat 11863373 * 2)%nat) by lia.
      rewrite E in Q. rewrite (Nat.div2_div (1 + _)) in Q.
      rewrite Nat.div_add in Q by lia. change (1 / 2)%nat with O in Q. lia. }
    unfold mod32 in Ha, Hb.
    assert (B : fl_b a b ws < 2 ^ 64).
    { pose proof (fl_b_total 65535 11863373 ws a b WB WL) as T.
      change (2 ^ 64) with 18446744073709551616. lia. }
    assert (S : a + sum_all ws < 2 ^ 64).
    { pose proof (sum_bound 65535 ws WB) as T. change (2 ^ 64) with 18446744073709551616. lia. }
    rewrite (N.mod_small _ (2 ^ 64)) by exact S.
    rewrite (N.mod_small _ (2 ^ 64)) by exact B.
    rewrite IH.
    + rewrite (words16_split k rest). fold ws. rewrite sum_all_app, fl_b_app.
      f_equal. f_equal.
      * rewrite add_mod_step by discriminate. f_equal. lia.
      * rewrite fl_b_mod by discriminate. reflexivity.
    + rewrite skipn_length. lia.
    + apply bytes_ok_skipn, Hok.
    + apply N.mod_lt. discriminate.
    + apply N.mod_lt. discriminate.
Qed.

Lemma update32_ok d p : bytes_ok p -> dgood mod32 d ->
  update32 d p = Ret (fl_next mod32 d (words16 p)).
Proof.
  intros Hok [Ha Hb]. unfold update32. rewrite outer32_spec by (auto; lia). cbn [bind].
  unfold fl_next, u16. rewrite !(N.mod_small (_ mod mod32)); [reflexivity|..];
    (apply N.lt_trans with mod32; [apply N.mod_lt; discriminate|reflexivity]).
Qed.

(** ** Fletcher 64 *)

Lemma list_quad_ind {A} (P : list A -> Prop) :
  P [] -> (forall x, P [x]) -> (forall x y, P [x; y]) -> (forall x y z, P [x; y; z]) ->
  (forall x y z t l, P l -> P (x :: y :: z :: t :: l)) -> forall l, P l.
Proof.
  intros H0 H1 H2 H3 H4. fix IH 1. intros [|x [|y [|z [|t l]]]];
    [exact H0|apply H1|apply H2|apply H3|]. apply H4, IH.
Qed.

Lemma words32_app n l1 : (length l1 = 4 * n)%nat -> forall l2,
  words32 (l1 ++ l2) = words32 l1 ++ words32 l2.
Proof.
  revert n; induction l1 as [|x|x y|x y z|x y z t l1 IH] using list_quad_ind; intros n H l2;
    [reflexivity|simpl in H; lia|simpl in H; lia|simpl in H; lia|].
  cbn [app words32]. destruct n as [|n]; [simpl in H; lia|].
  rewrite (IH n) by (simpl in H; lia). reflexivity.
Qed.

Lemma words32_bound l : bytes_ok l -> Forall (fun x => x <= 4294967295) (words32 l).
Proof.
  induction l as [|x|x y|x y z|x y z t l IH] using list_quad_ind; intros H;
    unfold bytes_ok, is_byte in *;
    repeat match goal with H : Forall _ (_ :: _) |- _ => inversion H; clear H; subst end;
    cbn [words32]; try (constructor; [lia|constructor]); try constructor; auto; lia.
Qed.

Lemma words32_length n l : (length l <= 4 * n)%nat -> (length (words32 l) <= n)%nat.
Proof.
  revert n; induction l as [|x|x y|x y z|x y z t l IH] using list_quad_ind; intros n H;
    cbn [words32 length] in *; try lia.
  destruct n as [|n]; [lia|]. specialize (IH n). lia.
Qed.

Lemma shl64_small y k m : y < 256 -> 2 ^ k <= m -> m * 256 <= 2 ^ 64 -> shl64 y k = N.shiftl y k.
Proof.
  intros Hy Hk Hm. unfold shl64, u64. apply N.mod_small.
  rewrite N.shiftl_mul_pow2. nia.
Qed.

Lemma lor_word32 x y z t : x < 256 -> y < 256 -> z < 256 -> t < 256 ->
  N.lor x (shl64 y 8) = x + 256 * y /\
  N.lor (N.lor x (shl64 y 8)) (shl64 z 16) = x + 256 * y + 65536 * z /\
  N.lor (N.lor (N.lor x (shl64 y 8)) (shl64 z 16)) (shl64 t 24)
    = x + 256 * y + 65536 * z + 16777216 * t.
Proof.
  intros Hx Hy Hz Ht.
  assert (E1 : N.lor x (shl64 y 8) = x + 256 * y) by (apply lor_word16; assumption).
  assert (E2 : N.lor (N.lor x (shl64 y 8)) (shl64 z 16) = x + 256 * y + 65536 * z).
  { rewrite E1, (shl64_small z 16 65536) by (try assumption; discriminate).
    rewrite lor_add_shiftl by (change (2 ^ 16) with 65536; lia). change (2 ^ 16) with 65536. lia. }
  split; [exact E1|]. split; [exact E2|].
  rewrite E2, (shl64_small t 24 16777216) by (try assumption; discriminate).
  rewrite lor_add_shiftl by (change (2 ^ 24) with 16777216; lia). change (2 ^ 24) with 16777216. lia.
Qed.

Definition up4 (k : nat) : nat := (4 * ((k + 3) / 4))%nat.

Lemma up4_S4 k : up4 (S (S (S (S k)))) = S (S (S (S (up4 k)))).
Proof.
  unfold up4. replace (S (S (S (S k))) + 3)%nat with (k + 3 + 1 * 4)%nat by lia.
  rewrite Nat.div_add by lia. lia.
Qed.

Lemma nat_quad_ind (P : nat -> Prop) :
  P 0%nat -> P 1%nat -> P 2%nat -> P 3%nat -> (forall n, P n -> P (S (S (S (S n))))) -> forall n, P n.
Proof.
  intros H0 H1 H2 H3 H4. fix IH 1. intros [|[|[|[|n]]]]; [exact H0|exact H1|exact H2|exact H3|].
  apply H4, IH.
Qed.

Lemma read_word64_spec x rest : bytes_ok (x :: rest) ->
  read_word64 x rest = (hd 0 (words32 (firstn 4 (x :: rest))), skipn 3 rest)
  /\ words32 (firstn 4 (x :: rest)) = [hd 0 (words32 (firstn 4 (x :: rest)))].
Proof.
  intros Hok. unfold bytes_ok, is_byte in Hok.
  destruct rest as [|y [|z [|t rest]]]; 
    repeat match goal with H : Forall _ (_ :: _) |- _ => inversion H; clear H; subst end;
    cbn [read_word64 firstn words32 hd skipn].
  - split; reflexivity.
  - rewrite lor_word16 by assumption. split; reflexivity.
  - destruct (lor_word32 x y z 0) as (_ & -> & _); try assumption; [reflexivity|]. split; reflexivity.
  - destruct (lor_word32 x y z t) as (_ & _ & ->); try assumption. split; reflexivity.
Qed.

Lemma inner64_spec k : forall rest c0 c1,
  (k <= length rest)%nat -> bytes_ok rest -> c0 < 2 ^ 64 -> c1 < 2 ^ 64 ->
  inner64 k rest c0 c1 =
  Ret (skipn (up4 k) rest, (c0 + sum_all (words32 (firstn (up4 k) rest))) mod 2 ^ 64,
       fl_b c0 c1 (words32 (firstn (up4 k) rest)) mod 2 ^ 64).
Proof.
  assert (NZ : 2 ^ 64 <> 0) by discriminate.
  assert (Last : forall k, (k = 1 \/ k = 2 \/ k = 3)%nat -> forall rest c0 c1,
    (k <= length rest)%nat -> bytes_ok rest -> c0 < 2 ^ 64 -> c1 < 2 ^ 64 ->
    inner64 k rest c0 c1 =
    Ret (skipn (up4 k) rest, (c0 + sum_all (words32 (firstn (up4 k) rest))) mod 2 ^ 64,
       fl_b c0 c1 (words32 (firstn (up4 k) rest)) mod 2 ^ 64)).
  { intros j Hj rest c0 c1 Hk Hok H0 H1.
    assert (U : up4 j = 4%nat) by (destruct Hj as [->|[->| ->]]; reflexivity). rewrite U.
    destruct rest as [|x rest]; [simpl in Hk; lia|].
    destruct (read_word64_spec x rest Hok) as [R W].
    assert (I : inner64 j (x :: rest) c0 c1 =
      let '(add, rest') := read_word64 x rest in
      Ret (rest', add64 c0 add, add64 c1 (add64 c0 add)))
      by (destruct Hj as [->|[->| ->]]; reflexivity).
    rewrite I, R, W. cbn [sum_all fold_right fl_b]. unfold add64, u64.
    rewrite N.add_0_r, N.add_mod_idemp_r by exact NZ. reflexivity. }
  induction k as [| | | |k IH] using nat_quad_ind; try (apply Last; lia).
  - intros rest c0 c1 _ _ H0 H1. change (up4 0) with O.
    cbn [inner64 skipn firstn words32 sum_all fold_right fl_b].
    rewrite N.add_0_r, !N.mod_small by assumption. reflexivity.
  - intros rest c0 c1 Hk Hok H0 H1. rewrite up4_S4.
    destruct rest as [|x [|y [|z [|t rest]]]]; try (simpl in Hk; lia).
    unfold bytes_ok, is_byte in Hok.
    repeat match goal with H : Forall _ (_ :: _) |- _ => inversion H; clear H; subst end.
    cbn [inner64 read_word64 skipn firstn words32 sum_all fold_right fl_b].
    destruct (lor_word32 x y z t) as (_ & _ & ->); try assumption.
    rewrite IH; [|simpl in Hk; lia|assumption|apply N.mod_lt, NZ|apply N.mod_lt, NZ].
    unfold add64, u64. fold (sum_all (words32 (firstn (up4 k) rest))).
    do 2 f_equal.
    + f_equal. rewrite add_mod_step by exact NZ. f_equal. lia.
    + rewrite (N.add_mod_idemp_r c1) by exact NZ. apply fl_b_mod, NZ.
Qed.

Lemma words32_split k l : words32 l = words32 (firstn (up4 k) l) ++ words32 (skipn (up4 k) l).
Proof.
  destruct (Nat.le_gt_cases (length l) (up4 k)) as [H|H].
  - rewrite firstn_all2, skipn_all2 by exact H. cbn [words32]. rewrite app_nil_r. reflexivity.
  - rewrite <- (words32_app ((k + 3) / 4)), firstn_skipn; [reflexivity|].
    rewrite firstn_length, Nat.min_l by lia. reflexivity.
Qed.

Lemma up4_bound k : (k <= up4 k)%nat.
Proof.
  unfold up4. pose proof (Nat.div_mod (k + 3) 4). pose proof (Nat.mod_upper_bound (k + 3) 4). lia.
Qed.

Lemma outer64_spec fuel : forall rest a b,
  (length rest <= fuel)%nat -> bytes_ok rest -> a < mod64 -> b < mod64 ->
  outer64 fuel rest a b = Ret ((a + sum_all (words32 rest)) mod mod64,
                               fl_b a b (words32 rest) mod mod64).
Proof.
  induction fuel as [|fuel IH]; intros rest a b Hf Hok Ha Hb.
  - destruct rest; [|simpl in Hf; lia]. cbn [outer64 words32 sum_all fold_right fl_b].
    rewrite N.add_0_r, !N.mod_small by assumption. reflexivity.
  - destruct rest as [|x rest'] eqn:Er.
    { cbn [outer64 words32 sum_all fold_right fl_b].
      rewrite N.add_0_r, !N.mod_small by assumption. reflexivity. }
    rewrite <- Er in *. assert (Hne : (0 < length rest)%nat) by (rewrite Er; simpl; lia).
    assert (U : outer64 (S fuel) rest a b =
      let len := N.min (N.of_nat (length rest)) c1Overflow64 in
          let! (rest', c0, c1) := inner64 (N.to_nat len) rest a b in
          outer64 fuel rest' (c0 mod mod64) (c1 mod mod64)) by (rewrite Er; reflexivity).
    rewrite U. clear U Er x rest'. cbv zeta.
    set (len := N.min (N.of_nat (length rest)) c1Overflow64).
    assert (HL1 : len <= N.of_nat (length rest)) by apply N.le_min_l.
    assert (HL2 : len <= 92681) by apply N.le_min_r.
    assert (HL3 : 0 < len) by (unfold len, c1Overflow64; lia).
    assert (M64 : mod64 < 2 ^ 64) by reflexivity.
    rewrite inner64_spec by (try assumption; lia). cbn [bind].
    set (k := N.to_nat len). pose proof (up4_bound k) as UB.
    set (ws := words32 (firstn (up4 k) rest)).
    assert (WB : Forall (fun x => x <= 4294967295) ws)
      by (apply words32_bound, bytes_ok_firstn, Hok).
    assert (WL : N.of_nat (length ws) <= 23171).
    { assert (length ws <= (k + 3) / 4)%nat.
      { apply words32_length. rewrite firstn_length. unfold up4. lia. }
      assert (Q : ((k + 3) / 4 <= N.to_nat 23171)%nat).
      { apply Nat.lt_succ_r. apply Nat.div_lt_upper_bound; lia. }
      lia. }
    unfold mod64 in Ha, Hb.
    assert (B : fl_b a b ws < 2 ^ 64).
    { pose proof (fl_b_total 4294967295 23171 ws a b WB WL) as T.
      change (2 ^ 64) with 18446744073709551616. lia. }
    assert (S : a + sum_all ws < 2 ^ 64).
    { pose proof (sum_bound 4294967295 ws WB) as T. change (2 ^ 64) with 18446744073709551616. lia. }
    rewrite (N.mod_small _ (2 ^ 64)) by exact S.
    rewrite (N.mod_small _ (2 ^ 64)) by exact B.
    rewrite IH.
    + rewrite (words32_split k rest). fold ws. rewrite sum_all_app, fl_b_app.
      f_equal. f_equal.
      * rewrite add_mod_step by discriminate. f_equal. lia.
      * rewrite fl_b_mod by discriminate. reflexivity.
    + rewrite skipn_length. lia.
    + apply bytes_ok_skipn, Hok.
    + apply N.mod_lt. discriminate.
    + apply N.mod_lt. discriminate.
Qed.

Lemma update64_ok d p : bytes_ok p -> dgood mod64 d ->
  update64 d p = Ret (fl_next mod64 d (words32 p)).
Proof.
  intros Hok [Ha Hb]. unfold update64. rewrite outer64_spec by (auto; lia). cbn [bind].
  unfold fl_next, u32. rewrite !(N.mod_small (_ mod mod64)); [reflexivity|..];
    (apply N.lt_trans with mod64; [apply N.mod_lt; discriminate|reflexivity]).
Qed.

(** ** Histories *)

Definition rep (M : N) (words : list N -> list N) (d : digest) (ws : list (list N)) : Prop :=
  d = mkDigest (fletcher_a M (flat_map words ws)) (fletcher_b M (flat_map words ws)).

Lemma rep_fresh M words : M <> 0 -> rep M words Reset [].
Proof.
  intros H. unfold rep, Reset, fletcher_a, fletcher_b, prefix_sums. cbn [flat_map sum_all fold_right length seq map].
  rewrite N.mod_0_l by exact H. reflexivity.
Qed.

Lemma rep_good M words d ws : M <> 0 -> rep M words d ws -> dgood M d.
Proof. intros H ->. split; apply N.mod_lt, H. Qed.

Lemma rep_next M words d ws p : M <> 0 -> rep M words d ws ->
  rep M words (fl_next M d (words p)) (ws ++ [p]).
Proof.
  intros HM H. unfold rep in *. rewrite flat_map_app. cbn [flat_map]. rewrite app_nil_r.
  rewrite <- fl_next_fresh by exact HM. rewrite fl_next_app by exact HM.
  rewrite (fl_next_fresh M (flat_map words ws)) by exact HM. rewrite <- H. reflexivity.
Qed.

Definition fvalue (M H : N) (words : list N -> list N) (ws : list (list N)) : N :=
  fletcher M H (flat_map words ws).

Lemma rep_fields M words d ws : rep M words d ws ->
  fa d = fletcher_a M (flat_map words ws) /\ fb d = fletcher_b M (flat_map words ws).
Proof. intros ->. split; reflexivity. Qed.

Lemma div_shiftr v k : u8 (N.shiftr v k) = v / 2 ^ k mod 256.
Proof. unfold u8. rewrite N.shiftr_div_pow2. reflexivity. Qed.

Lemma be2 b a : b < 256 -> a < 256 -> big_endian 2 (b * 256 + a) = [b; a].
Proof.
  intros Hb Ha. cbn [big_endian app].
  rewrite (N.add_comm _ a), N.div_add, N.mod_add by lia.
  rewrite N.div_small, N.mod_small, N.add_0_l by assumption. rewrite N.mod_small by assumption.
  reflexivity.
Qed.

Lemma div_div v a b : a <> 0 -> b <> 0 -> v / a / b = v / (a * b).
Proof. intros. apply N.div_div; assumption. Qed.

(** Big-endian bytes of a two-halves number. *)
Lemma mod_split v a : a <> 0 -> exists q, v = q * a + v mod a.
Proof. intros H. exists (v / a). rewrite N.mul_comm. apply N.div_mod, H. Qed.

Lemma be_app m n hi lo : lo < 256 ^ N.of_nat n ->
  big_endian (m + n) (hi * 256 ^ N.of_nat n + lo) = big_endian m hi ++ big_endian n lo.
Proof.
  revert hi lo; induction n as [|n IH]; intros hi lo H.
  - change (N.of_nat 0) with 0 in *. rewrite N.pow_0_r in *. assert (lo = 0) by lia. subst.
    rewrite Nat.add_0_r, N.mul_1_r, N.add_0_r. cbn [big_endian]. rewrite app_nil_r. reflexivity.
  - rewrite Nat2N.inj_succ, N.pow_succ_r' in *. rewrite Nat.add_succ_r. cbn [big_endian].
    assert (E : hi * (256 * 256 ^ N.of_nat n) + lo
                = lo mod 256 + (hi * 256 ^ N.of_nat n + lo / 256) * 256).
    { pose proof (N.div_mod lo 256). lia. }
    assert (ML : lo mod 256 < 256) by (apply N.mod_lt; lia).
    rewrite E, N.div_add, N.mod_add by lia.
    rewrite (N.div_small _ _ ML), (N.mod_small _ _ ML), N.add_0_l.
    rewrite IH, <- app_assoc; [reflexivity|]. apply N.div_lt_upper_bound; lia.
Qed.

Lemma be_4 v : big_endian 4 v = [u8 (N.shiftr v 24); u8 (N.shiftr v 16); u8 (N.shiftr v 8); u8 v].
Proof.
  cbn [big_endian app]. rewrite !div_shiftr. rewrite !div_div by discriminate. reflexivity.
Qed.

Lemma be_2 v : big_endian 2 v = [u8 (N.shiftr v 8); u8 v].
Proof. cbn [big_endian app]. rewrite !div_shiftr. reflexivity. Qed.

Lemma be_1 v : v < 256 -> big_endian 1 v = [v].
Proof. intros H. cbn [big_endian app]. rewrite N.mod_small by exact H. reflexivity. Qed.

Lemma half_value b a k W : a < 2 ^ k -> b * 2 ^ k < W ->
  N.lor (N.shiftl b k mod W) a = b * 2 ^ k + a.
Proof.
  intros Ha Hb. rewrite (N.mod_small _ W) by (rewrite N.shiftl_mul_pow2; exact Hb).
  apply lor_shiftl_add, Ha.
Qed.

Lemma fl_lt M H l : M <> 0 -> M <= H -> fletcher_a M l < H /\ fletcher_b M l < H.
Proof.
  intros HM HH. unfold fletcher_a, fletcher_b.
  split; (eapply N.lt_le_trans; [apply N.mod_lt, HM|exact HH]).
Qed.

Lemma fletcher16_history cs :
  calls_ok cs -> writes_ok (fun p => N.of_nat (length p) <= 5802) cs ->
  exists s, run step16 New cs =
    Ret (s, trace (fun ws => fletcher 255 (2 ^ 8) (concat ws)) (big_endian 2) 2 1 [] cs)
    /\ rep 255 (fun l => l) s (since_reset [] cs).
Proof.
  intros Hc Hw.
  assert (ID : forall ws : list (list N), flat_map (fun l => l) ws = concat ws)
    by (intros; symmetry; apply (flat_map_concat_map (fun l : list N => l))|| (induction ws; simpl; congruence)).
  apply (run_trace step16 (fun ws => fletcher 255 (2 ^ 8) (concat ws)) (big_endian 2) 2 1
           (rep 255 (fun l => l)) (fun p => bytes_ok p /\ N.of_nat (length p) <= 5802)).
  - intros s ws p HR [Hp Hl].
    exists (fl_next 255 s p). split.
    + cbn [step16]. rewrite update16_ok; [reflexivity|exact Hp|exact Hl|].
      eapply rep_good; [discriminate|exact HR].
    + apply (rep_next 255 (fun l => l)); [discriminate|exact HR].
  - intros s ws inp HR. exists s. split; [|exact HR]. cbn [step16].
    destruct (rep_fields _ _ _ _ HR) as [-> ->]. rewrite ID.
    destruct (fl_lt 255 256 (concat ws)) as [A B]; [discriminate|discriminate|].
    unfold fletcher. change (2 ^ 8) with 256. rewrite be2 by assumption. reflexivity.
  - intros s ws HR. exists s. split; [|exact HR]. cbn [step16].
    destruct (rep_fields _ _ _ _ HR) as [-> ->]. rewrite ID.
    destruct (fl_lt 255 256 (concat ws)) as [A B]; [discriminate|discriminate|].
    unfold u16. rewrite half_value; [reflexivity|exact A|].
    change (2 ^ 16) with 65536. change (2 ^ 8) with 256. lia.
  - intros s ws HR. eexists. split; [reflexivity|]. apply rep_fresh. discriminate.
  - intros s ws HR. eexists. split; [reflexivity|exact HR].
  - intros s ws HR. eexists. split; [reflexivity|exact HR].
  - apply rep_fresh. discriminate.
  - apply calls_ok_writes in Hc. unfold writes_ok in *. clear -Hc Hw.
    induction cs as [|c cs IH]; constructor; inversion Hc; inversion Hw; subst.
    + destruct c; auto.
    + auto.
Qed.

Lemma fletcher32_history cs : calls_ok cs ->
  exists s, run step32 New cs =
    Ret (s, trace (fun ws => fletcher 65535 (2 ^ 16) (flat_map words16 ws)) (big_endian 4) 4 2 [] cs)
    /\ rep 65535 words16 s (since_reset [] cs).
Proof.
  intros Hc.
  apply (run_trace step32 (fun ws => fletcher 65535 (2 ^ 16) (flat_map words16 ws)) (big_endian 4) 4 2
           (rep 65535 words16) bytes_ok).
  - intros s ws p HR Hp.
    exists (fl_next 65535 s (words16 p)). split.
    + cbn [step32]. rewrite update32_ok; [reflexivity|exact Hp|].
      eapply rep_good; [discriminate|exact HR].
    + apply rep_next; [discriminate|exact HR].
  - intros s ws inp HR. exists s. split; [|exact HR]. cbn [step32].
    destruct (rep_fields _ _ _ _ HR) as [-> ->].
    destruct (fl_lt 65535 65536 (flat_map words16 ws)) as [A B]; [discriminate|discriminate|].
    unfold fletcher. change (2 ^ 16) with (256 ^ N.of_nat 2).
    rewrite (be_app 2 2) by exact A. rewrite !be_2. reflexivity.
  - intros s ws HR. exists s. split; [|exact HR]. cbn [step32].
    destruct (rep_fields _ _ _ _ HR) as [-> ->].
    destruct (fl_lt 65535 65536 (flat_map words16 ws)) as [A B]; [discriminate|discriminate|].
    unfold shl32, u32. rewrite half_value; [reflexivity|exact A|].
    change (2 ^ 16) with 65536. change (2 ^ 32) with 4294967296. lia.
  - intros s ws HR. eexists. split; [reflexivity|]. apply rep_fresh. discriminate.
  - intros s ws HR. eexists. split; [reflexivity|exact HR].
  - intros s ws HR. eexists. split; [reflexivity|exact HR].
  - apply rep_fresh. discriminate.
  - apply calls_ok_writes, Hc.
Qed.

Lemma fletcher64_history cs : calls_ok cs ->
  exists s, run step64 New cs =
    Ret (s, trace (fun ws => fletcher 4294967295 (2 ^ 32) (flat_map words32 ws)) (big_endian 8) 8 4 [] cs)
    /\ rep 4294967295 words32 s (since_reset [] cs).
Proof.
  intros Hc.
  apply (run_trace step64 (fun ws => fletcher 4294967295 (2 ^ 32) (flat_map words32 ws)) (big_endian 8) 8 4
           (rep 4294967295 words32) bytes_ok).
  - intros s ws p HR Hp.
    exists (fl_next 4294967295 s (words32 p)). split.
    + cbn [step64]. rewrite update64_ok; [reflexivity|exact Hp|].
      eapply rep_good; [discriminate|exact HR].
    + apply rep_next; [discriminate|exact HR].
  - intros s ws inp HR. exists s. split; [|exact HR]. cbn [step64].
    destruct (rep_fields _ _ _ _ HR) as [-> ->].
    destruct (fl_lt 4294967295 4294967296 (flat_map words32 ws)) as [A B]; [discriminate|discriminate|].
    unfold fletcher. change (2 ^ 32) with (256 ^ N.of_nat 4).
    rewrite (be_app 4 4) by exact A. rewrite !be_4. reflexivity.
  - intros s ws HR. exists s. split; [|exact HR]. cbn [step64].
    destruct (rep_fields _ _ _ _ HR) as [-> ->].
    destruct (fl_lt 4294967295 4294967296 (flat_map words32 ws)) as [A B]; [discriminate|discriminate|].
    unfold shl64, u64. rewrite half_value; [reflexivity|exact A|].
    change (2 ^ 32) with 4294967296. change (2 ^ 64) with 18446744073709551616. lia.
  - intros s ws HR. eexists. split; [reflexivity|]. apply rep_fresh. discriminate.
  - intros s ws HR. eexists. split; [reflexivity|exact HR].
  - intros s ws HR. eexists. split; [reflexivity|exact HR].
  - apply rep_fresh. discriminate.
  - apply calls_ok_writes, Hc.
Qed.

(** ** Corollaries for the property file *)

Lemma last_writes_run {St} step (s0 : St) value ser sz bs ws s :
  run step s0 (map CWrite ws ++ [CValue]) = Ret (s, trace value ser sz bs [] (map CWrite ws ++ [CValue])) ->
  observe step s0 (map CWrite ws ++ [CValue]) =
    Ret (map (fun p => RWrite (length p)) ws ++ [RValue (value ws)]).
Proof.
  intros H. unfold observe. rewrite H. cbn [bind]. rewrite trace_writes. reflexivity.
Qed.

Lemma writes_calls_ok ws : Forall bytes_ok ws -> calls_ok (map CWrite ws ++ [CValue]).
Proof.
  intros H. apply Forall_app. split; [|repeat constructor].
  apply Forall_map. exact H.
Qed.

Lemma fletcher32_writes ws : Forall bytes_ok ws ->
  observe step32 New (map CWrite ws ++ [CValue]) =
  Ret (map (fun p => RWrite (length p)) ws ++ [RValue (fletcher 65535 (2 ^ 16) (flat_map words16 ws))]).
Proof.
  intros H. destruct (fletcher32_history _ (writes_calls_ok ws H)) as (s & E & _).
  exact (last_writes_run _ _ _ _ _ _ _ _ E).
Qed.

Lemma fletcher64_writes ws : Forall bytes_ok ws ->
  observe step64 New (map CWrite ws ++ [CValue]) =
  Ret (map (fun p => RWrite (length p)) ws ++
       [RValue (fletcher 4294967295 (2 ^ 32) (flat_map words32 ws))]).
Proof.
  intros H. destruct (fletcher64_history _ (writes_calls_ok ws H)) as (s & E & _).
  exact (last_writes_run _ _ _ _ _ _ _ _ E).
Qed.

Lemma fletcher16_writes ws : Forall bytes_ok ws ->
  Forall (fun p => N.of_nat (length p) <= 5802) ws ->
  observe step16 New (map CWrite ws ++ [CValue]) =
  Ret (map (fun p => RWrite (length p)) ws ++ [RValue (fletcher 255 (2 ^ 8) (concat ws))]).
Proof.
  intros H H2. destruct (fletcher16_history _ (writes_calls_ok ws H)) as (s & E & _).
  { apply Forall_app. split; [|repeat constructor]. apply Forall_map. exact H2. }
  exact (last_writes_run _ _ _ _ _ _ _ _ E).
Qed.

Lemma removelast_concat_words16 ws :
  Forall (fun p => Nat.even (length p) = true) (removelast ws) ->
  flat_map words16 ws = words16 (concat ws).
Proof.
  induction ws as [|p ws IH]; intros H; [reflexivity|].
  destruct ws as [|q ws].
  - cbn [flat_map concat]. rewrite !app_nil_r. reflexivity.
  - change (removelast (p :: q :: ws)) with (p :: removelast (q :: ws)) in H.
    inversion H as [|? ? Hp H']; subst.
    change (flat_map words16 (p :: q :: ws)) with (words16 p ++ flat_map words16 (q :: ws)).
    rewrite (IH H'). change (concat (p :: q :: ws)) with (p ++ concat (q :: ws)).
    rewrite words16_app by exact Hp. reflexivity.
Qed.

Lemma removelast_concat_words32 ws :
  Forall (fun p => (length p mod 4 = 0)%nat) (removelast ws) ->
  flat_map words32 ws = words32 (concat ws).
Proof.
  induction ws as [|p ws IH]; intros H; [reflexivity|].
  destruct ws as [|q ws].
  - cbn [flat_map concat]. rewrite !app_nil_r. reflexivity.
  - change (removelast (p :: q :: ws)) with (p :: removelast (q :: ws)) in H.
    inversion H as [|? ? Hp H']; subst.
    change (flat_map words32 (p :: q :: ws)) with (words32 p ++ flat_map words32 (q :: ws)).
    rewrite (IH H'). change (concat (p :: q :: ws)) with (p ++ concat (q :: ws)).
    rewrite (words32_app (length p / 4)); [reflexivity|].
    pose proof (Nat.div_mod (length p) 4). lia.
Qed.

Lemma fletcher32_aligned ws : Forall bytes_ok ws ->
  Forall (fun p => Nat.even (length p) = true) (removelast ws) ->
  observe step32 New (map CWrite ws ++ [CValue]) =
  Ret (map (fun p => RWrite (length p)) ws ++ [RValue (fletcher 65535 (2 ^ 16) (words16 (concat ws)))]).
Proof.
  intros H H2. rewrite fletcher32_writes, removelast_concat_words16 by assumption. reflexivity.
Qed.

Lemma fletcher64_aligned ws : Forall bytes_ok ws ->
  Forall (fun p => (length p mod 4 = 0)%nat) (removelast ws) ->
  observe step64 New (map CWrite ws ++ [CValue]) =
  Ret (map (fun p => RWrite (length p)) ws ++
       [RValue (fletcher 4294967295 (2 ^ 32) (words32 (concat ws)))]).
Proof.
  intros H H2. rewrite fletcher64_writes, removelast_concat_words32 by assumption. reflexivity.
Qed.

(** Fletcher 16, writes longer than the safe batch, after any safe history. *)
Lemma fletcher16_long cs p :
  calls_ok cs -> writes_ok (fun q => N.of_nat (length q) <= 5802) cs -> bytes_ok p ->
  (observe step16 New (cs ++ [CWrite p]) = Panic <->
     5803 < N.of_nat (length p) /\ N.of_nat (length p) mod 5803 <> 0)
  /\ observe step16 New (cs ++ [CWrite p]) <> OutOfFuel.
Proof.
  intros Hc Hw Hp. destruct (fletcher16_history cs Hc Hw) as (s & E & R).
  apply rep_good in R; [|discriminate]. destruct (update16_panic_iff s p R) as [P1 P2].
  unfold observe. rewrite run_app, E. cbn [bind run step16].
  destruct (update16 s p) as [d'| |]; cbn [bind].
  - split; [|discriminate]. rewrite <- P1. split; discriminate.
  - split; [|discriminate]. tauto.
  - congruence.
Qed.

Lemma flat_map_id {A} (ws : list (list A)) : flat_map (fun l => l) ws = concat ws.
Proof. induction ws as [|p ws IH]; [reflexivity|]. cbn [flat_map concat]. rewrite IH. reflexivity. Qed.

Lemma fletcher16_5803 cs p m :
  calls_ok cs -> writes_ok (fun q => N.of_nat (length q) <= 5802) cs -> bytes_ok p ->
  N.of_nat (length p) <= 5803 -> m = concat (since_reset [] cs) ->
  exists rs v, observe step16 New (cs ++ [CWrite p; CValue]) = Ret (rs ++ [RValue v])
  /\ (v = fletcher 255 (2 ^ 8) (m ++ p) <->
      fletcher_b 255 m + N.of_nat (length p) * fletcher_a 255 m + sum_all (prefix_sums p) < 2 ^ 32).
Proof.
  intros Hc Hw Hp Hl ->. destruct (fletcher16_history cs Hc Hw) as (s & E & R).
  pose proof R as R0. apply rep_good in R; [|discriminate].
  destruct (update16_5803 s p Hp Hl R) as (d' & U & G & A & B).
  unfold observe. rewrite run_app, E. cbn [bind run step16]. rewrite U. cbn [bind].
  set (m := concat (since_reset [] cs)).
  exists (trace (fun ws => fletcher 255 (2 ^ 8) (concat ws)) (big_endian 2) 2 1 [] cs ++ [RWrite (length p)]).
  eexists. rewrite <- app_assoc. split; [reflexivity|].
  destruct G as [Ga Gb].
  assert (Ha : fa d' < 2 ^ 8) by (eapply N.lt_trans; [exact Ga|reflexivity]).
  unfold u16. rewrite half_value; [|exact Ha|].
  2:{ change (2 ^ 8) with 256. change (2 ^ 16) with 65536. unfold mod16 in Gb. lia. }
  assert (F : fl_next 255 s p = mkDigest (fletcher_a 255 (m ++ p)) (fletcher_b 255 (m ++ p))).
  { unfold rep in R0. rewrite flat_map_id in R0. fold m in R0. rewrite R0.
    rewrite <- !fl_next_fresh by discriminate. rewrite fl_next_app by discriminate. reflexivity. }
  change mod16 with 255 in *. rewrite F in A, B. cbn [fa fb] in A, B.
  unfold fletcher. rewrite A.
  destruct (rep_fields _ _ _ _ R0) as [E1 E2]. rewrite flat_map_id in E1, E2. fold m in E1, E2.
  rewrite fl_b_shift, fl_b_spec, E1, E2 in B. rewrite <- B.
  split; [|intros ->; reflexivity]. intros V.
  change (2 ^ 8) with 256 in *. lia.
Qed.

(** ** Error detection *)

Lemma mod_cancel M a b c : M <> 0 -> (a + b) mod M = (a + c) mod M -> b mod M = c mod M.
Proof.
  intros HM H. apply N2Z.inj. apply (f_equal Z.of_N) in H.
  rewrite !N2Z.inj_mod, !N2Z.inj_add in *.
  assert (P : (0 < Z.of_N M)%Z) by lia.
  revert H. generalize (Z.of_N a), (Z.of_N b), (Z.of_N c), (Z.of_N M) as m, P.
  intros x y z m Hm H.
  rewrite <- (Z.add_simpl_l x y), <- (Z.add_simpl_l x z).
  rewrite <- (Zminus_mod_idemp_l (x + y)), <- (Zminus_mod_idemp_l (x + z)), H. reflexivity.
Qed.

Lemma fletcher_parts M H l l' : M <> 0 -> M <= H ->
  fletcher M H l = fletcher M H l' -> fletcher_a M l = fletcher_a M l' /\ fletcher_b M l = fletcher_b M l'.
Proof.
  intros HM HH E. unfold fletcher in E.
  destruct (fl_lt M H l HM HH) as [A1 B1]. destruct (fl_lt M H l' HM HH) as [A2 B2].
  assert (Q : fletcher_b M l = fletcher_b M l').
  { transitivity ((fletcher_b M l * H + fletcher_a M l) / H).
    - apply (N.div_unique _ H (fletcher_b M l) (fletcher_a M l)); [assumption|lia].
    - rewrite E. symmetry.
      apply (N.div_unique _ H (fletcher_b M l') (fletcher_a M l')); [assumption|lia]. }
  split; [|exact Q]. rewrite Q in E. lia.
Qed.

Lemma fletcher_word_change M H pre x y post : M <> 0 -> M <= H ->
  x mod M <> y mod M -> fletcher M H (pre ++ x :: post) <> fletcher M H (pre ++ y :: post).
Proof.
  intros HM HH Hne E. apply fletcher_parts in E; try assumption. destruct E as [E _].
  apply Hne. unfold fletcher_a in E. rewrite !sum_all_app in E. apply mod_cancel in E; [|exact HM].
  cbn [sum_all fold_right] in E. rewrite !(N.add_comm _ (fold_right _ _ _)) in E.
  apply mod_cancel in E; assumption.
Qed.

Lemma fletcher_swap M H pre x y post : M <> 0 -> M <= H ->
  x mod M <> y mod M ->
  fletcher M H (pre ++ x :: y :: post) <> fletcher M H (pre ++ y :: x :: post).
Proof.
  intros HM HH Hne E. apply fletcher_parts in E; try assumption. destruct E as [_ E].
  apply Hne. unfold fletcher_b in E. rewrite <- !fl_b_spec in E. rewrite !fl_b_app in E.
  cbn [fl_b] in E. set (s := 0 + sum_all pre) in *. set (b := fl_b 0 0 pre) in *.
  rewrite (fl_b_shift post (s + x + y)), (fl_b_shift post (s + y + x)) in E.
  replace (s + y + x) with (s + x + y) in E by lia.
  set (r := N.of_nat (length post) * (s + x + y) + fl_b 0 0 post) in *.
  assert (E' : (b + s + (s + x + y) + r + x) mod M = (b + s + (s + x + y) + r + y) mod M).
  { replace (b + s + (s + x + y) + r + x) with
      (b + (s + x) + (s + x + y) + N.of_nat (length post) * (s + x + y) + fl_b 0 0 post) by (unfold r; lia).
    rewrite E. f_equal. unfold r. lia. }
  apply mod_cancel in E'; assumption.
Qed.

Lemma detect_generic {St} step (s0 : St) (F : list N -> N) m1 m2 :
  observe step s0 [CWrite m1; CValue] = Ret [RWrite (length m1); RValue (F m1)] ->
  observe step s0 [CWrite m2; CValue] = Ret [RWrite (length m2); RValue (F m2)] ->
  F m1 <> F m2 ->
  exists n1 n2 v1 v2,
  observe step s0 [CWrite m1; CValue] = Ret [RWrite n1; RValue v1] /\
  observe step s0 [CWrite m2; CValue] = Ret [RWrite n2; RValue v2] /\ v1 <> v2.
Proof. intros -> -> H. do 4 eexists. split; [reflexivity|]. split; [reflexivity|exact H]. Qed.

Lemma fletcher16_one m : bytes_ok m -> N.of_nat (length m) <= 5802 ->
  observe step16 New [CWrite m; CValue] = Ret [RWrite (length m); RValue (fletcher 255 (2 ^ 8) m)].
Proof.
  intros H L. pose proof (fletcher16_writes [m]) as W. cbn [map app concat] in W.
  rewrite app_nil_r in W. apply W; constructor; auto.
Qed.

Lemma fletcher32_one m : bytes_ok m ->
  observe step32 New [CWrite m; CValue] =
  Ret [RWrite (length m); RValue (fletcher 65535 (2 ^ 16) (words16 m))].
Proof.
  intros H. pose proof (fletcher32_writes [m]) as W. cbn [map app flat_map] in W.
  rewrite app_nil_r in W. apply W; constructor; auto.
Qed.

Lemma fletcher64_one m : bytes_ok m ->
  observe step64 New [CWrite m; CValue] =
  Ret [RWrite (length m); RValue (fletcher 4294967295 (2 ^ 32) (words32 m))].
Proof.
  intros H. pose proof (fletcher64_writes [m]) as W. cbn [map app flat_map] in W.
  rewrite app_nil_r in W. apply W; constructor; auto.
Qed.

Lemma fletcher16_change pre x y post :
  bytes_ok (pre ++ x :: post) -> bytes_ok (pre ++ y :: post) ->
  N.of_nat (length (pre ++ x :: post)) <= 5802 -> x mod 255 <> y mod 255 ->
  differ step16 New (pre ++ x :: post) (pre ++ y :: post).
Proof.
  intros H1 H2 L Hne. apply (detect_generic _ _ (fletcher 255 (2 ^ 8))).
  - apply fletcher16_one; assumption.
  - apply fletcher16_one; [assumption|]. rewrite app_length in *. exact L.
  - apply fletcher_word_change; [discriminate|discriminate|exact Hne].
Qed.

Lemma fletcher16_swap pre x y post :
  bytes_ok (pre ++ x :: y :: post) ->
  N.of_nat (length (pre ++ x :: y :: post)) <= 5802 -> x mod 255 <> y mod 255 ->
  differ step16 New (pre ++ x :: y :: post) (pre ++ y :: x :: post).
Proof.
  intros H1 L Hne. apply (detect_generic _ _ (fletcher 255 (2 ^ 8))).
  - apply fletcher16_one; assumption.
  - apply fletcher16_one.
    + unfold bytes_ok in *. apply Forall_app in H1. destruct H1 as [P Q]. apply Forall_app.
      split; [exact P|]. inversion Q as [|? ? Q1 Q2]; subst. inversion Q2; subst.
      constructor; [assumption|constructor; assumption].
    + rewrite app_length in *. exact L.
  - apply fletcher_swap; [discriminate|discriminate|exact Hne].
Qed.

Lemma fletcher32_change pre x1 x2 y1 y2 post :
  bytes_ok (pre ++ x1 :: x2 :: post) -> bytes_ok (pre ++ y1 :: y2 :: post) ->
  Nat.even (length pre) = true ->
  (x1 + 256 * x2) mod 65535 <> (y1 + 256 * y2) mod 65535 ->
  differ step32 New (pre ++ x1 :: x2 :: post) (pre ++ y1 :: y2 :: post).
Proof.
  intros H1 H2 E Hne. apply (detect_generic _ _ (fun m => fletcher 65535 (2 ^ 16) (words16 m))).
  - apply fletcher32_one; assumption.
  - apply fletcher32_one; assumption.
  - rewrite !words16_app by exact E. cbn [words16].
    apply fletcher_word_change; [discriminate|discriminate|exact Hne].
Qed.

Lemma fletcher32_swap pre x1 x2 y1 y2 post :
  bytes_ok (pre ++ x1 :: x2 :: y1 :: y2 :: post) ->
  Nat.even (length pre) = true ->
  (x1 + 256 * x2) mod 65535 <> (y1 + 256 * y2) mod 65535 ->
  differ step32 New (pre ++ x1 :: x2 :: y1 :: y2 :: post) (pre ++ y1 :: y2 :: x1 :: x2 :: post).
Proof.
  intros H1 E Hne. apply (detect_generic _ _ (fun m => fletcher 65535 (2 ^ 16) (words16 m))).
  - apply fletcher32_one; assumption.
  - apply fletcher32_one. unfold bytes_ok in *. apply Forall_app in H1. destruct H1 as [P Q].
    apply Forall_app. split; [exact P|].
    repeat match goal with H : Forall _ (_ :: _) |- _ => inversion H; clear H; subst end.
    repeat constructor; assumption.
  - rewrite !words16_app by exact E. cbn [words16].
    apply fletcher_swap; [discriminate|discriminate|exact Hne].
Qed.

Lemma fletcher64_change pre w v post :
  bytes_ok (pre ++ word32_bytes w ++ post) -> bytes_ok (pre ++ word32_bytes v ++ post) ->
  (length pre mod 4 = 0)%nat ->
  word32 w mod 4294967295 <> word32 v mod 4294967295 ->
  differ step64 New (pre ++ word32_bytes w ++ post) (pre ++ word32_bytes v ++ post).
Proof.
  intros H1 H2 E Hne. destruct w as [[[w1 w2] w3] w4], v as [[[v1 v2] v3] v4].
  cbn [word32 word32_bytes app] in *.
  assert (E' : (length pre = 4 * (length pre / 4))%nat)
    by (pose proof (Nat.div_mod (length pre) 4); lia).
  apply (detect_generic _ _ (fun m => fletcher 4294967295 (2 ^ 32) (words32 m))).
  - apply fletcher64_one; assumption.
  - apply fletcher64_one; assumption.
  - rewrite !(words32_app _ pre E'). cbn [words32].
    apply fletcher_word_change; [discriminate|discriminate|exact Hne].
Qed.

Lemma fletcher64_swap pre w v post :
  bytes_ok (pre ++ word32_bytes w ++ word32_bytes v ++ post) ->
  (length pre mod 4 = 0)%nat ->
  word32 w mod 4294967295 <> word32 v mod 4294967295 ->
  differ step64 New (pre ++ word32_bytes w ++ word32_bytes v ++ post)
                    (pre ++ word32_bytes v ++ word32_bytes w ++ post).
Proof.
  intros H1 E Hne. 
  assert (H2 : bytes_ok (pre ++ word32_bytes v ++ word32_bytes w ++ post)).
  { unfold bytes_ok in *. rewrite !Forall_app in *. tauto. }
  destruct w as [[[w1 w2] w3] w4], v as [[[v1 v2] v3] v4].
  cbn [word32 word32_bytes app] in *.
  assert (E' : (length pre = 4 * (length pre / 4))%nat)
    by (pose proof (Nat.div_mod (length pre) 4); lia).
  apply (detect_generic _ _ (fun m => fletcher 4294967295 (2 ^ 32) (words32 m))).
  - apply fletcher64_one; assumption.
  - apply fletcher64_one; assumption.
  - rewrite !(words32_app _ pre E'). cbn [words32].
    apply fletcher_swap; [discriminate|discriminate|exact Hne].
Qed.

(** ** Forms used by the property file *)

Lemma fletcher16_observe cs :
  calls_ok cs -> writes_ok (fun p => N.of_nat (length p) <= 5802) cs ->
  observe step16 New cs =
  Ret (trace (fun ws => fletcher 255 (2 ^ 8) (concat ws)) (big_endian 2) 2 1 [] cs).
Proof. intros H H2. unfold observe. destruct (fletcher16_history cs H H2) as (s & -> & _). reflexivity. Qed.

Lemma fletcher32_observe cs : calls_ok cs ->
  observe step32 New cs =
  Ret (trace (fun ws => fletcher 65535 (2 ^ 16) (flat_map words16 ws)) (big_endian 4) 4 2 [] cs).
Proof. intros H. unfold observe. destruct (fletcher32_history cs H) as (s & -> & _). reflexivity. Qed.

Lemma fletcher64_observe cs : calls_ok cs ->
  observe step64 New cs =
  Ret (trace (fun ws => fletcher 4294967295 (2 ^ 32) (flat_map words32 ws)) (big_endian 8) 8 4 [] cs).
Proof. intros H. unfold observe. destruct (fletcher64_history cs H) as (s & -> & _). reflexivity. Qed.

Definition bytes_okb (l : list N) : bool := forallb (fun b => b <? 256) l.
Lemma bytes_okb_ok l : bytes_okb l = true -> bytes_ok l.
Proof.
  unfold bytes_okb, bytes_ok. rewrite forallb_forall, Forall_forall.
  intros H x Hx. apply N.ltb_lt, H, Hx.
Qed.

Lemma fletcher16_panics : exists p, bytes_ok p /\ observe step16 New [CWrite p] = Panic.
Proof.
  exists (repeat 0 (N.to_nat 5804)). split; [apply bytes_ok_repeat|]. vm_compute. reflexivity.
Qed.

Lemma fletcher16_wrong : exists p q v, bytes_ok p /\ bytes_ok q /\
  observe step16 New [CWrite p; CWrite q; CValue]
    = Ret [RWrite (length p); RWrite (length q); RValue v]
  /\ v <> fletcher 255 (2 ^ 8) (p ++ q).
Proof.
  exists [254], (repeat 255 (N.to_nat 5803)), 15614.
  split; [repeat constructor|]. split; [apply bytes_okb_ok; vm_compute; reflexivity|].
  split; [vm_compute; reflexivity|].
  unfold fletcher, fletcher_b, fletcher_a. rewrite <- fl_b_spec.
  vm_compute. discriminate.
Qed.

Lemma fletcher32_refuted : exists p q v w, bytes_ok p /\ bytes_ok q /\
  observe step32 New [CWrite p; CWrite q; CValue]
    = Ret [RWrite (length p); RWrite (length q); RValue v] /\
  observe step32 New [CWrite (p ++ q); CValue]
    = Ret [RWrite (length (p ++ q)); RValue w] /\ v <> w.
Proof.
  exists [1], [2]. do 2 eexists. split; [repeat constructor|]. split; [repeat constructor|].
  split; [vm_compute; reflexivity|]. split; [vm_compute; reflexivity|]. vm_compute. discriminate.
Qed.

Lemma fletcher64_refuted : exists p q v w, bytes_ok p /\ bytes_ok q /\
  observe step64 New [CWrite p; CWrite q; CValue]
    = Ret [RWrite (length p); RWrite (length q); RValue v] /\
  observe step64 New [CWrite (p ++ q); CValue]
    = Ret [RWrite (length (p ++ q)); RValue w] /\ v <> w.
Proof.
  exists [1;2], [3]. do 2 eexists. split; [repeat constructor|]. split; [repeat constructor|].
  split; [vm_compute; reflexivity|]. split; [vm_compute; reflexivity|]. vm_compute. discriminate.
Qed.

Lemma trace_app value ser sz bs cs1 : forall ws cs2,
  trace value ser sz bs ws (cs1 ++ cs2) =
  trace value ser sz bs ws cs1 ++ trace value ser sz bs (since_reset ws cs1) cs2.
Proof.
  induction cs1 as [|c cs1 IH]; intros ws cs2; [reflexivity|].
  destruct c; cbn [app trace since_reset]; rewrite IH; reflexivity.
Qed.

Lemma big_endian_length n v : length (big_endian n v) = n.
Proof.
  revert v; induction n as [|n IH]; intros v; [reflexivity|].
  cbn [big_endian]. rewrite app_length, IH. simpl. lia.
Qed.

Lemma iface_generic {St} step (s0 : St) value ser sz bs cs inp :
  (forall tl, tl = [CValue; CSum inp; CSize; CValue] \/ tl = [CValue; CSum inp; CReset; CValue] ->
    observe step s0 (cs ++ tl) = Ret (trace value ser sz bs [] (cs ++ tl))) ->
  value [] = 0 ->
  exists rs v, observe step s0 (cs ++ [CValue; CSum inp; CSize; CValue])
    = Ret (rs ++ [RValue v; RSum (inp ++ ser v); RInt sz; RValue v])
  /\ observe step s0 (cs ++ [CValue; CSum inp; CReset; CValue])
    = Ret (rs ++ [RValue v; RSum (inp ++ ser v); RUnit; RValue 0]).
Proof.
  intros X V0. exists (trace value ser sz bs [] cs), (value (since_reset [] cs)).
  rewrite !X by auto. rewrite !trace_app. cbn [trace]. rewrite V0. split; reflexivity.
Qed.

Lemma iface_calls_ok cs inp tl : calls_ok cs -> bytes_ok inp ->
  tl = [CValue; CSum inp; CSize; CValue] \/ tl = [CValue; CSum inp; CReset; CValue] ->
  calls_ok (cs ++ tl).
Proof.
  intros H Hi [->| ->]; apply Forall_app; split; try exact H; repeat constructor; exact Hi.
Qed.

Lemma fletcher16_iface cs inp :
  calls_ok cs -> writes_ok (fun p => N.of_nat (length p) <= 5802) cs -> bytes_ok inp ->
  exists rs v, observe step16 New (cs ++ [CValue; CSum inp; CSize; CValue])
    = Ret (rs ++ [RValue v; RSum (inp ++ big_endian 2 v); RInt 2; RValue v])
  /\ observe step16 New (cs ++ [CValue; CSum inp; CReset; CValue])
    = Ret (rs ++ [RValue v; RSum (inp ++ big_endian 2 v); RUnit; RValue 0]).
Proof.
  intros H W Hi. apply (iface_generic _ _ (fun ws => fletcher 255 (2 ^ 8) (concat ws)) (big_endian 2) 2 1);
    [|reflexivity].
  intros tl Ht. apply fletcher16_observe; [eapply iface_calls_ok; eassumption|].
  apply Forall_app. split; [exact W|]. destruct Ht as [->| ->]; repeat constructor.
Qed.

Lemma fletcher32_iface cs inp : calls_ok cs -> bytes_ok inp ->
  exists rs v, observe step32 New (cs ++ [CValue; CSum inp; CSize; CValue])
    = Ret (rs ++ [RValue v; RSum (inp ++ big_endian 4 v); RInt 4; RValue v])
  /\ observe step32 New (cs ++ [CValue; CSum inp; CReset; CValue])
    = Ret (rs ++ [RValue v; RSum (inp ++ big_endian 4 v); RUnit; RValue 0]).
Proof.
  intros H Hi.
  apply (iface_generic _ _ (fun ws => fletcher 65535 (2 ^ 16) (flat_map words16 ws)) (big_endian 4) 4 2);
    [|reflexivity].
  intros tl Ht. apply fletcher32_observe. eapply iface_calls_ok; eassumption.
Qed.

Lemma fletcher64_iface cs inp : calls_ok cs -> bytes_ok inp ->
  exists rs v, observe step64 New (cs ++ [CValue; CSum inp; CSize; CValue])
    = Ret (rs ++ [RValue v; RSum (inp ++ big_endian 8 v); RInt 8; RValue v])
  /\ observe step64 New (cs ++ [CValue; CSum inp; CReset; CValue])
    = Ret (rs ++ [RValue v; RSum (inp ++ big_endian 8 v); RUnit; RValue 0]).
Proof.
  intros H Hi.
  apply (iface_generic _ _ (fun ws => fletcher 4294967295 (2 ^ 32) (flat_map words32 ws)) (big_endian 8) 8 4);
    [|reflexivity].
  intros tl Ht. apply fletcher64_observe. eapply iface_calls_ok; eassumption.
Qed.

(** ** Any single byte change, at any position, is seen by Fletcher-32/64 *)

Lemma mod_differ M a x y k : M <> 0 -> x < 256 -> y < 256 -> x <> y -> k * 255 < M -> k <> 0 ->
  (a + k * x) mod M <> (a + k * y) mod M.
Proof.
  intros HM Hx Hy Hne Hk Hk0 E. apply mod_cancel in E; [|exact HM].
  rewrite !N.mod_small in E by nia. nia.
Qed.

Ltac flet_word k :=
  eexists [], _, _, _; split; [reflexivity|]; split; [reflexivity|]; k.

Lemma words16_change pre : forall x y post,
  bytes_ok (pre ++ x :: post) -> bytes_ok (pre ++ y :: post) -> x <> y ->
  exists P u v Q, words16 (pre ++ x :: post) = P ++ u :: Q
    /\ words16 (pre ++ y :: post) = P ++ v :: Q /\ u mod 65535 <> v mod 65535.
Proof.
  induction pre as [|a0|a b pre IH] using list_pair_ind; intros x y post H1 H2 Hne.
  - inversion H1; inversion H2; subst. destruct post as [|c post]; cbn [app words16].
    + flet_word idtac. pose proof (mod_differ 65535 0 x y 1) as D. unfold is_byte in *.
      rewrite !N.add_0_l, !N.mul_1_l in D. apply D; try assumption; discriminate || reflexivity.
    + flet_word idtac. pose proof (mod_differ 65535 (256 * c) x y 1) as D. unfold is_byte in *.
      rewrite !N.mul_1_l in D. rewrite (N.add_comm x), (N.add_comm y).
      apply D; try assumption; discriminate || reflexivity.
  - cbn [app] in *. inversion H1 as [|? ? ? H1']; inversion H2 as [|? ? ? H2']; subst.
    inversion H1'; inversion H2'; subst. cbn [words16].
    flet_word idtac. unfold is_byte in *. apply mod_differ; try assumption; discriminate || reflexivity.
  - cbn [app] in *. inversion H1 as [|? ? ? H1']; inversion H2 as [|? ? ? H2']; subst.
    inversion H1'; inversion H2'; subst.
    destruct (IH x y post) as (P & u & v & Q & E1 & E2 & D); try assumption.
    exists (a + 256 * b :: P), u, v, Q. cbn [words16]. rewrite E1, E2. repeat split. exact D.
Qed.

Lemma fletcher32_byte pre x y post :
  bytes_ok (pre ++ x :: post) -> bytes_ok (pre ++ y :: post) -> x <> y ->
  differ step32 New (pre ++ x :: post) (pre ++ y :: post).
Proof.
  intros H1 H2 Hne. apply (detect_generic _ _ (fun m => fletcher 65535 (2 ^ 16) (words16 m))).
  - apply fletcher32_one; assumption.
  - apply fletcher32_one; assumption.
  - destruct (words16_change pre x y post H1 H2 Hne) as (P & u & v & Q & -> & -> & D).
    apply fletcher_word_change; [discriminate|discriminate|exact D].
Qed.

Lemma words32_change_head x y pre post :
  (length pre < 4)%nat -> bytes_ok (pre ++ x :: post) -> bytes_ok (pre ++ y :: post) -> x <> y ->
  exists P u v Q, words32 (pre ++ x :: post) = P ++ u :: Q
    /\ words32 (pre ++ y :: post) = P ++ v :: Q /\ u mod 4294967295 <> v mod 4294967295.
Proof.
  intros L H1 H2 Hne.
  assert (D : forall a k, k * 255 < 4294967295 -> k <> 0 ->
     (a + k * x) mod 4294967295 <> (a + k * y) mod 4294967295).
  { intros a k Hk Hk0. unfold bytes_ok in *. rewrite Forall_app in *.
    destruct H1 as [_ H1], H2 as [_ H2]. inversion H1; inversion H2; subst.
    apply mod_differ; auto; discriminate. }
  assert (G : forall k a u v, u = a + k * x -> v = a + k * y -> k * 255 < 4294967295 -> k <> 0 ->
     u mod 4294967295 <> v mod 4294967295) by (intros k a u v -> -> ? ?; apply D; assumption).
  clear D.
  destruct pre as [|a [|b [|c [|d pre]]]]; cbn [length] in L; try lia; cbn [app];
  destruct post as [|p [|q [|r post]]]; cbn [words32];
  (eexists [], _, _, _; split; [reflexivity|]; split; [reflexivity|]).
  all: first
   [ eapply (G 1 0); [lia|lia|lia|lia]
   | eapply (G 1 (256 * p)); [lia|lia|lia|lia]
   | eapply (G 1 (256 * p + 65536 * q)); [lia|lia|lia|lia]
   | eapply (G 1 (256 * p + 65536 * q + 16777216 * r)); [lia|lia|lia|lia]
   | eapply (G 256 a); [lia|lia|lia|lia]
   | eapply (G 256 (a + 65536 * p)); [lia|lia|lia|lia]
   | eapply (G 256 (a + 65536 * p + 16777216 * q)); [lia|lia|lia|lia]
   | eapply (G 65536 (a + 256 * b)); [lia|lia|lia|lia]
   | eapply (G 65536 (a + 256 * b + 16777216 * p)); [lia|lia|lia|lia]
   | eapply (G 16777216 (a + 256 * b + 65536 * c)); [lia|lia|lia|lia] ].
Qed.

Lemma words32_change pre : forall x y post,
  bytes_ok (pre ++ x :: post) -> bytes_ok (pre ++ y :: post) -> x <> y ->
  exists P u v Q, words32 (pre ++ x :: post) = P ++ u :: Q
    /\ words32 (pre ++ y :: post) = P ++ v :: Q /\ u mod 4294967295 <> v mod 4294967295.
Proof.
  induction pre as [|a1|a2 b2|a3 b3 c3|a b c d pre IH] using list_quad_ind; intros x y post H1 H2 Hne;
    try (apply words32_change_head; [cbn [length]; lia|assumption|assumption|assumption]).
  destruct (IH x y post) as (P & u & v & Q & E1 & E2 & D).
  - unfold bytes_ok in *. cbn [app] in H1.
    do 4 (apply Forall_inv_tail in H1). exact H1.
  - unfold bytes_ok in *. cbn [app] in H2.
    do 4 (apply Forall_inv_tail in H2). exact H2.
  - exact Hne.
  - exists (a + 256 * b + 65536 * c + 16777216 * d :: P), u, v, Q.
    cbn [words32 app]. rewrite E1, E2. repeat split. exact D.
Qed.

Lemma fletcher64_byte pre x y post :
  bytes_ok (pre ++ x :: post) -> bytes_ok (pre ++ y :: post) -> x <> y ->
  differ step64 New (pre ++ x :: post) (pre ++ y :: post).
Proof.
  intros H1 H2 Hne. apply (detect_generic _ _ (fun m => fletcher 4294967295 (2 ^ 32) (words32 m))).
  - apply fletcher64_one; assumption.
  - apply fletcher64_one; assumption.
  - destruct (words32_change pre x y post H1 H2 Hne) as (P & u & v & Q & -> & -> & D).
    apply fletcher_word_change; [discriminate|discriminate|exact D].
Qed.
