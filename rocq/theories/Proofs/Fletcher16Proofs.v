(** Fletcher 16: the exact value after every history, including writes that
    overflow the 32-bit accumulator or make the code panic. *)
From Verif Require Import Base.Go Base.HashApi Spec.ChecksumSpec Model.Fletcher
  Proofs.Util Proofs.HashRun Proofs.ChecksumProofs Proofs.FletcherProofs.
Local Open Scope N_scope.

(** The state after the bytes [m] with [k] batches overflowed. *)
Definition lost_state (m : list N) (k : N) : digest := mkDigest (fletcher_a 255 m) (fl_b_lost m k).

Lemma lost_state_good m k : dgood mod16 (lost_state m k).
Proof. split; apply N.mod_lt; discriminate. Qed.

Lemma fletcher_a_app m p : (fletcher_a 255 m + sum_all p) mod 255 = fletcher_a 255 (m ++ p).
Proof.
  unfold fletcher_a. rewrite sum_all_app. apply add_mod_step. discriminate.
Qed.

Lemma fletcher_b_app m p c :
  (c + fl_b (fletcher_a 255 m) (fletcher_b 255 m) p) mod 255 = (c + fletcher_b 255 (m ++ p)) mod 255.
Proof.
  rewrite <- (N.add_mod_idemp_r c (fl_b _ _ _)) by discriminate. f_equal. f_equal.
  unfold fletcher_a, fletcher_b. rewrite fl_b_mod by discriminate.
  rewrite <- !fl_b_spec, fl_b_app. reflexivity.
Qed.

Lemma lost_b_sum m k p :
  fl_b (fletcher_a 255 m) (fl_b_lost m k) p
  = fl_b_lost m k + N.of_nat (length p) * fletcher_a 255 m + sum_all (prefix_sums p).
Proof. rewrite fl_b_shift, fl_b_spec. reflexivity. Qed.

Definition lost_next (m : list N) (k : N) (p : list N) : N :=
  if fl_b_lost m k + N.of_nat (length p) * fletcher_a 255 m + sum_all (prefix_sums p) <? 2 ^ 32
  then k else k + 1.

Lemma batch_a m k p : bytes_ok p -> N.of_nat (length p) <= 5803 ->
  (fa (lost_state m k) + sum_all p) mod 2 ^ 32 mod mod16 = fletcher_a 255 (m ++ p).
Proof.
  intros Hok Hlen. pose proof (sum_bound 255 p (bytes_le p Hok)) as B.
  pose proof (lost_state_good m k) as [G _]. unfold mod16 in G.
  rewrite (N.mod_small _ (2 ^ 32)).
  - apply fletcher_a_app.
  - change (2 ^ 32) with 4294967296. lia.
Qed.

Lemma lost_b_mod m k p :
  fl_b (fletcher_a 255 m) (fl_b_lost m k) p mod 255 = fl_b_lost (m ++ p) k.
Proof.
  unfold fl_b_lost at 2. rewrite (N.add_comm (fletcher_b 255 (m ++ p))), <- fletcher_b_app.
  rewrite fl_b_shift, (fl_b_shift p (fletcher_a 255 m) (fletcher_b 255 m)).
  rewrite <- !N.add_assoc. unfold fl_b_lost. rewrite N.add_mod_idemp_l by discriminate.
  f_equal. lia.
Qed.

Lemma batch_b m k p : bytes_ok p -> N.of_nat (length p) <= 5803 ->
  fl_b (fa (lost_state m k)) (fb (lost_state m k)) p mod 2 ^ 32 mod mod16
  = fl_b_lost (m ++ p) (lost_next m k p).
Proof.
  intros Hok Hlen. pose proof (fl_b_5803 _ p Hok Hlen (lost_state_good m k)) as B.
  cbn [lost_state fa fb] in *. unfold lost_next. rewrite <- lost_b_sum.
  pose proof (lost_b_mod m k p) as E. unfold mod16.
  set (v := fl_b (fletcher_a 255 m) (fl_b_lost m k) p) in *.
  destruct (N.ltb_spec v (2 ^ 32)) as [L|L].
  - rewrite (N.mod_small v) by exact L. exact E.
  - assert (V : v mod 2 ^ 32 = v - 2 ^ 32).
    { symmetry. apply (N.mod_unique v (2 ^ 32) 1); lia. }
    rewrite V. unfold fl_b_lost in *.
    replace (fletcher_b 255 (m ++ p) + 254 * (k + 1))
      with ((fletcher_b 255 (m ++ p) + 254 * k) + 254) by lia.
    rewrite <- add_mod_step, <- E, add_mod_step by discriminate.
    change (2 ^ 32) with 4294967296 in *.
    replace (v + 254) with (v - 4294967296 + 16843010 * 255) by lia.
    rewrite N.mod_add by discriminate. reflexivity.
Qed.

(** The outer loop on whole batches. *)
Lemma batch_states fuel : forall total rest m k,
  5803 < N.of_nat total -> (length rest <= total)%nat -> (length rest <= fuel)%nat ->
  bytes_ok rest -> N.of_nat (length rest) mod 5803 = 0 ->
  outer16 fuel total rest (fletcher_a 255 m) (fl_b_lost m k)
  = Ret (fletcher_a 255 (m ++ rest),
         fl_b_lost (m ++ rest) (fl_lost m k (batches_fuel fuel (N.to_nat 5803) rest))).
Proof.
  induction fuel as [|fuel IH]; intros total rest m k Ht Hr Hf Hok Hm.
  - destruct rest as [|x rest]; [|simpl in Hf; lia].
    rewrite app_nil_r. reflexivity.
  - destruct rest as [|x rest'] eqn:Er.
    { rewrite app_nil_r. reflexivity. }
    rewrite <- Er in *. assert (Hne : (0 < length rest)%nat) by (rewrite Er; simpl; lia).
    assert (U : outer16 (S fuel) total rest (fletcher_a 255 m) (fl_b_lost m k) =
      let len := N.min (N.of_nat total) c1Overflow16 in
          let! (rest', c0, c1) := inner16 (N.to_nat len) rest (fletcher_a 255 m) (fl_b_lost m k) in
          outer16 fuel total rest' (c0 mod mod16) (c1 mod mod16)) by (rewrite Er; reflexivity).
    rewrite U. clear U.
    assert (V : batches_fuel (S fuel) (N.to_nat 5803) rest
      = firstn (N.to_nat 5803) rest :: batches_fuel fuel (N.to_nat 5803) (skipn (N.to_nat 5803) rest))
      by (rewrite Er; reflexivity).
    rewrite V. clear V Er x rest'. cbv zeta. unfold c1Overflow16. rewrite N.min_r by lia.
    assert (L : 5803 <= N.of_nat (length rest)).
    { destruct (N.lt_ge_cases (N.of_nat (length rest)) 5803) as [L|L]; [|exact L].
      rewrite N.mod_small in Hm by exact L. lia. }
    pose proof (lost_state_good m k) as [G1 G2]. cbn [lost_state fa fb] in G1, G2.
    assert (M32 : mod16 < 2 ^ 32) by reflexivity.
    rewrite inner16_spec by lia. cbn [bind].
    set (n := N.to_nat 5803) in *.
    assert (Hn : length (firstn n rest) = n) by (rewrite firstn_length; lia).
    assert (Fok : bytes_ok (firstn n rest)).
    { unfold bytes_ok in *. rewrite <- (firstn_skipn n rest) in Hok. apply Forall_app in Hok. tauto. }
    assert (Sok : bytes_ok (skipn n rest)).
    { unfold bytes_ok in *. rewrite <- (firstn_skipn n rest) in Hok. apply Forall_app in Hok. tauto. }
    assert (Fl : N.of_nat (length (firstn n rest)) <= 5803) by lia.
    pose proof (batch_a m k _ Fok Fl) as A. pose proof (batch_b m k _ Fok Fl) as B.
    cbn [lost_state fa fb] in A, B. rewrite A, B.
    assert (LB : length (skipn n rest) = (length rest - n)%nat) by apply skipn_length.
    rewrite IH; [| exact Ht | lia | lia | exact Sok |].
    + rewrite <- app_assoc, firstn_skipn. cbn [fl_lost]. fold (lost_next m k (firstn n rest)).
      reflexivity.
    + rewrite LB. rewrite <- Hm.
      assert (Q : N.of_nat (length rest) = N.of_nat (length rest - n) + 1 * 5803) by lia.
      rewrite Q, N.mod_add by lia. reflexivity.
Qed.

Lemma update16_exact m k p : bytes_ok p -> f16_len p ->
  update16 (lost_state m k) p
  = Ret (lost_state (m ++ p) (fl_lost m k (batches 5803 p))).
Proof.
  intros Hok Hl. destruct (N.lt_ge_cases 5803 (N.of_nat (length p))) as [L|L].
  - unfold update16. cbn [lost_state fa fb].
    rewrite batch_states; try assumption; try lia; [|destruct Hl; [lia|assumption]].
    cbn [bind]. unfold lost_state, batches.
    unfold fletcher_a, fl_b_lost. change 255 with mod16. rewrite !u8_mod16. reflexivity.
  - destruct p as [|x p'] eqn:Ep.
    + rewrite update16_nil by apply lost_state_good. rewrite app_nil_r. reflexivity.
    + assert (Hb : batches 5803 p = [p]).
      { assert (LP : (length p <= N.to_nat 5803)%nat) by (rewrite Ep; lia).
        unfold batches. rewrite Ep. cbn [length batches_fuel]. rewrite <- Ep.
        rewrite firstn_all2, skipn_all2 by lia. destruct (length p'); reflexivity. }
      rewrite <- Ep in *. rewrite Hb.
      rewrite update16_batch; [|congruence|unfold c1Overflow16; lia|apply lost_state_good].
      rewrite !u8_mod16, batch_a, batch_b by assumption. cbn [fl_lost].
      reflexivity.
Qed.

Lemma fl_lost_app bs1 : forall bs2 m k,
  fl_lost m k (bs1 ++ bs2) = fl_lost (m ++ concat bs1) (fl_lost m k bs1) bs2.
Proof.
  induction bs1 as [|p bs1 IH]; intros bs2 m k; cbn [app fl_lost concat].
  - rewrite app_nil_r. reflexivity.
  - rewrite IH, <- app_assoc. reflexivity.
Qed.

Lemma batches_fuel_concat n fuel : (0 < n)%nat -> forall p, (length p <= fuel)%nat ->
  concat (batches_fuel fuel n p) = p.
Proof.
  intros Hn. induction fuel as [|fuel IH]; intros p Hf.
  - destruct p; [reflexivity|simpl in Hf; lia].
  - destruct p as [|x p]; [reflexivity|]. cbn [batches_fuel concat].
    rewrite IH; [apply firstn_skipn|]. rewrite skipn_length. cbn [length] in *. lia.
Qed.

Lemma batches_concat p : concat (batches 5803 p) = p.
Proof. apply batches_fuel_concat; lia. Qed.

Lemma flat_batches_concat ws : concat (flat_map (batches 5803) ws) = concat ws.
Proof.
  induction ws as [|p ws IH]; [reflexivity|]. cbn [flat_map concat].
  rewrite concat_app, batches_concat, IH. reflexivity.
Qed.

Lemma f16_lost_snoc ws p :
  f16_lost (ws ++ [p]) = fl_lost (concat ws) (f16_lost ws) (batches 5803 p).
Proof.
  unfold f16_lost. rewrite flat_map_app. cbn [flat_map]. rewrite app_nil_r, fl_lost_app.
  rewrite flat_batches_concat. reflexivity.
Qed.

Lemma f16_exact_history cs : calls_ok cs -> writes_ok f16_len cs ->
  exists s, run step16 New cs = Ret (s, trace f16_value (big_endian 2) 2 1 [] cs)
    /\ s = lost_state (concat (since_reset [] cs)) (f16_lost (since_reset [] cs)).
Proof.
  intros Hc Hw.
  apply (run_trace step16 f16_value (big_endian 2) 2 1
     (fun s ws => s = lost_state (concat ws) (f16_lost ws)) (fun p => bytes_ok p /\ f16_len p)).
  - intros s ws p -> [Hp Hl]. eexists. cbn [step16].
    rewrite update16_exact by assumption. split; [reflexivity|].
    rewrite f16_lost_snoc, concat_app. cbn [concat]. rewrite app_nil_r. reflexivity.
  - intros s ws inp ->. eexists. split; [|reflexivity]. cbn [step16]. unfold f16_value.
    pose proof (lost_state_good (concat ws) (f16_lost ws)) as [A B]. unfold mod16 in A, B.
    cbn [lost_state fa fb] in *. change (2 ^ 8) with 256. rewrite be2 by lia. reflexivity.
  - intros s ws ->. eexists. split; [|reflexivity]. cbn [step16]. unfold f16_value.
    pose proof (lost_state_good (concat ws) (f16_lost ws)) as [A B]. unfold mod16 in A, B.
    cbn [lost_state fa fb] in *. unfold u16. rewrite half_value; [reflexivity|..];
    change (2 ^ 8) with 256; change (2 ^ 16) with 65536; lia.
  - intros s ws ->. eexists. split; reflexivity.
  - intros s ws ->. eexists. split; reflexivity.
  - intros s ws ->. eexists. split; reflexivity.
  - reflexivity.
  - unfold writes_ok, calls_ok in *. rewrite Forall_forall in *. intros c Hin.
    specialize (Hc c Hin). specialize (Hw c Hin). destruct c; auto.
Qed.

Lemma f16_len_dec p : f16_len p \/ ~ f16_len p.
Proof.
  unfold f16_len. destruct (N.le_gt_cases (N.of_nat (length p)) 5803); [auto|].
  destruct (N.eq_dec (N.of_nat (length p) mod 5803) 0); [auto|]. right. intros [?|?]; lia.
Qed.

Lemma writes_ok_dec cs : writes_ok f16_len cs \/
  exists cs1 p cs2, cs = cs1 ++ CWrite p :: cs2 /\ writes_ok f16_len cs1 /\ ~ f16_len p.
Proof.
  induction cs as [|c cs [IH|(cs1 & p & cs2 & -> & H1 & H2)]].
  - left. constructor.
  - assert (D : (match c with CWrite p => f16_len p | _ => True end) \/
                exists p, c = CWrite p /\ ~ f16_len p).
    { destruct c as [p| | | | |]; try (left; exact I).
      destruct (f16_len_dec p); [left; assumption|right; eauto]. }
    destruct D as [D|(p & -> & D)].
    + left. constructor; assumption.
    + right. exists [], p, cs. split; [reflexivity|]. split; [constructor|exact D].
  - assert (D : (match c with CWrite p => f16_len p | _ => True end) \/
                exists p, c = CWrite p /\ ~ f16_len p).
    { destruct c as [q| | | | |]; try (left; exact I).
      destruct (f16_len_dec q); [left; assumption|right; eauto]. }
    destruct D as [D|(q & -> & D)].
    + right. exists (c :: cs1), p, cs2. split; [reflexivity|]. split; [constructor; assumption|exact H2].
    + right. exists [], q, (cs1 ++ CWrite p :: cs2).
      split; [reflexivity|]. split; [constructor|exact D].
Qed.

Lemma f16_exact cs : calls_ok cs ->
  (writes_ok f16_len cs ->
     observe step16 New cs = Ret (trace f16_value (big_endian 2) 2 1 [] cs)) /\
  (~ writes_ok f16_len cs -> observe step16 New cs = Panic).
Proof.
  intros Hc. split.
  - intros Hw. unfold observe. destruct (f16_exact_history cs Hc Hw) as (s & -> & _). reflexivity.
  - intros Hw. destruct (writes_ok_dec cs) as [D|(cs1 & p & cs2 & -> & H1 & H2)]; [contradiction|].
    apply Forall_app in Hc. destruct Hc as [C1 C2].
    destruct (f16_exact_history cs1 C1 H1) as (s & E & ->).
    unfold observe. rewrite run_app, E. cbn [bind run step16].
    destruct (update16_panic_iff (lost_state (concat (since_reset [] cs1)) (f16_lost (since_reset [] cs1))) p)
      as [P _]; [apply lost_state_good|].
    destruct P as [_ P]. rewrite P; [reflexivity|]. unfold f16_len in H2. lia.
Qed.

Lemma lost_right m k : fl_b_lost m k = fletcher_b 255 m <-> k mod 255 = 0.
Proof.
  unfold fl_b_lost. assert (B : fletcher_b 255 m < 255) by (apply N.mod_lt; discriminate).
  set (b := fletcher_b 255 m) in *.
  pose proof (N.div_mod k 255) as D. pose proof (N.mod_lt k 255) as L.
  set (q := k / 255) in *. set (r := k mod 255) in *.
  replace (b + 254 * k) with (b + 254 * r + (254 * q) * 255) by lia.
  rewrite N.mod_add by discriminate.
  split.
  - intros E. pose proof (N.div_mod (b + 254 * r) 255) as D2. rewrite E in D2.
    set (t := (b + 254 * r) / 255) in *. lia.
  - intros ->. rewrite N.mul_0_r, N.add_0_r. apply N.mod_small, B.
Qed.

Lemma f16_right ws : f16_value ws = fletcher 255 (2 ^ 8) (concat ws) <-> f16_lost ws mod 255 = 0.
Proof.
  unfold f16_value, fletcher. rewrite <- lost_right with (m := concat ws).
  change (2 ^ 8) with 256. split; [lia|]. intros ->. reflexivity.
Qed.

Lemma f16_writes_right ws : Forall bytes_ok ws -> Forall f16_len ws ->
  exists v, observe step16 New (map CWrite ws ++ [CValue])
    = Ret (map (fun p => RWrite (length p)) ws ++ [RValue v])
  /\ (v = fletcher 255 (2 ^ 8) (concat ws) <-> f16_lost ws mod 255 = 0).
Proof.
  intros H H2. exists (f16_value ws). split; [|apply f16_right].
  destruct (f16_exact_history _ (writes_calls_ok ws H)) as (s & E & _).
  { apply Forall_app. split; [|repeat constructor]. apply Forall_map. exact H2. }
  exact (last_writes_run _ _ _ _ _ _ _ _ E).
Qed.
