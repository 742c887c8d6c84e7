(** Fletcher checksums of joined and changed messages. *)
From Verif Require Import Base.Go Base.HashApi Spec.ChecksumSpec Spec.BurstSpec Spec.CombineSpec.
From Verif Require Import Model.Bcc Model.Lrc Model.Fletcher.
From Verif Require Import Proofs.ChecksumProofs Proofs.FletcherProofs Proofs.BurstProofs.
Local Open Scope N_scope.

Section Values.
Context (M H : N).
Hypothesis M0 : M <> 0.
Hypothesis MH : M <= H.
Lemma low_fletcher l : low H (fletcher M H l) = fletcher_a M l.
Proof.
  unfold low, fletcher. rewrite N.add_comm, N.mod_add by lia. apply N.mod_small.
  apply N.lt_le_trans with M; [apply N.mod_lt, M0|exact MH].
Qed.
Lemma high_fletcher l : high H (fletcher M H l) = fletcher_b M l.
Proof.
  unfold high, fletcher. rewrite N.add_comm, N.div_add, N.div_small; [apply N.add_0_l| |lia].
  apply N.lt_le_trans with M; [apply N.mod_lt, M0|exact MH].
Qed.
Lemma mod_of A : exists q, (Z.of_N (A mod M) = Z.of_N A - Z.of_N M * q)%Z.
Proof. exists (Z.of_N (A / M)). pose proof (N.div_mod A M M0) as E. apply (f_equal Z.of_N) in E. rewrite N2Z.inj_add, N2Z.inj_mul in E. lia. Qed.
Lemma minus_of x : exists q, (Z.of_N (minus M x) = Z.of_N M * q - Z.of_N x)%Z.
Proof.
  unfold minus. destruct (mod_of x) as [q E]. exists (1 + q)%Z. pose proof (N.mod_lt x M M0). rewrite N2Z.inj_sub by lia. lia.
Qed.
Ltac inz := repeat (rewrite N2Z.inj_add || rewrite N2Z.inj_mul || rewrite Nat2N.inj_succ || rewrite N2Z.inj_succ).

Lemma pair_eq l a b : a mod M = sum_all l mod M -> b mod M = sum_all (prefix_sums l) mod M -> pair_value M H a b = fletcher M H l.
Proof. intros E1 E2. unfold pair_value, fletcher, fletcher_a, fletcher_b. rewrite E1, E2. reflexivity. Qed.
Lemma sum_cons x l : sum_all (x :: l) = x + sum_all l.
Proof. reflexivity. Qed.

Lemma join_fletcher l1 l2 : fletcher M H (l1 ++ l2) = join M H (N.of_nat (length l2)) (fletcher M H l1) (fletcher M H l2).
Proof.
  symmetry. unfold join. apply pair_eq; rewrite ?low_fletcher, ?high_fletcher; unfold fletcher_a, fletcher_b; apply mod_iff; try exact M0.
  - destruct (mod_of (sum_all l1)) as [q1 E1], (mod_of (sum_all l2)) as [q2 E2]. rewrite sum_all_app.
    exists (- (q1 + q2))%Z. inz. rewrite E1, E2. ring.
  - destruct (mod_of (sum_all l1)) as [q1 E1], (mod_of (sum_all (prefix_sums l1))) as [q2 E2], (mod_of (sum_all (prefix_sums l2))) as [q3 E3].
    rewrite ps_app. exists (- (q2 + q3 + Z.of_N (N.of_nat (length l2)) * q1))%Z. inz. rewrite E1, E2, E3. ring.
Qed.
Lemma patched_fletcher A x y C : fletcher M H (A ++ y :: C) = patched M H (N.of_nat (length C) + 1) (fletcher M H (A ++ x :: C)) x y.
Proof.
  symmetry. unfold patched. destruct (minus_of x) as [q Eq].
  apply pair_eq; rewrite ?low_fletcher, ?high_fletcher; unfold fletcher_a, fletcher_b; apply mod_iff; try exact M0.
  - destruct (mod_of (sum_all (A ++ x :: C))) as [q1 E1]. exists (q - q1)%Z. inz. rewrite E1, Eq. rewrite !sum_all_app, !sum_cons. inz. ring.
  - destruct (mod_of (sum_all (prefix_sums (A ++ x :: C)))) as [q1 E1].
    exists (Z.of_N (N.of_nat (length C) + 1) * q - q1)%Z. inz. rewrite E1, Eq. rewrite !ps_app, !ps_cons. cbn [length]. inz. ring.
Qed.
Lemma slid_fletcher x l y : fletcher M H (l ++ [y]) = slid M H (N.of_nat (length l) + 1) (fletcher M H (x :: l)) x y.
Proof.
  symmetry. unfold slid. destruct (minus_of x) as [q Eq]. destruct (mod_of (sum_all (x :: l))) as [q1 E1].
  apply pair_eq; rewrite ?low_fletcher, ?high_fletcher; unfold fletcher_a, fletcher_b; apply mod_iff; try exact M0.
  - exists (q - q1)%Z. inz. rewrite E1, Eq. rewrite !sum_all_app, !sum_cons. change (sum_all []) with 0. inz. ring.
  - destruct (mod_of (sum_all (prefix_sums (x :: l)))) as [q2 E2].
    exists ((Z.of_N (N.of_nat (length l)) + 2) * q - q1 - q2)%Z. inz. rewrite E1, E2, Eq. rewrite !ps_app, !ps_cons, !sum_cons. cbn [length].
    change (sum_all (prefix_sums [])) with 0. inz. change (Z.of_N (N.of_nat 0)) with 0%Z. change (Z.of_N 0) with 0%Z. change (Z.of_N 1) with 1%Z. ring.
Qed.

(** The value is zero exactly for the check words, up to multiples of M. *)
Lemma fletcher_zero l : fletcher M H l = 0 <-> sum_all l mod M = 0 /\ sum_all (prefix_sums l) mod M = 0.
Proof.
  unfold fletcher, fletcher_a, fletcher_b. split; [|intros [-> ->]; reflexivity]. intros E.
  apply N.eq_add_0 in E as [E1 E2]. apply N.eq_mul_0 in E1 as [E1|E1]; [auto|lia].
Qed.
Lemma mod_zero A : A mod M = 0 <-> (Z.of_N M | Z.of_N A)%Z.
Proof. rewrite <- (N.mod_0_l M M0), mod_iff by exact M0. rewrite Z.sub_0_r. reflexivity. Qed.
Lemma check_fletcher l c0 c1 : fletcher M H (l ++ [c0; c1]) = 0 <->
  map (fun c => c mod M) [c0; c1] = map (fun c => c mod M) (check_words M H (fletcher M H l)).
Proof.
  rewrite fletcher_zero. unfold check_words. rewrite low_fletcher, high_fletcher. cbn [map]. unfold fletcher_a, fletcher_b.
  destruct (mod_of (sum_all l)) as [q1 E1], (mod_of (sum_all (prefix_sums l))) as [q2 E2].
  set (A := sum_all l) in *. set (B := sum_all (prefix_sums l)) in *.
  destruct (minus_of (A mod M + B mod M)) as [q3 E3]. set (d0 := minus M (A mod M + B mod M)) in *.
  destruct (minus_of (A mod M + d0)) as [q4 E4]. set (d1 := minus M (A mod M + d0)) in *.
  assert (F : (c0 mod M = d0 mod M /\ c1 mod M = d1 mod M) <-> [c0 mod M; c1 mod M] = [d0 mod M; d1 mod M]).
  { split; [intros [-> ->]; reflexivity|intros E; injection E; auto]. }
  rewrite <- F, !mod_zero, !mod_iff by exact M0.
  rewrite sum_all_app, ps_app, !ps_cons, !sum_cons. fold A B. cbn [length]. change (sum_all []) with 0. change (sum_all (prefix_sums [])) with 0.
  repeat (rewrite N2Z.inj_add || rewrite N2Z.inj_mul). repeat (rewrite N2Z.inj_add in E3 || rewrite N2Z.inj_add in E4).
  change (Z.of_N (N.of_nat 2)) with 2%Z. change (Z.of_N (N.of_nat 1)) with 1%Z. change (Z.of_N (N.of_nat 0)) with 0%Z. change (Z.of_N 0) with 0%Z. change (Z.of_N 1) with 1%Z.
  set (a := Z.of_N A) in *. set (b := Z.of_N B) in *. set (m := Z.of_N M) in *. set (x := Z.of_N c0) in *. set (y := Z.of_N c1) in *.
  rewrite E4, E3, E1, E2 in *. split.
  - intros [[k1 D1] [k2 D2]]. split; [exists (k2 - k1 - q3 - q1 - q2)%Z; rewrite ?E3; nia|exists (2 * k1 - k2 - q4 + q3 + q2)%Z; nia].
  - intros [[k1 D1] [k2 D2]]. split; [exists (k1 + k2 + q4 + q1)%Z; nia|exists (2 * k1 + k2 + q4 + q3 + 2 * q1 + q2)%Z; nia].
Qed.
End Values.

(** ** What objects show *)

Lemma bcc_shows ws : shows Bcc.step Bcc.New ws (xor_all (concat ws)).
Proof. unfold shows. rewrite bcc_observe, trace_writes. reflexivity. Qed.
Lemma lrc_shows p : shows Lrc.step Lrc.New [p] (Z.to_N ((- Z.of_N (sum_all p)) mod 256)).
Proof. unfold shows. rewrite (lrc_of_eq [p]), lrc_law_one. reflexivity. Qed.
Lemma shows16 ws : Forall bytes_ok ws -> Forall (fun p => N.of_nat (length p) <= 5802) ws ->
  shows Fletcher.step16 Fletcher.New ws (fletcher 255 (2 ^ 8) (concat ws)).
Proof.
  intros B L. unfold shows. rewrite fletcher16_observe.
  - rewrite trace_writes. reflexivity.
  - apply writes_calls_ok, B.
  - unfold writes_ok. apply Forall_app. split; [|repeat constructor]. apply Forall_map. exact L.
Qed.
Lemma shows32 ws : Forall bytes_ok ws -> shows Fletcher.step32 Fletcher.New ws (fletcher 65535 (2 ^ 16) (flat_map words16 ws)).
Proof. intros B. unfold shows. rewrite fletcher32_observe by (apply writes_calls_ok, B). rewrite trace_writes. reflexivity. Qed.
Lemma shows64 ws : Forall bytes_ok ws -> shows Fletcher.step64 Fletcher.New ws (fletcher 4294967295 (2 ^ 32) (flat_map words32 ws)).
Proof. intros B. unfold shows. rewrite fletcher64_observe by (apply writes_calls_ok, B). rewrite trace_writes. reflexivity. Qed.

Lemma words_in_1 ws : words_in 1 ws = N.of_nat (length (concat ws)).
Proof.
  induction ws as [|p ws IH]; [reflexivity|]. unfold words_in in *. cbn [map fold_right concat]. rewrite IH, app_length, N.div_1_r. lia.
Qed.
Lemma words16_count p : N.of_nat (length (words16 p)) = (N.of_nat (length p) + 2 - 1) / 2.
Proof.
  rewrite FletcherProofs.words16_length, Nat.div2_div, Nat2N.inj_div. f_equal. lia.
Qed.
Lemma words32_count n : forall p, (length p <= n)%nat -> N.of_nat (length (words32 p)) = (N.of_nat (length p) + 4 - 1) / 4.
Proof.
  induction n as [|n IH]; intros p L.
  - destruct p; [reflexivity|cbn [length] in L; lia].
  - destruct p as [|a [|b [|c [|d p]]]]; try reflexivity. cbn [words32 length] in *.
    replace (N.of_nat (S (S (S (S (length p))))) + 4 - 1) with (N.of_nat (length p) + 4 - 1 + 1 * 4) by lia.
    rewrite N.div_add, <- IH by lia. lia.
Qed.
Lemma words_in_2 ws : words_in 2 ws = N.of_nat (length (flat_map words16 ws)).
Proof.
  induction ws as [|p ws IH]; [reflexivity|]. unfold words_in in *. cbn [map fold_right flat_map]. rewrite IH, app_length, <- words16_count. lia.
Qed.
Lemma words_in_4 ws : words_in 4 ws = N.of_nat (length (flat_map words32 ws)).
Proof.
  induction ws as [|p ws IH]; [reflexivity|]. unfold words_in in *. cbn [map fold_right flat_map].
  rewrite IH, app_length, <- (words32_count (length p)) by lia. lia.
Qed.

Lemma shows_iff {St} (step : St -> call -> outcome (St * result)) s0 ws v : shows step s0 ws v -> (shows step s0 ws 0 <-> v = 0).
Proof.
  unfold shows. intros E. rewrite E. split; [|intros ->; reflexivity]. intros E'. injection E' as E'.
  apply app_inv_head in E'. injection E' as E'. exact E'.
Qed.
Lemma check_words_fit M H v : M < H -> Forall (fun c => c < H) (check_words M H v).
Proof.
  intros L. unfold check_words, minus. cbv zeta. generalize ((low H v + high H v) mod M). intros a.
  generalize ((low H v + (M - a)) mod M). intros b. apply Forall_cons; [lia|]. apply Forall_cons; [lia|apply Forall_nil].
Qed.
