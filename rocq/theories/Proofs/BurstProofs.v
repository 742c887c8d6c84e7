(** Burst errors and two-word errors. *)
From Verif Require Import Base.Go Base.HashApi Spec.ChecksumSpec Spec.BurstSpec
  Proofs.Util Proofs.HashRun Proofs.ChecksumProofs Proofs.FletcherProofs.
From Verif Require Model.Bcc Model.Lrc Model.Fletcher Model.Luhn.
From Coq Require Import Znumtheory.
Local Open Scope N_scope.

(** ** Bytes from bits *)

Lemma byte_ext x y : x < 256 -> y < 256 ->
  (forall c, (c < 8)%nat -> N.testbit x (N.of_nat c) = N.testbit y (N.of_nat c)) -> x = y.
Proof.
  intros Hx Hy H. apply N.bits_inj. intros n.
  destruct (N.lt_ge_cases n 8) as [L|L].
  - specialize (H (N.to_nat n)). rewrite N2Nat.id in H. apply H. lia.
  - rewrite <- (N.mod_small x (2 ^ 8)), <- (N.mod_small y (2 ^ 8)) by assumption.
    rewrite !N.mod_pow2_bits_high by exact L. reflexivity.
Qed.

Lemma nth_byte m i : bytes_ok m -> nth i m 0 < 256.
Proof.
  intros H. destruct (Nat.lt_ge_cases i (length m)) as [L|L].
  - unfold bytes_ok in H. rewrite Forall_forall in H. apply H, nth_In, L.
  - rewrite nth_overflow by exact L. reflexivity.
Qed.

Definition col (lo : bool) (p : nat) : nat := if lo then p else (7 - p)%nat.

Lemma bit_at_col lo m i p : (p < 8)%nat ->
  bit_at lo m (8 * i + p) = N.testbit (nth i m 0) (N.of_nat (col lo p)).
Proof.
  intros H. unfold bit_at, col.
  replace ((8 * i + p) / 8)%nat with i by (rewrite Nat.mul_comm, Nat.div_add_l, Nat.div_small by lia; lia).
  replace ((8 * i + p) mod 8)%nat with p
    by (rewrite Nat.add_comm, Nat.mul_comm, Nat.mod_add, Nat.mod_small by lia; lia).
  reflexivity.
Qed.

Lemma byte_same lo m m' i : bytes_ok m -> bytes_ok m' ->
  (forall p, (p < 8)%nat -> bit_at lo m (8 * i + p) = bit_at lo m' (8 * i + p)) ->
  nth i m 0 = nth i m' 0.
Proof.
  intros H H' E. apply byte_ext; try (apply nth_byte; assumption).
  intros c Hc. specialize (E (col lo c)).
  assert (Hp : (col lo c < 8)%nat) by (unfold col; destruct lo; lia).
  specialize (E Hp). rewrite !bit_at_col in E by exact Hp.
  replace (col lo (col lo c)) with c in E by (unfold col; destruct lo; lia). exact E.
Qed.

(** The bytes outside the window are the same. *)
Lemma outside lo k m m' s w : bytes_ok m -> bytes_ok m' -> (0 < w)%nat -> (k <= 8 * w + 1)%nat ->
  (forall j, (j < s \/ s + k <= j)%nat -> bit_at lo m j = bit_at lo m' j) ->
  forall i, (i < w * (s / (8 * w)) \/ w * (s / (8 * w)) + 2 * w <= i)%nat -> nth i m 0 = nth i m' 0.
Proof.
  intros H H' Hw Hk E i Hi. apply (byte_same lo); try assumption. intros p Hp. apply E.
  pose proof (Nat.div_mod s (8 * w) ltac:(lia)) as D.
  pose proof (Nat.mod_upper_bound s (8 * w) ltac:(lia)) as U.
  revert D U Hi. generalize (s / (8 * w))%nat, (s mod (8 * w))%nat. intros q r D U Hi.
  replace (8 * w * q)%nat with (8 * (w * q))%nat in D by lia.
  destruct Hi as [Hi|Hi]; [left|right]; lia.
Qed.

(** Lists that differ in two neighbouring places at most. *)
Lemma two_places {A} (d : A) (l l' : list A) i : length l = length l' ->
  (forall j, (j < i \/ i + 2 <= j)%nat -> nth j l d = nth j l' d) ->
  (l = l') \/
  (exists P u u', length P = i /\ l = P ++ [u] /\ l' = P ++ [u']) \/
  (exists P u v u' v' Q, length P = i /\ l = P ++ u :: v :: Q /\ l' = P ++ u' :: v' :: Q).
Proof.
  revert l l'; induction i as [|i IH]; intros l l' L E.
  - destruct l as [|u [|v l]], l' as [|u' [|v' l']]; try discriminate L.
    + left. reflexivity.
    + right. left. exists [], u, u'. repeat split.
    + right. right. exists [], u, v, u', v', l'. split; [reflexivity|]. split; [|reflexivity].
      cbn [app]. do 2 f_equal. injection L as L. apply (nth_ext _ _ d d L).
      intros n _. apply (E (S (S n))). lia.
  - destruct l as [|x l], l' as [|x' l']; try discriminate L; [left; reflexivity|].
    injection L as L. pose proof (E 0%nat ltac:(lia)) as E0. cbn [nth] in E0. subst x'.
    destruct (IH l l' L) as [->|[(P & u & u' & LP & -> & ->)|(P & u & v & u' & v' & Q & LP & -> & ->)]].
    + intros j Hj. apply (E (S j)). lia.
    + left. reflexivity.
    + right. left. exists (x :: P), u, u'. cbn [length app]. auto.
    + right. right. exists (x :: P), u, v, u', v', Q. cbn [length app]. auto.
Qed.

Lemma nth_app_at {A} (P : list A) x Q d : nth (length P) (P ++ x :: Q) d = x.
Proof. rewrite app_nth2, Nat.sub_diag by lia. reflexivity. Qed.
Lemma nth_app_at1 {A} (P : list A) x y Q d : nth (length P + 1) (P ++ x :: y :: Q) d = y.
Proof. rewrite app_nth2 by lia. replace (length P + 1 - length P)%nat with 1%nat by lia. reflexivity. Qed.

(** What a burst of at most 8 bits does: the first byte keeps its first [r]
    bits, the second keeps the others. *)
Definition kept (lo : bool) (r : nat) (u u' v v' : N) : Prop :=
  (forall p, (p < r)%nat -> N.testbit u (N.of_nat (col lo p)) = N.testbit u' (N.of_nat (col lo p))) /\
  (forall p, (r <= p < 8)%nat -> N.testbit v (N.of_nat (col lo p)) = N.testbit v' (N.of_nat (col lo p))).

Lemma burst8 lo k m m' : bytes_ok m -> bytes_ok m' -> (k <= 8)%nat -> burst lo k m m' -> m <> m' ->
  (exists P u u', m = P ++ [u] /\ m' = P ++ [u'] /\ u <> u') \/
  (exists P u v u' v' Q r, (r < 8)%nat /\ m = P ++ u :: v :: Q /\ m' = P ++ u' :: v' :: Q /\
     kept lo r u u' v v').
Proof.
  intros H H' Hk (L & s & E) Hne.
  pose proof (outside lo k m m' s 1 H H' ltac:(lia) ltac:(lia) E) as O.
  change (8 * 1)%nat with 8%nat in O. rewrite !Nat.mul_1_l in O. change (2 * 1)%nat with 2%nat in O.
  destruct (two_places 0 m m' (s / 8) L O) as [->|[(P & u & u' & LP & -> & ->)|
    (P & u & v & u' & v' & Q & LP & -> & ->)]].
  - contradiction.
  - left. exists P, u, u'. repeat split. congruence.
  - right. exists P, u, v, u', v', Q, (s mod 8)%nat.
    pose proof (Nat.div_mod s 8 ltac:(lia)) as D. pose proof (Nat.mod_upper_bound s 8 ltac:(lia)) as U.
    split; [exact U|]. split; [reflexivity|]. split; [reflexivity|]. split; intros p Hp.
    + assert (B := E (8 * (s / 8) + p)%nat ltac:(lia)). rewrite !bit_at_col in B by lia.
      rewrite <- LP, !nth_app_at in B. exact B.
    + assert (B := E (8 * (s / 8 + 1) + p)%nat ltac:(lia)). rewrite !bit_at_col in B by lia.
      rewrite <- LP, !nth_app_at1 in B. exact B.
Qed.

(** ** bcc *)

Lemma kept_xor lo r u u' v v' : u < 256 -> u' < 256 -> v < 256 -> v' < 256 -> kept lo r u u' v v' ->
  N.lxor u v = N.lxor u' v' -> u = u' /\ v = v'.
Proof.
  intros Hu Hu' Hv Hv' [K1 K2] E.
  assert (B : forall c, N.testbit u c = N.testbit u' c <-> N.testbit v c = N.testbit v' c).
  { intros c. apply (f_equal (fun x => N.testbit x c)) in E. rewrite !N.lxor_spec in E.
    destruct (N.testbit u c), (N.testbit u' c), (N.testbit v c), (N.testbit v' c); cbn in E;
      split; congruence. }
  assert (C : forall c, (c < 8)%nat ->
    N.testbit u (N.of_nat c) = N.testbit u' (N.of_nat c) /\ N.testbit v (N.of_nat c) = N.testbit v' (N.of_nat c)).
  { intros c Hc. replace c with (col lo (col lo c)) by (unfold col; destruct lo; lia).
    assert (Hp : (col lo c < 8)%nat) by (unfold col; destruct lo; lia).
    revert Hp. generalize (col lo c). intros p Hp.
    destruct (Nat.lt_ge_cases p r) as [L|L].
    - split; [apply K1, L|]. apply B, K1, L.
    - split; [|apply K2; lia]. apply B, K2. lia. }
  split; apply byte_ext; try assumption; intros c Hc; apply C, Hc.
Qed.

Lemma bytes_ok_two P u v Q : bytes_ok (P ++ u :: v :: Q) -> u < 256 /\ v < 256.
Proof.
  unfold bytes_ok. rewrite Forall_app. intros [_ H]. inversion H as [|? ? Hu H2]; subst.
  inversion H2; subst. split; assumption.
Qed.

Lemma bcc_burst lo m m' : bytes_ok m -> bytes_ok m' -> burst lo 8 m m' -> m <> m' ->
  differ Bcc.step Bcc.New m m'.
Proof.
  intros H H' Hb Hne.
  apply (detect_generic _ _ xor_all); try apply bcc_of_eq. intros X.
  destruct (burst8 lo 8 m m' H H' ltac:(lia) Hb Hne) as [(P & u & u' & -> & -> & N)|
    (P & u & v & u' & v' & Q & r & Hr & -> & -> & K)].
  - rewrite !xor_all_app in X. cbn [xor_all fold_right] in X. rewrite !N.lxor_0_r in X.
    apply N. apply (f_equal (N.lxor (xor_all P))) in X. rewrite <- !N.lxor_assoc, N.lxor_nilpotent, !N.lxor_0_l in X.
    exact X.
  - destruct (bytes_ok_two _ _ _ _ H), (bytes_ok_two _ _ _ _ H').
    rewrite !xor_all_app in X. cbn [xor_all fold_right] in X. fold (xor_all Q) in X.
    apply (f_equal (N.lxor (xor_all P))) in X. rewrite <- !N.lxor_assoc, N.lxor_nilpotent, !N.lxor_0_l in X.
    apply (f_equal (fun x => N.lxor x (xor_all Q))) in X.
    rewrite !(N.lxor_assoc _ (xor_all Q)), N.lxor_nilpotent, !N.lxor_0_r in X.
    destruct (kept_xor lo r u u' v v') as [-> ->]; try assumption. apply Hne. reflexivity.
Qed.

(** ** lrc *)

Lemma low_same k u u' : (forall p, (p < k)%nat -> N.testbit u (N.of_nat p) = N.testbit u' (N.of_nat p)) ->
  u mod 2 ^ N.of_nat k = u' mod 2 ^ N.of_nat k.
Proof.
  intros H. apply N.bits_inj. intros n. destruct (N.lt_ge_cases n (N.of_nat k)) as [L|L].
  - rewrite !N.mod_pow2_bits_low by exact L. specialize (H (N.to_nat n)). rewrite N2Nat.id in H.
    apply H. lia.
  - rewrite !N.mod_pow2_bits_high by exact L. reflexivity.
Qed.

Lemma high_same k u u' : u < 256 -> u' < 256 ->
  (forall p, (k <= p < 8)%nat -> N.testbit u (N.of_nat p) = N.testbit u' (N.of_nat p)) ->
  u / 2 ^ N.of_nat k = u' / 2 ^ N.of_nat k.
Proof.
  intros Hu Hu' H. apply N.bits_inj. intros n. rewrite !N.div_pow2_bits.
  destruct (N.lt_ge_cases (n + N.of_nat k) 8) as [L|L].
  - specialize (H (N.to_nat (n + N.of_nat k))). rewrite N2Nat.id in H. apply H. lia.
  - rewrite <- (N.mod_small u (2 ^ 8)), <- (N.mod_small u' (2 ^ 8)) by assumption.
    rewrite !N.mod_pow2_bits_high by exact L. reflexivity.
Qed.

(** One summand unchanged modulo [B], the other changed by less than [B]. *)
Lemma sum_burst B u u' v v' : B <> 0 -> (B | 256) -> u < 256 -> u' < 256 -> v < 256 -> v' < 256 ->
  u mod B = u' mod B -> v / B = v' / B -> (u + v) mod 256 = (u' + v') mod 256 -> u = u' /\ v = v'.
Proof.
  intros HB [q Hq] Hu Hu' Hv Hv' E1 E2 E.
  assert (E3 : (u + v) mod B = (u' + v') mod B).
  { assert (R : forall x, x mod B = (x mod 256) mod B).
    { intros x. rewrite (N.div_mod x 256) at 1 by discriminate. rewrite Hq at 1.
      rewrite <- N.add_mod_idemp_l by exact HB.
      replace (q * B * (x / 256)) with (q * (x / 256) * B) by lia.
      rewrite N.mod_mul by exact HB. reflexivity. }
    rewrite (R (u + v)), (R (u' + v')), E. reflexivity. }
  assert (E4 : v mod B = v' mod B).
  { apply (mod_cancel B u); [exact HB|]. rewrite E3.
    rewrite <- (N.add_mod_idemp_l u'), <- E1, N.add_mod_idemp_l by exact HB. reflexivity. }
  assert (Ev : v = v') by (rewrite (N.div_mod v B), (N.div_mod v' B), E2, E4 by exact HB; reflexivity).
  subst v'. split; [|reflexivity]. rewrite !(N.add_comm _ v) in E.
  apply (mod_cancel 256 v) in E; [|discriminate]. rewrite !N.mod_small in E by assumption. exact E.
Qed.

Lemma pow_divides r : (r <= 8)%nat -> (2 ^ N.of_nat r | 256).
Proof.
  intros H. exists (2 ^ (8 - N.of_nat r)). rewrite <- N.pow_add_r. change 256 with (2 ^ 8). f_equal. lia.
Qed.

Lemma kept_sum lo r u u' v v' : (r < 8)%nat -> u < 256 -> u' < 256 -> v < 256 -> v' < 256 ->
  kept lo r u u' v v' -> (u + v) mod 256 = (u' + v') mod 256 -> u = u' /\ v = v'.
Proof.
  intros Hr Hu Hu' Hv Hv' [K1 K2] E. destruct lo.
  - unfold col in *. apply (sum_burst (2 ^ N.of_nat r)); try assumption.
    + apply N.pow_nonzero. discriminate.
    + apply pow_divides. lia.
    + apply low_same. exact K1.
    + apply high_same; assumption.
  - unfold col in *. rewrite (N.add_comm u), (N.add_comm u') in E.
    enough (v = v' /\ u = u') by tauto. apply (sum_burst (2 ^ N.of_nat (8 - r))); try assumption.
    + apply N.pow_nonzero. discriminate.
    + apply pow_divides. lia.
    + apply low_same. intros p Hp. specialize (K2 (7 - p)%nat ltac:(lia)).
      replace (7 - (7 - p))%nat with p in K2 by lia. exact K2.
    + apply high_same; try assumption. intros p Hp. specialize (K1 (7 - p)%nat ltac:(lia)).
      replace (7 - (7 - p))%nat with p in K1 by lia. exact K1.
Qed.

Lemma lrc_law_one m : lrc_law [m] = Z.to_N ((- Z.of_N (sum_all m)) mod 256).
Proof. unfold lrc_law. cbn [alternating length Nat.even]. f_equal. f_equal. lia. Qed.

Lemma lrc_same m m' : lrc_law [m] = lrc_law [m'] -> sum_all m mod 256 = sum_all m' mod 256.
Proof.
  rewrite !lrc_law_one. intros E.
  apply Z2N.inj in E; try (apply Z.mod_pos_bound; reflexivity).
  apply N2Z.inj. rewrite !N2Z.inj_mod. change (Z.of_N 256) with 256%Z.
  revert E. generalize (Z.of_N (sum_all m)), (Z.of_N (sum_all m')). intros x y E.
  rewrite <- (Z.opp_involutive x), <- (Z.opp_involutive y).
  rewrite <- (Z.sub_0_l (- x)), <- (Z.sub_0_l (- y)).
  rewrite <- (Zminus_mod_idemp_r 0 (- x)), <- (Zminus_mod_idemp_r 0 (- y)), E. reflexivity.
Qed.

Lemma lrc_burst lo m m' : bytes_ok m -> bytes_ok m' -> burst lo 8 m m' -> m <> m' ->
  differ Lrc.step Lrc.New m m'.
Proof.
  intros H H' Hb Hne.
  apply (detect_generic _ _ (fun m => lrc_law [m])); try apply (lrc_of_eq [_]). intros X.
  apply lrc_same in X.
  destruct (burst8 lo 8 m m' H H' ltac:(lia) Hb Hne) as [(P & u & u' & -> & -> & N)|
    (P & u & v & u' & v' & Q & r & Hr & -> & -> & K)].
  - rewrite !sum_all_app in X. apply mod_cancel in X; [|discriminate].
    cbn [sum_all fold_right] in X. rewrite !N.add_0_r in X.
    unfold bytes_ok in *. apply Forall_app in H, H'. destruct H as [_ H], H' as [_ H'].
    inversion H; inversion H'; subst. unfold is_byte in *. rewrite !N.mod_small in X by assumption.
    contradiction.
  - destruct (bytes_ok_two _ _ _ _ H), (bytes_ok_two _ _ _ _ H').
    rewrite !sum_all_app in X. apply mod_cancel in X; [|discriminate].
    cbn [sum_all fold_right] in X. fold (sum_all Q) in X.
    rewrite !N.add_assoc, !(N.add_comm _ (sum_all Q)) in X. apply mod_cancel in X; [|discriminate].
    destruct (kept_sum lo r u u' v v') as [-> ->]; try assumption. apply Hne. reflexivity.
Qed.

(** ** Fletcher: words *)

Lemma mod_iff M a b : M <> 0 -> (a mod M = b mod M <-> (Z.of_N M | Z.of_N a - Z.of_N b)%Z).
Proof.
  intros HM. assert (HM' : (Z.of_N M <> 0)%Z) by lia. split; intros H.
  - apply (f_equal Z.of_N) in H. rewrite !N2Z.inj_mod in H.
    apply Z.mod_divide; [exact HM'|]. rewrite Zminus_mod, H, Z.sub_diag. reflexivity.
  - apply N2Z.inj. rewrite !N2Z.inj_mod. apply Z.mod_divide in H; [|exact HM'].
    replace (Z.of_N a) with (Z.of_N b + (Z.of_N a - Z.of_N b))%Z by lia.
    rewrite Zplus_mod, H, Z.add_0_r, Z.mod_mod by exact HM'. reflexivity.
Qed.

Lemma ps_cons x l :
  sum_all (prefix_sums (x :: l)) = (N.of_nat (length l) + 1) * x + sum_all (prefix_sums l).
Proof.
  rewrite prefix_sums_cons. cbn [sum_all fold_right]. fold (sum_all (map (N.add x) (prefix_sums l))).
  rewrite sum_map_add, prefix_sums_length. lia.
Qed.

Lemma ps_app l1 l2 : sum_all (prefix_sums (l1 ++ l2)) =
  sum_all (prefix_sums l1) + N.of_nat (length l2) * sum_all l1 + sum_all (prefix_sums l2).
Proof.
  induction l1 as [|x l1 IH]; [cbn [app length]; change (sum_all []) with 0; change (sum_all (prefix_sums [])) with 0; lia|].
  cbn [app]. rewrite !ps_cons, IH, app_length. change (sum_all (x :: l1)) with (x + sum_all l1). nia.
Qed.

Lemma two_words M H A x B y C x' y' : M <> 0 -> M <= H ->
  (fletcher M H (A ++ x :: B ++ y :: C) = fletcher M H (A ++ x' :: B ++ y' :: C) <->
   (x + y) mod M = (x' + y') mod M /\
   ((N.of_nat (length B) + 1) * x) mod M = ((N.of_nat (length B) + 1) * x') mod M).
Proof.
  intros HM HH.
  assert (SA : forall x y, sum_all (A ++ x :: B ++ y :: C) = sum_all A + sum_all B + sum_all C + (x + y)).
  { intros u v. rewrite sum_all_app. change (sum_all (u :: B ++ v :: C)) with (u + sum_all (B ++ v :: C)).
    rewrite sum_all_app. change (sum_all (v :: C)) with (v + sum_all C). lia. }
  set (c := N.of_nat (length C) + 1). set (b := N.of_nat (length B) + 1).
  assert (SB : exists K, forall x y,
    sum_all (prefix_sums (A ++ x :: B ++ y :: C)) = K + (b * x + c * (x + y))).
  { exists (sum_all (prefix_sums A) + (b + c) * sum_all A + sum_all (prefix_sums B) + c * sum_all B
            + sum_all (prefix_sums C)).
    intros u v. rewrite ps_app, ps_cons, ps_app, ps_cons.
    cbn [length]. rewrite app_length. cbn [length]. unfold b, c. nia. }
  destruct SB as [K SB].
  assert (F : fletcher M H (A ++ x :: B ++ y :: C) = fletcher M H (A ++ x' :: B ++ y' :: C) <->
    fletcher_a M (A ++ x :: B ++ y :: C) = fletcher_a M (A ++ x' :: B ++ y' :: C) /\
    fletcher_b M (A ++ x :: B ++ y :: C) = fletcher_b M (A ++ x' :: B ++ y' :: C)).
  { split; [apply fletcher_parts; assumption|]. intros [E1 E2]. unfold fletcher. congruence. }
  rewrite F. unfold fletcher_a, fletcher_b. rewrite !SA, !SB.
  rewrite !mod_iff by exact HM.
  set (a1 := sum_all A + sum_all B + sum_all C).
  replace (Z.of_N (a1 + (x + y)) - Z.of_N (a1 + (x' + y')))%Z
    with (Z.of_N (x + y) - Z.of_N (x' + y'))%Z by lia.
  replace (Z.of_N (K + (b * x + c * (x + y))) - Z.of_N (K + (b * x' + c * (x' + y'))))%Z
    with ((Z.of_N (b * x) - Z.of_N (b * x')) + Z.of_N c * (Z.of_N (x + y) - Z.of_N (x' + y')))%Z by lia.
  split; intros [D1 D2]; (split; [exact D1|]).
  - replace (Z.of_N (b * x) - Z.of_N (b * x'))%Z with
      ((Z.of_N (b * x) - Z.of_N (b * x') + Z.of_N c * (Z.of_N (x + y) - Z.of_N (x' + y')))
        - Z.of_N c * (Z.of_N (x + y) - Z.of_N (x' + y')))%Z by lia.
    apply Z.divide_sub_r; [exact D2|]. apply Z.divide_mul_r, D1.
  - apply Z.divide_add_r; [exact D2|]. apply Z.divide_mul_r, D1.
Qed.

Lemma one_word M H A x x' C : M <> 0 -> M <= H ->
  (fletcher M H (A ++ x :: C) = fletcher M H (A ++ x' :: C) <-> x mod M = x' mod M).
Proof.
  intros HM HH. split.
  - intros E. destruct (N.eq_dec (x mod M) (x' mod M)) as [|Hne]; [assumption|].
    exfalso. exact (fletcher_word_change M H A x x' C HM HH Hne E).
  - intros E. unfold fletcher, fletcher_a, fletcher_b. rewrite !sum_all_app, !ps_app, !ps_cons.
    cbn [length]. change (sum_all (x :: C)) with (x + sum_all C). change (sum_all (x' :: C)) with (x' + sum_all C).
    set (c := N.of_nat (length C) + 1). set (k := sum_all (prefix_sums A) + N.of_nat (S (length C)) * sum_all A).
    f_equal; [f_equal|]; apply mod_iff; try exact HM; apply mod_iff in E; try exact HM.
    + replace (Z.of_N (k + (c * x + sum_all (prefix_sums C))) - Z.of_N (k + (c * x' + sum_all (prefix_sums C))))%Z
        with (Z.of_N c * (Z.of_N x - Z.of_N x'))%Z by lia.
      apply Z.divide_mul_r, E.
    + replace (Z.of_N (sum_all A + (x + sum_all C)) - Z.of_N (sum_all A + (x' + sum_all C)))%Z
        with (Z.of_N x - Z.of_N x')%Z by lia. exact E.
Qed.

(** The value of [n] bytes, low byte first. *)
Fixpoint value (n : nat) (f : nat -> N) : N :=
  match n with
  | O => 0
  | S n' => f 0%nat + 256 * value n' (fun t => f (S t))
  end.

Lemma value_inj n : forall f g, (forall t, f t < 256) -> (forall t, g t < 256) ->
  value n f = value n g -> forall t, (t < n)%nat -> f t = g t.
Proof.
  induction n as [|n IH]; intros f g Hf Hg E t Ht; [lia|]. cbn [value] in E.
  pose proof (Hf 0%nat). pose proof (Hg 0%nat).
  assert (f 0%nat = g 0%nat) by lia.
  destruct t as [|t]; [assumption|].
  apply (IH (fun t => f (S t)) (fun t => g (S t))); [intros; apply Hf|intros; apply Hg|lia|lia].
Qed.

Lemma value_ext n : forall f g, (forall t, (t < n)%nat -> f t = g t) -> value n f = value n g.
Proof.
  induction n as [|n IH]; intros f g E; [reflexivity|]. cbn [value]. rewrite (E 0%nat) by lia. f_equal. f_equal.
  apply IH. intros t Ht. apply E. lia.
Qed.

Section Words.
Context (w : nat) (M : N) (words : list N -> list N).
Context (w_pos : (0 < w)%nat) (M_val : M = value w (fun _ => 255)) (M_max : forall f,
  (forall t, f t < 256) -> value w f <= M) (M_0 : M <> 0) (zero_val : value w (fun _ => 0) = 0).
Context (words_length : forall m m' : list N, length m = length m' -> length (words m) = length (words m')).
Context (words_nth : forall m i, nth i (words m) 0 = value w (fun t => nth (w * i + t) m 0)).
Context (words_whole : forall m i, (length m <= w * i)%nat -> (length (words m) <= i)%nat).

Lemma word_inj m m' i : bytes_ok m -> bytes_ok m' -> nth i (words m) 0 = nth i (words m') 0 ->
  forall t, (t < w)%nat -> nth (w * i + t) m 0 = nth (w * i + t) m' 0.
Proof.
  intros H H' E. rewrite !words_nth in E.
  apply (value_inj w (fun t => nth (w * i + t) m 0) (fun t => nth (w * i + t) m' 0));
    [intros; apply nth_byte, H|intros; apply nth_byte, H'|exact E].
Qed.

Lemma words_inj m m' : bytes_ok m -> bytes_ok m' -> length m = length m' -> words m = words m' -> m = m'.
Proof.
  intros H H' L E. apply (nth_ext _ _ 0 0 L). intros n _.
  rewrite (Nat.div_mod n w) by lia. apply word_inj; [assumption|assumption|rewrite E; reflexivity|].
  apply Nat.mod_upper_bound. lia.
Qed.

Lemma word_const m i c : c < 256 -> bytes_ok m -> nth i (words m) 0 = value w (fun _ => c) ->
  forall t, (t < w)%nat -> nth (w * i + t) m 0 = c.
Proof.
  intros Hc H E. rewrite words_nth in E.
  apply (value_inj w (fun t => nth (w * i + t) m 0) (fun _ => c));
    [intros; apply nth_byte, H|intros; exact Hc|exact E].
Qed.

Lemma ends_same u u' : u <= M -> u' <= M -> u mod M = u' mod M ->
  u = u' \/ (u = 0 /\ u' = M) \/ (u = M /\ u' = 0).
Proof.
  intros Hu Hu' E.
  destruct (N.eq_dec u M) as [->|N1]; destruct (N.eq_dec u' M) as [->|N2].
  - left; reflexivity.
  - rewrite N.mod_same, N.mod_small in E by lia. right; right. split; [reflexivity|symmetry; exact E].
  - rewrite N.mod_same, N.mod_small in E by lia. right; left. split; [exact E|reflexivity].
  - rewrite !N.mod_small in E by lia. left; exact E.
Qed.

Lemma word_le m i : bytes_ok m -> nth i (words m) 0 <= M.
Proof. intros H. rewrite words_nth. apply M_max. intros t. apply nth_byte, H. Qed.

Lemma skip_skip {A} a b (l : list A) : skipn a (skipn b l) = skipn (b + a) l.
Proof.
  revert l; induction b as [|b IH]; intros l; [reflexivity|]. destruct l as [|x l]; [|apply IH].
  rewrite !skipn_nil. reflexivity.
Qed.

Lemma cut_at m i c : (forall t, (t < w)%nat -> nth (w * i + t) m 0 = c) -> (w * i + w <= length m)%nat ->
  m = firstn (w * i) m ++ repeat c w ++ skipn (w * i + w) m.
Proof.
  intros H L. rewrite <- (firstn_skipn (w * i) m) at 1. f_equal.
  rewrite <- (firstn_skipn w (skipn (w * i) m)) at 1. rewrite skip_skip. f_equal.
  apply (nth_ext _ _ 0 0); rewrite firstn_length, skipn_length.
  - rewrite repeat_length. lia.
  - intros n Hn. rewrite (nth_indep (repeat c w) 0 c) by (rewrite repeat_length; lia).
    rewrite nth_repeat. rewrite <- (H n) by lia.
    rewrite <- (firstn_skipn (w * i) m) at 2. rewrite app_nth2; rewrite firstn_length; [|lia].
    replace (w * i + n - Nat.min (w * i) (length m))%nat with n by lia.
    rewrite <- (firstn_skipn w (skipn (w * i) m)) at 2.
    rewrite app_nth1; [reflexivity|]. rewrite firstn_length, skipn_length. lia.
Qed.

(** One word went from 0 to M, the others are the same. *)
Lemma flipped m m' i : bytes_ok m -> bytes_ok m' -> length m = length m' ->
  (forall j, j <> i -> nth j (words m) 0 = nth j (words m') 0) ->
  nth i (words m) 0 = 0 -> nth i (words m') 0 = M ->
  exists A B, (length A mod w = 0)%nat /\ m = A ++ repeat 0 w ++ B /\ m' = A ++ repeat 255 w ++ B.
Proof.
  intros H H' L E E0 EM.
  assert (C0 : forall t, (t < w)%nat -> nth (w * i + t) m 0 = 0)
    by (apply word_const; [reflexivity|exact H|rewrite zero_val; exact E0]).
  assert (C1 : forall t, (t < w)%nat -> nth (w * i + t) m' 0 = 255)
    by (apply word_const; [reflexivity|exact H'|rewrite <- M_val; exact EM]).
  assert (Le : (w * i + w <= length m')%nat).
  { destruct (Nat.le_gt_cases (w * i + w) (length m')) as [Q|Q]; [exact Q|exfalso].
    specialize (C1 (w - 1)%nat ltac:(lia)). rewrite nth_overflow in C1 by lia. discriminate C1. }
  assert (Same : forall n, (n < w * i \/ w * i + w <= n)%nat -> nth n m 0 = nth n m' 0).
  { intros n Hn. pose proof (Nat.div_mod n w ltac:(lia)) as D. pose proof (Nat.mod_upper_bound n w ltac:(lia)).
    rewrite D. apply word_inj; try assumption. apply E. intros Q. rewrite Q in D. lia. }
  exists (firstn (w * i) m), (skipn (w * i + w) m).
  assert (EA : firstn (w * i) m' = firstn (w * i) m).
  { apply (nth_ext _ _ 0 0); rewrite !firstn_length; [lia|]. intros n Hn.
    specialize (Same n ltac:(lia)).
    rewrite <- (firstn_skipn (w * i) m), <- (firstn_skipn (w * i) m') in Same.
    rewrite !app_nth1 in Same by (rewrite firstn_length; lia). symmetry. exact Same. }
  assert (EB : skipn (w * i + w) m' = skipn (w * i + w) m).
  { apply (nth_ext _ _ 0 0); rewrite !skipn_length; [lia|]. intros n Hn.
    specialize (Same (w * i + w + n)%nat ltac:(lia)).
    rewrite <- (firstn_skipn (w * i + w) m), <- (firstn_skipn (w * i + w) m') in Same.
    rewrite !app_nth2 in Same by (rewrite firstn_length; lia). rewrite !firstn_length in Same.
    replace (w * i + w + n - Nat.min (w * i + w) (length m))%nat with n in Same by lia.
    replace (w * i + w + n - Nat.min (w * i + w) (length m'))%nat with n in Same by lia. symmetry. exact Same. }
  split; [|split].
  - rewrite firstn_length. replace (Nat.min (w * i) (length m)) with (i * w)%nat by lia.
    apply Nat.mod_mul. lia.
  - apply cut_at; [exact C0|lia].
  - rewrite <- EA, <- EB. apply cut_at; assumption.
Qed.

(** All bits of a flipped word are in the window. *)
Lemma flipped_bits lo m m' i s k : bytes_ok m -> bytes_ok m' ->
  (forall j, (j < s \/ s + k <= j)%nat -> bit_at lo m j = bit_at lo m' j) ->
  (nth i (words m) 0 = 0 /\ nth i (words m') 0 = M) \/ (nth i (words m) 0 = M /\ nth i (words m') 0 = 0) ->
  (s <= 8 * (w * i) /\ 8 * (w * i) + 8 * w <= s + k)%nat.
Proof.
  intros H H' E F.
  assert (D : forall t p, (t < w)%nat -> (p < 8)%nat ->
    bit_at lo m (8 * (w * i + t) + p) <> bit_at lo m' (8 * (w * i + t) + p)).
  { intros t p Ht Hp. rewrite !bit_at_col by exact Hp.
    assert (Hc : (col lo p < 8)%nat) by (unfold col; destruct lo; lia).
    assert (T : forall c, (c < 8)%nat -> N.testbit 0 (N.of_nat c) <> N.testbit 255 (N.of_nat c)).
    { intros c Lc. do 8 (destruct c as [|c]; [discriminate|]). lia. }
    destruct F as [[F1 F2]|[F1 F2]].
    - rewrite (word_const m i 0), (word_const m' i 255); try assumption; try reflexivity;
        [apply T, Hc|rewrite <- M_val; exact F2|rewrite zero_val; exact F1].
    - rewrite (word_const m i 255), (word_const m' i 0); try assumption; try reflexivity;
        [intros Q; symmetry in Q; exact (T _ Hc Q)|rewrite zero_val; exact F2|rewrite <- M_val; exact F1]. }
  split.
  - destruct (Nat.le_gt_cases s (8 * (w * i))) as [Q|Q]; [exact Q|exfalso].
    apply (D 0%nat 0%nat); [lia|lia|]. apply E. left. lia.
  - destruct (Nat.le_gt_cases (8 * (w * i) + 8 * w) (s + k)) as [Q|Q]; [exact Q|exfalso].
    apply (D (w - 1)%nat 7%nat); [lia|lia|]. apply E. right. lia.
Qed.

Lemma fletcher_missed lo m m' H : M <= H -> bytes_ok m -> bytes_ok m' -> burst lo (8 * w + 1) m m' ->
  m <> m' -> fletcher M H (words m) = fletcher M H (words m') -> zeros_to_ones w m m'.
Proof.
  intros HH Hm Hm' (L & s & E) Hne F.
  pose proof (outside lo (8 * w + 1) m m' s w Hm Hm' w_pos ltac:(lia) E) as O.
  set (i := (s / (8 * w))%nat) in *.
  assert (OW : forall j, (j < i \/ i + 2 <= j)%nat -> nth j (words m) 0 = nth j (words m') 0).
  { intros j Hj. rewrite !words_nth. apply value_ext. intros t Ht. apply O.
    destruct Hj as [Hj|Hj]; [left|right]; nia. }
  assert (Finish : forall a b, (a = i /\ b = S i) \/ (a = S i /\ b = i) ->
    nth b (words m) 0 = nth b (words m') 0 ->
    (nth a (words m) 0 = 0 /\ nth a (words m') 0 = M) \/ (nth a (words m) 0 = M /\ nth a (words m') 0 = 0) ->
    zeros_to_ones w m m').
  { intros a b Hab Eb Fa.
    assert (Ea : forall j, j <> a -> nth j (words m) 0 = nth j (words m') 0).
    { intros j Hj. destruct (Nat.eq_dec j b) as [->|Nb]; [exact Eb|]. apply OW. lia. }
    destruct Fa as [[F1 F2]|[F1 F2]].
    - destruct (flipped m m' a) as (A & B & LA & E1 & E2); try assumption.
      exists A, B. split; [exact LA|]. left. split; assumption.
    - destruct (flipped m' m a) as (A & B & LA & E1 & E2); try assumption; [symmetry; exact L| |].
      + intros j Hj. symmetry. apply Ea, Hj.
      + exists A, B. split; [exact LA|]. right. split; assumption. }
  assert (Hcase : words m = words m' \/
    (nth i (words m) 0 mod M = nth i (words m') 0 mod M /\
     nth (i + 1) (words m) 0 mod M = nth (i + 1) (words m') 0 mod M)).
  { destruct (two_places 0 (words m) (words m') i (words_length m m' L) OW) as
      [Q|[(P & u & u' & LP & E1 & E2)|(P & u & v & u' & v' & Q & LP & E1 & E2)]];
      [left; exact Q|right; rewrite E1, E2 in F|right; rewrite E1, E2 in F].
    - apply one_word in F; [|exact M_0|exact HH]. rewrite E1, E2, <- LP, !nth_app_at. split; [exact F|].
      rewrite !nth_overflow; [reflexivity| |]; rewrite app_length; simpl; lia.
    - apply (two_words M H P u [] v Q u' v') in F; [|exact M_0|exact HH]. destruct F as [F1 F2].
      cbn [length] in F2. change (N.of_nat 0) with 0 in F2. rewrite N.add_0_l, !N.mul_1_l in F2.
      rewrite E1, E2, <- LP, !nth_app_at, !nth_app_at1. split; [exact F2|].
      apply (mod_cancel M u); [exact M_0|]. rewrite F1.
      rewrite <- (N.add_mod_idemp_l u'), <- F2, N.add_mod_idemp_l by exact M_0. reflexivity. }
  destruct Hcase as [Q|[Q1 Q2]].
  { exfalso. apply Hne, words_inj; assumption. }
  rewrite Nat.add_1_r in Q2.
  apply ends_same in Q1; try (apply word_le; assumption).
  apply ends_same in Q2; try (apply word_le; assumption).
  destruct Q1 as [Q1|Q1], Q2 as [Q2|Q2].
  - exfalso. apply Hne, words_inj; try assumption. apply (nth_ext _ _ 0 0 (words_length m m' L)).
    intros n _. destruct (Nat.eq_dec n i) as [->|]; [exact Q1|].
    destruct (Nat.eq_dec n (S i)) as [->|]; [exact Q2|]. apply OW. lia.
  - apply (Finish (S i) i); [right; auto|exact Q1|exact Q2].
  - apply (Finish i (S i)); [left; auto|exact Q2|exact Q1].
  - exfalso. destruct (flipped_bits lo m m' i s (8 * w + 1) Hm Hm' E Q1).
    destruct (flipped_bits lo m m' (S i) s (8 * w + 1) Hm Hm' E Q2). nia.
Qed.

Lemma short_burst lo m m' k : bytes_ok m -> bytes_ok m' -> (k < 8 * w)%nat -> burst lo k m m' ->
  ~ zeros_to_ones w m m'.
Proof.
  intros Hm Hm' Hk (L & s & E) (A & B & LA & F).
  assert (Ei : exists i, (length A = w * i)%nat).
  { exists (length A / w)%nat. pose proof (Nat.div_mod (length A) w ltac:(lia)). lia. }
  destruct Ei as [i Ei].
  assert (V : forall c, nth i (words (A ++ repeat c w ++ B)) 0 = value w (fun _ => c)).
  { intros c. rewrite words_nth. apply value_ext. intros t Ht. rewrite <- Ei.
    rewrite app_nth2 by lia. replace (length A + t - length A)%nat with t by lia.
    rewrite app_nth1 by (rewrite repeat_length; exact Ht). 
    rewrite (nth_indep _ 0 c) by (rewrite repeat_length; exact Ht). apply nth_repeat. }
  destruct (flipped_bits lo m m' i s k Hm Hm' E); [|lia].
  destruct F as [[-> ->]|[-> ->]]; rewrite !V, zero_val, <- M_val; [left|right]; split; reflexivity.
Qed.
End Words.

(** ** Fletcher: the three sizes *)

Lemma words8_nth m i : nth i m 0 = value 1 (fun t => nth (1 * i + t) m 0).
Proof. cbn [value]. rewrite Nat.mul_1_l, Nat.add_0_r. lia. Qed.

Lemma words16_nth m : forall i, nth i (words16 m) 0 = value 2 (fun t => nth (2 * i + t) m 0).
Proof.
  induction m as [|x|x y m IH] using list_pair_ind; intros i; cbn [value].
  - cbn [words16]. rewrite !nth_overflow by (cbn; lia). reflexivity.
  - cbn [words16]. destruct i as [|i]; [cbn [nth Nat.mul Nat.add]; lia|]. rewrite !nth_overflow by (cbn [length]; lia). reflexivity.
  - cbn [words16]. destruct i as [|i]; [cbn [nth Nat.mul Nat.add]; lia|]. cbn [nth]. rewrite IH. cbn [value].
    replace (2 * S i + 0)%nat with (S (S (2 * i + 0))) by lia.
    replace (2 * S i + 1)%nat with (S (S (2 * i + 1))) by lia. reflexivity.
Qed.

Lemma words32_nth m : forall i, nth i (words32 m) 0 = value 4 (fun t => nth (4 * i + t) m 0).
Proof.
  induction m as [|x|x y|x y z|x y z t m IH] using list_quad_ind; intros i; cbn [value].
  - cbn [words32]. rewrite !nth_overflow by (cbn; lia). reflexivity.
  - cbn [words32]. destruct i as [|i]; [cbn [nth Nat.mul Nat.add]; lia|]. rewrite !nth_overflow by (cbn [length]; lia). reflexivity.
  - cbn [words32]. destruct i as [|i]; [cbn [nth Nat.mul Nat.add]; lia|]. rewrite !nth_overflow by (cbn [length]; lia). reflexivity.
  - cbn [words32]. destruct i as [|i]; [cbn [nth Nat.mul Nat.add]; lia|]. rewrite !nth_overflow by (cbn [length]; lia). reflexivity.
  - cbn [words32]. destruct i as [|i]; [cbn [nth Nat.mul Nat.add]; lia|]. cbn [nth]. rewrite IH. cbn [value].
    replace (4 * S i + 0)%nat with (S (S (S (S (4 * i + 0))))) by lia.
    replace (4 * S i + 1)%nat with (S (S (S (S (4 * i + 1))))) by lia.
    replace (4 * S i + 2)%nat with (S (S (S (S (4 * i + 2))))) by lia.
    replace (4 * S i + 3)%nat with (S (S (S (S (4 * i + 3))))) by lia. reflexivity.
Qed.

Lemma words32_same_length m : forall m', length m = length m' -> length (words32 m) = length (words32 m').
Proof.
  induction m as [|x|x y|x y z|x y z t m IH] using list_quad_ind;
    intros [|x' [|y' [|z' [|t' m']]]] L; try discriminate L; try reflexivity.
  cbn [words32 length]. f_equal. apply IH. injection L as L. exact L.
Qed.

Lemma agree_iff {St} step (s0 : St) (F : list N -> N) m1 m2 :
  observe step s0 [CWrite m1; CValue] = Ret [RWrite (length m1); RValue (F m1)] ->
  observe step s0 [CWrite m2; CValue] = Ret [RWrite (length m2); RValue (F m2)] ->
  (agree step s0 m1 m2 <-> F m1 = F m2).
Proof.
  intros E1 E2. unfold agree. split.
  - intros (n1 & n2 & v & H1 & H2). congruence.
  - intros E. exists (length m1), (length m2), (F m1). rewrite E1, E2, E. split; reflexivity.
Qed.

Lemma flip_agree M H (words : list N -> list N) w m m' :
  M <> 0 -> M <= H ->
  (forall A B, (length A mod w = 0)%nat -> words (A ++ repeat 0 w ++ B) = words A ++ 0 :: words B) ->
  (forall A B, (length A mod w = 0)%nat -> words (A ++ repeat 255 w ++ B) = words A ++ M :: words B) ->
  zeros_to_ones w m m' -> fletcher M H (words m) = fletcher M H (words m').
Proof.
  intros HM HH W0 W1 (A & B & LA & [[-> ->]|[-> ->]]); rewrite W0, W1 by exact LA; apply one_word;
    try assumption; rewrite N.mod_same, N.mod_0_l by exact HM; reflexivity.
Qed.

Ltac words_side :=
  solve [ lia | reflexivity | discriminate | assumption | apply words8_nth | apply words16_nth | apply words32_nth
        | intros f Hf; cbn [value];
          try pose proof (Hf 0%nat); try pose proof (Hf 1%nat); try pose proof (Hf 2%nat); try pose proof (Hf 3%nat); lia
        | intros a b Eab; first [exact Eab | rewrite !words16_length, Eab; reflexivity | apply words32_same_length, Eab] ].

Lemma fletcher16_burst lo m m' : bytes_ok m -> bytes_ok m' -> N.of_nat (length m) <= 5802 ->
  burst lo 9 m m' -> m <> m' -> (agree Fletcher.step16 Fletcher.New m m' <-> zeros_to_ones 1 m m').
Proof.
  intros H H' L Hb Hne.
  rewrite (agree_iff _ _ (fletcher 255 (2 ^ 8))).
  2: apply fletcher16_one; assumption.
  2: apply fletcher16_one; [assumption|]; destruct Hb as [<- _]; exact L.
  split; intros E.
  - apply (fletcher_missed 1 255 (fun m => m)) with (lo := lo) (H := 2 ^ 8); words_side.
  - apply (flip_agree 255 (2 ^ 8) (fun m => m) 1); try discriminate; try exact E; reflexivity.
Qed.

Lemma fletcher32_burst lo m m' : bytes_ok m -> bytes_ok m' ->
  burst lo 17 m m' -> m <> m' -> (agree Fletcher.step32 Fletcher.New m m' <-> zeros_to_ones 2 m m').
Proof.
  intros H H' Hb Hne.
  rewrite (agree_iff _ _ (fun m => fletcher 65535 (2 ^ 16) (words16 m)))
    by (apply fletcher32_one; assumption).
  split; intros E.
  - apply (fletcher_missed 2 65535 words16) with (lo := lo) (H := 2 ^ 16); words_side.
  - apply (flip_agree 65535 (2 ^ 16) words16 2); try discriminate; try exact E;
      intros A B LA; rewrite words16_app; try reflexivity;
      apply Nat.even_spec; exists (length A / 2)%nat; pose proof (Nat.div_mod (length A) 2); lia.
Qed.

Lemma fletcher64_burst lo m m' : bytes_ok m -> bytes_ok m' ->
  burst lo 33 m m' -> m <> m' -> (agree Fletcher.step64 Fletcher.New m m' <-> zeros_to_ones 4 m m').
Proof.
  intros H H' Hb Hne.
  rewrite (agree_iff _ _ (fun m => fletcher 4294967295 (2 ^ 32) (words32 m)))
    by (apply fletcher64_one; assumption).
  split; intros E.
  - apply (fletcher_missed 4 4294967295 words32) with (lo := lo) (H := 2 ^ 32); words_side.
  - apply (flip_agree 4294967295 (2 ^ 32) words32 4); try discriminate; try exact E;
      intros A B LA; rewrite (words32_app (length A / 4)); try reflexivity;
      pose proof (Nat.div_mod (length A) 4); lia.
Qed.

Lemma burst_le lo k k' m m' : (k <= k')%nat -> burst lo k m m' -> burst lo k' m m'.
Proof. intros Hk (L & s & E). split; [exact L|]. exists s. intros j Hj. apply E. lia. Qed.

Lemma agree_differ {St} step (s0 : St) (F : list N -> N) m1 m2 :
  observe step s0 [CWrite m1; CValue] = Ret [RWrite (length m1); RValue (F m1)] ->
  observe step s0 [CWrite m2; CValue] = Ret [RWrite (length m2); RValue (F m2)] ->
  ~ agree step s0 m1 m2 -> differ step s0 m1 m2.
Proof.
  intros E1 E2 Hn. apply (detect_generic _ _ F); [exact E1|exact E2|]. intros E. apply Hn.
  apply (agree_iff _ _ F); assumption.
Qed.

Lemma fletcher16_short lo m m' : bytes_ok m -> bytes_ok m' -> N.of_nat (length m) <= 5802 ->
  burst lo 7 m m' -> m <> m' -> differ Fletcher.step16 Fletcher.New m m'.
Proof.
  intros H H' L Hb Hne. apply (agree_differ _ _ (fletcher 255 (2 ^ 8))).
  - apply fletcher16_one; assumption.
  - apply fletcher16_one; [assumption|]. destruct Hb as [<- _]. exact L.
  - rewrite (fletcher16_burst lo) by (try assumption; exact (burst_le lo 7 9 m m' ltac:(lia) Hb)).
    apply (short_burst 1 255 (fun m => m)) with (lo := lo) (k := 7%nat); words_side.
Qed.

Lemma fletcher32_short lo m m' : bytes_ok m -> bytes_ok m' ->
  burst lo 15 m m' -> m <> m' -> differ Fletcher.step32 Fletcher.New m m'.
Proof.
  intros H H' Hb Hne. apply (agree_differ _ _ (fun m => fletcher 65535 (2 ^ 16) (words16 m)));
    try (apply fletcher32_one; assumption).
  rewrite (fletcher32_burst lo) by (try assumption; exact (burst_le lo 15 17 m m' ltac:(lia) Hb)).
  apply (short_burst 2 65535 words16) with (lo := lo) (k := 15%nat); words_side.
Qed.

Lemma fletcher64_short lo m m' : bytes_ok m -> bytes_ok m' ->
  burst lo 31 m m' -> m <> m' -> differ Fletcher.step64 Fletcher.New m m'.
Proof.
  intros H H' Hb Hne. apply (agree_differ _ _ (fun m => fletcher 4294967295 (2 ^ 32) (words32 m)));
    try (apply fletcher64_one; assumption).
  rewrite (fletcher64_burst lo) by (try assumption; exact (burst_le lo 31 33 m m' ltac:(lia) Hb)).
  apply (short_burst 4 4294967295 words32) with (lo := lo) (k := 31%nat); words_side.
Qed.

(** ** Two changed words *)

Lemma fletcher16_two A x B y C x' y' :
  bytes_ok (A ++ x :: B ++ y :: C) -> bytes_ok (A ++ x' :: B ++ y' :: C) ->
  N.of_nat (length (A ++ x :: B ++ y :: C)) <= 5802 ->
  (agree Fletcher.step16 Fletcher.New (A ++ x :: B ++ y :: C) (A ++ x' :: B ++ y' :: C) <->
   (x + y) mod 255 = (x' + y') mod 255 /\
   ((N.of_nat (length B) + 1) * x) mod 255 = ((N.of_nat (length B) + 1) * x') mod 255).
Proof.
  intros H H' L. rewrite (agree_iff _ _ (fletcher 255 (2 ^ 8))).
  - apply two_words; discriminate.
  - apply fletcher16_one; assumption.
  - apply fletcher16_one; [assumption|]. rewrite !app_length in *. cbn [length] in *.
    rewrite !app_length in *. exact L.
Qed.

Lemma low_first_length n : forall v, length (low_first_bytes n v) = n.
Proof. induction n as [|n IH]; intros v; cbn [low_first_bytes length]; [|rewrite IH]; reflexivity. Qed.

Lemma low_first_ok n : forall v, bytes_ok (low_first_bytes n v).
Proof.
  induction n as [|n IH]; intros v; cbn [low_first_bytes]; constructor; [|apply IH].
  apply N.mod_lt. discriminate.
Qed.

Lemma message_ok n ws tail : bytes_ok tail -> bytes_ok (message n ws tail).
Proof.
  intros H. unfold message. apply Forall_app. split; [|exact H].
  induction ws as [|x ws IH]; cbn [flat_map]; [constructor|]. apply Forall_app. split; [apply low_first_ok|exact IH].
Qed.

Lemma message16 ws : forall tail, Forall (fun x => x < 2 ^ 16) ws ->
  words16 (message 2 ws tail) = ws ++ words16 tail.
Proof.
  induction ws as [|x ws IH]; intros tail H; [reflexivity|]. inversion H as [|? ? Hx H2]; subst.
  unfold message in *. cbn [flat_map low_first_bytes app words16]. rewrite IH by exact H2. f_equal.
  rewrite (N.mod_small (x / 256)) by (apply N.div_lt_upper_bound; [discriminate|exact Hx]).
  rewrite N.add_comm. symmetry. apply N.div_mod. discriminate.
Qed.

Lemma message32 ws : forall tail, Forall (fun x => x < 2 ^ 32) ws ->
  words32 (message 4 ws tail) = ws ++ words32 tail.
Proof.
  induction ws as [|x ws IH]; intros tail H; [reflexivity|]. inversion H as [|? ? Hx H2]; subst.
  unfold message in *. cbn [flat_map low_first_bytes app words32]. rewrite IH by exact H2. f_equal.
  rewrite !N.div_div by discriminate.
  rewrite (N.mod_small (x / (256 * (256 * 256)))) by (apply N.div_lt_upper_bound; [discriminate|exact Hx]).
  pose proof (N.div_mod x 256 ltac:(discriminate)) as D1.
  pose proof (N.div_mod (x / 256) 256 ltac:(discriminate)) as D2.
  pose proof (N.div_mod (x / 256 / 256) 256 ltac:(discriminate)) as D3.
  rewrite !N.div_div in * by discriminate. change (256 * (256 * 256)) with (256 * 256 * 256). lia.
Qed.

Lemma fletcher32_two A x B y C x' y' tail :
  Forall (fun v => v < 2 ^ 16) (A ++ x :: B ++ y :: C) ->
  Forall (fun v => v < 2 ^ 16) (A ++ x' :: B ++ y' :: C) -> bytes_ok tail ->
  (agree Fletcher.step32 Fletcher.New (message 2 (A ++ x :: B ++ y :: C) tail)
                                      (message 2 (A ++ x' :: B ++ y' :: C) tail) <->
   (x + y) mod 65535 = (x' + y') mod 65535 /\
   ((N.of_nat (length B) + 1) * x) mod 65535 = ((N.of_nat (length B) + 1) * x') mod 65535).
Proof.
  intros H H' T. rewrite (agree_iff _ _ (fun m => fletcher 65535 (2 ^ 16) (words16 m)))
    by (apply fletcher32_one, message_ok, T).
  rewrite !message16 by assumption. rewrite <- !app_assoc. cbn [app]. rewrite <- !app_assoc. cbn [app].
  apply two_words; discriminate.
Qed.

Lemma fletcher64_two A x B y C x' y' tail :
  Forall (fun v => v < 2 ^ 32) (A ++ x :: B ++ y :: C) ->
  Forall (fun v => v < 2 ^ 32) (A ++ x' :: B ++ y' :: C) -> bytes_ok tail ->
  (agree Fletcher.step64 Fletcher.New (message 4 (A ++ x :: B ++ y :: C) tail)
                                      (message 4 (A ++ x' :: B ++ y' :: C) tail) <->
   (x + y) mod 4294967295 = (x' + y') mod 4294967295 /\
   ((N.of_nat (length B) + 1) * x) mod 4294967295 = ((N.of_nat (length B) + 1) * x') mod 4294967295).
Proof.
  intros H H' T. rewrite (agree_iff _ _ (fun m => fletcher 4294967295 (2 ^ 32) (words32 m)))
    by (apply fletcher64_one, message_ok, T).
  rewrite !message32 by assumption. rewrite <- !app_assoc. cbn [app]. rewrite <- !app_assoc. cbn [app].
  apply two_words; discriminate.
Qed.

(** At a distance without a common factor with the modulus only changes that
    are multiples of it are missed. *)
Lemma coprime_two M d x y x' y' : M <> 0 -> N.gcd d M = 1 ->
  ((x + y) mod M = (x' + y') mod M /\ (d * x) mod M = (d * x') mod M <->
   x mod M = x' mod M /\ y mod M = y' mod M).
Proof.
  intros HM G. split.
  - intros [E1 E2].
    assert (X : x mod M = x' mod M).
    { apply mod_iff; [exact HM|]. apply mod_iff in E2; [|exact HM]. rewrite !N2Z.inj_mul in E2.
      rewrite <- Z.mul_sub_distr_l in E2. apply Z.gauss with (m := Z.of_N d); [exact E2|].
      rewrite Z.gcd_comm. replace (Z.gcd (Z.of_N d) (Z.of_N M)) with (Z.of_N (N.gcd d M));
        [rewrite G; reflexivity|]. destruct d, M; reflexivity. }
    split; [exact X|]. apply (mod_cancel M x); [exact HM|]. rewrite E1.
    rewrite <- (N.add_mod_idemp_l x'), <- X, N.add_mod_idemp_l by exact HM. reflexivity.
  - intros [X Y]. split.
    + rewrite N.add_mod, X, Y, <- N.add_mod by exact HM. reflexivity.
    + rewrite N.mul_mod, X, <- N.mul_mod by exact HM. reflexivity.
Qed.

(** ** Luhn: two digits *)

Lemma flip_even n b : Nat.even n = true -> flip n b = b.
Proof.
  revert b. enough (forall n b, (Nat.even n = true -> flip n b = b) /\ (Nat.even (S n) = true -> flip (S n) b = b))
    by (intros; apply H; assumption).
  clear n. induction n as [|n IH]; intros b; [split; [reflexivity|discriminate]|].
  split; [apply IH|]. intros H. cbn [flip]. rewrite Bool.negb_involutive. apply IH. exact H.
Qed.

Lemma flip_odd n b : Nat.odd n = true -> flip n b = negb b.
Proof.
  intros H. destruct n as [|n]; [discriminate|]. cbn [flip]. apply flip_even.
  rewrite Nat.odd_succ in H. exact H.
Qed.

Lemma luhn_two pre d mid e post d' e' :
  digits_ok (pre ++ d :: mid ++ e :: post) -> digits_ok (pre ++ d' :: mid ++ e' :: post) ->
  digits_value (pre ++ d :: mid ++ e :: post) < 2 ^ 64 -> digits_value (pre ++ d' :: mid ++ e' :: post) < 2 ^ 64 ->
  exists b,
  (Luhn.Checksum (digits_value (pre ++ d :: mid ++ e :: post)) =
   Luhn.Checksum (digits_value (pre ++ d' :: mid ++ e' :: post)) <->
   (luhn_term b d + luhn_term (flip (length mid) (negb b)) e) mod 10 =
   (luhn_term b d' + luhn_term (flip (length mid) (negb b)) e') mod 10).
Proof.
  intros H H' V V'. exists (flip (length pre) true).
  rewrite luhn_checksum_inj by assumption. rewrite !luhn_sum_app. cbn [luhn_sum]. rewrite !luhn_sum_app.
  cbn [luhn_sum]. set (b := flip (length pre) true). set (b2 := flip (length mid) (negb b)).
  set (k := luhn_sum true pre). set (q := luhn_sum (negb b) mid). set (r := luhn_sum (negb b2) post).
  replace (k + (luhn_term b d + (q + (luhn_term b2 e + r))))
    with ((k + q + r) + (luhn_term b d + luhn_term b2 e)) by lia.
  replace (k + (luhn_term b d' + (q + (luhn_term b2 e' + r))))
    with ((k + q + r) + (luhn_term b d' + luhn_term b2 e')) by lia.
  split; [apply mod10_cancel|]. intros E.
  rewrite <- (N.add_mod_idemp_r _ (luhn_term b d + _)), E, N.add_mod_idemp_r by discriminate. reflexivity.
Qed.

Lemma digits_two pre d mid e post : digits_ok (pre ++ d :: mid ++ e :: post) -> d < 10 /\ e < 10.
Proof.
  unfold digits_ok. intros H. apply Forall_app in H. destruct H as [_ H]. inversion H as [|? ? Hd H2]; subst.
  apply Forall_app in H2. destruct H2 as [_ H2]. inversion H2; subst. split; assumption.
Qed.

Lemma digits_swap pre d mid e post : digits_ok (pre ++ d :: mid ++ e :: post) ->
  digits_ok (pre ++ e :: mid ++ d :: post).
Proof.
  unfold digits_ok. rewrite !Forall_app. intros [Hp H]. split; [exact Hp|].
  inversion H as [|? ? Hd H2]; subst. apply Forall_app in H2. destruct H2 as [Hm H2].
  inversion H2; subst. constructor; [assumption|]. apply Forall_app. split; [assumption|].
  constructor; assumption.
Qed.

Lemma luhn_jump pre d mid e post :
  digits_ok (pre ++ d :: mid ++ e :: post) -> Nat.odd (length mid) = true ->
  digits_value (pre ++ d :: mid ++ e :: post) < 2 ^ 64 -> digits_value (pre ++ e :: mid ++ d :: post) < 2 ^ 64 ->
  Luhn.Checksum (digits_value (pre ++ d :: mid ++ e :: post)) =
  Luhn.Checksum (digits_value (pre ++ e :: mid ++ d :: post)).
Proof.
  intros H O V V'. destruct (luhn_two pre d mid e post e d H (digits_swap _ _ _ _ _ H) V V') as [b E].
  apply E. rewrite flip_odd, Bool.negb_involutive by exact O. f_equal. lia.
Qed.

Lemma luhn_odd_swap pre d mid e post :
  digits_ok (pre ++ d :: mid ++ e :: post) -> Nat.even (length mid) = true ->
  digits_value (pre ++ d :: mid ++ e :: post) < 2 ^ 64 -> digits_value (pre ++ e :: mid ++ d :: post) < 2 ^ 64 ->
  (Luhn.Checksum (digits_value (pre ++ d :: mid ++ e :: post)) =
   Luhn.Checksum (digits_value (pre ++ e :: mid ++ d :: post)) <->
   d = e \/ (d = 0 /\ e = 9) \/ (d = 9 /\ e = 0)).
Proof.
  intros H O V V'. destruct (luhn_two pre d mid e post e d H (digits_swap _ _ _ _ _ H) V V') as [b E].
  rewrite E, flip_even by exact O. destruct (digits_two _ _ _ _ _ H) as [Hd He].
  assert (C : swap_check b = true) by (destruct b; vm_compute; reflexivity).
  pose proof (sweep 10 _ C d Hd) as C1. cbv beta in C1.
  pose proof (sweep 10 _ C1 e He) as C2. cbv beta in C2. apply eqb_prop in C2.
  rewrite <- N.eqb_eq, C2, !orb_true_iff, !andb_true_iff, !N.eqb_eq. tauto.
Qed.

Definition twin_check (b : bool) : bool :=
  forallb (fun d => forallb (fun e =>
    Bool.eqb ((luhn_term b d + luhn_term (negb b) d) mod 10 =? (luhn_term b e + luhn_term (negb b) e) mod 10)
      ((d =? e) || ((2 <=? d) && (d <=? 4) && (e =? d + 3)) || ((2 <=? e) && (e <=? 4) && (d =? e + 3))))
    (below 10)) (below 10).

Lemma luhn_twin pre d e post :
  digits_ok (pre ++ d :: d :: post) -> digits_ok (pre ++ e :: e :: post) ->
  digits_value (pre ++ d :: d :: post) < 2 ^ 64 -> digits_value (pre ++ e :: e :: post) < 2 ^ 64 ->
  (Luhn.Checksum (digits_value (pre ++ d :: d :: post)) =
   Luhn.Checksum (digits_value (pre ++ e :: e :: post)) <->
   d = e \/ (2 <= d <= 4 /\ e = d + 3) \/ (2 <= e <= 4 /\ d = e + 3)).
Proof.
  intros H H' V V'. destruct (luhn_two pre d [] d post e e H H' V V') as [b E]. cbn [app] in E.
  rewrite E. cbn [length flip].
  destruct (digits_two pre d [] d post H) as [Hd _]. destruct (digits_two pre e [] e post H') as [He _].
  assert (C : twin_check b = true) by (destruct b; vm_compute; reflexivity).
  pose proof (sweep 10 _ C d Hd) as C1. cbv beta in C1.
  pose proof (sweep 10 _ C1 e He) as C2. cbv beta in C2. apply eqb_prop in C2.
  rewrite <- N.eqb_eq, C2, !orb_true_iff, !andb_true_iff, !N.eqb_eq, !N.leb_le. tauto.
Qed.
