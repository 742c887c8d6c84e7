(** The loop of AddRange, and single calls on an IpTree. *)
From Verif Require Import Base.Go Base.GoNet Base.NetApi Model.Net Spec.NetSpec Proofs.Util
  Proofs.NetBasic Proofs.NetTree Proofs.NetList Proofs.NetBlocks.
Local Open Scope N_scope.

(** ** The first mask: ones below the lowest set bit *)

Lemma odd_part p : exists z q, Npos p = 2 ^ z * (2 * q + 1).
Proof.
  induction p as [p IH|p IH|].
  - exists 0, (Npos p). change (2 ^ 0) with 1. lia.
  - destruct IH as (z & q & E). exists (N.succ z), q. rewrite N.pow_succ_r'. lia.
  - exists 0, 0. reflexivity.
Qed.

Lemma ldiff_pred z q : N.ldiff (2 ^ z * (2 * q + 1) - 1) (2 ^ z * (2 * q + 1)) = N.ones z.
Proof.
  assert (P : 0 < 2 ^ z) by (apply N.neq_0_lt_0, N.pow_nonzero; lia).
  apply N.bits_inj. intros i. rewrite N.ldiff_spec. destruct (N.lt_ge_cases i z) as [L|L].
  - rewrite N.ones_spec_low by exact L.
    rewrite <- (N.mod_pow2_bits_low (2 ^ z * (2 * q + 1) - 1) z i) by exact L.
    rewrite <- (N.mod_pow2_bits_low (2 ^ z * (2 * q + 1)) z i) by exact L.
    replace ((2 ^ z * (2 * q + 1)) mod 2 ^ z) with 0 by (apply N.mod_unique with (2 * q + 1); lia).
    replace ((2 ^ z * (2 * q + 1) - 1) mod 2 ^ z) with (N.ones z).
    + rewrite N.ones_spec_low, N.bits_0 by exact L. reflexivity.
    + rewrite N.ones_equiv. apply N.mod_unique with (2 * q); lia.
  - rewrite N.ones_spec_high by exact L. replace i with (i - z + z) by lia.
    rewrite <- (N.div_pow2_bits (2 ^ z * (2 * q + 1) - 1) z (i - z)).
    rewrite <- (N.div_pow2_bits (2 ^ z * (2 * q + 1)) z (i - z)).
    replace ((2 ^ z * (2 * q + 1)) / 2 ^ z) with (2 * q + 1) by (apply N.div_unique with 0; lia).
    replace ((2 ^ z * (2 * q + 1) - 1) / 2 ^ z) with (2 * q) by (apply N.div_unique with (2 ^ z - 1); lia).
    destruct (N.eq_0_gt_0_cases (i - z)) as [->|G].
    + rewrite N.testbit_even_0. reflexivity.
    + replace (i - z) with (N.succ (i - z - 1)) by lia.
      rewrite N.testbit_even_succ, N.testbit_odd_succ by lia. destruct (N.testbit q _); reflexivity.
Qed.

Definition low_mask (u : N) : N := N.land (sub32 u 1) (not32 u).

Lemma low_mask_spec u : u < 2 ^ 32 -> exists z, (z <= 32)%nat /\ low_mask u = N.ones (N.of_nat z) /\
  u mod 2 ^ N.of_nat z = 0 /\ ((z < 32)%nat -> u mod 2 ^ N.of_nat (S z) <> 0).
Proof.
  intros H. destruct u as [|p].
  { exists 32%nat. split; [lia|]. split; [vm_compute; reflexivity|]. split; [reflexivity|lia]. }
  destruct (odd_part p) as (z & q & E). assert (P : 0 < 2 ^ z) by (apply N.neq_0_lt_0, N.pow_nonzero; lia).
  assert (Z : z < 32).
  { apply (N.pow_lt_mono_r_iff 2); [lia|]. apply N.le_lt_trans with (Npos p); [|exact H]. rewrite E. nia. }
  exists (N.to_nat z). split; [lia|]. rewrite Nat2N.inj_succ, N2Nat.id. unfold low_mask. split; [|split].
  - replace (sub32 (Npos p) 1) with (Npos p - 1).
    2:{ unfold sub32, u32. change (2 ^ 32) with 4294967296 in *. change (1 mod 4294967296) with 1.
        replace (N.pos p + 4294967296 - 1) with (N.pos p - 1 + 1 * 4294967296) by lia.
        rewrite N.mod_add by lia. rewrite N.mod_small; lia. }
    change (not32 (Npos p)) with (N.lnot (Npos p) 32).
    destruct (N.eq_dec (Npos p) 1) as [E1|N1].
    + rewrite E1 in *. assert (z = 0). { destruct (N.eq_dec z 0); [assumption|]. exfalso.
      assert (2 ^ 1 <= 2 ^ z) by (apply N.pow_le_mono_r; lia). change (2 ^ 1) with 2 in *. nia. }
      subst z. reflexivity.
    + rewrite <- N.ldiff_land_low by (apply N.log2_lt_pow2; lia). rewrite E. apply ldiff_pred.
  - rewrite E, N.mul_comm, N.mod_mul; lia.
  - intros _. rewrite N.pow_succ_r', E. intros M. apply N.mod_divide in M; [|lia]. destruct M as [c M].
    assert (X : 2 * q + 1 = 2 * c) by nia. lia.
Qed.

(** ** Rounds *)

(** A block of 2^j addresses from u, aligned and within last. *)
Definition fits (u last : N) (j : nat) : Prop := u mod pw j = 0 /\ u + pw j - 1 <= last.

Lemma fits_down u last j i : (i <= j)%nat -> fits u last j -> fits u last i.
Proof.
  intros H [A B]. split; [apply div_pow_dvd with (N.of_nat j); [lia|exact A]|].
  pose proof (pw_mono i j H). lia.
Qed.

Definition largest (u last : N) (j : nat) : Prop :=
  (j <= 32)%nat /\ fits u last j /\ ((j < 32)%nat -> ~ fits u last (S j)).

Lemma largest_unique u last i j : largest u last i -> largest u last j -> i = j.
Proof.
  intros (I1 & I2 & I3) (J1 & J2 & J3). destruct (Nat.lt_trichotomy i j) as [L|[E|L]]; [|exact E|]; exfalso.
  - apply I3; [lia|]. apply fits_down with j; [lia|exact J2].
  - apply J3; [lia|]. apply fits_down with i; [lia|exact I2].
Qed.

Lemma no_overflow u j : (j <= 32)%nat -> u < 2 ^ 32 -> u mod pw j = 0 -> u + pw j <= 2 ^ 32.
Proof.
  intros Hj Hu A. rewrite <- size_pre by exact Hj. apply (aligned_last u (pre j)).
  split; [exact Hu|]. split; [unfold pre; lia|]. rewrite size_pre by exact Hj. exact A.
Qed.

Lemma ones_pw j : N.ones (N.of_nat j) = pw j - 1.
Proof. rewrite N.ones_equiv. lia. Qed.

Lemma shrink_spec u last : u < 2 ^ 32 -> u <= last -> forall z fuel, (z <= 32)%nat -> (z <= fuel)%nat ->
  u mod pw z = 0 -> ((z < 32)%nat -> ~ fits u last (S z)) ->
  exists j, largest u last j /\ shrink fuel u last (N.ones (N.of_nat z)) = Ret (N.ones (N.of_nat j)).
Proof.
  intros Hu Hl. induction z as [|z IH]; intros fuel Hz Hf A M.
  - exists O. split; [split; [lia|split; [split; [exact A|change (pw 0) with 1; lia]|exact M]]|].
    change (N.ones (N.of_nat 0)) with 0. destruct fuel; cbn [shrink]; unfold add32, u32;
    rewrite N.add_0_r, N.mod_small by exact Hu; rewrite (proj2 (N.ltb_ge _ _) Hl); reflexivity.
  - pose proof (no_overflow u (S z) Hz Hu A) as O. pose proof (pw_pos (S z)) as P.
    destruct fuel as [|fuel]; [lia|]. cbn [shrink]. unfold add32, u32 at 1.
    rewrite ones_pw, N.mod_small by lia.
    destruct (N.ltb_spec last (u + (pw (S z) - 1))) as [L|L].
    + replace (N.shiftr (pw (S z) - 1) 1) with (N.ones (N.of_nat z)).
      2:{ rewrite ones_pw, pw_S, N.shiftr_div_pow2. change (2 ^ 1) with 2. pose proof (pw_pos z).
          apply N.div_unique with 1; lia. }
      apply IH; try lia; [apply (half_aligned z u A)|]. intros _ [_ F]. lia.
    + exists (S z). split; [|rewrite ones_pw; reflexivity]. split; [exact Hz|]. split; [|exact M].
      split; [exact A|lia].
Qed.

Lemma bit_len_ones j : (j <= 32)%nat -> bit_len 33 (N.ones (N.of_nat j)) 0 = Ret (N.of_nat j).
Proof.
  intros H. assert (S := sweep 33 (fun j => match bit_len 33 (N.ones j) 0 with Ret b => b =? j | _ => false end)).
  specialize (S ltac:(vm_compute; reflexivity) (N.of_nat j) ltac:(lia)). cbv beta in S.
  destruct (bit_len 33 (N.ones (N.of_nat j)) 0); try discriminate. apply N.eqb_eq in S. subst. reflexivity.
Qed.

Lemma round {V} fuel (t : tree V) u last v : u < 2 ^ 32 -> u <= last ->
  exists j, largest u last j /\
    range_loop (S fuel) t u last v
    = range_loop fuel (add_root t u (N.of_nat j) v) ((u + pw j) mod 2 ^ 32) last v.
Proof.
  intros Hu Hl. destruct (low_mask_spec u Hu) as (z & Hz & M & A & N1).
  destruct (shrink_spec u last Hu Hl z 33 Hz ltac:(lia) A) as (j & J & E).
  { intros L [F _]. apply (N1 L F). }
  exists j. split; [exact J|]. cbn [range_loop]. rewrite (proj2 (N.leb_le _ _) Hl).
  fold (low_mask u). rewrite M, E. cbn [bind]. rewrite bit_len_ones by apply J. cbn [bind]. f_equal.
  unfold add32, u32. rewrite ones_pw. pose proof (pw_pos j). replace (pw j - 1 + 1) with (pw j) by lia.
  rewrite N.add_mod_idemp_r by discriminate. reflexivity.
Qed.

Lemma biggest_spec u last : forall n j, (n + j = 32)%nat -> fits u last j ->
  exists i, largest u last i /\ biggest n u last (pre j) = pre i.
Proof.
  induction n as [|n IH]; intros j Hn F; cbn [biggest].
  - exists j. split; [|reflexivity]. split; [lia|]. split; [exact F|lia].
  - replace (pre j - 1) with (pre (S j)) by (unfold pre; lia). rewrite size_pre by lia.
    destruct (N.eqb_spec (u mod pw (S j)) 0) as [A|A]; cbn [andb].
    + destruct (N.leb_spec (u + pw (S j) - 1) last) as [L|L].
      * apply IH; [lia|]. split; assumption.
      * exists j. split; [|reflexivity]. split; [lia|]. split; [exact F|]. intros _ [_ X]. lia.
    + exists j. split; [|reflexivity]. split; [lia|]. split; [exact F|]. intros _ [X _]. contradiction.
Qed.
Lemma biggest_largest u last j : u <= last -> largest u last j -> biggest 32 u last 32 = pre j.
Proof.
  intros H J. destruct (biggest_spec u last 32 0 eq_refl) as (i & I & E).
  { split; [apply N.mod_1_r|change (pw 0) with 1; lia]. }
  change (pre 0) with 32 in E. rewrite E. f_equal. apply (largest_unique u last); assumption.
Qed.

(** ** Blocks added one after the other *)

Definition add_prefixes {V} (t : tree V) (L : list (N * N)) (v : V) : tree V :=
  fold_left (fun t up => add_root t (fst up) (32 - snd up) v) L t.

Lemma range_loop_ok {V} last v : last < 2 ^ 32 - 1 -> forall n fuel (t : tree V) u, (n <= fuel)%nat ->
  (N.to_nat (last + 1 - u) <= n)%nat ->
  range_loop fuel t u last v = Ret (add_prefixes t (range_prefixes n u last) v).
Proof.
  intros Hl. induction n as [|n IH]; intros fuel t u Hf Hn.
  - cbn [range_prefixes]. destruct fuel; cbn [range_loop];
    rewrite (proj2 (N.leb_gt u last)) by lia; reflexivity.
  - cbn [range_prefixes]. destruct (N.leb_spec u last) as [L|L].
    + assert (Hu : u < 2 ^ 32) by lia. destruct fuel as [|fuel]; [lia|].
      destruct (round fuel t u last v Hu L) as (j & J & ->). rewrite (biggest_largest u last j L J).
      assert (Hj : (j <= 32)%nat) by apply J. rewrite size_pre by exact Hj. pose proof (pw_pos j).
      destruct J as (_ & (A & F) & _).
      rewrite N.mod_small by lia. rewrite (IH fuel _ (u + pw j)) by lia.
      unfold add_prefixes. cbn [fold_left fst snd].
      replace (32 - pre j) with (N.of_nat j) by (unfold pre; lia). reflexivity.
    + destruct fuel; cbn [range_loop]; rewrite (proj2 (N.leb_gt u last)) by lia; reflexivity.
Qed.

Lemma range_loop_top {V} v : forall fuel (t : tree V) u, u < 2 ^ 32 ->
  range_loop fuel t u (2 ^ 32 - 1) v = OutOfFuel.
Proof.
  induction fuel as [|fuel IH]; intros t u Hu.
  - cbn [range_loop]. rewrite (proj2 (N.leb_le u (2 ^ 32 - 1))) by lia. reflexivity.
  - destruct (round fuel t u (2 ^ 32 - 1) v Hu ltac:(lia)) as (j & _ & ->). apply IH.
    apply N.mod_lt. discriminate.
Qed.

(** ** The prefixes of a range *)

Definition prefix_ok (up : N * N) : Prop := fst up < 2 ^ 32 /\ snd up <= 32.

Lemma range_ok last : last < 2 ^ 32 -> forall n u, Forall prefix_ok (range_prefixes n u last).
Proof.
  intros Hl. induction n as [|n IH]; intros u; cbn [range_prefixes]; [constructor|].
  destruct (N.leb_spec u last) as [L|L]; [|constructor]. constructor; [|apply IH].
  destruct (biggest_spec u last 32 0 eq_refl) as (i & I & E).
  { split; [apply N.mod_1_r|change (pw 0) with 1; lia]. }
  change (pre 0) with 32 in E. rewrite E. split; cbn [fst snd]; [lia|unfold pre; lia].
Qed.

Lemma range_covers last : last < 2 ^ 32 -> forall n u x, (N.to_nat (last + 1 - u) <= n)%nat ->
  covered_by (range_prefixes n u last) x <-> u <= x <= last.
Proof.
  intros Hl. induction n as [|n IH]; intros u x Hn; cbn [range_prefixes].
  - split; [intros (? & ? & [] & _)|lia].
  - destruct (N.leb_spec u last) as [L|L]; [|split; [intros (? & ? & [] & _)|lia]].
    destruct (biggest_spec u last 32 0 eq_refl) as (i & I & E).
    { split; [apply N.mod_1_r|change (pw 0) with 1; lia]. }
    change (pre 0) with 32 in E. rewrite E. destruct I as (Hi & (A & F) & _).
    assert (In1 : in_net u (pre i) x <-> u <= x <= u + pw i - 1).
    { rewrite <- size_pre by exact Hi. apply in_net_aligned. split; [lia|]. split; [unfold pre; lia|].
      rewrite size_pre by exact Hi. exact A. }
    pose proof (pw_pos i). rewrite size_pre by exact Hi.
    specialize (IH (u + pw i) x ltac:(lia)). split.
    + intros (u' & p' & [Q|Q] & C).
      * injection Q as <- <-. apply In1 in C. lia.
      * assert (covered_by (range_prefixes n (u + pw i) last) x) as Y by (exists u', p'; auto).
        apply IH in Y. lia.
    + intros R. destruct (N.lt_ge_cases x (u + pw i)) as [C|C].
      * exists u, (pre i). split; [left; reflexivity|]. apply In1. lia.
      * destruct (proj2 IH ltac:(lia)) as (u' & p' & Q & Y). exists u', p'. split; [right; exact Q|exact Y].
Qed.

Lemma range_single u p n : aligned u p -> (1 < n)%nat -> range_prefixes n u (u + size p - 1) = [(u, p)].
Proof.
  intros H Hn. pose proof (aligned_last u p H) as O. destruct H as (Hu & Hp & A).
  destruct (size_as_pw p Hp) as (j & Hj & -> & S). rewrite S in *. pose proof (pw_pos j).
  destruct n as [|[|n]]; try lia. cbn [range_prefixes].
  rewrite (proj2 (N.leb_le u (u + pw j - 1))) by lia.
  rewrite (biggest_largest u (u + pw j - 1) j) by
    (lia || (split; [exact Hj|]; split; [split; [exact A|lia]|]; intros _ [_ F]; rewrite pw_S in F; lia)).
  rewrite S. rewrite (proj2 (N.leb_gt (u + pw j) (u + pw j - 1))) by lia. reflexivity.
Qed.

(** ** One call *)

Lemma sub8_32 p : p <= 32 -> sub8 32 p = 32 - p.
Proof.
  intros H. unfold sub8, u8. change (2 ^ 8) with 256. replace (32 + 256 - p) with (32 - p + 1 * 256) by lia.
  rewrite N.mod_add by discriminate. apply N.mod_small. lia.
Qed.

Lemma add_root_merge {V} (t : tree V) u e v : merge (add_root t u e v) = merge t.
Proof. reflexivity. Qed.
Lemma add_prefixes_merge {V} L v : forall t : tree V, merge (add_prefixes t L v) = merge t.
Proof.
  induction L as [|[u p] L IH]; intros t; [reflexivity|]. unfold add_prefixes in *. cbn [fold_left].
  rewrite IH. reflexivity.
Qed.

Lemma apply_ok {V} (c : tree_call V) : proper c -> exists L k, call_prefixes c L /\ Forall prefix_ok L /\
  (forall x, x < 2 ^ 32 -> covered_by L x <-> adds c x) /\
  forall t fuel, (k <= fuel)%nat -> apply fuel t c = Ret (add_prefixes t L (call_value c)).
Proof.
  destruct c as [ip v|s e v|[n|] v]; cbn [proper call_prefixes adds call_value].
  - intros [u U]. exists [(u, 32)], O. split; [eauto|]. split; [constructor; [split; [apply U|cbn; lia]|constructor]|].
    split.
    + intros x Hx. split.
      * intros (u' & p' & [Q|[]] & C). injection Q as <- <-. unfold in_net, size in C.
        change (2 ^ (32 - 32)) with 1 in C. rewrite !N.div_1_r in C. subst x. exact U.
      * intros X. rewrite (is_addr_fun _ _ _ X U). exists u, 32. split; [left; reflexivity|reflexivity].
    + intros t fuel _. cbn [apply]. unfold AddIp. rewrite (ToUint_addr ip u U). reflexivity.
  - intros (a & b & A & B & Hb). exists (range_prefixes (N.to_nat (b + 1 - a)) a b), (N.to_nat (b + 1 - a)).
    split; [eauto 10|]. split; [apply range_ok; lia|]. split.
    + intros x Hx. rewrite range_covers by lia. split; [intros R; eauto 10|].
      intros (a' & b' & A' & B' & R). rewrite (is_addr_fun _ _ _ A A'), (is_addr_fun _ _ _ B B'). exact R.
    + intros t fuel Hf. cbn [apply]. unfold AddRange. rewrite (ToUint_addr s a A), (ToUint_addr e b B).
      cbn [bind]. apply range_loop_ok; [exact Hb|exact Hf|lia].
  - intros (u & p & C). exists [(u, p)], O. split; [eauto|].
    split; [constructor; [split; [apply C|apply C]|constructor]|]. split.
    + intros x Hx. split.
      * intros (u' & p' & [Q|[]] & I). injection Q as <- <-. eauto.
      * intros (u' & p' & C' & I). destruct (cidr_fun _ _ _ _ _ C C') as [-> ->].
        exists u', p'. split; [left; reflexivity|exact I].
    + intros t fuel _. cbn [apply]. unfold AddCidr. destruct C as (A & Hp & M).
      rewrite (ToUint_addr _ u A). cbn [bind]. rewrite M, MaskToByte_From by exact Hp.
      unfold add_prefixes. cbn [fold_left fst snd]. rewrite sub8_32 by exact Hp. reflexivity.
  - contradiction.
Qed.
