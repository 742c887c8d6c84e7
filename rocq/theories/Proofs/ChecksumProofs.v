(** BCC, LRC, Luhn, endian. *)
From Verif Require Import Base.Go Base.HashApi Spec.ChecksumSpec Proofs.Util Proofs.HashRun.
From Verif Require Model.Bcc Model.Lrc Model.Luhn Model.Endian.
From Coq Require Import Permutation.
Local Open Scope N_scope.

(** ** BCC *)

Lemma lxor_byte a b : a < 256 -> b < 256 -> N.lxor a b < 256.
Proof.
  intros Ha Hb. change 256 with (2 ^ 8) in *.
  destruct (N.eq_dec (N.lxor a b) 0) as [E|E]; [rewrite E; reflexivity|].
  apply N.log2_lt_pow2; [lia|].
  pose proof (N.log2_lxor a b) as H.
  destruct (N.eq_dec a 0) as [->|Na].
  - rewrite N.lxor_0_l in *. apply N.log2_lt_pow2; lia.
  - destruct (N.eq_dec b 0) as [->|Nb].
    + rewrite N.lxor_0_r in *. apply N.log2_lt_pow2; lia.
    + apply N.log2_lt_pow2 in Ha; [|lia]. apply N.log2_lt_pow2 in Hb; [|lia]. lia.
Qed.

Lemma xor_all_app l1 l2 : xor_all (l1 ++ l2) = N.lxor (xor_all l1) (xor_all l2).
Proof.
  induction l1 as [|x l1 IH]; simpl; [rewrite N.lxor_0_l; reflexivity|].
  rewrite IH, N.lxor_assoc. reflexivity.
Qed.

Lemma bcc_update d p : Bcc.update d p = N.lxor d (xor_all p).
Proof.
  revert d; induction p as [|x p IH]; intros d.
  - symmetry. apply N.lxor_0_r.
  - unfold Bcc.update in *. cbn [fold_left]. rewrite IH.
    cbn [xor_all fold_right]. fold (xor_all p). rewrite N.lxor_assoc. reflexivity.
Qed.

Lemma concat_snoc {A} (ws : list (list A)) p : concat (ws ++ [p]) = concat ws ++ p.
Proof. rewrite concat_app. simpl. rewrite app_nil_r. reflexivity. Qed.

Lemma bcc_history cs :
  exists s, run Bcc.step Bcc.New cs =
    Ret (s, trace (fun ws => xor_all (concat ws)) (fun v => [v]) 1 1 [] cs)
    /\ s = xor_all (concat (since_reset [] cs)).
Proof.
  apply (run_trace Bcc.step (fun ws => xor_all (concat ws)) (fun v => [v]) 1 1
           (fun s ws => s = xor_all (concat ws)) (fun _ => True)).
  - intros s ws p -> _. eexists. split; [reflexivity|].
    rewrite bcc_update, concat_snoc, xor_all_app. reflexivity.
  - intros s ws inp ->. eexists; split; reflexivity.
  - intros s ws ->. eexists; split; reflexivity.
  - intros s ws ->. eexists; split; reflexivity.
  - intros s ws ->. eexists; split; reflexivity.
  - intros s ws ->. eexists; split; reflexivity.
  - reflexivity.
  - apply Forall_forall. intros [] _; exact I.
Qed.

Notation bcc_of m := (observe Bcc.step Bcc.New [CWrite m; CValue]).

Lemma bcc_of_eq m : bcc_of m = Ret [RWrite (length m); RValue (xor_all m)].
Proof.
  unfold observe. destruct (bcc_history [CWrite m; CValue]) as (s & -> & _).
  cbn [bind trace]. rewrite concat_snoc. reflexivity.
Qed.

Lemma bcc_single_byte pre x y post :
  x <> y -> bcc_of (pre ++ x :: post) <> bcc_of (pre ++ y :: post).
Proof.
  intros Hxy H. rewrite !bcc_of_eq in H. injection H as _ H.
  rewrite !xor_all_app in H. cbn [xor_all fold_right] in H. fold (xor_all post) in H.
  apply Hxy.
  assert (C : forall a b c, N.lxor a b = N.lxor a c -> b = c).
  { intros a b c E. apply (f_equal (N.lxor a)) in E.
    rewrite <- !N.lxor_assoc, !N.lxor_nilpotent, !N.lxor_0_l in E. exact E. }
  apply C in H. rewrite (N.lxor_comm x), (N.lxor_comm y) in H. apply C in H. exact H.
Qed.

Lemma bcc_verify m : exists v,
  bcc_of m = Ret [RWrite (length m); RValue v] /\
  bcc_of (m ++ [v]) = Ret [RWrite (S (length m)); RValue 0].
Proof.
  exists (xor_all m). rewrite !bcc_of_eq. split; [reflexivity|].
  rewrite xor_all_app. cbn [xor_all fold_right]. rewrite N.lxor_0_r, N.lxor_nilpotent.
  rewrite app_length, Nat.add_1_r. reflexivity.
Qed.

Lemma bcc_permutation m m' : Permutation m m' -> bcc_of m = bcc_of m'.
Proof.
  intros H. rewrite !bcc_of_eq. rewrite (Permutation_length H). do 4 f_equal.
  induction H as [|x l l' H IH|x y l|l l' l'' H1 IH1 H2 IH2]; simpl; auto.
  - rewrite IH; reflexivity.
  - rewrite <- !N.lxor_assoc, (N.lxor_comm x y). reflexivity.
  - congruence.
Qed.

Lemma xor_all_byte m : bytes_ok m -> xor_all m < 256.
Proof.
  intros H; induction H as [|x m Hx H IH]; [reflexivity|]. apply lxor_byte; assumption.
Qed.

(** ** LRC *)

Lemma not8_small d : d < 256 -> not8 d = 255 - d.
Proof.
  intros H. assert (C : forallb (fun d => not8 d =? 255 - d) all_bytes = true)
    by (vm_compute; reflexivity).
  apply N.eqb_eq. exact (sweep_byte _ C d H).
Qed.

Lemma sum_all_app l1 l2 : sum_all (l1 ++ l2) = sum_all l1 + sum_all l2.
Proof. induction l1 as [|x l1 IH]; simpl; [reflexivity|]. rewrite IH. lia. Qed.

Lemma lrc_fold p d : d < 256 ->
  fold_left (fun dig b => add8 dig b) p d = (d + sum_all p) mod 256.
Proof.
  revert d; induction p as [|x p IH]; intros d Hd; cbn [fold_left sum_all fold_right].
  - rewrite N.add_0_r, N.mod_small by exact Hd. reflexivity.
  - fold (sum_all p). rewrite IH.
    + unfold add8, u8. change (2 ^ 8) with 256. rewrite N.add_mod_idemp_l by lia.
      f_equal. lia.
    + unfold add8, u8. apply N.mod_lt. discriminate.
Qed.

Lemma alternating_snoc ws p :
  alternating (ws ++ [p]) = (- (alternating ws + Z.of_N (sum_all p)))%Z.
Proof.
  induction ws as [|q ws IH]; cbn [app alternating length].
  - cbn [Nat.even]. lia.
  - rewrite IH. rewrite app_length. cbn [length]. rewrite Nat.add_1_r, Nat.even_succ.
    rewrite <- Nat.negb_even. destruct (Nat.even (length ws)); cbn [negb]; lia.
Qed.

Lemma lrc_update d p : d < 256 ->
  Z.of_N (Lrc.update d p) = ((- (Z.of_N d + Z.of_N (sum_all p))) mod 256)%Z.
Proof.
  intros Hd. unfold Lrc.update. rewrite lrc_fold by exact Hd.
  set (s := d + sum_all p). assert (Hs : s mod 256 < 256) by (apply N.mod_lt; discriminate).
  rewrite not8_small by exact Hs. unfold add8, u8. change (2 ^ 8) with 256.
  rewrite N2Z.inj_mod. change (Z.of_N 256) with 256%Z.
  rewrite N2Z.inj_add, N2Z.inj_sub by lia. rewrite N2Z.inj_mod.
  replace (Z.of_N d + Z.of_N (sum_all p))%Z with (Z.of_N s) by lia.
  change (Z.of_N 256) with 256%Z. change (Z.of_N 255) with 255%Z. change (Z.of_N 1) with 1%Z.
  generalize (Z.of_N s). intros z.
  replace (255 - z mod 256 + 1)%Z with (256 - z mod 256)%Z by lia.
  Z.div_mod_to_equations. lia.
Qed.

Definition lrc_law (ws : list (list N)) : N := Z.to_N (alternating ws mod 256).

Lemma lrc_history cs :
  exists s, run Lrc.step Lrc.New cs = Ret (s, trace lrc_law (fun v => [v]) 1 1 [] cs)
    /\ s = lrc_law (since_reset [] cs).
Proof.
  apply (run_trace Lrc.step lrc_law (fun v => [v]) 1 1
           (fun s ws => s = lrc_law ws) (fun _ => True)).
  - intros s ws p -> _. eexists. split; [reflexivity|].
    assert (B : forall ws, lrc_law ws < 256).
    { intros w. unfold lrc_law. pose proof (Z.mod_pos_bound (alternating w) 256). lia. }
    apply N2Z.inj. rewrite lrc_update by apply B.
    unfold lrc_law. rewrite alternating_snoc.
    rewrite !Z2N.id by (apply Z.mod_pos_bound; lia).
    generalize (alternating ws), (Z.of_N (sum_all p)). intros a b.
    Z.div_mod_to_equations. lia.
  - intros s ws inp ->. eexists; split; reflexivity.
  - intros s ws ->. eexists; split; reflexivity.
  - intros s ws ->. eexists; split; reflexivity.
  - intros s ws ->. eexists; split; reflexivity.
  - intros s ws ->. eexists; split; reflexivity.
  - reflexivity.
  - apply Forall_forall. intros [] _; exact I.
Qed.

Notation lrc_of ws := (observe Lrc.step Lrc.New (map CWrite ws ++ [CValue])).

Lemma trace_writes value ser sz bs ws0 ws cs :
  trace value ser sz bs ws0 (map CWrite ws ++ cs) =
  map (fun p => RWrite (length p)) ws ++ trace value ser sz bs (ws0 ++ ws) cs.
Proof.
  revert ws0; induction ws as [|p ws IH]; intros ws0; cbn [map app trace].
  - rewrite app_nil_r. reflexivity.
  - rewrite IH, <- app_assoc. reflexivity.
Qed.

Lemma lrc_of_eq ws :
  lrc_of ws = Ret (map (fun p => RWrite (length p)) ws ++ [RValue (lrc_law ws)]).
Proof.
  unfold observe. destruct (lrc_history (map CWrite ws ++ [CValue])) as (s & -> & _).
  cbn [bind]. rewrite trace_writes. reflexivity.
Qed.

Lemma lrc_one p : exists v,
  lrc_of [p] = Ret [RWrite (length p); RValue v] /\ v < 256 /\ (v + sum_all p) mod 256 = 0
  /\ Z.of_N v = ((- Z.of_N (sum_all p)) mod 256)%Z.
Proof.
  exists (lrc_law [p]). split; [apply lrc_of_eq|].
  unfold lrc_law, alternating. cbn [length Nat.even].
  replace (-1 * Z.of_N (sum_all p) + 0)%Z with (- Z.of_N (sum_all p))%Z by lia.
  pose proof (Z.mod_pos_bound (- Z.of_N (sum_all p)) 256 eq_refl) as B.
  split; [lia|]. split; [|rewrite Z2N.id by lia; reflexivity].
  apply N2Z.inj. rewrite N2Z.inj_mod, N2Z.inj_add, Z2N.id by lia.
  change (Z.of_N 256) with 256%Z. generalize (Z.of_N (sum_all p)). intros z.
  rewrite Z.add_mod_idemp_l by lia. replace (- z + z)%Z with 0%Z by lia. reflexivity.
Qed.

Lemma lrc_split_iff p q :
  lrc_law [p; q] = lrc_law [p ++ q] <-> sum_all p mod 128 = 0.
Proof.
  unfold lrc_law, alternating. cbn [length Nat.even].
  rewrite sum_all_app, N2Z.inj_add.
  set (a := sum_all p). set (b := sum_all q).
  pose proof (Z.mod_pos_bound (1 * Z.of_N a + (-1 * Z.of_N b + 0)) 256 eq_refl).
  pose proof (Z.mod_pos_bound (-1 * (Z.of_N a + Z.of_N b) + 0) 256 eq_refl).
  split.
  - intros E. apply Z2N.inj in E; try lia.
    apply N2Z.inj. rewrite N2Z.inj_mod. change (Z.of_N 128) with 128%Z.
    change (Z.of_N 0) with 0%Z.
    revert E. generalize (Z.of_N a), (Z.of_N b). intros x y E.
    clear -E.
    pose proof (Z.div_mod (1 * x + (-1 * y + 0)) 256) as D1.
    pose proof (Z.div_mod (-1 * (x + y) + 0) 256) as D2.
    rewrite E in D1.
    assert (X : (x = ((1 * x + (-1 * y + 0)) / 256 - (-1 * (x + y) + 0) / 256) * 128)%Z) by lia.
    rewrite X. apply Z.mod_mul. lia.
  - intros E. f_equal. apply (f_equal Z.of_N) in E. rewrite N2Z.inj_mod in E.
    change (Z.of_N 128) with 128%Z in E. change (Z.of_N 0) with 0%Z in E.
    revert E. generalize (Z.of_N a), (Z.of_N b). intros x y E.
    clear -E. Z.div_mod_to_equations. lia.
Qed.

Lemma lrc_split p q vs v ws w :
  lrc_of [p; q] = Ret (vs ++ [RValue v]) -> lrc_of [p ++ q] = Ret (ws ++ [RValue w]) ->
  (v = w <-> sum_all p mod 128 = 0).
Proof.
  rewrite !lrc_of_eq. intros E1 E2. injection E1 as E1. injection E2 as E2.
  apply (f_equal (@rev result)) in E1, E2. rewrite rev_app_distr in E1, E2.
  cbn in E1, E2. injection E1 as <- _. injection E2 as <- _. apply lrc_split_iff.
Qed.

(** ** Luhn *)

Definition wt (dbl : bool) : N := if dbl then 2 else 1.

Lemma luhn_term_bound dbl d : d < 10 -> luhn_term dbl d < 10.
Proof.
  intros H. assert (C : forallb (fun d => (luhn_term true d <? 10) && (luhn_term false d <? 10))
                          (below 10) = true) by (vm_compute; reflexivity).
  pose proof (sweep 10 _ C d H) as C'. cbv beta in C'. apply andb_true_iff in C'. destruct C' as [C1 C2].
  apply N.ltb_lt in C1, C2. destruct dbl; assumption.
Qed.

Lemma step_term dbl d : d < 10 ->
  add64 (u64 (d * wt dbl) mod 10) (u64 (d * wt dbl) / 10) = luhn_term dbl d.
Proof.
  intros H. assert (C : forallb (fun d =>
      (add64 (u64 (d * wt true) mod 10) (u64 (d * wt true) / 10) =? luhn_term true d) &&
      (add64 (u64 (d * wt false) mod 10) (u64 (d * wt false) / 10) =? luhn_term false d))
                          (below 10) = true) by (vm_compute; reflexivity).
  pose proof (sweep 10 _ C d H) as C'. cbv beta in C'. apply andb_true_iff in C'. destruct C' as [C1 C2].
  apply N.eqb_eq in C1, C2. destruct dbl; assumption.
Qed.

Lemma size_nat_le i j : i <= j -> (N.size_nat i <= N.size_nat j)%nat.
Proof.
  assert (E : forall n, N.of_nat (N.size_nat n) = N.size n).
  { intros [|p]; [reflexivity|]. simpl. induction p as [p IH|p IH|]; simpl; lia. }
  intros H. assert (N.size i <= N.size j).
  { destruct (N.eq_dec i 0) as [->|Hi]; [apply N.le_0_l|].
    rewrite !N.size_log2 by lia. pose proof (N.log2_le_mono i j H). lia. }
  rewrite <- !E in H0. lia.
Qed.

Lemma size_nat_div2 i : 0 < i -> N.size_nat i = S (N.size_nat (N.div2 i)).
Proof. destruct i as [|[p|p|]]; intros H; try reflexivity. lia. Qed.

Lemma size_nat_div10 i : 0 < i -> (S (N.size_nat (i / 10)) <= N.size_nat i)%nat.
Proof.
  intros H. rewrite (size_nat_div2 i H). apply le_n_S, size_nat_le.
  rewrite N.div2_div. apply N.div_le_compat_l. lia.
Qed.

Lemma wt_next dbl : add64 1 (wt dbl mod 2) = wt (negb dbl).
Proof. destruct dbl; reflexivity. Qed.

Lemma luhn_loop ds : forall fuel i ret dbl,
  digits_ok ds -> digits_value ds = i -> (N.size_nat i <= fuel)%nat ->
  ret + 10 * N.of_nat (length ds) < 2 ^ 64 ->
  Luhn.loop fuel i ret (wt dbl) = Ret (ret + luhn_sum dbl ds).
Proof.
  induction ds as [|d ds IH]; intros fuel i ret dbl Hok Hv Hf Hr.
  - simpl in Hv. subst i. destruct fuel; cbn [Luhn.loop N.ltb]; simpl; rewrite N.add_0_r; reflexivity.
  - inversion Hok as [|? ? Hd Hok']; subst. cbn [digits_value luhn_sum].
    cbn [digits_value] in *. set (r := digits_value ds) in *.
    destruct (N.eq_dec (d + 10 * r) 0) as [E|E].
    + (* all remaining digits are zero *)
      assert (d = 0) by lia. assert (R0 : r = 0) by lia. subst d. rewrite E.
      specialize (IH 0%nat 0 ret (negb dbl) Hok' R0 (Nat.le_refl _)).
      assert (L : forall f m, Luhn.loop f 0 ret m = Ret ret) by (intros [|f] m; reflexivity).
      rewrite L. rewrite L in IH. rewrite IH by (cbn [length] in Hr; lia).
      f_equal. destruct dbl; reflexivity.
    + assert (P : 0 < d + 10 * r) by lia.
      pose proof (size_nat_div10 _ P) as SZ.
      assert (M : (d + 10 * r) mod 10 = d).
      { rewrite (N.mul_comm 10 r), N.mod_add by lia. apply N.mod_small, Hd. }
      assert (Q : (d + 10 * r) / 10 = r).
      { rewrite (N.mul_comm 10 r), N.div_add by lia. rewrite N.div_small by exact Hd. lia. }
      destruct fuel as [|fuel]; [lia|].
      cbn [Luhn.loop]. apply N.ltb_lt in P. rewrite P. rewrite M.
      replace ((d + 10 * r - d) / 10) with r.
      2:{ replace (d + 10 * r - d) with (r * 10) by lia. rewrite N.div_mul by lia. reflexivity. }
      rewrite step_term by exact Hd. rewrite wt_next.
      pose proof (luhn_term_bound dbl d Hd) as TB.
      cbn [length] in Hr.
      assert (A : add64 ret (luhn_term dbl d) = ret + luhn_term dbl d).
      { unfold add64, u64. apply N.mod_small. lia. }
      rewrite A. rewrite (IH fuel r); [f_equal; lia|exact Hok'|reflexivity| |lia].
      rewrite Q in SZ. lia.
Qed.

(** Canonical digit list of a number, used to strip leading zeros. *)
Lemma luhn_strip ds : digits_ok ds ->
  exists ds', digits_ok ds' /\ digits_value ds' = digits_value ds
    /\ (forall dbl, luhn_sum dbl ds' = luhn_sum dbl ds)
    /\ (length ds' <= N.size_nat (digits_value ds))%nat.
Proof.
  induction ds as [|d ds IH]; intros Hok.
  - exists []. repeat split; auto.
  - inversion Hok as [|? ? Hd Hok']; subst. destruct (IH Hok') as (ds' & O & V & S & L).
    destruct (N.eq_dec (digits_value (d :: ds)) 0) as [E|E].
    + exists []. rewrite E. cbn [digits_value] in *. assert (d = 0) by lia.
      assert (V0 : digits_value ds = 0) by lia. subst d.
      rewrite V0 in *. destruct ds' as [|d' ds']; [|simpl in L; lia].
      repeat split; auto; try constructor.
      intros dbl. cbn [luhn_sum]. rewrite <- S. destruct dbl; reflexivity.
    + exists (d :: ds'). repeat split.
      * constructor; assumption.
      * cbn [digits_value]. rewrite V. reflexivity.
      * intros dbl. cbn [luhn_sum]. rewrite S. reflexivity.
      * cbn [length]. pose proof (size_nat_div10 (digits_value (d :: ds))) as Z.
        assert (Q : digits_value (d :: ds) / 10 = digits_value ds).
        { cbn [digits_value]. rewrite (N.mul_comm 10), N.div_add by lia.
          rewrite N.div_small by exact Hd. lia. }
        rewrite Q in Z. lia.
Qed.

Lemma size_nat_64 i : i < 2 ^ 64 -> (N.size_nat i <= 64)%nat.
Proof.
  intros H. assert (H' : i <= 2 ^ 64 - 1) by lia. apply size_nat_le in H'. exact H'.
Qed.

Lemma luhn_checksum ds : digits_ok ds -> digits_value ds < 2 ^ 64 ->
  Luhn.Checksum (digits_value ds) = Ret ((10 - luhn_sum true ds mod 10) mod 10).
Proof.
  intros Hok Hb. destruct (luhn_strip ds Hok) as (ds' & O & V & S & L).
  pose proof (size_nat_64 _ Hb) as B64.
  unfold Luhn.Checksum. change 2 with (wt true).
  rewrite (luhn_loop ds' _ _ 0 true O V (Nat.le_refl _)) by lia.
  cbn [bind]. rewrite N.add_0_l, S. unfold u8. change (2 ^ 8) with 256.
  rewrite (N.mod_small _ 256); [reflexivity|].
  apply N.lt_trans with 10; [apply N.mod_lt; discriminate|reflexivity].
Qed.

Lemma luhn_sum_compl s : s < 10 ->
  exists c, c < 10 /\ (10 - s) mod 10 = c /\ (c + s) mod 10 = 0
   /\ forall d, d < 10 -> (d + s) mod 10 = 0 -> d = c.
Proof.
  intros Hs. exists ((10 - s) mod 10). split; [apply N.mod_lt; discriminate|].
  split; [reflexivity|].
  assert (C : forallb (fun s => (((10 - s) mod 10 + s) mod 10 =? 0) &&
     forallb (fun d => implb ((d + s) mod 10 =? 0) (d =? (10 - s) mod 10)) (below 10)) (below 10)
     = true) by (vm_compute; reflexivity).
  pose proof (sweep 10 _ C s Hs) as C'. cbv beta in C'. apply andb_true_iff in C'.
  destruct C' as [C1 C2]. split; [apply N.eqb_eq, C1|].
  intros d Hd E. pose proof (sweep 10 _ C2 d Hd) as C3. cbv beta in C3.
  rewrite E in C3. apply N.eqb_eq, C3.
Qed.

Lemma luhn_digit ds : digits_ok ds -> digits_value ds < 2 ^ 64 ->
  exists c, Luhn.Checksum (digits_value ds) = Ret c /\ c < 10 /\ luhn_valid (c :: ds)
  /\ forall d, d < 10 -> luhn_valid (d :: ds) -> d = c.
Proof.
  intros Hok Hb. rewrite luhn_checksum by assumption.
  assert (Hs : luhn_sum true ds mod 10 < 10) by (apply N.mod_lt; discriminate).
  destruct (luhn_sum_compl _ Hs) as (c & C1 & C2 & C3 & C4).
  exists c. rewrite C2. repeat split; auto.
  - unfold luhn_valid. cbn [luhn_sum luhn_term negb]. rewrite <- N.add_mod_idemp_r by lia. exact C3.
  - intros d Hd V. apply C4; [exact Hd|]. unfold luhn_valid in V.
    cbn [luhn_sum luhn_term negb] in V. rewrite N.add_mod_idemp_r by lia. exact V.
Qed.

(** Equal checksums mean equal sums mod 10. *)
Lemma luhn_checksum_inj ds es :
  digits_ok ds -> digits_ok es -> digits_value ds < 2 ^ 64 -> digits_value es < 2 ^ 64 ->
  (Luhn.Checksum (digits_value ds) = Luhn.Checksum (digits_value es) <->
   luhn_sum true ds mod 10 = luhn_sum true es mod 10).
Proof.
  intros H1 H2 B1 B2. rewrite !luhn_checksum by assumption.
  split; [|intros ->; reflexivity]. intros E. injection E as E.
  assert (S1 : luhn_sum true ds mod 10 < 10) by (apply N.mod_lt; discriminate).
  assert (S2 : luhn_sum true es mod 10 < 10) by (apply N.mod_lt; discriminate).
  revert E S1 S2. generalize (luhn_sum true ds mod 10), (luhn_sum true es mod 10).
  intros s t E Hs Ht.
  assert (C : forallb (fun s => forallb (fun t => implb ((10 - s) mod 10 =? (10 - t) mod 10) (s =? t))
                         (below 10)) (below 10) = true) by (vm_compute; reflexivity).
  pose proof (sweep 10 _ C s Hs) as C1. cbv beta in C1.
  pose proof (sweep 10 _ C1 t Ht) as C2. cbv beta in C2.
  rewrite E, N.eqb_refl in C2. apply N.eqb_eq, C2.
Qed.

Fixpoint flip (n : nat) (b : bool) : bool := match n with O => b | S n' => flip n' (negb b) end.

Lemma luhn_sum_app dbl l1 l2 :
  luhn_sum dbl (l1 ++ l2) = luhn_sum dbl l1 + luhn_sum (flip (length l1) dbl) l2.
Proof.
  revert dbl; induction l1 as [|x l1 IH]; intros dbl; cbn [app luhn_sum length flip]; [lia|].
  rewrite IH. lia.
Qed.

Definition term_inj_check (b : bool) : bool :=
  forallb (fun d => forallb (fun e =>
    implb (luhn_term b d mod 10 =? luhn_term b e mod 10) (d =? e)) (below 10)) (below 10).

Lemma luhn_term_inj b d e : d < 10 -> e < 10 ->
  luhn_term b d mod 10 = luhn_term b e mod 10 -> d = e.
Proof.
  intros Hd He E. assert (C : term_inj_check b = true) by (destruct b; vm_compute; reflexivity).
  pose proof (sweep 10 _ C d Hd) as C1. cbv beta in C1.
  pose proof (sweep 10 _ C1 e He) as C2. cbv beta in C2.
  rewrite E, N.eqb_refl in C2. apply N.eqb_eq, C2.
Qed.

Lemma mod10_cancel a b c : (a + b) mod 10 = (a + c) mod 10 -> b mod 10 = c mod 10.
Proof.
  intros H. apply N2Z.inj. apply (f_equal Z.of_N) in H.
  rewrite !N2Z.inj_mod, !N2Z.inj_add in *. change (Z.of_N 10) with 10%Z in *.
  revert H. generalize (Z.of_N a), (Z.of_N b), (Z.of_N c). intros x y z H.
  Z.div_mod_to_equations. lia.
Qed.

Lemma luhn_single pre d e post :
  digits_ok (pre ++ d :: post) -> digits_ok (pre ++ e :: post) -> d <> e ->
  digits_value (pre ++ d :: post) < 2 ^ 64 -> digits_value (pre ++ e :: post) < 2 ^ 64 ->
  Luhn.Checksum (digits_value (pre ++ d :: post)) <> Luhn.Checksum (digits_value (pre ++ e :: post)).
Proof.
  intros H1 H2 Hne B1 B2 E. apply Hne.
  apply luhn_checksum_inj in E; try assumption.
  rewrite !luhn_sum_app in E. apply mod10_cancel in E. cbn [luhn_sum] in E.
  rewrite !(N.add_comm (luhn_term _ _)) in E. apply mod10_cancel in E.
  unfold digits_ok in *. apply Forall_app in H1, H2. destruct H1 as [_ H1], H2 as [_ H2].
  inversion H1; inversion H2; subst. eapply luhn_term_inj; eauto.
Qed.

Definition swap_check (b : bool) : bool :=
  forallb (fun d => forallb (fun e =>
    Bool.eqb ((luhn_term b d + luhn_term (negb b) e) mod 10 =? (luhn_term b e + luhn_term (negb b) d) mod 10)
      ((d =? e) || ((d =? 0) && (e =? 9)) || ((d =? 9) && (e =? 0)))) (below 10)) (below 10).

Lemma luhn_swap pre d e post :
  digits_ok (pre ++ d :: e :: post) ->
  digits_value (pre ++ d :: e :: post) < 2 ^ 64 -> digits_value (pre ++ e :: d :: post) < 2 ^ 64 ->
  (Luhn.Checksum (digits_value (pre ++ d :: e :: post)) =
   Luhn.Checksum (digits_value (pre ++ e :: d :: post))
   <-> d = e \/ (d = 0 /\ e = 9) \/ (d = 9 /\ e = 0)).
Proof.
  intros H1 B1 B2.
  assert (H2 : digits_ok (pre ++ e :: d :: post)).
  { unfold digits_ok in *. apply Forall_app in H1. destruct H1 as [P1 P2]. apply Forall_app.
    split; [exact P1|]. inversion P2 as [|? ? Q1 Q2]; subst. inversion Q2; subst.
    constructor; [assumption|constructor; assumption]. }
  rewrite luhn_checksum_inj by assumption. rewrite !luhn_sum_app. cbn [luhn_sum].
  set (b := flip (length pre) true). set (r := luhn_sum (negb (negb b)) post).
  assert (Hd : d < 10 /\ e < 10).
  { unfold digits_ok in H1. apply Forall_app in H1. destruct H1 as [_ H1].
    inversion H1 as [|? ? Q1 Q2]; subst. inversion Q2; subst. auto. }
  destruct Hd as [Hd He].
  assert (C : swap_check b = true) by (destruct b; vm_compute; reflexivity).
  pose proof (sweep 10 _ C d Hd) as C1. cbv beta in C1.
  pose proof (sweep 10 _ C1 e He) as C2. cbv beta in C2. apply eqb_prop in C2.
  split.
  - intros E. apply mod10_cancel in E.
    replace (luhn_term b d + (luhn_term (negb b) e + r)) with (r + (luhn_term b d + luhn_term (negb b) e)) in E by lia.
    replace (luhn_term b e + (luhn_term (negb b) d + r)) with (r + (luhn_term b e + luhn_term (negb b) d)) in E by lia.
    apply mod10_cancel in E. rewrite E, N.eqb_refl in C2. symmetry in C2.
    apply orb_true_iff in C2. destruct C2 as [C2|C2].
    + apply orb_true_iff in C2. destruct C2 as [C2|C2].
      * left. apply N.eqb_eq, C2.
      * apply andb_true_iff in C2. destruct C2 as [Ca Cb]. apply N.eqb_eq in Ca, Cb. auto.
    + apply andb_true_iff in C2. destruct C2 as [Ca Cb]. apply N.eqb_eq in Ca, Cb. auto.
  - intros E.
    assert (C3 : ((d =? e) || ((d =? 0) && (e =? 9)) || ((d =? 9) && (e =? 0)))%bool = true).
    { destruct E as [->|[[-> ->]|[-> ->]]]; [rewrite N.eqb_refl; reflexivity|reflexivity|reflexivity]. }
    rewrite C3 in C2. apply N.eqb_eq in C2.
    replace (luhn_sum true pre + (luhn_term b d + (luhn_term (negb b) e + r)))
      with ((luhn_sum true pre + r) + (luhn_term b d + luhn_term (negb b) e)) by lia.
    replace (luhn_sum true pre + (luhn_term b e + (luhn_term (negb b) d + r)))
      with ((luhn_sum true pre + r) + (luhn_term b e + luhn_term (negb b) d)) by lia.
    rewrite <- (N.add_mod_idemp_r _ (luhn_term b d + _)), C2 by lia.
    rewrite N.add_mod_idemp_r by lia. reflexivity.
Qed.

(** ** endian *)

Lemma endian_init m : exists v, Endian.init m = Ret v
  /\ (Endian.Platform v = LittleEndian <-> m = Endian.LowByteFirst)
  /\ (Endian.Platform v = BigEndian <-> m = Endian.HighByteFirst)
  /\ Endian.Network v = BigEndian /\ Endian.SourceCode v = BigEndian.
Proof.
  destruct m; (eexists; split; [reflexivity|]); cbn; repeat split; congruence.
Qed.

(** ** Forms used by the property file *)

Lemma bcc_observe cs :
  observe Bcc.step Bcc.New cs =
  Ret (trace (fun ws => xor_all (concat ws)) (fun v => [v]) 1 1 [] cs).
Proof. unfold observe. destruct (bcc_history cs) as (s & -> & _). reflexivity. Qed.

Lemma bcc_detects pre x y post : x <> y ->
  exists n v w,
  observe Bcc.step Bcc.New [CWrite (pre ++ x :: post); CValue] = Ret [RWrite n; RValue v] /\
  observe Bcc.step Bcc.New [CWrite (pre ++ y :: post); CValue] = Ret [RWrite n; RValue w] /\
  v <> w.
Proof.
  intros H. pose proof (bcc_single_byte pre x y post H) as D.
  rewrite !bcc_of_eq in *. do 3 eexists. split; [reflexivity|]. split.
  - rewrite app_length. cbn [length]. rewrite app_length. reflexivity.
  - intros E. apply D. rewrite E, !app_length. reflexivity.
Qed.

Lemma bcc_byte m : bytes_ok m -> exists v,
  observe Bcc.step Bcc.New [CWrite m; CValue] = Ret [RWrite (length m); RValue v] /\ v < 256.
Proof. intros H. rewrite bcc_of_eq. eexists. split; [reflexivity|]. apply xor_all_byte, H. Qed.

Lemma lrc_observe cs :
  observe Lrc.step Lrc.New cs =
  Ret (trace (fun ws => Z.to_N (alternating ws mod 256)) (fun v => [v]) 1 1 [] cs).
Proof. unfold observe. destruct (lrc_history cs) as (s & -> & _). reflexivity. Qed.

Lemma lrc_refuted : exists p q v w,
  observe Lrc.step Lrc.New [CWrite p; CWrite q; CValue]
    = Ret [RWrite (length p); RWrite (length q); RValue v] /\
  observe Lrc.step Lrc.New [CWrite (p ++ q); CValue]
    = Ret [RWrite (length (p ++ q)); RValue w] /\ v <> w.
Proof.
  exists [1], [2], 255, 253. split; [vm_compute; reflexivity|].
  split; [vm_compute; reflexivity|discriminate].
Qed.

Fixpoint to_digits (fuel : nat) (i : N) : list N :=
  match fuel with O => [] | S f => i mod 10 :: to_digits f (i / 10) end.

Lemma to_digits_ok fuel i : digits_ok (to_digits fuel i).
Proof.
  revert i; induction fuel as [|f IH]; intros i; constructor; [apply N.mod_lt; discriminate|apply IH].
Qed.

Lemma to_digits_value fuel i : (N.size_nat i <= fuel)%nat -> digits_value (to_digits fuel i) = i.
Proof.
  revert i; induction fuel as [|f IH]; intros i H.
  - destruct i as [|p]; [reflexivity|]. destruct p; simpl in H; lia.
  - cbn [to_digits digits_value]. rewrite IH.
    + pose proof (N.div_mod i 10). lia.
    + destruct (N.eq_dec i 0) as [->|Hi]; [simpl; lia|].
      pose proof (size_nat_div10 i). lia.
Qed.

Lemma luhn_total i : i < 2 ^ 64 ->
  exists ds, digits_ok ds /\ digits_value ds = i /\ exists c, Luhn.Checksum i = Ret c /\ c < 10.
Proof.
  intros H. exists (to_digits (N.size_nat i) i).
  assert (V := to_digits_value (N.size_nat i) i (Nat.le_refl _)).
  assert (O := to_digits_ok (N.size_nat i) i).
  split; [exact O|]. split; [exact V|].
  destruct (luhn_digit _ O) as (c & C1 & C2 & _); [rewrite V; exact H|].
  rewrite V in C1. exists c. auto.
Qed.
