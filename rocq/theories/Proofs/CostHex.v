(** Bounds on the number of memory accesses of packages hex and codegen. *)
From Verif Require Import Base.Go Base.Goroutine Base.GoUse Base.LibUse Base.Cost Spec.CostSpec Spec.LibCostSpec.
From Verif Require Import Model.Hex Model.HashAtom Model.HexAtom Proofs.GoroutineProofs Proofs.CostProofs.
From Verif Require Model.Codegen.
Local Open Scope nat_scope.

Lemma pays_set_at ret n i v : pays (set_at ret n i v) 1 any.
Proof. apply pays_if; [apply pays_set|exact Logic.I]. Qed.
Lemma pays_any_lift {A} (x : outcome A) : pays (lift x) 0 any.
Proof. apply pays_lift. intros; exact Logic.I. Qed.
Lemma pays_make l z : pays (make_slice l z) (S (Z.to_nat z)) (fun p => snd p = Z.to_nat z).
Proof.
  unfold make_slice. apply (pays_seq _ _ 0 (S (Z.to_nat z)) _ (fun zs => length zs = Z.to_nat z)); [|intros zs L|lia].
  - apply pays_lift. intros y E. unfold make_bytes in E. destruct (Z.ltb z 0) eqn:?; [discriminate|]. injection E as <-. apply repeat_length.
  - rewrite L. apply (pays_seq _ _ (S (Z.to_nat z)) 0 _ any); [apply pays_new|intros a _|lia]. reflexivity.
Qed.
Lemma pays_bytes_from s : pays (bytes_from s) (2 * length s + 1) any.
Proof.
  unfold bytes_from. one (S (length s)); [apply pays_new|intros a _|lia].
  one (length s); [apply pays_sets|intros; exact Logic.I|lia].
Qed.

Ltac step_set := one 1; [apply pays_set_at|intros _ _|lia].
Ltac step_get := one 1; [apply pays_get|intros ? _|lia].
Ltac step_lift := one 0; [apply pays_any_lift|intros ? _|lia].

Lemma pays_fromBytes_loop src ret n cnt : forall i ptr, pays (fromBytes_loop src ret n cnt i ptr) (4 * cnt) any.
Proof.
  induction cnt as [|cnt IH]; intros i ptr; cbn [fromBytes_loop]; [exact Logic.I|].
  step_get. step_lift. step_set. step_get. step_lift. step_set. eapply pays_mono; [apply IH|lia|auto].
Qed.
Lemma pays_FromBytes src : pays (FromBytes src) (8 * slen src + 1) (fun s => length s = 2 * slen src).
Proof.
  unfold FromBytes. set (z := (Z.of_nat (slen src) * 2)%Z). assert (Z.to_nat z = 2 * slen src) as Ez by (unfold z; lia).
  apply (pays_seq _ _ (2 * slen src + 1) (6 * slen src) _ (fun p => snd p = 2 * slen src)); [rewrite <- Ez; eapply pays_mono; [apply pays_make|lia|auto]|intros [ret n]|lia].
  cbn [snd]. intros ->.
  one (4 * slen src); [apply pays_fromBytes_loop|intros _ _|lia]. unfold string_of. eapply pays_mono; [apply pays_gets|lia|auto].
Qed.

Lemma pays_toBytes_loop bd hex ret n fuel : forall i ptr, 1 <= i -> pays (toBytes_loop bd hex ret n fuel i ptr) (Nat.div2 (S (length hex) - i)) any.
Proof.
  induction fuel as [|fuel IH]; intros i ptr Hi; cbn [toBytes_loop]; [exact Logic.I|].
  destruct (Nat.ltb_spec i (length hex)) as [L|L]; [|exact Logic.I].
  replace (S (length hex) - i) with (S (S (S (length hex) - (i + 2)))) by lia. cbn [Nat.div2].
  step_lift. step_lift. step_lift. step_lift. repeat (apply pays_if; [exact Logic.I|]).
  step_set. eapply pays_mono; [apply IH; lia|lia|auto].
Qed.
Lemma pays_ToBytes bd hex : pays (ToBytes bd hex) (length hex + 1) any.
Proof.
  unfold ToBytes. set (z := (Z.of_nat (length hex) / 2)%Z).
  assert (Z.to_nat z = Nat.div2 (length hex)) as Ez.
  { unfold z. rewrite Nat.div2_div. apply Nat2Z.inj. rewrite Z2Nat.id by (apply Z.div_pos; lia). rewrite Nat2Z.inj_div. reflexivity. }
  pose proof (Nat.div2_odd (length hex)) as D. pose proof (pays_make false z) as M. rewrite Ez in M. clearbody z.
  one (S (Nat.div2 (length hex))); [eapply pays_mono; [exact M|lia|intros; exact Logic.I]|intros [ret n] _|destruct (Nat.odd (length hex)); cbn [Nat.b2n] in D; lia].
  one (Nat.div2 (length hex)); [eapply pays_mono; [apply pays_toBytes_loop; lia|replace (S (length hex) - 1) with (length hex) by lia; lia|auto]|intros r _|destruct (Nat.odd (length hex)); cbn [Nat.b2n] in D; lia].
  destruct r as [e|i]; [exact Logic.I|]. apply pays_if; [|exact Logic.I]. step_lift. step_lift. apply pays_if; exact Logic.I.
Qed.
Lemma pays_toBytesFast_loop bd hex ret n fuel : forall i ptr, 1 <= i -> pays (toBytesFast_loop bd hex ret n fuel i ptr) (Nat.div2 (S (length hex) - i)) any.
Proof.
  induction fuel as [|fuel IH]; intros i ptr Hi; cbn [toBytesFast_loop]; [exact Logic.I|].
  destruct (Nat.ltb_spec i (length hex)) as [L|L]; [|exact Logic.I].
  replace (S (length hex) - i) with (S (S (S (length hex) - (i + 2)))) by lia. cbn [Nat.div2].
  step_lift. step_lift. step_lift. step_lift. apply pays_if; [exact Logic.I|].
  step_set. eapply pays_mono; [apply IH; lia|lia|auto].
Qed.
Lemma pays_ToBytesFast bd hex : pays (ToBytesFast bd hex) (length hex + 1) any.
Proof.
  unfold ToBytesFast. set (z := (Z.of_nat (length hex) / 2)%Z).
  assert (Z.to_nat z = Nat.div2 (length hex)) as Ez.
  { unfold z. rewrite Nat.div2_div. apply Nat2Z.inj. rewrite Z2Nat.id by (apply Z.div_pos; lia). rewrite Nat2Z.inj_div. reflexivity. }
  pose proof (Nat.div2_odd (length hex)) as D. pose proof (pays_make false z) as M. rewrite Ez in M. clearbody z.
  one (S (Nat.div2 (length hex))); [eapply pays_mono; [exact M|lia|intros; exact Logic.I]|intros [ret n] _|destruct (Nat.odd (length hex)); cbn [Nat.b2n] in D; lia].
  one (Nat.div2 (length hex)); [eapply pays_mono; [apply pays_toBytesFast_loop; lia|replace (S (length hex) - 1) with (length hex) by lia; lia|auto]|intros r _|destruct (Nat.odd (length hex)); cbn [Nat.b2n] in D; lia].
  repeat (apply pays_if; try exact Logic.I).
Qed.

(** ** codegen *)

(** The even numbers among i, ..., i + cnt - 1. *)
Fixpoint evens (cnt i : nat) : nat :=
  match cnt with O => 0 | S cnt => (if Nat.even i then 1 else 0) + evens cnt (S i) end.
Lemma evens_from j : forall i, Nat.even i = true -> evens (2 * j) i = j.
Proof.
  induction j as [|j IH]; intros i E; [reflexivity|]. replace (2 * S j) with (S (S (2 * j))) by lia. cbn [evens].
  rewrite E. replace (Nat.even (S i)) with false by (rewrite Nat.even_succ, <- Nat.negb_even, E; reflexivity). rewrite IH; [lia|exact E].
Qed.
Lemma pays_string_loop h ret n cnt : forall i ptr, pays (string_loop h ret n cnt i ptr) (2 * cnt + 2 * evens cnt i) any.
Proof.
  induction cnt as [|cnt IH]; intros i ptr; cbn [string_loop evens]; [exact Logic.I|]. step_get.
  apply (pays_seq _ _ (if Nat.even i then 2 else 0) (1 + 2 * cnt + 2 * evens cnt (S i)) _ any); [|intros p _; step_set; rewrite Nat.add_1_r; eapply pays_mono; [apply IH|lia|auto]|destruct (Nat.even i); lia].
  destruct (Nat.even i); [|exact Logic.I]. step_set. step_set. exact Logic.I.
Qed.
Lemma pays_string_sep_loop q h ret n cnt : forall i ptr, pays (string_sep_loop q h ret n cnt i ptr) (2 * cnt + 5 * evens cnt i) any.
Proof.
  induction cnt as [|cnt IH]; intros i ptr; cbn [string_sep_loop evens]; [exact Logic.I|]. step_get.
  apply (pays_seq _ _ (if Nat.even i then 5 else 0) (1 + 2 * cnt + 5 * evens cnt (S i)) _ any); [|intros p _; step_set; rewrite Nat.add_1_r; eapply pays_mono; [apply IH|lia|auto]|destruct (Nat.even i); lia].
  destruct (Nat.even i); [|exact Logic.I]. one 3; [apply pays_if; [step_set; step_set; step_set; exact Logic.I|exact Logic.I]|intros p _|lia]. step_set. step_set. exact Logic.I.
Qed.
Lemma pays_hex_sep_loop q h ret n cnt : forall i ptr, pays (hex_sep_loop q h ret n cnt i ptr) (2 * cnt + 5 * evens cnt i) any.
Proof.
  induction cnt as [|cnt IH]; intros i ptr; cbn [hex_sep_loop evens]; [exact Logic.I|]. step_get.
  apply (pays_seq _ _ (if Nat.even i then 5 else 0) (1 + 2 * cnt + 5 * evens cnt (S i)) _ any); [|intros p _; step_set; rewrite Nat.add_1_r; eapply pays_mono; [apply IH|lia|auto]|destruct (Nat.even i); lia].
  destruct (Nat.even i); [|exact Logic.I]. one 3; [apply pays_if; [step_set; step_set; apply pays_if; [step_set|]; exact Logic.I|exact Logic.I]|intros p _|lia]. step_set. step_set. exact Logic.I.
Qed.

Lemma int64_le z : (- 2 ^ 63 <= z)%Z -> (Codegen.int64 z <= z)%Z.
Proof.
  intros H. unfold Codegen.int64. pose proof (Z.mod_le (z + 2 ^ 63) (2 ^ 64) ltac:(lia) ltac:(lia)). lia.
Qed.
Lemma int64_ge z : (- 2 ^ 63 <= Codegen.int64 z)%Z.
Proof. unfold Codegen.int64. pose proof (Z.mod_pos_bound (z + 2 ^ 63) (2 ^ 64) ltac:(lia)). lia. Qed.
Lemma int64_even k : exists j, Codegen.int64 (k * 2) = (2 * j)%Z.
Proof.
  exists ((k + 2 ^ 62) mod 2 ^ 63 - 2 ^ 62)%Z. unfold Codegen.int64.
  replace (k * 2 + 2 ^ 63)%Z with (2 * (k + 2 ^ 62))%Z by lia. change (2 ^ 64)%Z with (2 * 2 ^ 63)%Z.
  rewrite Z.mul_mod_distr_l by lia. lia.
Qed.
Lemma quot_small L k q : (Z.of_nat L < 2 ^ 58)%Z -> Codegen.int_quot (Z.of_nat (2 * L)) (Codegen.int64 (k * 2)) = Ret q -> (- Z.of_nat L <= q <= Z.of_nat L)%Z.
Proof.
  intros HL. destruct (int64_even k) as [j ->]. unfold Codegen.int_quot. destruct (Z.eqb_spec (2 * j) 0) as [|D]; [discriminate|].
  intros E. assert (E' : Codegen.int64 (Z.quot (2 * Z.of_nat L) (2 * j)) = q) by (replace (2 * Z.of_nat L)%Z with (Z.of_nat (2 * L)) by lia; congruence).
  rewrite Z.quot_mul_cancel_l in E' by lia. rewrite <- E'. clear E E'.
  assert (B : (- Z.of_nat L <= Z.quot (Z.of_nat L) j <= Z.of_nat L)%Z).
  { assert (J : j <> 0%Z) by lia. pose proof (Z.quot_abs (Z.of_nat L) j J) as A. rewrite (Z.abs_eq (Z.of_nat L)) in A by lia.
    pose proof (Z.quot_le_upper_bound (Z.of_nat L) (Z.abs j) (Z.of_nat L) ltac:(lia) ltac:(nia)). lia. }
  pose proof (int64_le (Z.quot (Z.of_nat L) j) ltac:(lia)). unfold Codegen.int64 in *. rewrite Z.mod_small by lia. lia.
Qed.

Lemma pays_BytesToString inp : (Z.of_nat (slen inp) < 2 ^ 58)%Z -> pays (BytesToString inp) (26 * slen inp + 9) any.
Proof.
  intros H. unfold BytesToString. apply (pays_seq _ _ (8 * slen inp + 1) (18 * slen inp + 8) _ (fun s => length s = 2 * slen inp)); [apply pays_FromBytes|intros s L|lia].
  one (4 * slen inp + 1); [eapply pays_mono; [apply pays_bytes_from|lia|auto]|intros h _|lia].
  set (z := Codegen.int64 (Codegen.int64 (Z.of_nat (length s) * 2) + 2)).
  assert (Lz : Z.to_nat z <= 4 * slen inp + 2).
  { pose proof (int64_le (Z.of_nat (length s) * 2) ltac:(lia)). pose proof (int64_ge (Z.of_nat (length s) * 2)).
    pose proof (int64_le (Codegen.int64 (Z.of_nat (length s) * 2) + 2) ltac:(lia)). fold z in H2. lia. }
  apply (pays_seq _ _ (S (4 * slen inp + 2)) (10 * slen inp + 4) _ (fun p => snd p <= 4 * slen inp + 2)).
  { eapply pays_mono; [apply pays_make|lia|]. intros p Ep. cbn beta in Ep. lia. } 2: lia.
  intros [ret n]. cbn [snd]. intros Ln. step_set.
  one (6 * slen inp); [eapply pays_mono; [apply pays_string_loop|rewrite L, evens_from by reflexivity; lia|auto]|intros ptr _|lia].
  step_set. unfold string_of. eapply pays_mono; [apply pays_gets|lia|intros; exact Logic.I].
Qed.
Lemma pays_BytesToStringSep inp k : (Z.of_nat (slen inp) < 2 ^ 58)%Z -> pays (BytesToStringSep inp k) (35 * slen inp + 5) any.
Proof.
  intros H. unfold BytesToStringSep. apply pays_if; [exact Logic.I|].
  apply (pays_seq _ _ (8 * slen inp + 1) (27 * slen inp + 4) _ (fun s => length s = 2 * slen inp)); [apply pays_FromBytes|intros s L|lia].
  one (4 * slen inp + 1); [eapply pays_mono; [apply pays_bytes_from|lia|auto]|intros h _|lia]. cbv zeta.
  apply (pays_seq _ _ 0 (23 * slen inp + 3) _ (fun q => (- Z.of_nat (slen inp) <= q <= Z.of_nat (slen inp))%Z)).
  { apply pays_lift. intros q E. rewrite L in E. apply (quot_small _ _ _ H E). } 2: lia.
  intros q Bq. set (z := Codegen.int64 (Codegen.int64 _ + 2)).
  assert (Lz : Z.to_nat z <= 7 * slen inp).
  { subst z. set (a := Codegen.int64 (Z.of_nat (length s) * 2)). set (b := Codegen.int64 (q - 1)). set (c := Codegen.int64 (3 * b)). set (d := Codegen.int64 (a + c)).
    assert (Ha : a = (4 * Z.of_nat (slen inp))%Z) by (unfold a, Codegen.int64; rewrite Z.mod_small by lia; lia).
    assert (Hb : b = (q - 1)%Z) by (unfold b, Codegen.int64; rewrite Z.mod_small by lia; lia).
    assert (Hc : c = (3 * (q - 1))%Z) by (unfold c; rewrite Hb; unfold Codegen.int64; rewrite Z.mod_small by lia; lia).
    assert (Hd : d = (a + c)%Z) by (unfold d; rewrite Ha, Hc; unfold Codegen.int64; rewrite Z.mod_small by lia; lia).
    pose proof (int64_le (d + 2) ltac:(lia)). lia. }
  apply (pays_seq _ _ (S (7 * slen inp)) (16 * slen inp + 2) _ (fun p => snd p <= 7 * slen inp)).
  { eapply pays_mono; [apply pays_make|lia|]. intros p Ep. cbn beta in Ep. lia. } 2: lia.
  intros [ret n]. cbn [snd]. intros Ln. step_set.
  one (9 * slen inp); [eapply pays_mono; [apply pays_string_sep_loop|rewrite L, evens_from by reflexivity; lia|auto]|intros ptr _|lia].
  step_set. unfold string_of. eapply pays_mono; [apply pays_gets|lia|intros; exact Logic.I].
Qed.
Lemma pays_BytesToHexSep inp k : (Z.of_nat (slen inp) < 2 ^ 58)%Z -> pays (BytesToHexSep inp k) (35 * slen inp + 5) any.
Proof.
  intros H. unfold BytesToHexSep. apply pays_if; [exact Logic.I|].
  apply (pays_seq _ _ (8 * slen inp + 1) (27 * slen inp + 4) _ (fun s => length s = 2 * slen inp)); [apply pays_FromBytes|intros s L|lia].
  one (4 * slen inp + 1); [eapply pays_mono; [apply pays_bytes_from|lia|auto]|intros h _|lia]. cbv zeta.
  apply (pays_seq _ _ 0 (23 * slen inp + 3) _ (fun q => (- Z.of_nat (slen inp) <= q <= Z.of_nat (slen inp))%Z)).
  { apply pays_lift. intros q E. rewrite L in E. apply (quot_small _ _ _ H E). } 2: lia.
  intros q Bq. set (z := Codegen.int64 (Codegen.int64 _ + _)).
  assert (Lz : Z.to_nat z <= 7 * slen inp).
  { subst z. set (a := Codegen.int64 (Z.of_nat (slen inp) * 6)). set (b := Codegen.int64 (q - 1)).
    assert (Ha : a = (6 * Z.of_nat (slen inp))%Z) by (unfold a, Codegen.int64; rewrite Z.mod_small by lia; lia).
    assert (Hb : b = (q - 1)%Z) by (unfold b, Codegen.int64; rewrite Z.mod_small by lia; lia).
    pose proof (int64_le (a + b) ltac:(lia)). lia. }
  apply (pays_seq _ _ (S (7 * slen inp)) (16 * slen inp + 2) _ (fun p => snd p <= 7 * slen inp)).
  { eapply pays_mono; [apply pays_make|lia|]. intros p Ep. cbn beta in Ep. lia. } 2: lia.
  intros [ret n]. cbn [snd]. intros Ln. step_set.
  one (9 * slen inp); [eapply pays_mono; [apply pays_hex_sep_loop|rewrite L, evens_from by reflexivity; lia|auto]|intros ptr _|lia].
  step_set. unfold string_of. eapply pays_mono; [apply pays_gets|lia|intros; exact Logic.I].
Qed.

Lemma pays_deed bd ours mine d : deed_brief d -> pays (do_deed bd ours mine d) (deed_price d) any.
Proof.
  assert (W : forall A B (c : code A) n (P : A -> Prop) (f : A -> B), pays c n P -> pays (thenc c (fun x => Return (f x))) n any).
  { intros A B c n P f X. apply (pays_seq _ _ n 0 _ P); [exact X|intros; exact Logic.I|lia]. }
  destruct d as [a|src|s|s|inp|inp k|inp k]; cbn [deed_brief do_deed deed_price]; intros H.
  - apply (pays_seq _ _ (price a) 0 _ any); [apply pays_act|intros [m r] _; exact Logic.I|lia].
  - eapply W. apply pays_FromBytes.
  - eapply W. apply pays_ToBytes.
  - eapply W. apply pays_ToBytesFast.
  - eapply W. apply pays_BytesToString, H.
  - eapply W. apply pays_BytesToStringSep, H.
  - eapply W. apply pays_BytesToHexSep, H.
Qed.
Lemma owes_work bd ours g : brief g -> forall mine n (Q : list answer * list object -> nat -> Prop) (R : nat -> Prop),
  (forall rs j, j <= work_bill g rs -> R (n + j)) -> (forall rs os j, j <= work_bill g rs -> Q (rs, os) (n + j)) -> owes (work bd ours mine g) n Q R.
Proof.
  induction g as [|d k IH]; intros Br mine n Q R HR HQ; cbn [work].
  - cbn [owes]. split; [specialize (HR [] 0 (le_n _))|specialize (HQ [] mine 0 (le_n _))]; rewrite Nat.add_0_r in *; assumption.
  - destruct Br as [Bd Bk]. apply (owes_then _ _ (deed_price d) n any); [apply pays_deed, Bd| |].
    + intros j Hj. apply (HR []). cbn [work_bill]. lia.
    + intros [mine' r] j Hj _.
      assert (X : owes (work bd ours mine' (k r)) (n + j) (fun x j' => Q (r :: fst x, snd x) j') R).
      { apply IH; [apply Bk| |].
        - intros rs i Hi. rewrite <- Nat.add_assoc. apply (HR (r :: rs)). cbn [work_bill]. lia.
        - intros rs os i Hi. rewrite <- Nat.add_assoc. apply (HQ (r :: rs)). cbn [work_bill]. lia. }
      revert X. generalize (n + j). generalize (work bd ours mine' (k r)). clear.
      induction c as [[rs os]| |a k IH|a v k IH|l s k IH]; cbn [owes thenc fst snd]; intros n X; try tauto.
      * split; [apply X|]. intros v. apply IH, X.
      * split; [apply X|]. apply IH, X.
      * split; [apply X|]. intros v. apply IH, X.
Qed.
