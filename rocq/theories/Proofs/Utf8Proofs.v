(** strings.Split(s, "") gives the characters of a UTF-8 string. *)
From Verif Require Import Base.Go Base.GoStrings Base.TestApi Model.TestPkg Spec.TestSpec Spec.Utf8Spec Proofs.TestProofs.
Local Open Scope N_scope.

Lemma in_range_true lo hi b : in_range lo hi b = true <-> lo <= b <= hi.
Proof. unfold in_range. rewrite andb_true_iff, !N.leb_le. reflexivity. Qed.
Lemma in_range_false lo hi b : in_range lo hi b = false <-> b < lo \/ hi < b.
Proof. unfold in_range. rewrite andb_false_iff, !N.leb_gt. reflexivity. Qed.

(** Divisions of a code point by powers of 64, in one equation. *)
Lemma digits c : exists q3 q2 q1 q0, c / 262144 = q3 /\ c / 4096 = q3 * 64 + q2 /\ c / 64 = q3 * 4096 + q2 * 64 + q1
  /\ c / 4096 mod 64 = q2 /\ c / 64 mod 64 = q1 /\ c mod 64 = q0
  /\ c = q3 * 262144 + q2 * 4096 + q1 * 64 + q0 /\ q2 < 64 /\ q1 < 64 /\ q0 < 64.
Proof.
  exists (c / 262144), (c / 4096 mod 64), (c / 64 mod 64), (c mod 64).
  assert (E2 : c / 4096 = c / 64 / 64) by (rewrite N.div_div by lia; reflexivity).
  assert (E3 : c / 262144 = c / 4096 / 64) by (rewrite N.div_div by lia; reflexivity).
  rewrite E3, E2.
  pose proof (N.div_mod c 64 ltac:(lia)). pose proof (N.div_mod (c / 64) 64 ltac:(lia)).
  pose proof (N.div_mod (c / 64 / 64) 64 ltac:(lia)).
  pose proof (N.mod_lt c 64 ltac:(lia)). pose proof (N.mod_lt (c / 64) 64 ltac:(lia)).
  pose proof (N.mod_lt (c / 64 / 64) 64 ltac:(lia)).
  repeat split; lia.
Qed.

Lemma rune_size_utf8 c s : scalar c -> rune_size (utf8 c ++ s) = length (utf8 c).
Proof.
  intros HS. unfold scalar in HS. unfold utf8.
  destruct (digits c) as (q3 & q2 & q1 & q0 & E3 & E2 & E1 & M2 & M1 & M0 & Ec & L2 & L1 & L0).
  rewrite M0, M1, M2, E3, E2, E1. clear M0 M1 M2 E3 E2 E1.
  destruct (N.ltb_spec c 0x80) as [H1|H1].
  { cbn [app length]. unfold rune_size.
    assert (B : forall lo hi, 128 <= lo -> in_range lo hi c = false) by (intros; apply in_range_false; lia).
    assert (B' : forall v, 128 <= v -> (c =? v) = false) by (intros; apply N.eqb_neq; lia).
    destruct s as [|b1 s]; [reflexivity|]. rewrite !B, !B' by lia. cbn [andb orb].
    destruct s as [|b2 s]; [reflexivity|]. destruct s; reflexivity. }
  destruct (N.ltb_spec c 0x800) as [H2|H2].
  { cbn [app length]. unfold rune_size.
    rewrite (proj2 (in_range_true 0xC2 0xDF _)) by lia. rewrite (proj2 (in_range_true 0x80 0xBF _)) by lia.
    reflexivity. }
  destruct (N.ltb_spec c 0x10000) as [H3|H3].
  { cbn [app length]. unfold rune_size.
    rewrite (proj2 (in_range_false 0xC2 0xDF _)) by lia. cbn [andb].
    match goal with |- (if ?x then _ else _) = _ => replace x with true end; [reflexivity|]. symmetry.
    rewrite (proj2 (in_range_true 0x80 0xBF (0x80 + q0))) by lia. rewrite andb_true_r.
    rewrite !orb_true_iff, !andb_true_iff, !orb_true_iff, !in_range_true, !N.eqb_eq. lia. }
  cbn [app length]. unfold rune_size.
  rewrite (proj2 (in_range_false 0xC2 0xDF _)) by lia. cbn [andb].
  match goal with |- (if ?x then _ else _) = _ => replace x with false end.
  2:{ symmetry. rewrite (proj2 (in_range_true 0x80 0xBF (0x80 + q1))) by lia. rewrite andb_true_r.
      rewrite !orb_false_iff, !andb_false_iff, !orb_false_iff, !in_range_false, !N.eqb_neq. lia. }
  match goal with |- (if ?x then _ else _) = _ => replace x with true end; [reflexivity|]. symmetry.
  rewrite (proj2 (in_range_true 0x80 0xBF (0x80 + q0))) by lia.
  rewrite (proj2 (in_range_true 0x80 0xBF (0x80 + q1))) by lia. rewrite !andb_true_r.
  rewrite !orb_true_iff, !andb_true_iff, !in_range_true, !N.eqb_eq. lia.
Qed.

(** What is taken as one character of two or more bytes is an encoding. *)
Lemma digits_of q3 q2 q1 q0 : q2 < 64 -> q1 < 64 -> q0 < 64 ->
  let c := q3 * 262144 + q2 * 4096 + q1 * 64 + q0 in
  c / 262144 = q3 /\ c / 4096 = q3 * 64 + q2 /\ c / 64 = q3 * 4096 + q2 * 64 + q1
  /\ c / 4096 mod 64 = q2 /\ c / 64 mod 64 = q1 /\ c mod 64 = q0.
Proof.
  intros H2 H1 H0 c.
  assert (D3 : c / 262144 = q3) by (symmetry; apply (N.div_unique c 262144 q3 (q2 * 4096 + q1 * 64 + q0)); subst c; lia).
  assert (D2 : c / 4096 = q3 * 64 + q2) by (symmetry; apply (N.div_unique c 4096 _ (q1 * 64 + q0)); subst c; lia).
  assert (D1 : c / 64 = q3 * 4096 + q2 * 64 + q1) by (symmetry; apply (N.div_unique c 64 _ q0); subst c; lia).
  rewrite D3, D2, D1. repeat split.
  - symmetry. apply (N.mod_unique _ 64 q3); lia.
  - symmetry. apply (N.mod_unique _ 64 (q3 * 64 + q2)); lia.
  - symmetry. apply (N.mod_unique _ 64 (q3 * 4096 + q2 * 64 + q1)); subst c; lia.
Qed.

Lemma utf8_2 b0 b1 : 0xC2 <= b0 <= 0xDF -> 0x80 <= b1 <= 0xBF -> exists c, scalar c /\ utf8 c = [b0; b1].
Proof.
  intros H0 H1. destruct (digits_of 0 0 (b0 - 0xC0) (b1 - 0x80)) as (_ & _ & D1 & _ & _ & M0); try lia.
  exists (0 * 262144 + 0 * 4096 + (b0 - 0xC0) * 64 + (b1 - 0x80)).
  split; [unfold scalar; lia|]. unfold utf8.
  rewrite D1, M0.
  destruct (N.ltb_spec (0 * 262144 + 0 * 4096 + (b0 - 192) * 64 + (b1 - 128)) 0x80); [lia|].
  destruct (N.ltb_spec (0 * 262144 + 0 * 4096 + (b0 - 192) * 64 + (b1 - 128)) 0x800); [|lia].
  repeat f_equal; lia.
Qed.
Lemma utf8_3 b0 b1 b2 :
  b0 = 0xE0 /\ 0xA0 <= b1 <= 0xBF \/ (0xE1 <= b0 <= 0xEC \/ 0xEE <= b0 <= 0xEF) /\ 0x80 <= b1 <= 0xBF
  \/ b0 = 0xED /\ 0x80 <= b1 <= 0x9F ->
  0x80 <= b2 <= 0xBF -> exists c, scalar c /\ utf8 c = [b0; b1; b2].
Proof.
  intros H0 H1. destruct (digits_of 0 (b0 - 0xE0) (b1 - 0x80) (b2 - 0x80)) as (_ & D2 & D1 & M2 & M1 & M0); try lia.
  exists (0 * 262144 + (b0 - 0xE0) * 4096 + (b1 - 0x80) * 64 + (b2 - 0x80)).
  split; [unfold scalar; lia|]. unfold utf8. rewrite D2, M1, M0.
  set (c := 0 * 262144 + (b0 - 0xE0) * 4096 + (b1 - 0x80) * 64 + (b2 - 0x80)).
  destruct (N.ltb_spec c 0x80); [subst c; lia|]. destruct (N.ltb_spec c 0x800); [subst c; lia|].
  destruct (N.ltb_spec c 0x10000); [|subst c; lia]. repeat f_equal; lia.
Qed.
Lemma utf8_4 b0 b1 b2 b3 :
  b0 = 0xF0 /\ 0x90 <= b1 <= 0xBF \/ 0xF1 <= b0 <= 0xF3 /\ 0x80 <= b1 <= 0xBF \/ b0 = 0xF4 /\ 0x80 <= b1 <= 0x8F ->
  0x80 <= b2 <= 0xBF -> 0x80 <= b3 <= 0xBF -> exists c, scalar c /\ utf8 c = [b0; b1; b2; b3].
Proof.
  intros H0 H1 H2.
  destruct (digits_of (b0 - 0xF0) (b1 - 0x80) (b2 - 0x80) (b3 - 0x80)) as (D3 & D2 & D1 & M2 & M1 & M0); try lia.
  exists ((b0 - 0xF0) * 262144 + (b1 - 0x80) * 4096 + (b2 - 0x80) * 64 + (b3 - 0x80)).
  split; [unfold scalar; lia|]. unfold utf8. rewrite D3, M2, M1, M0.
  set (c := (b0 - 0xF0) * 262144 + (b1 - 0x80) * 4096 + (b2 - 0x80) * 64 + (b3 - 0x80)).
  destruct (N.ltb_spec c 0x80); [subst c; lia|]. destruct (N.ltb_spec c 0x800); [subst c; lia|].
  destruct (N.ltb_spec c 0x10000); [subst c; lia|]. repeat f_equal; lia.
Qed.

Lemma rune_size_cases s : s <> [] -> rune_size s = 1%nat \/ exists c r, scalar c /\ s = utf8 c ++ r.
Proof.
  intros NE. destruct s as [|b0 s]; [congruence|].
  destruct s as [|b1 s]; [left; reflexivity|]. unfold rune_size.
  destruct (in_range 0xC2 0xDF b0 && in_range 0x80 0xBF b1) eqn:E2.
  { right. rewrite andb_true_iff, !in_range_true in E2. destruct (utf8_2 b0 b1) as (c & Hc & E); [lia|lia|].
    exists c, s. rewrite E. auto. }
  destruct s as [|b2 s]; [left; reflexivity|].
  match goal with |- context [if ?x then 3%nat else _] => destruct x eqn:E3 end.
  { right. rewrite !andb_true_iff, !orb_true_iff, !andb_true_iff, !orb_true_iff, !in_range_true, !N.eqb_eq in E3.
    destruct (utf8_3 b0 b1 b2) as (c & Hc & E); [lia|lia|]. exists c, s. rewrite E. auto. }
  destruct s as [|b3 s]; [left; reflexivity|].
  match goal with |- context [if ?x then 4%nat else _] => destruct x eqn:E4 end; [|left; reflexivity].
  right. rewrite !andb_true_iff, !orb_true_iff, !andb_true_iff, !in_range_true, !N.eqb_eq in E4.
  destruct (utf8_4 b0 b1 b2 b3) as (c & Hc & E); [lia|lia|lia|]. exists c, s. rewrite E. auto.
Qed.

Lemma utf8_nonempty c : utf8 c <> [].
Proof. unfold utf8. repeat match goal with |- context [if ?x then _ else _] => destruct x end; discriminate. Qed.

Lemma explode_fuel_more n : forall m s, (length s <= n)%nat -> (length s <= m)%nat -> explode_fuel n s = explode_fuel m s.
Proof.
  induction n as [|n IH]; intros m s H1 H2.
  - destruct s; [|cbn [length] in H1; lia]. destruct m; reflexivity.
  - destruct s as [|b s]; [destruct m; reflexivity|]. destruct m as [|m]; [cbn [length] in H2; lia|].
    cbn [explode_fuel]. pose proof (rune_size_pos (b :: s)). f_equal.
    apply IH; rewrite skipn_length; cbn [length] in *; lia.
Qed.

Lemma explode_cons s : s <> [] -> explode s = firstn (rune_size s) s :: explode (skipn (rune_size s) s).
Proof.
  intros NE. destruct s as [|b s]; [congruence|]. unfold explode. cbn [length explode_fuel].
  f_equal. apply explode_fuel_more; rewrite skipn_length; cbn [length]; pose proof (rune_size_pos (b :: s)); lia.
Qed.

Lemma explode_scalar c s : scalar c -> explode (utf8 c ++ s) = utf8 c :: explode s.
Proof.
  intros H. rewrite explode_cons, rune_size_utf8 by (assumption || (intros E; apply app_eq_nil in E as [E _]; exact (utf8_nonempty c E))).
  rewrite firstn_app, skipn_app, firstn_all, skipn_all, Nat.sub_diag. cbn [firstn skipn]. rewrite app_nil_r. reflexivity.
Qed.
Lemma explode_byte b s : ~ starts_well (b :: s) -> explode (b :: s) = [b] :: explode s.
Proof.
  intros H. rewrite explode_cons by discriminate.
  destruct (rune_size_cases (b :: s)) as [->|X]; [discriminate|reflexivity|contradiction].
Qed.

(** Split gives the characters. *)
Theorem explode_characters s l : characters s l <-> explode s = l.
Proof.
  split.
  - induction 1 as [|c s l Hc _ IH|b s l Hb _ IH]; [reflexivity| |].
    + rewrite explode_scalar, IH by assumption. reflexivity.
    + rewrite explode_byte, IH by assumption. reflexivity.
  - intros <-. assert (G : forall n s, (length s <= n)%nat -> characters s (explode s)).
    { clear. induction n as [|n IH]; intros s L.
      - destruct s; [constructor|cbn [length] in L; lia].
      - destruct s as [|b s]; [constructor|].
        destruct (rune_size_cases (b :: s)) as [R|(c & r & Hc & E)]; [discriminate| |].
        + assert (D : starts_well (b :: s) \/ ~ starts_well (b :: s)).
          { destruct (N.ltb_spec b 128) as [Hb|Hb].
            - left. exists b, s. split; [unfold scalar; lia|]. unfold utf8. rewrite (proj2 (N.ltb_lt b 0x80)) by exact Hb. reflexivity.
            - right. intros (c & r & Hc & E). rewrite E, rune_size_utf8 in R by exact Hc.
              unfold utf8 in R, E. destruct (N.ltb_spec c 0x80) as [Hx|Hx]; [cbn [app] in E; injection E as -> _; lia|].
              destruct (c <? 0x800); [discriminate R|]. destruct (c <? 0x10000); discriminate R. }
          destruct D as [(c & r & Hc & E)|D].
          * rewrite E, explode_scalar by exact Hc. constructor; [exact Hc|]. apply IH.
            assert (X := f_equal (@length N) E). rewrite app_length in X. pose proof (utf8_nonempty c).
            destruct (utf8 c); [congruence|]. cbn [length] in *. lia.
          * rewrite explode_byte by exact D. constructor; [exact D|]. apply IH. cbn [length] in L. lia.
        + rewrite E, explode_scalar by exact Hc. constructor; [exact Hc|]. apply IH.
          assert (X := f_equal (@length N) E). rewrite app_length in X. pose proof (utf8_nonempty c).
          destruct (utf8 c); [congruence|]. cbn [length] in *. lia. }
    exact (G (length s) s (Nat.le_refl _)).
Qed.

Lemma replaced_utf8 c : replaced (utf8 c) = utf8 c.
Proof.
  unfold utf8. destruct (c <? 0x80) eqn:E; [unfold replaced; change 128 with 0x80; rewrite E; reflexivity|].
  destruct (c <? 0x800); [reflexivity|]. destruct (c <? 0x10000); reflexivity.
Qed.
Lemma not_well_big b s : ~ starts_well (b :: s) -> (b <? 0x80) = false.
Proof.
  intros H. destruct (N.ltb_spec b 0x80) as [Hb|Hb]; [|reflexivity]. exfalso. apply H. exists b, s.
  split; [unfold scalar; lia|]. unfold utf8. rewrite (proj2 (N.ltb_lt b 0x80)) by exact Hb. reflexivity.
Qed.
Theorem explode_replacing_characters s l : characters_fffd s l <-> explode_replacing s = l.
Proof.
  assert (G : forall s l, characters s l -> characters_fffd s (map replaced l)).
  { induction 1 as [|c s0 l0 Hc _ IH|b s0 l0 Hb _ IH]; cbn [map]; [constructor| |].
    - rewrite replaced_utf8. constructor; assumption.
    - replace (replaced [b]) with (utf8 0xFFFD); [constructor; assumption|].
      unfold replaced. rewrite (not_well_big b s0 Hb). reflexivity. }
  split.
  - induction 1 as [|c s0 l0 Hc _ IH|b s0 l0 Hb _ IH]; [reflexivity| |]; unfold explode_replacing in *.
    + rewrite explode_scalar by exact Hc. cbn [map]. rewrite replaced_utf8, IH. reflexivity.
    + rewrite explode_byte by exact Hb. cbn [map]. rewrite IH. f_equal.
      unfold replaced. rewrite (not_well_big b s0 Hb). reflexivity.
  - intros <-. apply G, explode_characters. reflexivity.
Qed.

(** Valid strings: one piece per code point. *)
Theorem explode_valid cs : Forall scalar cs ->
  explode (flat_map utf8 cs) = map utf8 cs /\ explode_replacing (flat_map utf8 cs) = map utf8 cs.
Proof.
  intros H. assert (E : explode (flat_map utf8 cs) = map utf8 cs).
  { induction H as [|c cs Hc _ IH]; [reflexivity|]. cbn [flat_map map]. rewrite explode_scalar, IH by exact Hc. reflexivity. }
  split; [exact E|]. unfold explode_replacing. rewrite E, map_map. apply map_ext, replaced_utf8.
Qed.

Lemma utf8_inj c d : scalar c -> scalar d -> utf8 c = utf8 d -> c = d.
Proof.
  intros _ _ E. unfold utf8 in E.
  destruct (digits c) as (q3 & q2 & q1 & q0 & E3 & E2 & E1 & M2 & M1 & M0 & Ec & L2 & L1 & L0).
  destruct (digits d) as (p3 & p2 & p1 & p0 & F3 & F2 & F1 & K2 & K1 & K0 & Ed & G2 & G1 & G0).
  rewrite M0, M1, M2, E3, E2, E1, K0, K1, K2, F3, F2, F1 in E. clear M0 M1 M2 E3 E2 E1 K0 K1 K2 F3 F2 F1.
  destruct (N.ltb_spec c 0x80), (N.ltb_spec d 0x80); try congruence;
  destruct (N.ltb_spec c 0x800), (N.ltb_spec d 0x800); try congruence; try lia;
  try (destruct (N.ltb_spec c 0x10000), (N.ltb_spec d 0x10000); try congruence; try lia);
  repeat match type of E with
  | _ :: _ = _ :: _ => let A := fresh "A" in pose proof (f_equal (hd 0) E) as A; cbn [hd] in A;
      apply (f_equal (@tl N)) in E; cbn [tl] in E
  end; try discriminate; lia.
Qed.

Lemma below_utf8 c : below_char (utf8 c) = mark c.
Proof.
  unfold utf8, mark. destruct (N.ltb_spec c 0x80) as [H|H]; [reflexivity|].
  rewrite (proj2 (N.ltb_ge c 32)) by lia. rewrite (proj2 (N.eqb_neq c 127)) by lia. cbn [orb].
  destruct (c <? 0x800); [|destruct (c <? 0x10000)]; unfold below_char;
    match goal with |- (if ?x <? 32 then _ else _) = _ => rewrite (proj2 (N.ltb_ge x 32)) end; try reflexivity;
    generalize (c / 64) (c / 4096) (c / 262144); intros; lia.
Qed.
Lemma utf8_one c : length (utf8 c) = 1%nat <-> c < 128.
Proof.
  unfold utf8. destruct (N.ltb_spec c 0x80) as [H|H]; [cbn [length]; lia|].
  destruct (c <? 0x800); [|destruct (c <? 0x10000)]; cbn [length]; lia.
Qed.

Lemma flat_map_inj cs : forall ds, Forall scalar cs -> Forall scalar ds -> flat_map utf8 cs = flat_map utf8 ds -> cs = ds.
Proof.
  intros ds Hc Hd E. pose proof (proj1 (explode_valid cs Hc)) as X. pose proof (proj1 (explode_valid ds Hd)) as Y.
  rewrite E, Y in X. clear E Y. revert ds Hd X. induction Hc as [|c cs Hc _ IH]; intros [|d ds] Hd X; try discriminate; [reflexivity|].
  cbn [map] in X. assert (X1 := f_equal (hd []) X). assert (X2 := f_equal (@tl _) X). cbn [hd tl] in X1, X2.
  inversion Hd; subst. f_equal; [symmetry; apply utf8_inj; assumption|apply IH; assumption].
Qed.

Lemma map_utf8_app cs : forall a b, map utf8 cs = a ++ b -> exists x y, cs = x ++ y /\ map utf8 x = a /\ map utf8 y = b.
Proof. intros a b E. apply map_eq_app in E as (x & y & -> & <- & <-). eauto. Qed.

Lemma map_utf8_inj x : forall y, Forall scalar x -> Forall scalar y -> map utf8 x = map utf8 y -> x = y.
Proof. intros y Hx Hy E. apply flat_map_inj; try assumption. rewrite !flat_map_concat_map, E. reflexivity. Qed.

(** An alignment of the pieces is one of the code points. *)
Lemma aligned_map_inv ce cf P De Df S : Forall scalar ce -> Forall scalar cf ->
  aligned (map utf8 ce) (map utf8 cf) P De Df S ->
  exists p de df s, aligned ce cf p de df s /\ P = map utf8 p /\ De = map utf8 de /\ Df = map utf8 df /\ S = map utf8 s.
Proof.
  intros He Hf (Ee & Ef & H0 & H1 & H2).
  apply map_utf8_app in Ee as (p & x & -> & EP & Ex). symmetry in Ex. symmetry in Ex.
  apply map_utf8_app in Ex as (de & s & -> & EDe & ES).
  apply map_utf8_app in Ef as (p' & x' & -> & EP' & Ex').
  apply map_utf8_app in Ex' as (df & s' & -> & EDf & ES').
  apply Forall_app in He as [Hp He]. apply Forall_app in He as [Hde Hs].
  apply Forall_app in Hf as [Hp' Hf]. apply Forall_app in Hf as [Hdf Hs'].
  assert (p' = p) by (apply map_utf8_inj; congruence). assert (s' = s) by (apply map_utf8_inj; congruence). subst p' s'.
  exists p, de, df, s. split; [|auto]. subst P De Df S.
  split; [reflexivity|]. split; [reflexivity|]. split; [|split].
  - intros NS. destruct H0 as [A B]; [intros X; apply map_eq_nil in X; contradiction|].
    split; intros ->; [apply A|apply B]; reflexivity.
  - destruct H1 as [X|[X|(a & b & e' & f' & X & Y & N)]]; [left; apply map_eq_nil in X; exact X|right; left; apply map_eq_nil in X; exact X|].
    destruct de as [|u de]; [discriminate X|]. destruct df as [|v df]; [discriminate Y|].
    right; right. exists u, v, de, df. split; [reflexivity|]. split; [reflexivity|].
    cbn [map] in X, Y. congruence.
  - rewrite !map_length in H2.
    destruct H2 as [X|[X|[X|[X|(a & b & e' & f' & X & Y & N)]]]];
      [left; apply map_eq_nil in X; exact X|right; left; apply map_eq_nil in X; exact X|tauto|tauto|].
    apply map_utf8_app in X as (e1 & u & -> & _ & Eu). apply map_utf8_app in Y as (f1 & v & -> & _ & Ev).
    destruct u as [|u [|]]; try discriminate Eu. destruct v as [|v [|]]; try discriminate Ev.
    do 4 right. exists u, v, e1, f1. split; [reflexivity|]. split; [reflexivity|]. cbn [map] in Eu, Ev. congruence.
Qed.

Lemma map_below P : map below_char (map utf8 P) = map mark P.
Proof. rewrite map_map. apply map_ext, below_utf8. Qed.

(** The report of StringMatch for valid strings, in code points. *)
Theorem report_utf8 split title prefix ce cf :
  (forall cs, Forall scalar cs -> split (flat_map utf8 cs) = map utf8 cs) -> splits split ->
  Forall scalar ce -> Forall scalar cf -> ce <> cf ->
  let expect := flat_map utf8 ce in
  let found := flat_map utf8 cf in
  exists P De Df S p de df s,
    aligned ce cf P De Df S
    /\ (0 < longer_part expect found De Df)%nat
    /\ length p = length P /\ length s = length S
    /\ expect = p ++ de ++ s /\ found = p ++ df ++ s
    /\ StringMatchTitle split title prefix expect found
       = Ret ((if Nat.eqb (length found) (length expect) then [] else [LengthDiffers (length expect) (length found)])
              ++ [Mismatch (report_text title prefix
                   (line p de (length found - length expect) s) (line p df (length expect - length found) s)
                   (map mark P ++ carets (longer_part expect found De Df) ++ repeat 45 (length S) ++ [0]))])
    /\ (Forall (fun c => c < 128) P <-> p = flat_map utf8 P)
    /\ (Forall (fun c => c < 128) S <-> s = flat_map utf8 S).
Proof.
  intros SU HS He Hf NE expect found.
  destruct (report_exact_at split title prefix expect found HS) as (P & De & Df & S & p & de & df & s & AL & Lp & Ls & Ee & Ef & R & D).
  { subst expect. rewrite SU by exact He. symmetry. apply flat_map_concat_map. }
  { subst found. rewrite SU by exact Hf. symmetry. apply flat_map_concat_map. }
  { intros X. apply NE, flat_map_inj; assumption. }
  subst expect found. rewrite (SU ce He), (SU cf Hf) in AL.
  destruct (aligned_map_inv ce cf P De Df S He Hf AL) as (P' & De' & Df' & S' & AL' & -> & -> & -> & ->).
  assert (LP : forall (x y : list N), longer_part x y (map utf8 De') (map utf8 Df') = longer_part x y De' Df').
  { intros. unfold longer_part. rewrite !map_length. reflexivity. }
  rewrite LP in D, R. rewrite !map_length in Lp, Ls.
  exists P', De', Df', S', p, de, df, s. split; [exact AL'|]. do 5 (split; [assumption|]).
  split.
  { rewrite R. unfold marker_line. rewrite map_below, map_length, <- !app_assoc. reflexivity. }
  assert (O : forall l, Forall (fun c => c < 128) l <-> Forall (fun c => length c = 1%nat) (map utf8 l)).
  { intros l. rewrite Forall_map. split; intros F; (eapply Forall_impl; [|exact F]); intros c; apply utf8_one. }
  assert (NN : forall l, Forall (fun c => c <> []) (map utf8 l)).
  { intros l. apply Forall_map. apply Forall_forall. intros c _. apply utf8_nonempty. }
  destruct AL' as (Ece & _). rewrite Ece in Ee. rewrite !flat_map_app in Ee.
  rewrite !O, !flat_map_concat_map.
  split; (split; [intros F; apply concat_singles in F; rewrite map_length in F|
                  intros ->; apply singles_concat; [apply NN|rewrite map_length; assumption]]).
  - symmetry. rewrite !(flat_map_concat_map utf8) in Ee. apply (app_eq_len _ _ _ _ Ee). congruence.
  - symmetry. rewrite !(flat_map_concat_map utf8) in Ee. rewrite (app_assoc p), (app_assoc (concat (map utf8 P'))) in Ee.
    apply (app_eq_len _ _ _ _ Ee). pose proof (f_equal (@length _) Ee) as Y. rewrite !(app_length (_ ++ _)) in Y. lia.
Qed.
