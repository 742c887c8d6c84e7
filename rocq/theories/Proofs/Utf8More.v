(** Cutting valid UTF-8. *)
From Verif Require Import Base.Go Base.GoStrings Base.TestApi Model.TestPkg Spec.TestSpec Spec.Utf8Spec
  Proofs.TestProofs Proofs.Utf8Proofs.
Local Open Scope N_scope.

Lemma valid_nil : valid [].
Proof. exists []. split; [constructor|reflexivity]. Qed.
Lemma valid_app a b : valid a -> valid b -> valid (a ++ b).
Proof.
  intros (x & Hx & ->) (y & Hy & ->). exists (x ++ y). rewrite flat_map_app. split; [apply Forall_app; auto|reflexivity].
Qed.
Lemma valid_one c : scalar c -> valid (utf8 c).
Proof. intros H. exists [c]. cbn [flat_map]. rewrite app_nil_r. split; [constructor; [exact H|constructor]|reflexivity]. Qed.
Lemma valid_ascii s : ascii s -> valid s.
Proof.
  intros H. exists s. split.
  - eapply Forall_impl; [|exact H]. intros c Hc. unfold scalar. cbn beta in Hc. lia.
  - induction H as [|c s Hc _ IH]; [reflexivity|]. cbn [flat_map]. rewrite <- IH. unfold utf8.
    rewrite (proj2 (N.ltb_lt c 0x80)) by exact Hc. reflexivity.
Qed.
Lemma valid_dots n : valid (dots n).
Proof.
  unfold dots. induction n as [|n IH]; [exact valid_nil|]. cbn [repeat concat].
  apply valid_app; [|exact IH]. apply (valid_one 0xB7). unfold scalar. lia.
Qed.

(** What starts with an encoding, and is valid, goes on valid. *)
Lemma valid_tail c r : scalar c -> valid (utf8 c ++ r) -> valid r.
Proof.
  intros Hc (cs & Hcs & E). pose proof (explode_scalar c r Hc) as X. rewrite E in X.
  rewrite (proj1 (explode_valid cs Hcs)) in X. destruct cs as [|d cs]; [discriminate X|].
  cbn [map] in X. assert (X1 := f_equal (hd []) X). cbn [hd] in X1.
  exists cs. split; [inversion Hcs; assumption|]. cbn [flat_map] in E. rewrite X1 in E. apply app_inv_head in E. exact E.
Qed.
Lemma valid_rest a b : valid a -> valid (a ++ b) -> valid b.
Proof.
  intros (cs & Hcs & ->). induction Hcs as [|c cs Hc _ IH]; intros H; [exact H|].
  cbn [flat_map] in H. rewrite <- app_assoc in H. apply IH. exact (valid_tail c _ Hc H).
Qed.

Lemma utf8_shape c : scalar c -> exists b t, utf8 c = b :: t /\ Forall continuation t /\ ~ continuation b
  /\ length t = (if b <? 0xC0 then 0%nat else if b <? 0xE0 then 1%nat else if b <? 0xF0 then 2%nat else 3%nat).
Proof.
  intros HS. unfold scalar in HS. unfold utf8, continuation.
  destruct (digits c) as (q3 & q2 & q1 & q0 & E3 & E2 & E1 & M2 & M1 & M0 & Ec & L2 & L1 & L0).
  rewrite M0, M1, M2, E3, E2, E1. clear M0 M1 M2 E3 E2 E1.
  destruct (N.ltb_spec c 0x80) as [H1|H1].
  { exists c, []. split; [reflexivity|]. split; [constructor|]. split; [lia|]. rewrite (proj2 (N.ltb_lt c 0xC0)) by lia. reflexivity. }
  destruct (N.ltb_spec c 0x800) as [H2|H2].
  { eexists _, _. split; [reflexivity|]. split; [repeat (constructor; try lia)|]. split; [lia|].
    rewrite (proj2 (N.ltb_ge _ 0xC0)) by lia. rewrite (proj2 (N.ltb_lt _ 0xE0)) by lia. reflexivity. }
  destruct (N.ltb_spec c 0x10000) as [H3|H3].
  { eexists _, _. split; [reflexivity|]. split; [repeat (constructor; try lia)|]. split; [lia|].
    rewrite (proj2 (N.ltb_ge _ 0xC0)) by lia. rewrite (proj2 (N.ltb_ge _ 0xE0)) by lia.
    rewrite (proj2 (N.ltb_lt _ 0xF0)) by lia. reflexivity. }
  eexists _, _. split; [reflexivity|]. split; [repeat (constructor; try lia)|]. split; [lia|].
  rewrite (proj2 (N.ltb_ge _ 0xC0)) by lia. rewrite (proj2 (N.ltb_ge _ 0xE0)) by lia.
  rewrite (proj2 (N.ltb_ge _ 0xF0)) by lia. reflexivity.
Qed.

(** A start p of a valid string, followed by something that begins a character,
    is valid only if p is. *)
Lemma cut_valid p : forall r x q, valid (p ++ r) -> ~ continuation x -> valid (p ++ x :: q) -> valid p.
Proof.
  enough (G : forall n p r x q, (length p <= n)%nat -> valid (p ++ r) -> ~ continuation x -> valid (p ++ x :: q) -> valid p)
    by (intros r x q; exact (G (length p) p r x q (Nat.le_refl _))).
  clear p. induction n as [|n IH]; intros p r x q L Hr Hx Hq.
  { destruct p; [exact valid_nil|cbn [length] in L; lia]. }
  destruct p as [|b p]; [exact valid_nil|].
  destruct Hr as (cs & Hcs & E). destruct cs as [|c cs]; [discriminate E|].
  pose proof (Forall_inv Hcs) as Hc. apply Forall_inv_tail in Hcs.
  destruct Hq as (ds & Hds & F). destruct ds as [|d ds]; [discriminate F|].
  pose proof (Forall_inv Hds) as Hd. apply Forall_inv_tail in Hds. cbn [flat_map] in E, F.
  destruct (utf8_shape c Hc) as (b1 & t & Et & Ft & _ & Lt).
  destruct (utf8_shape d Hd) as (b2 & u & Eu & Fu & _ & Lu).
  assert (Vc := valid_one c Hc).
  rewrite Et in E. rewrite Eu in F. cbn [app] in E, F.
  injection E as -> E. injection F as -> F. rewrite <- Lu in Lt.
  destruct (Nat.leb_spec (length t) (length p)) as [H|H].
  - (* the whole of c is in p *)
    assert (Ep : exists p', p = t ++ p').
    { exists (skipn (length t) p). rewrite <- (firstn_skipn (length t) p) at 1. f_equal.
      apply (app_eq_len _ (skipn (length t) p ++ r) t (flat_map utf8 cs)).
      - rewrite app_assoc, firstn_skipn. exact E.
      - rewrite firstn_length. lia. }
    destruct Ep as (p' & ->).
    change (b2 :: t ++ p') with ((b2 :: t) ++ p'). rewrite <- Et. apply valid_app; [exact Vc|].
    rewrite <- app_assoc in E, F. apply app_inv_head in E.
    apply (IH p' r x q).
    + cbn [length] in L. rewrite app_length in L. lia.
    + exists cs. auto.
    + exact Hx.
    + apply app_eq_len in F as [_ F]; [|exact Lt]. exists ds. auto.
  - (* p ends inside: x would be in the middle of d *)
    exfalso. apply Hx. assert (In x u).
    { assert (X : nth_error (p ++ x :: q) (length p) = nth_error (u ++ flat_map utf8 ds) (length p)) by (rewrite F; reflexivity).
      rewrite nth_error_app2, Nat.sub_diag in X by lia. cbn [nth_error] in X.
      rewrite nth_error_app1 in X by lia. symmetry in X. exact (nth_error_In _ _ X). }
    exact (proj1 (Forall_forall _ _) Fu x H0).
Qed.

Lemma start_not_cont c : scalar c -> exists b t, utf8 c = b :: t /\ ~ continuation b.
Proof. intros H. destruct (utf8_shape c H) as (b & t & E & _ & N & _). eauto. Qed.

(** A line of the report is valid exactly when its parts are. *)
Theorem line_valid p d b s : valid (p ++ d ++ s) -> valid (line p d b s) <-> valid p /\ valid s.
Proof.
  intros V. unfold line. split.
  - intros H.
    assert (Vp : valid p).
    { apply (cut_valid p (d ++ s) 27 ([91; 55; 109] ++ d ++ dots b ++ [27; 91; 48; 109] ++ s)); [exact V|unfold continuation; lia|exact H]. }
    split; [exact Vp|]. apply valid_rest in H; [|exact Vp]. apply valid_rest in V; [|exact Vp].
    apply valid_rest in H; [|apply valid_ascii; repeat (constructor; try lia)].
    assert (Vd : valid d).
    { destruct b as [|b].
      - apply (cut_valid d s 27 ([91; 48; 109] ++ s)); [exact V|unfold continuation; lia|exact H].
      - apply (cut_valid d s 0xc2 (0xb7 :: dots b ++ [27; 91; 48; 109] ++ s)); [exact V|unfold continuation; lia|exact H]. }
    exact (valid_rest d s Vd V).
  - intros [Vp Vs].
    pose proof (valid_rest _ _ Vp V) as V'.
    assert (Vd : valid d).
    { destruct Vs as (cs & Hcs & ->). destruct cs as [|c cs].
      - cbn [flat_map] in V'. rewrite app_nil_r in V'. exact V'.
      - cbn [flat_map] in V'. destruct (start_not_cont c (Forall_inv Hcs)) as (x & t & E & Nx).
        rewrite E in V'. cbn [app] in V'. exact (cut_valid d _ x _ V' Nx V'). }
    repeat apply valid_app; try assumption; try apply valid_dots; apply valid_ascii; repeat (constructor; try lia).
Qed.

(** Abbr of a valid string: valid exactly when it is short or byte 19 starts a character. *)
Theorem abbr_valid s : valid s ->
  exists t, Abbr s = Ret t
    /\ (valid t <-> (length s <= 20)%nat \/ valid (firstn 19 s)).
Proof.
  intros V. rewrite Abbr_ok. eexists. split; [reflexivity|].
  destruct (Nat.leb_spec (length s) 20) as [L|L]; [tauto|]. split.
  - intros H. right. rewrite <- (firstn_skipn 19 s) in V.
    exact (cut_valid _ _ 0xe2 [0x80; 0xa6] V ltac:(unfold continuation; lia) H).
  - intros [H|H]; [lia|]. apply valid_app; [exact H|]. apply (valid_one 0x2026). unfold scalar. lia.
Qed.

(** A valid start of a valid string ends between two of its code points. *)
Lemma valid_start p cs r : Forall scalar cs -> p ++ r = flat_map utf8 cs -> valid p ->
  exists k, p = flat_map utf8 (firstn k cs).
Proof.
  intros Hcs E (ds & Hds & ->). exists (length ds). f_equal. revert cs Hcs E.
  induction Hds as [|d ds Hd _ IH]; intros cs Hcs E; [reflexivity|].
  cbn [flat_map] in E. rewrite <- app_assoc in E.
  pose proof (explode_scalar d (flat_map utf8 ds ++ r) Hd) as X. rewrite E in X.
  rewrite (proj1 (explode_valid cs Hcs)) in X. destruct cs as [|c cs]; [discriminate X|].
  cbn [map] in X. assert (X1 := f_equal (hd []) X). cbn [hd] in X1.
  pose proof (Forall_inv Hcs) as Hc. apply Forall_inv_tail in Hcs.
  apply utf8_inj in X1; [|assumption..]. subst c. cbn [length firstn flat_map] in *. f_equal.
  apply IH; [exact Hcs|]. apply app_inv_head in E. exact E.
Qed.
