(** Goroutines of Base/Sync.v come to a stand, and what they then wait for. *)
From Coq Require Import Lia.
From Verif Require Import Base.Go Base.Goroutine Base.HashUse Base.Sync Model.SyncAtom Spec.HashUseSpec Spec.SyncSpec
  Proofs.GoroutineProofs Proofs.AreaProofs Proofs.SyncProofs.

Section Ends.
Context {G : Type} (code_of : ask -> code got).

(** One step of one goroutine. *)
Inductive lower : stage G -> stage G -> Prop :=
| Lo_enters c k : lower (Inside c (code_of c) k) (Between (Call c k))
| Lo_get c a q k x : lower (Inside c (q x) k) (Inside c (Get a q) k)
| Lo_put c a x q k : lower (Inside c q k) (Inside c (Put a x q) k)
| Lo_new c l n q k a : lower (Inside c (q a) k) (Inside c (Goroutine.New l n q) k)
| Lo_leaves c r k : lower (Between (k r)) (Inside c (Return r) k)
| Lo_syncs f n s s' g : f n s = Some (s', g) -> lower (Between g) (Between (Sync f)).

Lemma lower_inside c (k : got -> prog G) : (forall r, Acc lower (Between (k r))) -> forall p, Acc lower (Inside c p k).
Proof.
  intros H. induction p as [r| |a q IH|a x q IH|l n q IH]; constructor; intros y L; inversion L; subst; auto.
Qed.
Fixpoint lower_between (g : prog G) : Acc lower (Between g).
Proof.
  destruct g as [|c k|f].
  - constructor. intros y L. inversion L.
  - constructor. intros y L. inversion L; subst. apply lower_inside. intros r. apply lower_between.
  - assert (X : forall n s, match f n s with Some (_, g) => Acc lower (Between g) | None => True end).
    { intros n s. destruct (f n s) as [[s' g]|]; [apply lower_between|exact Logic.I]. }
    constructor. intros y L. inversion L as [| | | | |f0 n s s' g E]; subst. specialize (X n s). rewrite E in X. exact X.
Qed.
Lemma lower_wf st : Acc lower st.
Proof. destruct st as [g|c p k]; [apply lower_between|]. apply lower_inside. intros r. apply lower_between. Qed.

(** One of many. *)
Definition one_lower (l' l : list (worker G)) : Prop :=
  exists i x y, nth_error l i = Some y /\ lower (stands_at x) (stands_at y) /\ l' = replaced i x l.
Lemma one_lower_wf l : Acc one_lower l.
Proof.
  induction l as [|v l IH]; [constructor; intros y ([|i] & x & z & E & _); discriminate E|].
  destruct v as [st u]. revert u l IH. induction (lower_wf st) as [st _ IHs]. intros u l IH. revert u. induction IH as [l Hl IHl]. intros u.
  constructor. intros y ([|i] & x & z & E & Lw & ->); cbn [nth_error replaced] in *.
  - injection E as <-. destruct x as [st' u']. cbn [stands_at] in Lw. apply (IHs st' Lw u' l). constructor. exact Hl.
  - apply IHl. exists i, x, z. auto.
Qed.
Lemma moves_lower (p q : group G) : moves1 code_of p q -> one_lower (snd q) (snd p).
Proof.
  intros M. destruct M as [m s ws i c k u E|m s ws i c p k u m' p' u' E Ad|m s ws i c r k u E|m s ws i f u n s' g E Ef]; cbn [snd]; eexists i, _, _; (split; [exact E|]); (split; [|reflexivity]); cbn [stands_at].
  - apply Lo_enters.
  - destruct p as [r| |a q|a x q|l n q]; cbn [advance todo used] in Ad; try discriminate Ad; injection Ad as <- <- <-; constructor.
  - apply Lo_leaves.
  - apply (Lo_syncs f n s s' g Ef).
Qed.
Lemma moves_wf (p : group G) : Acc (fun q p => moves1 code_of p q) p.
Proof.
  assert (X : forall l, Acc one_lower l -> forall p, snd p = l -> Acc (fun q p => moves1 code_of p q) p).
  { intros l A. induction A as [l _ IH]. intros p' <-. constructor. intros q M. apply (IH (snd q)); [apply moves_lower, M|reflexivity]. }
  apply (X _ (one_lower_wf (snd p)) p eq_refl).
Qed.
End Ends.

Section Stand.
Context {G : Type}.
(** Whoever is not at a synchronising step and not at its end can move on. *)
Lemma goes_on s0 gs0 : well_synchronised s0 gs0 -> forall m (s : G) ws, leads do_ask (started s0 gs0) (m, s, ws) ->
  forall i v, nth_error ws i = Some v -> (exists q, moves1 do_ask (m, s, ws) q) \/ stands_at v = Between Finish \/ exists f, stands_at v = Between (Sync f).
Proof.
  intros Wf m s ws L i [[[|c k|f]|c p k] u] E; cbn [stands_at].
  - right. left. reflexivity.
  - left. eexists. eapply Enters, E.
  - right. right. exists f. reflexivity.
  - left. destruct (follows s0 gs0 Wf m s ws L) as (w & gs & b & T & R). destruct (rel_inside _ _ _ _ _ _ _ _ _ _ R E) as (_ & St).
    destruct p as [r| |a q|a x q|l n q].
    + eexists. eapply Leaves, E.
    + destruct St.
    + eexists. eapply Accesses; [exact E|reflexivity].
    + eexists. eapply Accesses; [exact E|reflexivity].
    + eexists. eapply Accesses; [exact E|reflexivity].
Qed.
Lemma all_stand s0 gs0 : well_synchronised s0 gs0 -> forall m (s : G) ws, leads do_ask (started s0 gs0) (m, s, ws) ->
  (exists q, moves1 do_ask (m, s, ws) q) \/ forall v, In v ws -> stands_at v = Between Finish \/ exists f, stands_at v = Between (Sync f).
Proof.
  intros Wf m s ws L. pose proof (goes_on s0 gs0 Wf m s ws L) as H.
  assert (X : forall l : list (worker G), (forall v, In v l -> (exists q, moves1 do_ask (m, s, ws) q) \/ stands_at v = Between Finish \/ exists f, stands_at v = Between (Sync f)) ->
    (exists q, moves1 do_ask (m, s, ws) q) \/ forall v, In v l -> stands_at v = Between Finish \/ exists f, stands_at v = Between (Sync f)).
  { induction l as [|v l IH]; intros Hl; [right; intros v []|]. destruct (Hl v (or_introl eq_refl)) as [M|Hv]; [left; exact M|].
    destruct IH as [M|IH]; [intros v' Iv; apply Hl; right; exact Iv|left; exact M|]. right. intros v' [<-|Iv]; [exact Hv|apply IH, Iv]. }
  apply X. intros v Iv. apply In_nth_error in Iv as (i & E). apply (H i v E).
Qed.
Lemma stands_still s0 gs0 : well_synchronised s0 gs0 -> forall m (s : G) ws, leads do_ask (started s0 gs0) (m, s, ws) -> (forall q, ~ moves1 do_ask (m, s, ws) q) ->
  exists w gs, turns (nothing_yet, s0, gs0) (w, s, gs) /\ Forall2 (fun v g => stands_at v = Between g) ws gs
    /\ forall g, In g gs -> g = Finish \/ exists f, g = Sync f /\ forall n, f n s = None.
Proof.
  intros Wf m s ws L No. destruct (follows s0 gs0 Wf m s ws L) as (w & gs & b & T & R). exists w, gs. split; [exact T|].
  destruct (all_stand s0 gs0 Wf m s ws L) as [(q & M)|Al]; [exfalso; exact (No q M)|].
  assert (At : forall i v g, nth_error ws i = Some v -> nth_error gs i = Some g -> stands_at v = Between g).
  { intros i v g E Eg. destruct (rl_at _ _ _ _ _ R i v E) as (g' & Eg' & H). rewrite Eg in Eg'. injection Eg' as <-.
    destruct (Al v (nth_error_In _ _ E)) as [X|(f & X)]; rewrite X in *; destruct H as (-> & _); reflexivity. }
  pose proof (rl_len _ _ _ _ _ R) as Ln. split.
  - clear -At Ln. revert gs At Ln. induction ws as [|v ws IH]; intros [|g gs] At Ln; try discriminate Ln; constructor; [apply (At O v g eq_refl eq_refl)|].
    apply IH; [intros i v' g' E E'; apply (At (S i) v' g' E E')|injection Ln as Ln; exact Ln].
  - intros g Ig. apply In_nth_error in Ig as (i & Eg). destruct (nth_error ws i) as [v|] eqn:E; [|apply nth_error_None in E; assert (i < length gs)%nat by (apply nth_error_Some; congruence); lia].
    pose proof (At i v g E Eg) as Sv. destruct (Al v (nth_error_In _ _ E)) as [X|(f & X)]; rewrite X in Sv; injection Sv as <-; [left; reflexivity|right].
    exists f. split; [reflexivity|]. intros n. destruct (f n s) as [[s' g]|] eqn:Ef; [|reflexivity]. exfalso. destruct v as [st u]. cbn [stands_at] in X. subst st.
    eapply No, Syncs; [exact E|exact Ef].
Qed.
(** If nobody waits for ever, all can come to their end. *)
Lemma comes_to_stand (p : group G) (P : group G -> Prop) :
  (forall q, leads do_ask p q -> P q \/ exists q', moves1 do_ask q q') -> exists q, leads do_ask p q /\ P q.
Proof.
  induction (moves_wf do_ask p) as [p _ IH]. intros H. destruct (H p (Stays _ _ _)) as [Hp|(q & M)]; [exists p; split; [apply Stays|exact Hp]|].
  pose proof (Goes_on _ _ _ _ _ (Stays _ _ p) M : leads do_ask p q) as L1.
  destruct (IH q M) as (q' & L & Hq); [intros r Lr; apply H, (leads_trans _ _ _ L1 Lr)|]. exists q'. split; [exact (leads_trans _ _ _ L1 L)|exact Hq].
Qed.
End Stand.
