(** The methods of any hash in an area of memory, and what was written to it. *)
From Verif Require Import Base.Go Base.DigestApi Base.HashApi Base.HashUse Base.Goroutine Base.GoUse.
From Verif Require Import Model.HashAtom Spec.HashUseSpec Spec.GoUseSpec Proofs.Util Proofs.BytesProofs Proofs.GoroutineProofs Proofs.HashAtomProofs.
From Verif Require Import Proofs.GoUseProofs Proofs.AreaProofs Proofs.HashAreaProofs.
From Verif Require Model.Ripemd Model.Whirlpool Model.Bcc Model.Lrc Model.Fletcher Model.HashMem.
From Verif Require Spec.ChecksumSpec Spec.DigestSpec Proofs.ChecksumProofs Proofs.WhirlpoolProofs Proofs.HashTestProofs Proofs.HashUseProofs.
Local Open Scope N_scope.
Local Coercion me : area >-> nat.

Lemma write_byte (id : area) k step ok c p m u ws : shape_of k = SByte -> owns id c (size_of k) -> sees id (base p) (slen p) ->
  (forall d, bytes_ok (cells m (base p) (slen p)) -> d = m c -> exists d' r, step d (CWrite (cells m (base p) (slen p))) = Ret (d', r) /\ ok d') ->
  bytes_ok (cells m (base p) (slen p)) -> HashMem.byte_step k = step ->
  (forall m', ok (m' c) -> stands k m' c ws) ->
  stays id (do_write k c p) m u (fun n m' u' => n = slen p /\ written id k c m u ws m' u').
Proof.
  intros Es W Mp A B <- H. unfold do_write. rewrite Es. apply stays_then, stays_get; [rewrite <- (shift_0 c); apply wrs_rds, W; unfold size_of; rewrite Es; lia|].
  apply stays_then, stays_gets; [exact Mp|]. destruct (A _ B eq_refl) as (d' & r & E & A'). apply stays_then. apply (stays_lift _ _ _ _ _ _ E).
  apply stays_then, stays_set; [rewrite <- (shift_0 c); apply W; unfold size_of; rewrite Es; lia|]. intros m1 O1. cbn [stays]. split; [reflexivity|]. split; [reflexivity|]. split.
  - unfold size_of. rewrite Es. apply (over_outside _ _ _ _ O1).
  - apply H. rewrite <- (shift_0 c), (over_in _ _ _ _ _ O1) by (cbn; lia). exact A'.
Qed.
Lemma write_words (id : area) k step ok c p m u ws : shape_of k = SWords -> owns id c (size_of k) -> sees id (base p) (slen p) ->
  (bytes_ok (cells m (base p) (slen p)) -> exists d' r, step (words_at m c) (CWrite (cells m (base p) (slen p))) = Ret (d', r) /\ ok d') ->
  bytes_ok (cells m (base p) (slen p)) -> HashMem.word_step k = step ->
  (forall m', ok (words_at m' c) -> stands k m' c ws) ->
  stays id (do_write k c p) m u (fun n m' u' => n = slen p /\ written id k c m u ws m' u').
Proof.
  intros Es W Mp A B <- H. unfold do_write. rewrite Es. assert (Sz : size_of k = 2%nat) by (unfold size_of; rewrite Es; reflexivity). rewrite Sz in W.
  assert (W0 : wrs id c) by (rewrite <- (shift_0 c); apply W; lia). assert (W1 : wrs id (shift c 1)) by (apply W; lia).
  apply stays_then, stays_get; [apply wrs_rds, W0|]. apply stays_then, stays_get; [apply wrs_rds, W1|].
  apply stays_then, stays_gets; [exact Mp|]. destruct (A B) as (d' & r & E & A'). apply stays_then. apply (stays_lift _ _ _ _ _ _ E).
  apply stays_then, stays_set; [exact W0|]. intros m1 O1. apply stays_then, stays_set; [exact W1|]. intros m2 O2.
  cbn [stays]. split; [reflexivity|]. split; [reflexivity|]. split.
  - unfold size_of. rewrite Es. apply (outside_trans _ _ _ m1).
    + apply (outside_in c 2 0 1); [rewrite shift_0; apply (over_outside _ _ _ _ O1)|lia].
    + apply (outside_in c 2 1 1); [apply (over_outside _ _ _ _ O2)|lia].
  - apply H. unfold words_at. replace (m2 (shift c 1)) with (Fletcher.fb d').
    + replace (m2 c) with (Fletcher.fa d'); [destruct d'; exact A'|]. rewrite (over_out _ _ _ _ _ O2).
      * rewrite <- (shift_0 c), (over_in _ _ _ _ _ O1) by (cbn; lia). reflexivity.
      * apply within_not. cbn [who lib num shift length]. lia.
    + rewrite <- (shift_0 (shift c 1)), (over_in _ _ _ _ _ O2) by (cbn; lia). reflexivity.
Qed.
Lemma write_at (id : area) k c p m u ws : stands k m c ws -> owns id c (size_of k) -> lib c = true -> sees id (base p) (slen p) -> lib (base p) = false ->
  bytes_ok (cells m (base p) (slen p)) -> can_take k ws (cells m (base p) (slen p)) ->
  stays id (do_write k c p) m u (fun n m' u' => n = slen p /\ written id k c m u (ws ++ [cells m (base p) (slen p)]) m' u').
Proof.
  intros St W Lc Mp Lp B Ht. set (bs := cells m (base p) (slen p)) in *.
  assert (D : forall j, (j < slen p)%nat -> within c fields (shift (base p) j) = false).
  { intros j _. apply within_not. cbn [lib shift]. intros (_ & X & _). congruence. }
  unfold stands in St. destruct (HashMem.variant k) as [v|] eqn:Ev.
  - destruct St as (t & R & Q).
    destruct (HashUseProofs.reached_step _ _ _ _ _ (HashUseProofs.ripe_trace v) t (concat ws) (HWrite bs) Q B) as (t' & r & Es & Q' & _).
    cbn [Ripemd.step] in Es. unbind Es. destruct x as [t1 n]. injection Es as -> _.
    assert (Sh : shape_of k = SBlock) by (destruct k; try discriminate Ev; reflexivity).
    unfold do_write. rewrite Sh. unfold hash_of. rewrite Ev.
    assert (Sz : size_of k = fields) by (unfold size_of; rewrite Sh; reflexivity). rewrite Sz in W.
    assert (Wk : words_of k = 10%nat) by (destruct k; try discriminate Ev; reflexivity). rewrite Wk.
    eapply stays_mono; [apply (Write_at (Ripemd.hash_fn v) 10 id c p m u t t' n (local_ripe v) (le_n 10) W Mp D R E)|].
    cbn beta. intros x m' u' (-> & -> & R' & O). split; [reflexivity|]. split; [reflexivity|]. split.
    + unfold size_of. rewrite Sh. exact O.
    + unfold stands. rewrite Ev. exists t'. split; [exact R'|]. rewrite concat_app. cbn [concat]. rewrite app_nil_r. exact Q'.
  - destruct k; try discriminate Ev.
    + destruct St as (t & R & Q & L). cbn [can_take] in Ht.
      destruct (HashUseProofs.reached_step _ _ _ _ _ HashUseProofs.whirl_trace t (concat ws) (HWrite bs) Q B) as (t' & r & Es & Q' & _).
      cbn [Whirlpool.step] in Es. unbind Es. destruct x as [t1 n]. injection Es as -> _.
      assert (E' : Ripemd.Write Whirlpool.hash t bs = Ret (t', n)).
      { rewrite <- E. unfold Ripemd.Write, Whirlpool.Write. rewrite WhirlpoolProofs.write_loop_same. reflexivity. }
      assert (W8 : (8 <= 10)%nat) by lia.
      eapply stays_mono; [apply (Write_at Whirlpool.hash 8 id c p m u t t' n local_whirl W8 W Mp D R E')|].
      cbn beta. intros x m' u' (-> & -> & R' & O). split; [reflexivity|]. split; [reflexivity|]. split; [exact O|].
      exists t'. split; [exact R'|]. rewrite concat_app. cbn [concat]. rewrite app_nil_r. split; [exact Q'|exact Ht].
    + apply (write_byte id KBcc Bcc.step (fun d => HashUseProofs.attained Bcc.step Bcc.New HashUseProofs.anything d (ws ++ [bs]))); try reflexivity; try assumption.
      * intros d _ ->. apply (attained_write _ _ _ _ _ _ _ HashUseProofs.bcc_trace _ _ _ St B Logic.I).
      * intros m' H. exact H.
    + apply (write_byte id KLrc Lrc.step (fun d => HashUseProofs.attained Lrc.step Lrc.New HashUseProofs.anything d (ws ++ [bs]))); try reflexivity; try assumption.
      * intros d _ ->. apply (attained_write _ _ _ _ _ _ _ HashUseProofs.lrc_trace _ _ _ St B Logic.I).
      * intros m' H. exact H.
    + apply (write_words id KFletcher16 Fletcher.step16 (fun d => HashUseProofs.attained Fletcher.step16 Fletcher.New ChecksumSpec.f16_len d (ws ++ [bs])));
        try reflexivity; try assumption.
      * intros _. apply (attained_write _ _ _ _ _ _ _ HashUseProofs.f16_trace _ _ _ St B Ht).
      * intros m' H. exact H.
    + apply (write_words id KFletcher32 Fletcher.step32 (fun d => HashUseProofs.attained Fletcher.step32 Fletcher.New HashUseProofs.anything d (ws ++ [bs])));
        try reflexivity; try assumption.
      * intros _. apply (attained_write _ _ _ _ _ _ _ HashUseProofs.f32_trace _ _ _ St B Logic.I).
      * intros m' H. exact H.
    + apply (write_words id KFletcher64 Fletcher.step64 (fun d => HashUseProofs.attained Fletcher.step64 Fletcher.New HashUseProofs.anything d (ws ++ [bs])));
        try reflexivity; try assumption.
      * intros _. apply (attained_write _ _ _ _ _ _ _ HashUseProofs.f64_trace _ _ _ St B Logic.I).
      * intros m' H. exact H.
Qed.

Lemma sum_at (id : area) k c inp room m u ws : stands k m c ws -> ample id u -> sees id c (size_of k) -> settled id u c (size_of k) ->
  reached id inp (length (digest_of k ws)) -> lib (base inp) = false ->
  apart (mkA id false (u false)) (slen inp + length (digest_of k ws) + room) (base inp) (slen inp) ->
  stays id (do_sum k c inp room) m u (appended id room inp (digest_of k ws) m u).
Proof.
  intros St Am Mc Sc Re Li D.
  assert (Ap : stays id (append room inp (digest_of k ws)) m u (appended id room inp (digest_of k ws) m u)).
  { apply append_at; try assumption; try reflexivity; try lia. intros y _. reflexivity. }
  unfold stands in St. destruct (HashMem.variant k) as [v|] eqn:Ev.
  - destruct St as (t & R & Q).
    destruct (HashUseProofs.reached_step _ _ _ _ _ (HashUseProofs.ripe_trace v) t (concat ws) (HSum []) Q (Forall_nil _)) as (t' & r & Es & _ & Er).
    cbn [DigestSpec.hash_trace app] in Er. injection Er as ->. cbn [Ripemd.step] in Es. unbind Es. destruct x as [t1 out]. injection Es as _ Eo.
    assert (Ed : digest_of k ws = out) by (rewrite Eo; destruct k; try discriminate Ev; injection Ev as <-; reflexivity).
    rewrite Ed in *.
    assert (Sh : shape_of k = SBlock) by (destruct k; try discriminate Ev; reflexivity). unfold size_of in Sc, Mc. unfold do_sum. rewrite Sh, Ev in *.
    apply (SumRipe_at id room c inp m u t t1 out Am Mc Sc Re Li D _ _ (local_ripe v) R E).
  - destruct k; try discriminate Ev; unfold do_sum; cbn [shape_of HashMem.variant].
    + destruct St as (t & R & Q & L).
      destruct (HashUseProofs.reached_step _ _ _ _ _ HashUseProofs.whirl_trace t (concat ws) (HSum []) Q (Forall_nil _)) as (t' & r & Es & _ & Er).
      cbn [DigestSpec.hash_trace app] in Er. injection Er as ->. cbn [Whirlpool.step] in Es. unbind Es. destruct x as [t1 out]. injection Es as _ Eo.
      assert (Ed : digest_of KWhirlpool ws = out) by (cbn [digest_of]; rewrite <- WhirlpoolProofs.wdigest_published by exact L; symmetry; exact Eo).
      rewrite Ed in *. apply (SumWhirl_at id room c inp m u t t1 out Am Mc Sc Re Li D R E).
    + apply stays_then, stays_get; [rewrite <- (shift_0 c); apply Mc; cbn; lia|]. apply stays_then.
      apply (stays_lift _ _ _ _ _ _ (attained_sum _ _ _ _ _ _ _ HashUseProofs.bcc_trace _ _ St)). exact Ap.
    + apply stays_then, stays_get; [rewrite <- (shift_0 c); apply Mc; cbn; lia|]. apply stays_then.
      apply (stays_lift _ _ _ _ _ _ (attained_sum _ _ _ _ _ _ _ HashUseProofs.lrc_trace _ _ St)). exact Ap.
    + apply stays_then, stays_get; [apply Mc; cbn; lia|]. apply stays_then, stays_get; [rewrite <- (shift_0 c); apply Mc; cbn; lia|]. apply stays_then.
      apply (stays_lift _ _ _ _ _ _ (attained_sum _ _ _ _ _ _ _ HashUseProofs.f16_trace _ _ St)). exact Ap.
    + apply stays_then, stays_get; [apply Mc; cbn; lia|]. apply stays_then, stays_get; [rewrite <- (shift_0 c); apply Mc; cbn; lia|]. apply stays_then.
      apply (stays_lift _ _ _ _ _ _ (attained_sum _ _ _ _ _ _ _ HashUseProofs.f32_trace _ _ St)). exact Ap.
    + apply stays_then, stays_get; [apply Mc; cbn; lia|]. apply stays_then, stays_get; [rewrite <- (shift_0 c); apply Mc; cbn; lia|]. apply stays_then.
      apply (stays_lift _ _ _ _ _ _ (attained_sum _ _ _ _ _ _ _ HashUseProofs.f64_trace _ _ St)). exact Ap.
Qed.

Lemma reset_at (id : area) k c m u : ready k m c -> owns id c (size_of k) -> stays id (do_reset k c) m u (fun _ m' u' => written id k c m u [] m' u').
Proof.
  intros Rd W. unfold ready, do_reset in *. destruct (HashMem.variant k) as [v|] eqn:Ev.
  - destruct Rd as (t & t' & R & E & Q).
    replace (size_of k) with fields in W by (unfold size_of; destruct k; try discriminate Ev; reflexivity).
    eapply stays_mono; [apply (ResetRipe_at 10 (le_n 10) m id c u W (Ripemd.state_len v) t m t' (conj R (outside_refl _ _ _)) E)|].
    cbn beta. intros x m' u' (-> & R' & O). split; [reflexivity|]. split.
    + unfold size_of. replace (shape_of k) with SBlock by (destruct k; try discriminate Ev; reflexivity). exact O.
    + unfold stands. rewrite Ev. exists t'. split; [exact R'|exact Q].
  - destruct k; try discriminate Ev; cbn [shape_of].
    + destruct Rd as (t & t' & R & E & Q). assert (W8 : (8 <= 10)%nat) by lia.
      eapply stays_mono; [apply (ResetWhirl_at 8 W8 m id c u W t m t' (conj R (outside_refl _ _ _)) E)|].
      cbn beta. intros x m' u' (-> & R' & O). split; [reflexivity|]. split; [exact O|]. exists t'. split; [exact R'|]. split; [exact Q|reflexivity].
    + apply stays_set; [rewrite <- (shift_0 c); apply W; cbn; lia|]. intros m1 O1. split; [reflexivity|]. split; [apply (over_outside _ _ _ _ O1)|].
      unfold stands. cbn [HashMem.variant]. rewrite <- (shift_0 c), (over_in _ _ _ _ _ O1) by (cbn; lia). apply HashUseProofs.attained_new.
    + apply stays_set; [rewrite <- (shift_0 c); apply W; cbn; lia|]. intros m1 O1. split; [reflexivity|]. split; [apply (over_outside _ _ _ _ O1)|].
      unfold stands. cbn [HashMem.variant]. rewrite <- (shift_0 c), (over_in _ _ _ _ _ O1) by (cbn; lia). apply HashUseProofs.attained_new.
    + apply stays_then, stays_set; [rewrite <- (shift_0 c); apply W; cbn; lia|]. intros m1 O1. apply stays_set; [apply W; cbn; lia|]. intros m2 O2.
      destruct (words_reset _ _ _ _ O1 O2) as [Z O]. split; [reflexivity|]. split; [exact O|]. unfold stands. cbn [HashMem.variant]. rewrite Z.
      apply HashUseProofs.attained_new.
    + apply stays_then, stays_set; [rewrite <- (shift_0 c); apply W; cbn; lia|]. intros m1 O1. apply stays_set; [apply W; cbn; lia|]. intros m2 O2.
      destruct (words_reset _ _ _ _ O1 O2) as [Z O]. split; [reflexivity|]. split; [exact O|]. unfold stands. cbn [HashMem.variant]. rewrite Z.
      apply HashUseProofs.attained_new.
    + apply stays_then, stays_set; [rewrite <- (shift_0 c); apply W; cbn; lia|]. intros m1 O1. apply stays_set; [apply W; cbn; lia|]. intros m2 O2.
      destruct (words_reset _ _ _ _ O1 O2) as [Z O]. split; [reflexivity|]. split; [exact O|]. unfold stands. cbn [HashMem.variant]. rewrite Z.
      apply HashUseProofs.attained_new.
Qed.
Lemma new_at (id : area) k m u : ample id u -> stays id (do_new k) m u (fun c m' u' => c = fresh_at id u /\ u' = grow u true (size_of k)
  /\ outside c (size_of k) m m' /\ stands k m' c []).
Proof.
  intros Am. assert (Oc : owns id (mkA id true (u true)) (size_of k)) by (apply (ample_owns id u true); [exact Am|lia]).
  unfold do_new. apply stays_then, stays_new; [exact Oc|]. intros m1 O1. change (mkA id true (u true)) with (fresh_at id u) in *.
  assert (Rd : ready k m1 (fresh_at id u)).
  { unfold ready. destruct (HashMem.variant k) as [v|] eqn:Ev.
    - replace (size_of k) with fields in O1 by (destruct k; try discriminate Ev; reflexivity).
      pose proof (HashUseProofs.ripe_trace v [] (Forall_nil _)) as T. unbind T.
      eexists _, x. split; [apply (new_rep 10 _ _ _ (le_n 10) O1)|]. split; [exact E|]. apply HashUseProofs.reached_new, E.
    - destruct k; try discriminate Ev; try exact Logic.I. assert (W8 : (8 <= 10)%nat) by lia.
      pose proof (HashUseProofs.whirl_trace [] (Forall_nil _)) as T. unbind T.
      eexists _, x. split; [apply (new_rep 8 _ _ _ W8 O1)|]. split; [exact E|]. apply HashUseProofs.reached_new, E. }
  eapply stays_seq; [apply (reset_at id k _ m1 _ Rd Oc)|]. cbn beta. intros _ m2 u2 (-> & O2 & S2). cbn [stays].
  split; [reflexivity|]. split; [reflexivity|]. split; [|exact S2]. apply (outside_trans _ _ _ m1); [|exact O2].
  pose proof (over_outside _ _ _ _ O1) as P. rewrite repeat_length in P. exact P.
Qed.
