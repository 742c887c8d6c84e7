(** A goroutine that uses hashes according to the rules of Spec/GoUseSpec.v
    stays within its own memory and gets the replies it may expect. *)
From Verif Require Import Base.Go Base.DigestApi Base.HashApi Base.HashUse Base.Goroutine Base.GoUse.
From Verif Require Import Model.HashAtom Spec.HashUseSpec Spec.GoUseSpec Proofs.Util Proofs.BytesProofs Proofs.GoroutineProofs Proofs.HashAtomProofs.
From Verif Require Model.Ripemd Model.Whirlpool Model.Bcc Model.Lrc Model.Fletcher Model.HashMem.
From Verif Require Spec.ChecksumSpec Spec.DigestSpec Proofs.ChecksumProofs Proofs.WhirlpoolProofs Proofs.HashTestProofs Proofs.HashUseProofs.
Local Open Scope N_scope.

(** ** Objects and what was written to them *)

Definition words_at (m : memory) (c : addr) : Fletcher.digest := Fletcher.mkDigest (m c) (m (shift c 1)).
Definition stands (k : kind) (m : memory) (c : addr) (ws : list (list N)) : Prop :=
  match HashMem.variant k with
  | Some v => exists t, rep 10 m c t /\ HashUseProofs.ripe_reached v t (concat ws)
  | None =>
      match k with
      | KBcc => HashUseProofs.attained Bcc.step Bcc.New HashUseProofs.anything (m c) ws
      | KLrc => HashUseProofs.attained Lrc.step Lrc.New HashUseProofs.anything (m c) ws
      | KFletcher16 => HashUseProofs.attained Fletcher.step16 Fletcher.New ChecksumSpec.f16_len (words_at m c) ws
      | KFletcher32 => HashUseProofs.attained Fletcher.step32 Fletcher.New HashUseProofs.anything (words_at m c) ws
      | KFletcher64 => HashUseProofs.attained Fletcher.step64 Fletcher.New HashUseProofs.anything (words_at m c) ws
      | _ => exists t, rep 8 m c t /\ HashUseProofs.whirl_reached t (concat ws) /\ N.of_nat (length (concat ws)) < 2 ^ 64
      end
  end.

Lemma stands_same k m m' c ws : (forall j, (j < size_of k)%nat -> m' (shift c j) = m (shift c j)) -> stands k m c ws -> stands k m' c ws.
Proof.
  intros H. assert (R : size_of k = fields -> forall w t, (w <= 10)%nat -> rep w m c t -> rep w m' c t).
  { intros E w t Hw. rewrite E in H. intros R. apply (rep_copy w m m' c c t Hw H R). }
  assert (H0 : Nat.ltb 0 (size_of k) = true -> m' c = m c) by (intros L; apply Nat.ltb_lt in L; rewrite <- (shift_0 c); apply H, L).
  unfold stands. destruct (HashMem.variant k) as [v|] eqn:Ev.
  - intros (t & Rt & Q). exists t. split; [|exact Q]. apply R; [destruct k; try discriminate Ev; reflexivity|lia|exact Rt].
  - destruct k; try discriminate Ev.
    + intros (t & Rt & Q). exists t. split; [|exact Q]. apply R; [reflexivity|lia|exact Rt].
    + rewrite (H0 eq_refl). auto.
    + rewrite (H0 eq_refl). auto.
    + unfold words_at. rewrite (H0 eq_refl), (H 1%nat) by (cbn; lia). auto.
    + unfold words_at. rewrite (H0 eq_refl), (H 1%nat) by (cbn; lia). auto.
    + unfold words_at. rewrite (H0 eq_refl), (H 1%nat) by (cbn; lia). auto.
Qed.

(** ** Write *)

Section Values.
Context {St : Type} (step : St -> call -> outcome (St * result)) (new : St) (value : list (list N) -> N)
  (ser : N -> list N) (size bsize : nat) (ok : list N -> Prop).
Context (T : forall cs, calls_ok cs -> writes_ok ok cs -> observe step new cs = Ret (ChecksumSpec.trace value ser size bsize [] cs)).
Lemma attained_write d ws p : HashUseProofs.attained step new ok d ws -> bytes_ok p -> ok p ->
  exists d' r, step d (CWrite p) = Ret (d', r) /\ HashUseProofs.attained step new ok d' (ws ++ [p]).
Proof.
  intros A Hp Hok. destruct (HashUseProofs.attained_step step new value ser size bsize ok T d ws (CWrite p) A Hp) as (d' & r & E & A' & _).
  - repeat constructor. exact Hok.
  - exists d', r. split; [exact E|exact A'].
Qed.
Lemma attained_sum d ws : HashUseProofs.attained step new ok d ws -> summed (let! (_, r) := step d (CSum []) in Ret r) = Ret (ser (value ws)).
Proof.
  intros A. destruct (HashUseProofs.attained_step step new value ser size bsize ok T d ws (CSum []) A) as (d' & r & E & A' & Er).
  - constructor.
  - repeat constructor.
  - cbn [ChecksumSpec.trace] in Er. injection Er as ->. rewrite E. reflexivity.
Qed.
End Values.

Definition written (id : nat) (k : kind) (c : addr) (m : memory) (u : bool -> nat) (ws : list (list N)) (m' : memory) (u' : bool -> nat) : Prop :=
  u' = u /\ outside c (size_of k) m m' /\ stands k m' c ws.

Lemma write_byte (id : perm) k step ok c p m u ws : shape_of k = SByte -> can id c -> may id (base p) ->
  (forall d, bytes_ok (cells m (base p) (slen p)) -> d = m c -> exists d' r, step d (CWrite (cells m (base p) (slen p))) = Ret (d', r) /\ ok d') ->
  bytes_ok (cells m (base p) (slen p)) -> HashMem.byte_step k = step ->
  (forall m', ok (m' c) -> stands k m' c ws) ->
  safe id (do_write k c p) m u (fun n m' u' => n = slen p /\ written id k c m u ws m' u').
Proof.
  intros Es W Mp A B <- H. unfold do_write. rewrite Es. apply safe_then, safe_get; [apply can_may; exact W|].
  apply safe_then, safe_gets; [exact Mp|]. destruct (A _ B eq_refl) as (d' & r & E & A'). apply safe_then. apply (safe_lift _ _ _ _ _ _ E).
  apply safe_then, safe_set'; [exact W|]. intros m1 O1. cbn [safe]. split; [reflexivity|]. split; [reflexivity|]. split.
  - unfold size_of. rewrite Es. apply (over_outside _ _ _ _ O1).
  - apply H. rewrite <- (shift_0 c), (over_in _ _ _ _ _ O1) by (cbn; lia). exact A'.
Qed.
Lemma write_words (id : perm) k step ok c p m u ws : shape_of k = SWords -> can id c -> may id (base p) ->
  (bytes_ok (cells m (base p) (slen p)) -> exists d' r, step (words_at m c) (CWrite (cells m (base p) (slen p))) = Ret (d', r) /\ ok d') ->
  bytes_ok (cells m (base p) (slen p)) -> HashMem.word_step k = step ->
  (forall m', ok (words_at m' c) -> stands k m' c ws) ->
  safe id (do_write k c p) m u (fun n m' u' => n = slen p /\ written id k c m u ws m' u').
Proof.
  intros Es W Mp A B <- H. unfold do_write. rewrite Es. assert (Mc : may id c) by (apply can_may; exact W).
  apply safe_then, safe_get; [exact Mc|]. apply safe_then, safe_get; [exact Mc|].
  apply safe_then, safe_gets; [exact Mp|]. destruct (A B) as (d' & r & E & A'). apply safe_then. apply (safe_lift _ _ _ _ _ _ E).
  apply safe_then, safe_set'; [exact W|]. intros m1 O1. apply safe_then, safe_set'; [exact W|]. intros m2 O2.
  cbn [safe]. split; [reflexivity|]. split; [reflexivity|]. split.
  - unfold size_of. rewrite Es. apply (outside_trans _ _ _ m1).
    + apply (outside_in c 2 0 1); [rewrite shift_0; apply (over_outside _ _ _ _ O1)|lia].
    + apply (outside_in c 2 1 1); [apply (over_outside _ _ _ _ O2)|lia].
  - apply H. unfold words_at. replace (m2 (shift c 1)) with (Fletcher.fb d').
    + replace (m2 c) with (Fletcher.fa d'); [destruct d'; exact A'|]. rewrite (over_out _ _ _ _ _ O2).
      * rewrite <- (shift_0 c), (over_in _ _ _ _ _ O1) by (cbn; lia). reflexivity.
      * apply within_not. cbn [who lib num shift length]. lia.
    + rewrite <- (shift_0 (shift c 1)), (over_in _ _ _ _ _ O2) by (cbn; lia). reflexivity.
Qed.
Lemma write_at (id : perm) k c p m u ws : stands k m c ws -> can id c -> lib c = true -> may id (base p) -> lib (base p) = false ->
  bytes_ok (cells m (base p) (slen p)) -> can_take k ws (cells m (base p) (slen p)) ->
  safe id (do_write k c p) m u (fun n m' u' => n = slen p /\ written id k c m u (ws ++ [cells m (base p) (slen p)]) m' u').
Proof.
  intros St W Lc Mp Lp B Ht. set (bs := cells m (base p) (slen p)) in *.
  assert (D : forall j, (j < slen p)%nat -> within c fields (shift (base p) j) = false).
  { intros j _. apply within_not. cbn [lib shift]. intros (_ & X & _). congruence. }
  unfold stands in St. destruct (HashMem.variant k) as [v|] eqn:Ev.
  - destruct St as (t & R & Q).
    destruct (HashUseProofs.reached_step _ _ _ _ _ (HashUseProofs.ripe_trace v) t (concat ws) (HWrite bs) Q B) as (t' & r & Es & Q' & _).
    cbn [Ripemd.step] in Es. unbind Es. destruct x as [t1 n]. injection Es as -> _.
    assert (Sh : shape_of k = SBlock) by (destruct k; try discriminate Ev; reflexivity).
    unfold do_write. rewrite Sh. unfold hash_of. rewrite Ev.
    assert (Wk : words_of k = 10%nat) by (destruct k; try discriminate Ev; reflexivity). rewrite Wk.
    eapply safe_mono; [apply (Write_at (Ripemd.hash_fn v) 10 id c p m u t t' n (local_ripe v) (le_n 10) W Mp D R E)|].
    cbn beta. intros x m' u' (-> & -> & R' & O). split; [reflexivity|]. split; [reflexivity|]. split.
    + unfold size_of. rewrite Sh. exact O.
    + unfold stands. rewrite Ev. exists t'. split; [exact R'|]. rewrite concat_app. cbn [concat]. rewrite app_nil_r. exact Q'.
  - destruct k; try discriminate Ev.
    + destruct St as (t & R & Q & L). cbn [can_take] in Ht.
      destruct (HashUseProofs.reached_step _ _ _ _ _ HashUseProofs.whirl_trace t (concat ws) (HWrite bs) Q B) as (t' & r & Es & Q' & _).
      cbn [Whirlpool.step] in Es. unbind Es. destruct x as [t1 n]. injection Es as -> _.
      assert (E' : Ripemd.Write Whirlpool.hash t bs = Ret (t', n)).
      { rewrite <- E. unfold Ripemd.Write, Whirlpool.Write. rewrite WhirlpoolProofs.write_loop_same. reflexivity. }
      assert (W8 : (8 <= 10)%nat) by lia.
      eapply safe_mono; [apply (Write_at Whirlpool.hash 8 id c p m u t t' n local_whirl W8 W Mp D R E')|].
      cbn beta. intros x m' u' (-> & -> & R' & O). split; [reflexivity|]. split; [reflexivity|]. split; [exact O|].
      exists t'. split; [exact R'|]. rewrite concat_app. cbn [concat]. rewrite app_nil_r. split; [exact Q'|exact Ht].
    + apply (write_byte id KBcc Bcc.step (fun d => HashUseProofs.attained Bcc.step Bcc.New HashUseProofs.anything d (ws ++ [bs]))); try reflexivity; try assumption.
      * intros d _ ->. apply (attained_write _ _ _ _ _ _ _ HashUseProofs.bcc_trace _ _ _ St B Logic.I).
      * intros m' H. exact H.
    + apply (write_byte id KLrc Lrc.step (fun d => HashUseProofs.attained Lrc.step Lrc.New HashUseProofs.anything d (ws ++ [bs]))); try reflexivity; try assumption.
      * intros d _ ->. apply (attained_write _ _ _ _ _ _ _ HashUseProofs.lrc_trace _ _ _ St B Logic.I).
      * intros m' H. exact H.
    + apply (write_words id KFletcher16 Fletcher.step16 (fun d => HashUseProofs.attained Fletcher.step16 Fletcher.New ChecksumSpec.f16_len d (ws ++ [bs])));
        try reflexivity; try assumption.
      * intros _. apply (attained_write _ _ _ _ _ _ _ HashUseProofs.f16_trace _ _ _ St B Ht).
      * intros m' H. exact H.
    + apply (write_words id KFletcher32 Fletcher.step32 (fun d => HashUseProofs.attained Fletcher.step32 Fletcher.New HashUseProofs.anything d (ws ++ [bs])));
        try reflexivity; try assumption.
      * intros _. apply (attained_write _ _ _ _ _ _ _ HashUseProofs.f32_trace _ _ _ St B Logic.I).
      * intros m' H. exact H.
    + apply (write_words id KFletcher64 Fletcher.step64 (fun d => HashUseProofs.attained Fletcher.step64 Fletcher.New HashUseProofs.anything d (ws ++ [bs])));
        try reflexivity; try assumption.
      * intros _. apply (attained_write _ _ _ _ _ _ _ HashUseProofs.f64_trace _ _ _ St B Logic.I).
      * intros m' H. exact H.
Qed.

(** ** Sum *)

Lemma whole_ripe hash sl t t1 out : Ripemd.Sum hash sl t [] = Ret (t1, out) -> Ripemd.Sum hash sl t [] = Ret (t, out).
Proof. intros E. rewrite E. f_equal. f_equal. unfold Ripemd.Sum in E. cbv zeta in E. repeat unbind E. congruence. Qed.
Lemma sum_at (id : perm) k c inp room m u ws : stands k m c ws -> may id c -> settled id u c (size_of k) -> may id (base inp) -> lib (base inp) = false ->
  apart (mkA id false (u false)) (slen inp + length (digest_of k ws) + room) (base inp) (slen inp) ->
  (digest_of k ws <> [] -> (slen inp + length (digest_of k ws) <= scap inp)%nat -> can id (base inp)) ->
  safe id (do_sum k c inp room) m u (appended id room inp (digest_of k ws) m u).
Proof.
  intros St Mc Sc Mi Li D Wi.
  assert (Ap : safe id (append room inp (digest_of k ws)) m u (appended id room inp (digest_of k ws) m u)).
  { apply append_at; try assumption; try reflexivity; try lia. intros y _. reflexivity. }
  unfold stands in St. destruct (HashMem.variant k) as [v|] eqn:Ev.
  - destruct St as (t & R & Q).
    destruct (HashUseProofs.reached_step _ _ _ _ _ (HashUseProofs.ripe_trace v) t (concat ws) (HSum []) Q (Forall_nil _)) as (t' & r & Es & _ & Er).
    cbn [DigestSpec.hash_trace app] in Er. injection Er as ->. cbn [Ripemd.step] in Es. unbind Es. destruct x as [t1 out]. injection Es as _ Eo.
    assert (Ed : digest_of k ws = out) by (rewrite Eo; destruct k; try discriminate Ev; injection Ev as <-; reflexivity).
    rewrite Ed in *.
    assert (Sh : shape_of k = SBlock) by (destruct k; try discriminate Ev; reflexivity). unfold size_of in Sc. unfold do_sum. rewrite Sh, Ev in *.
    apply (SumRipe_at id room c inp m u t t1 out Mc Sc Mi Li D Wi _ _ (local_ripe v) R E).
  - destruct k; try discriminate Ev; unfold do_sum; cbn [shape_of HashMem.variant].
    + destruct St as (t & R & Q & L).
      destruct (HashUseProofs.reached_step _ _ _ _ _ HashUseProofs.whirl_trace t (concat ws) (HSum []) Q (Forall_nil _)) as (t' & r & Es & _ & Er).
      cbn [DigestSpec.hash_trace app] in Er. injection Er as ->. cbn [Whirlpool.step] in Es. unbind Es. destruct x as [t1 out]. injection Es as _ Eo.
      assert (Ed : digest_of KWhirlpool ws = out) by (cbn [digest_of]; rewrite <- WhirlpoolProofs.wdigest_published by exact L; symmetry; exact Eo).
      rewrite Ed in *. apply (SumWhirl_at id room c inp m u t t1 out Mc Sc Mi Li D Wi R E).
    + apply safe_then, safe_get; [exact Mc|]. apply safe_then.
      apply (safe_lift _ _ _ _ _ _ (attained_sum _ _ _ _ _ _ _ HashUseProofs.bcc_trace _ _ St)). exact Ap.
    + apply safe_then, safe_get; [exact Mc|]. apply safe_then.
      apply (safe_lift _ _ _ _ _ _ (attained_sum _ _ _ _ _ _ _ HashUseProofs.lrc_trace _ _ St)). exact Ap.
    + apply safe_then, safe_get; [exact Mc|]. apply safe_then, safe_get; [exact Mc|]. apply safe_then.
      apply (safe_lift _ _ _ _ _ _ (attained_sum _ _ _ _ _ _ _ HashUseProofs.f16_trace _ _ St)). exact Ap.
    + apply safe_then, safe_get; [exact Mc|]. apply safe_then, safe_get; [exact Mc|]. apply safe_then.
      apply (safe_lift _ _ _ _ _ _ (attained_sum _ _ _ _ _ _ _ HashUseProofs.f32_trace _ _ St)). exact Ap.
    + apply safe_then, safe_get; [exact Mc|]. apply safe_then, safe_get; [exact Mc|]. apply safe_then.
      apply (safe_lift _ _ _ _ _ _ (attained_sum _ _ _ _ _ _ _ HashUseProofs.f64_trace _ _ St)). exact Ap.
Qed.

(** ** Reset and New *)

(** What there is before Reset: some object, or new memory. *)
Definition ready (k : kind) (m : memory) (c : addr) : Prop :=
  match HashMem.variant k with
  | Some v => exists t t', rep 10 m c t /\ Ripemd.Reset (Ripemd.state_len v) t = Ret t' /\ HashUseProofs.ripe_reached v t' []
  | None =>
      match k with
      | KWhirlpool => exists t t', rep 8 m c t /\ Whirlpool.Reset t = Ret t' /\ HashUseProofs.whirl_reached t' []
      | _ => True
      end
  end.
Lemma ready_stands k m c ws : stands k m c ws -> ready k m c.
Proof.
  unfold stands, ready. destruct (HashMem.variant k) as [v|] eqn:Ev.
  - intros (t & R & Q).
    destruct (HashUseProofs.reached_step _ _ _ _ _ (HashUseProofs.ripe_trace v) t (concat ws) HReset Q Logic.I) as (t' & r & Es & Q' & _).
    cbn [Ripemd.step] in Es. unbind Es. injection Es as -> _. exists t, t'. split; [exact R|]. split; [exact E|exact Q'].
  - destruct k; try discriminate Ev; try exact (fun _ => Logic.I). intros (t & R & Q & L).
    destruct (HashUseProofs.reached_step _ _ _ _ _ HashUseProofs.whirl_trace t (concat ws) HReset Q Logic.I) as (t' & r & Es & Q' & _).
    cbn [Whirlpool.step] in Es. unbind Es. injection Es as -> _. exists t, t'. split; [exact R|]. split; [exact E|exact Q'].
Qed.
Lemma words_reset m c m1 m2 : is_over m c [0] m1 -> is_over m1 (shift c 1) [0] m2 ->
  words_at m2 c = Fletcher.mkDigest 0 0 /\ outside c 2 m m2.
Proof.
  intros O1 O2. split.
  - unfold words_at. rewrite <- (shift_0 (shift c 1)), (over_in _ _ _ _ _ O2) by (cbn; lia). rewrite (over_out _ _ _ _ _ O2).
    + rewrite <- (shift_0 c), (over_in _ _ _ _ _ O1) by (cbn; lia). reflexivity.
    + apply within_not. cbn [who lib num shift length]. lia.
  - apply (outside_trans _ _ _ m1).
    + apply (outside_in c 2 0 1); [rewrite shift_0; apply (over_outside _ _ _ _ O1)|lia].
    + apply (outside_in c 2 1 1); [apply (over_outside _ _ _ _ O2)|lia].
Qed.
Lemma reset_at (id : perm) k c m u : ready k m c -> can id c -> safe id (do_reset k c) m u (fun _ m' u' => written id k c m u [] m' u').
Proof.
  intros Rd W. unfold ready, do_reset in *. destruct (HashMem.variant k) as [v|] eqn:Ev.
  - destruct Rd as (t & t' & R & E & Q).
    eapply safe_mono; [apply (ResetRipe_at 10 (le_n 10) m id c u W (Ripemd.state_len v) t m t' (conj R (outside_refl _ _ _)) E)|].
    cbn beta. intros x m' u' (-> & R' & O). split; [reflexivity|]. split.
    + unfold size_of. replace (shape_of k) with SBlock by (destruct k; try discriminate Ev; reflexivity). exact O.
    + unfold stands. rewrite Ev. exists t'. split; [exact R'|exact Q].
  - destruct k; try discriminate Ev; cbn [shape_of].
    + destruct Rd as (t & t' & R & E & Q). assert (W8 : (8 <= 10)%nat) by lia.
      eapply safe_mono; [apply (ResetWhirl_at 8 W8 m id c u W t m t' (conj R (outside_refl _ _ _)) E)|].
      cbn beta. intros x m' u' (-> & R' & O). split; [reflexivity|]. split; [exact O|]. exists t'. split; [exact R'|]. split; [exact Q|reflexivity].
    + apply safe_set'; [exact W|]. intros m1 O1. split; [reflexivity|]. split; [apply (over_outside _ _ _ _ O1)|].
      unfold stands. cbn [HashMem.variant]. rewrite <- (shift_0 c), (over_in _ _ _ _ _ O1) by (cbn; lia). apply HashUseProofs.attained_new.
    + apply safe_set'; [exact W|]. intros m1 O1. split; [reflexivity|]. split; [apply (over_outside _ _ _ _ O1)|].
      unfold stands. cbn [HashMem.variant]. rewrite <- (shift_0 c), (over_in _ _ _ _ _ O1) by (cbn; lia). apply HashUseProofs.attained_new.
    + apply safe_then, safe_set'; [exact W|]. intros m1 O1. apply safe_set'; [exact W|]. intros m2 O2.
      destruct (words_reset _ _ _ _ O1 O2) as [Z O]. split; [reflexivity|]. split; [exact O|]. unfold stands. cbn [HashMem.variant]. rewrite Z.
      apply HashUseProofs.attained_new.
    + apply safe_then, safe_set'; [exact W|]. intros m1 O1. apply safe_set'; [exact W|]. intros m2 O2.
      destruct (words_reset _ _ _ _ O1 O2) as [Z O]. split; [reflexivity|]. split; [exact O|]. unfold stands. cbn [HashMem.variant]. rewrite Z.
      apply HashUseProofs.attained_new.
    + apply safe_then, safe_set'; [exact W|]. intros m1 O1. apply safe_set'; [exact W|]. intros m2 O2.
      destruct (words_reset _ _ _ _ O1 O2) as [Z O]. split; [reflexivity|]. split; [exact O|]. unfold stands. cbn [HashMem.variant]. rewrite Z.
      apply HashUseProofs.attained_new.
Qed.
Lemma new_at (id : perm) k m u : safe id (do_new k) m u (fun c m' u' => c = fresh_at id u /\ u' = grow u true (size_of k)
  /\ outside c (size_of k) m m' /\ stands k m' c []).
Proof.
  unfold do_new. apply safe_then, safe_new'. intros m1 O1. change (mkA id true (u true)) with (fresh_at id u) in *.
  assert (Rd : ready k m1 (fresh_at id u)).
  { unfold ready. destruct (HashMem.variant k) as [v|] eqn:Ev.
    - replace (size_of k) with fields in O1 by (destruct k; try discriminate Ev; reflexivity).
      pose proof (HashUseProofs.ripe_trace v [] (Forall_nil _)) as T. unbind T.
      eexists _, x. split; [apply (new_rep 10 _ _ _ (le_n 10) O1)|]. split; [exact E|]. apply HashUseProofs.reached_new, E.
    - destruct k; try discriminate Ev; try exact Logic.I. assert (W8 : (8 <= 10)%nat) by lia.
      pose proof (HashUseProofs.whirl_trace [] (Forall_nil _)) as T. unbind T.
      eexists _, x. split; [apply (new_rep 8 _ _ _ W8 O1)|]. split; [exact E|]. apply HashUseProofs.reached_new, E. }
  eapply safe_seq; [apply (reset_at id k _ m1 _ Rd (self_wr id))|]. cbn beta. intros _ m2 u2 (-> & O2 & S2). cbn [safe].
  split; [reflexivity|]. split; [reflexivity|]. split; [|exact S2]. apply (outside_trans _ _ _ m1); [|exact O2].
  pose proof (over_outside _ _ _ _ O1) as P. rewrite repeat_length in P. exact P.
Qed.

(** ** A goroutine *)

Lemma digest_bytes k ws : Forall bytes_ok ws -> bytes_ok (digest_of k ws).
Proof.
  intros F. assert (B : bytes_ok (concat ws)) by (induction F; cbn [concat]; [constructor|apply bytes_ok_app; split; assumption]).
  destruct k; cbn [digest_of]; try apply HashUseProofs.flat_little_ok; try apply HashUseProofs.big_endian_ok.
  - apply HashTestProofs.whirlpool_bytes, B.
  - constructor; [|constructor]. apply ChecksumProofs.xor_all_byte, B.
  - constructor; [|constructor]. pose proof (Z.mod_pos_bound (ChecksumSpec.alternating ws) 256 eq_refl) as X.
    apply N2Z.inj_lt. rewrite Z2N.id by apply X. apply X.
Qed.

Section Goroutine.
Context (id : nat) (shared : list object) (ours : list (kind * list (list N))) (before : nat).
Context (Main : id = O -> shared = [] /\ before = O).

Definition stands_for (m : memory) (os : list object) (hs : list (kind * list (list N))) : Prop :=
  length os = length hs /\ forall i k c, nth_error os i = Some (k, c) ->
    lib c = true /\ exists ws, nth_error hs i = Some (k, ws) /\ stands k m c ws /\ Forall bytes_ok ws.
Definition owns (u : bool -> nat) (os : list object) : Prop :=
  (forall i k c, nth_error os i = Some (k, c) -> who c = id /\ (num c + size_of k <= u true)%nat)
  /\ forall i j k c k' c', i <> j -> nth_error os i = Some (k, c) -> nth_error os j = Some (k', c') ->
     (num c + size_of k <= num c' \/ num c' + size_of k' <= num c)%nat.
Definition Inv (m : memory) (u : bool -> nat) (st : local) (mine : list object) : Prop :=
  (forall x, lib x = false -> may id x -> m x = text st x /\ text st x < 256) /\ u false = made st
  /\ stands_for m mine (hashes st) /\ owns u mine
  /\ stands_for m shared ours /\ forall i k c, nth_error shared i = Some (k, c) -> who c = O.

Lemma stands_for_same m m' os hs : stands_for m os hs ->
  (forall i k c j, nth_error os i = Some (k, c) -> (j < size_of k)%nat -> m' (shift c j) = m (shift c j)) -> stands_for m' os hs.
Proof.
  intros [L H] E. split; [exact L|]. intros i k c Ei. destruct (H i k c Ei) as (Lc & ws & Eh & St & F). split; [exact Lc|]. exists ws.
  split; [exact Eh|]. split; [|exact F]. apply (stands_same k m m' c ws); [|exact St]. intros j Hj. apply (E i k c j Ei Hj).
Qed.
Lemma stands_for_at m os hs i k ws : stands_for m os hs -> nth_error hs i = Some (k, ws) ->
  exists c, nth_error os i = Some (k, c) /\ lib c = true /\ stands k m c ws /\ Forall bytes_ok ws.
Proof.
  intros [L H] E. destruct (nth_error os i) as [[k' c]|] eqn:Eo.
  - destruct (H i k' c Eo) as (Lc & ws' & E' & St & F). rewrite E in E'. injection E' as <- <-. exists c. auto.
  - apply nth_error_None in Eo. assert (i < length hs)%nat by (apply nth_error_Some; congruence). lia.
Qed.

(** Bytes change or are made, objects stay. *)
Lemma Inv_bytes m u st mine m' u' t n : Inv m u st mine ->
  (forall y, lib y = true -> ~ (who y = id /\ (u true <= num y)%nat) -> m' y = m y) -> (u true <= u' true)%nat ->
  (forall x, lib x = false -> may id x -> m' x = t x /\ t x < 256) -> u' false = n ->
  Inv m' u' (mkLocal t n (hashes st)) mine.
Proof.
  intros (I1 & I2 & I3 & I4 & I5 & I6) K U T E. unfold Inv. cbn [text made hashes]. split; [exact T|]. split; [exact E|]. split; [|split; [|split; [|exact I6]]].
  - apply (stands_for_same m); [exact I3|]. intros i k c j Ei Hj. destruct (proj1 I4 i k c Ei) as [Wc Nc]. apply K.
    + cbn [lib shift]. apply (proj2 I3 i k c Ei).
    + cbn [who num shift]. lia.
  - destruct I4 as [I4 D]. split; [|exact D]. intros i k c Ei. destruct (I4 i k c Ei). split; [assumption|lia].
  - apply (stands_for_same m); [exact I5|]. intros i k c j Ei Hj. apply K.
    + cbn [lib shift]. apply (proj2 I5 i k c Ei).
    + cbn [who num shift]. rewrite (I6 i k c Ei). intros [X _]. symmetry in X. destruct (Main X) as [Y _]. rewrite Y in Ei. destruct i; discriminate Ei.
Qed.
(** An object of its own changes. *)
Lemma Inv_object m u st mine i k c ws m' ws' : Inv m u st mine -> nth_error mine i = Some (k, c) -> nth_error (hashes st) i = Some (k, ws) ->
  outside c (size_of k) m m' -> stands k m' c ws' -> Forall bytes_ok ws' ->
  Inv m' u (mkLocal (text st) (made st) (replaced i (k, ws') (hashes st))) mine.
Proof.
  intros (I1 & I2 & I3 & I4 & I5 & I6) Ei Eh O St F. unfold Inv. cbn [text made hashes].
  pose proof (proj2 I3 i k c Ei) as (Lc & _). destruct (proj1 I4 i k c Ei) as [Wc Nc].
  split; [|split; [exact I2|split; [|split; [exact I4|split; [|exact I6]]]]].
  - intros x Lx Mx. rewrite (O x); [apply I1; assumption|]. apply within_not. intros (_ & X & _). congruence.
  - split; [rewrite replaced_length; apply I3|]. intros j k' c' Ej. destruct (proj2 I3 j k' c' Ej) as (Lc' & ws1 & Eh' & St' & F'). split; [exact Lc'|].
    rewrite nth_replaced. destruct (Nat.eqb_spec i j) as [<-|N].
    + rewrite Ei in Ej. injection Ej as <- <-. rewrite Eh. exists ws'. auto.
    + exists ws1. split; [exact Eh'|]. split; [|exact F']. apply (stands_same k' m m' c' ws1); [|exact St']. intros b Hb. apply O, within_not.
      cbn [who lib num shift]. destruct (proj2 I4 i j k c k' c' N Ei Ej); lia.
  - apply (stands_for_same m); [exact I5|]. intros j k' c' b Ej Hb. apply O, within_not. cbn [who lib num shift]. rewrite (I6 j k' c' Ej).
    intros (X & _). assert (Y : id = 0%nat) by congruence. destruct (Main Y) as [Y' _]. rewrite Y' in Ej. destruct j; discriminate Ej.
Qed.
Lemma nth_snoc {A} (l : list A) x i y : nth_error (l ++ [x]) i = Some y -> nth_error l i = Some y \/ i = length l /\ y = x.
Proof.
  destruct (Nat.lt_ge_cases i (length l)) as [L|L]; [rewrite nth_error_app1 by exact L; auto|]. rewrite nth_error_app2 by exact L.
  destruct (i - length l)%nat as [|[|]] eqn:E; cbn [nth_error]; try discriminate. intros H. injection H as <-. right. split; [lia|reflexivity].
Qed.
Lemma Inv_new m u st mine k m' : Inv m u st mine -> outside (fresh_at id u) (size_of k) m m' -> stands k m' (fresh_at id u) [] ->
  Inv m' (grow u true (size_of k)) (mkLocal (text st) (made st) (hashes st ++ [(k, [])])) (mine ++ [(k, fresh_at id u)]).
Proof.
  intros (I1 & I2 & I3 & I4 & I5 & I6) O St. unfold Inv. cbn [text made hashes].
  split; [|split; [|split; [|split; [|split; [|exact I6]]]]].
  - intros x Lx Mx. rewrite (O x); [apply I1; assumption|]. apply within_not. cbn [lib fresh_at]. intros (_ & X & _). congruence.
  - unfold grow. cbn [Bool.eqb]. exact I2.
  - split; [rewrite !app_length; cbn [length]; f_equal; apply I3|]. intros i k' c Ei. apply nth_snoc in Ei. destruct Ei as [Ei|[-> Ei]].
    + destruct (proj2 I3 i k' c Ei) as (Lc & ws & Eh & St' & F). split; [exact Lc|]. exists ws.
      rewrite nth_error_app1 by (apply nth_error_Some; congruence). split; [exact Eh|]. split; [|exact F].
      apply (stands_same k' m m' c ws); [|exact St']. intros b Hb. apply O, within_not. cbn [who lib num shift fresh_at].
      destruct (proj1 I4 i k' c Ei). lia.
    + injection Ei as -> ->. split; [reflexivity|]. exists []. rewrite nth_error_app2 by (rewrite (proj1 I3); lia).
      rewrite (proj1 I3), Nat.sub_diag. split; [reflexivity|]. split; [exact St|constructor].
  - destruct I4 as [I4 D]. split.
    + intros i k' c Ei. rewrite grow_same. apply nth_snoc in Ei. destruct Ei as [Ei|[-> Ei]]; [destruct (I4 i k' c Ei); split; [assumption|lia]|].
      injection Ei as -> ->. split; [reflexivity|]. cbn [num fresh_at]. lia.
    + intros i j k1 c1 k2 c2 N Ei Ej. apply nth_snoc in Ei, Ej. destruct Ei as [Ei|[-> Ei]], Ej as [Ej|[-> Ej]].
      * apply (D i j k1 c1 k2 c2 N Ei Ej).
      * injection Ej as -> ->. left. destruct (I4 i k1 c1 Ei). cbn [num fresh_at]. lia.
      * injection Ei as -> ->. right. destruct (I4 j k2 c2 Ej). cbn [num fresh_at]. lia.
      * contradiction.
  - apply (stands_for_same m); [exact I5|]. intros j k' c' b Ej Hb. apply O, within_not. cbn [who lib num shift fresh_at]. rewrite (I6 j k' c' Ej).
    intros (X & _). symmetry in X. destruct (Main X) as [Y' _]. rewrite Y' in Ej. destruct j; discriminate Ej.
Qed.

Lemma bytes_cells m u st mine s : Inv m u st mine -> slice_ok id before st s -> bytes_of st s = cells m (base s) (slen s) /\ bytes_ok (bytes_of st s).
Proof.
  intros (I1 & _) (_ & Ls & Ms & _). split.
  - apply map_ext. intros j. symmetry. apply I1; [exact Ls|exact Ms].
  - apply Forall_forall. intros x Hx. apply in_map_iff in Hx. destruct Hx as (j & <- & _). apply I1; [exact Ls|exact Ms].
Qed.
Lemma over_text m u st mine a xs x : Inv m u st mine -> bytes_ok xs -> lib x = false -> may id x ->
  over m a xs x = overwrite (text st) a xs x /\ overwrite (text st) a xs x < 256.
Proof.
  intros (I1 & _) B Lx Mx. unfold over, overwrite. destruct (within_spec a (length xs) x) as [(_ & _ & W)|_].
  - split; [reflexivity|]. apply (proj1 (Forall_forall _ _) B). apply nth_In. lia.
  - apply I1; assumption.
Qed.

Lemma act_ok m u st mine a : Inv m u st mine -> allowed id ours before st a ->
  safe id (do_act shared mine a) m u (fun r m' u' => snd r = snd (effect id ours st a) /\ Inv m' u' (fst (effect id ours st a)) (fst r)).
Proof.
  intros Iv Al. pose proof Iv as (I1 & I2 & I3 & I4 & I5 & I6).
  destruct a as [k|h p|h inp room|h|n c|s j v|s j]; cbn [allowed do_act effect] in *.
  - eapply safe_seq; [apply (new_at id k m u)|]. cbn beta. intros c m' u' (-> & -> & O & St). cbn [safe fst snd]. split; [reflexivity|].
    apply (Inv_new m u st mine k m' Iv O St).
  - destruct Al as (Hp & i & k & ws & -> & Eh & Ht). destruct (stands_for_at _ _ _ _ _ _ I3 Eh) as (c & Ec & Lc & St & F).
    destruct (bytes_cells _ _ _ _ _ Iv Hp) as [Eb Bb]. cbn [becomes_text object_of]. rewrite Eh. apply safe_then.
    apply (safe_lift _ _ _ _ _ _ (HashUseProofs.idx_obj _ _ _ Ec)). rewrite Eb in *.
    destruct Hp as (_ & Lp & Mp & _). destruct (proj1 I4 i k c Ec) as [Wc Nc].
    eapply safe_seq; [apply (write_at id k c p m u ws St Wc Lc Mp Lp Bb Ht)|]. cbn beta. intros n m' u' (-> & -> & O & St'). cbn [safe fst snd].
    split; [reflexivity|]. apply (Inv_object m u st mine i k c ws m' _ Iv Ec Eh O St'). apply Forall_app. split; [exact F|]. constructor; [exact Bb|constructor].
  - destruct Al as (Hp & k & ws & Eo & Wi). rewrite Eo.
    assert (Ob : exists c, (match h with Mine i => nth_error mine i | Ours i => nth_error shared i end) = Some (k, c)
      /\ stands k m c ws /\ Forall bytes_ok ws /\ may id c /\ settled id u c (size_of k)).
    { destruct h as [i|i]; cbn [object_at] in Eo.
      - destruct (stands_for_at _ _ _ _ _ _ I3 Eo) as (c & Ec & Lc & St & F). exists c. destruct (proj1 I4 i k c Ec) as [Wc Nc].
        repeat split; try assumption; [left; exact Wc|]. intros b Hb. cbn [who lib num shift]. lia.
      - destruct (stands_for_at _ _ _ _ _ _ I5 Eo) as (c & Ec & Lc & St & F). exists c. pose proof (I6 i k c Ec) as Wc.
        repeat split; try assumption; [right; exact Wc|]. intros b Hb. cbn [who lib num shift]. rewrite Wc. intros (X & _).
        symmetry in X. destruct (Main X) as [Y _]. rewrite Y in Ec. destruct i; discriminate Ec. }
    destruct Ob as (c & Ec & St & F & Mc & Sc). apply safe_then. unfold object_of.
    assert (Ei : match h with Mine i => idx mine i | Ours i => idx shared i end = Ret (k, c)) by (destruct h; apply HashUseProofs.idx_obj; exact Ec).
    apply (safe_lift _ _ _ _ _ _ Ei). destruct (bytes_cells _ _ _ _ _ Iv Hp) as [Eb Bb]. pose proof Hp as (Lp & Li & Mi & Rp).
    pose proof (digest_bytes k ws F) as Bd.
    eapply safe_seq; [apply (sum_at id k c inp room m u ws St Mc Sc Mi Li)|].
    + intros b Hb. apply within_not. cbn [who lib num]. intros (X & Y & Z). destruct (Rp b) as [R|(R1 & R2 & R3)]; [lia| |].
      * destruct R as (_ & _ & R). cbn [who lib num shift] in *. lia.
      * rewrite R2 in X. destruct (Main (eq_sym X)) as [_ X']. lia.
    + intros Ne Lo. destruct (Wi Lo (slen inp)) as (_ & W & _); [destruct (digest_of k ws); [contradiction|cbn [length]; lia]|exact W].
    + cbn beta. intros s m' u' (A1 & A2 & A3). cbn [safe fst snd]. cbv zeta in A3. 
      destruct (Nat.leb (slen inp + length (digest_of k ws)) (scap inp)).
      * destruct A3 as (-> & A3 & A4). cbn [fst snd]. split; [reflexivity|].
        apply (Inv_bytes m u st mine m' u' _ _ Iv A1 A2); [|congruence]. intros x Lx Mx. rewrite (A4 x Lx).
        apply (over_text _ _ _ _ _ _ _ Iv Bd Lx Mx).
      * destruct A3 as (-> & A3 & A4). cbn [fst snd]. split; [rewrite I2; reflexivity|].
        apply (Inv_bytes m u st mine m' u' _ _ Iv A1 A2); [|rewrite <- I2; exact A3]. intros x Lx Mx. rewrite (A4 x Lx), Eb, I2.
        apply (over_text _ _ _ _ _ _ _ Iv); [|exact Lx|exact Mx]. rewrite <- Eb. apply bytes_ok_app. split; [exact Bb|]. apply bytes_ok_app. split; [exact Bd|].
        apply Forall_forall. intros y Hy. apply repeat_spec in Hy. subst y. reflexivity.
  - destruct Al as (i & [k ws] & -> & Eh). destruct (stands_for_at _ _ _ _ _ _ I3 Eh) as (c & Ec & Lc & St & F). destruct (proj1 I4 i k c Ec) as [Wc Nc].
    cbn [becomes_text object_of]. rewrite Eh. apply safe_then.
    apply (safe_lift _ _ _ _ _ _ (HashUseProofs.idx_obj _ _ _ Ec)).
    eapply safe_seq; [apply (reset_at id k c m u (ready_stands _ _ _ _ St) Wc)|]. cbn beta. intros _ m' u' (-> & O & St'). cbn [safe fst snd].
    split; [reflexivity|]. apply (Inv_object m u st mine i k c ws m' _ Iv Ec Eh O St'). constructor.
  - apply safe_then, safe_new'. intros m' O. cbn [safe fst snd]. rewrite I2 in *. split; [reflexivity|].
    apply (Inv_bytes m u st mine m' _ _ _ Iv).
    + intros y Ly _. apply (over_out _ _ _ _ _ O), within_not. cbn [lib]. intros (_ & X & _). congruence.
    + unfold grow. cbn [Bool.eqb]. lia.
    + intros x Lx Mx. rewrite O. apply (over_text _ _ _ _ _ _ _ Iv); [|exact Lx|exact Mx].
      apply Forall_forall. intros y Hy. apply repeat_spec in Hy. subst y. reflexivity.
    + rewrite grow_same, I2. reflexivity.
  - destruct Al as (Hs & Hj & Ho & Hv). rewrite (proj2 (Nat.ltb_lt _ _) Hj). destruct Ho as (Lo & Wo & No).
    apply safe_then, safe_set'; [exact Wo|]. intros m' O. cbn [safe fst snd]. split; [reflexivity|].
    apply (Inv_bytes m u st mine m' u _ _ Iv); try lia.
    + intros y Ly _. apply (over_out _ _ _ _ _ O), within_not. intros (_ & X & _). congruence.
    + intros x Lx Mx. rewrite O. apply (over_text _ _ _ _ _ _ _ Iv); [|exact Lx|exact Mx]. constructor; [exact Hv|constructor].
  - destruct Al as (Hs & Hj). rewrite (proj2 (Nat.ltb_lt _ _) Hj). destruct Hs as (_ & Ls & Ms & _).
    apply safe_then, safe_get; [exact Ms|]. cbn [safe fst snd]. split; [|exact Iv]. f_equal. apply I1; [exact Ls|exact Ms].
Qed.

Lemma behave_ok g : forall m u st mine, Inv m u st mine -> plays_fair id ours before st g ->
  safe id (behave shared mine g) m u (fun r m' u' => fst r = fst (expects id ours st g) /\ Inv m' u' (snd (expects id ours st g)) (snd r)).
Proof.
  induction g as [|a k IH]; intros m u st mine Iv Pf; cbn [plays_fair behave expects] in *.
  - cbn [safe fst snd]. split; [reflexivity|exact Iv].
  - destruct Pf as [Al Pf]. eapply safe_seq; [apply (act_ok m u st mine a Iv Al)|]. cbn beta. intros [mine' r] m' u' [Er Iv']. cbn [fst snd] in *.
    destruct (effect id ours st a) as [st' r'] eqn:Ee. cbn [fst snd] in *. subst r'.
    eapply safe_seq; [apply (IH r m' u' st' mine' Iv' Pf)|]. cbn beta. intros [rs mine''] m'' u'' [Ers Iv'']. cbn [safe fst snd] in *.
    destruct (expects id ours st' (k r)) as [rs' st'']. cbn [fst snd] in *. subst rs'. split; [reflexivity|exact Iv''].
Qed.
End Goroutine.

(** ** Programs: a goroutine that starts others and waits *)

Lemma start_Inv : Inv 0 [] [] (fun _ => 0) none start [].
Proof.
  repeat split; try reflexivity; try (destruct i; discriminate); try (intros i k c E; destruct i; discriminate E).
Qed.
Lemma found_Inv i objs m u st : Inv 0 [] [] m u st objs -> (forall a, who a <> 0%nat -> m a = 0) ->
  Inv (S i) objs (hashes st) m none (found st) [].
Proof.
  intros (I1 & I2 & I3 & I4 & I5 & I6) Z. unfold Inv, found. cbn [text made hashes]. split; [|split; [reflexivity|split; [|split; [|split; [exact I3|]]]]].
  - intros x Lx Mx. destruct (Nat.eqb_spec (who x) 0) as [E|E]; [apply I1; [exact Lx|left; exact E]|]. rewrite (Z x E). split; reflexivity.
  - split; [reflexivity|]. intros j k c E. destruct j; discriminate E.
  - split; [intros j k c E; destruct j; discriminate E|]. intros j j' k c k' c' _ E. destruct j; discriminate E.
  - intros j k c E. apply (proj1 I4 j k c E).
Qed.

Section Program.
Context (g0 : goroutine) (gs : list goroutine).
Let st0 := snd (expects 0 [] start g0).
Definition ends_well (i : nat) (r : list reply * list object) (m : memory) : Prop :=
  exists g, nth_error gs i = Some g /\ let '(rs, st) := expects (S i) (hashes st0) (found st0) g in
    fst r = rs /\ forall x, lib x = false -> may (S i) x -> m x = text st x.
Lemma ends_well_local i : concerns (S i) (ends_well i).
Proof.
  intros r m m' A (g & E & H). exists g. split; [exact E|]. destruct (expects (S i) (hashes st0) (found st0) g) as [rs st]. destruct H as [-> H].
  split; [reflexivity|]. intros x Lx Mx. rewrite (A x Mx). apply (H x Lx Mx).
Qed.

Lemma main_ok : plays_fair 0 [] 0 start g0 ->
  exists objs m u, alone 0 (behave [] [] g0) (fun _ => 0) none = Some ((fst (expects 0 [] start g0), objs), m, u)
    /\ Inv 0 [] [] m u st0 objs /\ forall a, who a <> 0%nat -> m a = 0.
Proof.
  intros Pf. destruct (safe_alone _ _ _ _ _ (behave_ok 0 [] [] 0 (fun _ => conj eq_refl eq_refl) g0 _ _ _ _ start_Inv Pf)) as ([rs objs] & m & u & E & [Er Iv] & F).
  cbn [fst snd] in *. subst rs. exists objs, m, u. split; [exact E|]. split; [exact Iv|exact F].
Qed.
Lemma started_fine objs m u : (forall i g, nth_error gs i = Some g -> plays_fair (S i) (hashes st0) (made st0) (found st0) g) ->
  Inv 0 [] [] m u st0 objs -> (forall a, who a <> 0%nat -> m a = 0) ->
  fine ends_well (m, map (fun g => mkT (behave objs [] g) none) gs).
Proof.
  intros Pf Iv Z i t Ht. cbn [fst snd] in *. rewrite nth_error_map in Ht. destruct (nth_error gs i) as [g|] eqn:Eg; [|discriminate].
  cbn [option_map] in Ht. injection Ht as <-. cbn [todo used].
  assert (Mn : S i = 0%nat -> objs = [] /\ made st0 = 0%nat) by discriminate.
  eapply safe_mono; [apply (behave_ok (S i) objs (hashes st0) (made st0) Mn g _ _ _ _ (found_Inv i objs m u st0 Iv Z) (Pf i g Eg))|].
  cbn beta. intros [rs mine] m' u' [Er (I1 & _)]. cbn [fst snd] in *. exists g. split; [exact Eg|].
  destruct (expects (S i) (hashes st0) (found st0) g) as [rs' st']. cbn [fst snd] in *. split; [exact Er|]. intros x Lx Mx. apply I1; assumption.
Qed.
End Program.
