(** Every operation of a program on its hashes keeps the promises of
    Spec/HashUseSpec.v. *)
From Verif Require Import Base.Go Base.Mem Base.Heap Base.DigestApi Base.HashApi Base.HashUse.
From Verif Require Import Model.HashMem Spec.DigestSpec Spec.HashUseSpec.
From Verif Require Import Proofs.Util Proofs.BytesProofs Proofs.HeapProofs Proofs.DigestProofs Proofs.HashMemProofs.
From Verif Require Model.Ripemd Model.Whirlpool Model.Bcc Model.Lrc Model.Fletcher.
From Verif Require Spec.ChecksumSpec Spec.RipemdSpec Spec.WhirlpoolSpec Proofs.HashRun Proofs.RipemdProofs Proofs.WhirlpoolProofs
  Proofs.ChecksumProofs Proofs.FletcherProofs Proofs.Fletcher16Proofs.
Local Open Scope N_scope.

(** ** Contexts that a history reaches *)

Lemma hrun_app {St} (step : St -> hcall -> outcome (St * hresult)) cs1 cs2 : forall s,
  hrun step s (cs1 ++ cs2) = let! (s1, r1) := hrun step s cs1 in let! (s2, r2) := hrun step s1 cs2 in Ret (s2, r1 ++ r2).
Proof.
  induction cs1 as [|c cs1 IH]; intros s; cbn [app hrun].
  - cbn [bind]. destruct (hrun step s cs2) as [[s2 r2]| |]; reflexivity.
  - destruct (step s c) as [[s' r]| |]; cbn [bind]; try reflexivity.
    rewrite IH. destruct (hrun step s' cs1) as [[s1 r1]| |]; cbn [bind]; try reflexivity.
    destruct (hrun step s1 cs2) as [[s2 r2]| |]; reflexivity.
Qed.
Lemma written_app cs1 cs2 : forall m, written m (cs1 ++ cs2) = written (written m cs1) cs2.
Proof. induction cs1 as [|[] cs1 IH]; intros m; cbn [app written]; auto. Qed.

Section Reached.
Context (step : ctx -> hcall -> outcome (ctx * hresult)) (new : outcome ctx) (digest : list N -> list N) (size bsize : nat).
Context (T : forall cs, hcalls_ok cs -> (let! c := new in hobserve step c cs) = Ret (hash_trace digest size bsize [] cs)).

Definition reached (c : ctx) (m : list N) : Prop :=
  exists c0 cs rs, new = Ret c0 /\ hcalls_ok cs /\ hrun step c0 cs = Ret (c, rs) /\ written [] cs = m.

Lemma reached_step c m q : reached c m -> hcall_ok q ->
  exists c' r, step c q = Ret (c', r) /\ reached c' (written m [q]) /\ [r] = hash_trace digest size bsize m [q].
Proof.
  intros (c0 & cs & rs & E0 & Hcs & Er & <-) Hq.
  assert (Hok : hcalls_ok (cs ++ [q])) by (apply Forall_app; split; [exact Hcs|repeat constructor; exact Hq]).
  pose proof (T cs Hcs) as T1. pose proof (T (cs ++ [q]) Hok) as T2.
  rewrite E0 in T1, T2. cbn [bind] in T1, T2. unfold hobserve in T1, T2. rewrite Er in T1. cbn [bind] in T1.
  rewrite hrun_app, Er in T2. cbn [bind hrun] in T2.
  destruct (step c q) as [[c' r]| |] eqn:Es; cbn [bind] in T2; try discriminate.
  exists c', r. split; [reflexivity|]. split.
  - exists c0, (cs ++ [q]), (rs ++ [r]). repeat split; try assumption.
    + rewrite hrun_app, Er. cbn [bind hrun]. rewrite Es. reflexivity.
    + apply written_app.
  - injection T1 as T1. injection T2 as T2. rewrite hash_trace_app in T2. rewrite <- T1 in T2.
    apply app_inv_head in T2. exact T2.
Qed.
Lemma reached_new c0 : new = Ret c0 -> reached c0 [].
Proof. intros E. exists c0, [], []. repeat split; [exact E|constructor]. Qed.
End Reached.

Section ReachedSum.
Context {St : Type} (step : St -> call -> outcome (St * result)) (new : St) (value : list (list N) -> N)
  (ser : N -> list N) (size bsize : nat) (ok : list N -> Prop).
Context (T : forall cs, calls_ok cs -> writes_ok ok cs ->
  observe step new cs = Ret (ChecksumSpec.trace value ser size bsize [] cs)).

Definition attained (d : St) (ws : list (list N)) : Prop :=
  exists cs rs, calls_ok cs /\ writes_ok ok cs /\ run step new cs = Ret (d, rs) /\ ChecksumSpec.since_reset [] cs = ws.

Lemma since_reset_app cs1 cs2 : forall ws,
  ChecksumSpec.since_reset ws (cs1 ++ cs2) = ChecksumSpec.since_reset (ChecksumSpec.since_reset ws cs1) cs2.
Proof. induction cs1 as [|[] cs1 IH]; intros m; cbn [app ChecksumSpec.since_reset]; auto. Qed.
Lemma trace_app cs1 cs2 : forall ws, ChecksumSpec.trace value ser size bsize ws (cs1 ++ cs2) =
  ChecksumSpec.trace value ser size bsize ws cs1 ++ ChecksumSpec.trace value ser size bsize (ChecksumSpec.since_reset ws cs1) cs2.
Proof. induction cs1 as [|[] cs1 IH]; intros m; cbn [app ChecksumSpec.trace ChecksumSpec.since_reset]; try rewrite IH; reflexivity. Qed.

Lemma attained_step d ws q : attained d ws -> call_ok q -> writes_ok ok [q] ->
  exists d' r, step d q = Ret (d', r) /\ attained d' (ChecksumSpec.since_reset ws [q])
    /\ [r] = ChecksumSpec.trace value ser size bsize ws [q].
Proof.
  intros (cs & rs & Hcs & Hw & Er & <-) Hq Hqw.
  assert (Hok : calls_ok (cs ++ [q])) by (apply Forall_app; split; [exact Hcs|repeat constructor; exact Hq]).
  assert (Hok' : writes_ok ok (cs ++ [q])) by (apply Forall_app; split; assumption).
  pose proof (T cs Hcs Hw) as T1. pose proof (T (cs ++ [q]) Hok Hok') as T2.
  unfold observe in T1, T2. rewrite Er in T1. cbn [bind] in T1.
  rewrite HashRun.run_app, Er in T2. cbn [bind run] in T2.
  destruct (step d q) as [[d' r]| |] eqn:Es; cbn [bind] in T2; try discriminate.
  exists d', r. split; [reflexivity|]. split.
  - exists (cs ++ [q]), (rs ++ [r]). repeat split; try assumption.
    + rewrite HashRun.run_app, Er. cbn [bind run]. rewrite Es. reflexivity.
    + apply since_reset_app.
  - injection T1 as T1. injection T2 as T2. rewrite trace_app in T2. rewrite <- T1 in T2.
    apply app_inv_head in T2. exact T2.
Qed.
Lemma attained_new : attained new [].
Proof. exists [], []. repeat split; constructor. Qed.
End ReachedSum.

(** ** Objects and what was written to them *)

Definition anything (p : list N) : Prop := True.
Definition ripe_reached v := reached (Ripemd.step (Ripemd.hash_fn v) (Ripemd.state_len v)) (Ripemd.New (Ripemd.state_len v)).
Definition whirl_reached := reached Whirlpool.step Whirlpool.New.

Definition stands (k : kind) (m : mem) (o : object) (ws : list (list N)) : Prop :=
  match o with
  | Block c => exists t, rep m c t /\
      match variant k with
      | Some v => ripe_reached v t (concat ws)
      | None => k = KWhirlpool /\ whirl_reached t (concat ws) /\ N.of_nat (length (concat ws)) < 2 ^ 64
      end
  | Byte d =>
      match k with
      | KBcc => attained Bcc.step Bcc.New anything d ws /\ Forall bytes_ok ws
      | KLrc => attained Lrc.step Lrc.New anything d ws
      | _ => False
      end
  | Words d =>
      match k with
      | KFletcher16 => attained Fletcher.step16 Fletcher.New ChecksumSpec.f16_len d ws
      | KFletcher32 => attained Fletcher.step32 Fletcher.New anything d ws
      | KFletcher64 => attained Fletcher.step64 Fletcher.New anything d ws
      | _ => False
      end
  end.
(** The memory that belongs to an object. *)
Definition private (o : object) (a : nat) : Prop :=
  match o with Block c => (oblock c <= a < oblock c + 64)%nat | _ => False end.

Lemma stands_frame k m m' o ws : (forall a, private o a -> m' a = m a) -> stands k m o ws -> stands k m' o ws.
Proof.
  intros H. destruct o as [c|d|d]; [|auto|auto]. cbn [stands]. intros (t & (R1 & R2 & R3 & R4) & Q). exists t. split; [|exact Q].
  unfold rep. repeat split; try assumption. rewrite <- R4. apply read_ext. exact H.
Qed.

Lemma ripe_trace v cs : hcalls_ok cs ->
  (let! c := Ripemd.New (Ripemd.state_len v) in hobserve (Ripemd.step (Ripemd.hash_fn v) (Ripemd.state_len v)) c cs)
  = Ret (hash_trace (RipemdProofs.spec_of v) (4 * Ripemd.state_len v) 64 [] cs).
Proof. apply (RipemdProofs.use_trace v cs). Qed.
Lemma whirl_trace cs : hcalls_ok cs ->
  (let! c := Whirlpool.New in hobserve Whirlpool.step c cs) = Ret (hash_trace WhirlpoolProofs.wdigest 64 64 [] cs).
Proof. apply (WhirlpoolProofs.use_trace cs). Qed.

Lemma bytes_in_contents m s : bytes_in m s = contents m s.
Proof.
  unfold bytes_in, contents, read. change (at_ s) with (0 + at_ s)%nat at 2. 
  apply (nth_ext _ _ 0 0); [rewrite !map_length, !seq_length; reflexivity|]. intros i Hi. rewrite map_length, seq_length in Hi.
  rewrite (nth_indep _ 0 (m (at_ s + 0)%nat)) by (rewrite map_length, seq_length; exact Hi).
  rewrite (map_nth (fun j => m (at_ s + j)%nat)), seq_nth by exact Hi.
  fold (read m (0 + at_ s) (blen s)). rewrite nth_read by exact Hi. reflexivity.
Qed.

Lemma bcc_trace cs : calls_ok cs -> writes_ok anything cs ->
  observe Bcc.step Bcc.New cs = Ret (ChecksumSpec.trace (fun ws => ChecksumSpec.xor_all (concat ws)) (fun v => [v]) 1 1 [] cs).
Proof. intros _ _. apply ChecksumProofs.bcc_observe. Qed.
Lemma lrc_trace cs : calls_ok cs -> writes_ok anything cs ->
  observe Lrc.step Lrc.New cs = Ret (ChecksumSpec.trace (fun ws => Z.to_N (ChecksumSpec.alternating ws mod 256)) (fun v => [v]) 1 1 [] cs).
Proof. intros _ _. apply ChecksumProofs.lrc_observe. Qed.
Lemma f16_trace cs : calls_ok cs -> writes_ok ChecksumSpec.f16_len cs ->
  observe Fletcher.step16 Fletcher.New cs = Ret (ChecksumSpec.trace ChecksumSpec.f16_value (ChecksumSpec.big_endian 2) 2 1 [] cs).
Proof. intros H. apply (Fletcher16Proofs.f16_exact cs H). Qed.
Lemma f32_trace cs : calls_ok cs -> writes_ok anything cs ->
  observe Fletcher.step32 Fletcher.New cs = Ret (ChecksumSpec.trace
    (fun ws => ChecksumSpec.fletcher 65535 (2 ^ 16) (flat_map ChecksumSpec.words16 ws)) (ChecksumSpec.big_endian 4) 4 2 [] cs).
Proof. intros H _. apply FletcherProofs.fletcher32_observe, H. Qed.
Lemma f64_trace cs : calls_ok cs -> writes_ok anything cs ->
  observe Fletcher.step64 Fletcher.New cs = Ret (ChecksumSpec.trace
    (fun ws => ChecksumSpec.fletcher 4294967295 (2 ^ 32) (flat_map ChecksumSpec.words32 ws)) (ChecksumSpec.big_endian 8) 8 4 [] cs).
Proof. intros H _. apply FletcherProofs.fletcher64_observe, H. Qed.

(** ** Write *)

Lemma write_values_ok {St} (step : St -> call -> outcome (St * result)) new value ser size bsize ok
  (T : forall cs, calls_ok cs -> writes_ok ok cs -> observe step new cs = Ret (ChecksumSpec.trace value ser size bsize [] cs))
  d ws m p : attained step new ok d ws -> mem_ok m -> ok (contents m p) ->
  exists d', write_values step d m p = Ret (d', blen p) /\ attained step new ok d' (ws ++ [contents m p]).
Proof.
  intros A Hm Hok. destruct (attained_step step new value ser size bsize ok T d ws (CWrite (contents m p)) A) as (d' & r & E & A' & Er).
  - cbn [call_ok]. apply read_ok, Hm.
  - repeat constructor; exact Hok.
  - cbn [ChecksumSpec.trace] in Er. injection Er as ->. unfold write_values. rewrite E. cbn [bind]. exists d'.
    split; [|exact A']. unfold contents. rewrite read_length. reflexivity.
Qed.

Definition written_to (h h' : heap) (o o' : object) : Prop :=
  mem_ok (cells h') /\ brk h' = brk h /\ (forall a, ~ private o a -> cells h' a = cells h a) /\ (forall a, private o' a <-> private o a).

Lemma write_object_ok k o h p ws : stands k (cells h) o ws -> mem_ok (cells h) ->
  (forall a, (at_ p <= a < at_ p + blen p)%nat -> ~ private o a) -> can_take k ws (contents (cells h) p) ->
  exists h' o', write_object k o h p = Ret (h', o', blen p) /\ stands k (cells h') o' (ws ++ [contents (cells h) p])
    /\ written_to h h' o o'.
Proof.
  intros S Hm D Ht. destruct o as [c|d|d]; cbn [stands write_object] in *.
  - destruct S as (t & R & Q).
    assert (W : forall hash t' n, keeps_block hash -> Ripemd.Write hash t (contents (cells h) p) = Ret (t', n) ->
      exists h' c', Write hash h c (window p) = Ret (h', c', blen p) /\ rep (cells h') c' t' /\ written_to h h' (Block c) (Block c')).
    { intros hash t' n Hk E.
      destruct (Write_sim hash Hk h c (window p) t t' n R Hm) as (h' & c' & Ew & R' & K & M & B & Bk).
      - exact D.
      - exact E.
      - exists h', c'. cbn [len window] in Ew. split; [exact Ew|]. split; [exact R'|]. unfold written_to. cbn [private]. rewrite B.
        repeat split; try assumption; lia. }
    assert (Bp : bytes_ok (contents (cells h) p)) by (apply read_ok, Hm).
    destruct (variant k) as [v|] eqn:Ev.
    + destruct (reached_step _ _ _ _ _ (ripe_trace v) t (concat ws) (HWrite (contents (cells h) p)) Q Bp) as (t' & r & Es & Q' & _).
      cbn [Ripemd.step] in Es. unbind Es. destruct x as [t1 n]. injection Es as -> _.
      destruct (W _ _ _ (keeps_ripe v) E) as (h' & c' & Ew & R' & Wr). rewrite Ew. cbn [bind].
      exists h', (Block c'). split; [reflexivity|]. split; [|exact Wr]. cbn [stands]. exists t'. split; [exact R'|]. rewrite Ev.
      rewrite concat_app. cbn [concat]. rewrite app_nil_r. exact Q'.
    + destruct Q as (Ek & Q & L). subst k. cbn [can_take] in Ht.
      destruct (reached_step _ _ _ _ _ whirl_trace t (concat ws) (HWrite (contents (cells h) p)) Q Bp) as (t' & r & Es & Q' & _).
      cbn [Whirlpool.step] in Es. unbind Es. destruct x as [t1 n]. injection Es as -> _.
      assert (E' : Ripemd.Write Whirlpool.hash t (contents (cells h) p) = Ret (t', n)).
      { rewrite <- E. unfold Ripemd.Write, Whirlpool.Write. rewrite WhirlpoolProofs.write_loop_same. reflexivity. }
      destruct (W _ _ _ keeps_whirl E') as (h' & c' & Ew & R' & Wr). rewrite Ew. cbn [bind].
      exists h', (Block c'). split; [reflexivity|]. split; [|exact Wr]. cbn [stands]. exists t'. split; [exact R'|]. cbn [variant].
      rewrite concat_app. cbn [concat]. rewrite app_nil_r. repeat split; assumption.
  - assert (Z : written_to h h (Byte d) (Byte d)) by (repeat split; auto).
    destruct k; try contradiction.
    + destruct S as [S F]. destruct (write_values_ok (byte_step KBcc) _ _ _ _ _ _ bcc_trace d ws (cells h) p S Hm Logic.I) as (d' & E & S').
      rewrite E. cbn [bind]. exists h, (Byte d'). repeat split; auto. apply Forall_app. split; [exact F|].
      constructor; [apply read_ok, Hm|constructor].
    + destruct (write_values_ok (byte_step KLrc) _ _ _ _ _ _ lrc_trace d ws (cells h) p S Hm Logic.I) as (d' & E & S').
      rewrite E. cbn [bind]. exists h, (Byte d'). repeat split; auto.
  - destruct k; try contradiction.
    + destruct (write_values_ok (word_step KFletcher16) _ _ _ _ _ _ f16_trace d ws (cells h) p S Hm Ht) as (d' & E & S').
      rewrite E. cbn [bind]. exists h, (Words d'). repeat split; auto.
    + destruct (write_values_ok (word_step KFletcher32) _ _ _ _ _ _ f32_trace d ws (cells h) p S Hm Logic.I) as (d' & E & S').
      rewrite E. cbn [bind]. exists h, (Words d'). repeat split; auto.
    + destruct (write_values_ok (word_step KFletcher64) _ _ _ _ _ _ f64_trace d ws (cells h) p S Hm Logic.I) as (d' & E & S').
      rewrite E. cbn [bind]. exists h, (Words d'). repeat split; auto.
Qed.

(** ** Sum *)

Lemma big_endian_ok n : forall v, bytes_ok (ChecksumSpec.big_endian n v).
Proof.
  induction n as [|n IH]; intros v; cbn [ChecksumSpec.big_endian]; [constructor|]. apply bytes_ok_app. split; [apply IH|].
  constructor; [apply N.mod_lt; discriminate|constructor].
Qed.
Lemma sum_values_ok {St} (step : St -> call -> outcome (St * result)) new value ser size bsize ok
  (T : forall cs, calls_ok cs -> writes_ok ok cs -> observe step new cs = Ret (ChecksumSpec.trace value ser size bsize [] cs))
  d ws room h inp : attained step new ok d ws ->
  sum_values step d room h inp = Ret (append_values room h inp (ser (value ws))).
Proof.
  intros A. destruct (attained_step step new value ser size bsize ok T d ws (CSum []) A) as (d' & r & E & A' & Er).
  - constructor.
  - repeat constructor.
  - cbn [ChecksumSpec.trace] in Er. injection Er as ->. unfold sum_values. rewrite E. reflexivity.
Qed.

Lemma flat_little_ok n l : bytes_ok (flat_map (little_endian n) l).
Proof. induction l as [|x l IH]; cbn [flat_map]; [constructor|]. apply bytes_ok_app. split; [apply little_endian_ok|exact IH]. Qed.

Lemma sum_object_ok k o room h inp ws : stands k (cells h) o ws -> mem_ok (cells h) ->
  (forall a, private o a -> (a < brk h)%nat) -> (blen inp <= bcap inp)%nat -> (bcap inp = 0 \/ at_ inp + bcap inp <= brk h)%nat ->
  exists h' s, sum_object k o room h inp = Ret (h', s) /\ appended (brk h) h inp (digest_of k ws) h' s /\ mem_ok (cells h').
Proof.
  intros S Hm Hp Hl Ha. destruct o as [c|d|d]; cbn [stands sum_object] in *.
  - destruct S as (t & R & Q). assert (Hb : (oblock c + 64 <= brk h)%nat) by (specialize (Hp (oblock c + 63)%nat); cbn [private] in Hp; lia).
    assert (W : forall g outs out, before_append h g outs out ->
      exists h' s, append room g inp outs = (h', s) /\ appended (brk h) h inp out h' s /\ mem_ok (cells h')).
    { intros g outs out (B1 & B2 & B3 & B4 & B5 & B6). destruct (append room g inp outs) as [h' s] eqn:Ea.
      exists h', s. split; [reflexivity|].
      destruct (append_spec room (brk h) g inp outs h' s Ea) as [A M]; try lia; try assumption.
      split; [|exact M]. rewrite B4 in A. destruct A as (A1 & A2 & A3 & A4).
      assert (C : contents (cells g) inp = contents (cells h) inp) by (apply (keeps_read _ _ _ _ _ _ B5); lia).
      rewrite C in A2. unfold appended. split; [lia|]. split; [exact A2|]. split; [exact A3|].
      destruct (Nat.leb (blen inp + length out) (bcap inp)).
      - destruct A4 as (D1 & D2 & D3). repeat split; try assumption. intros x Hx Hn. rewrite D3 by assumption. apply B5. lia.
      - destruct A4 as (D1 & D2 & D3). repeat split; try assumption. intros x Hx. rewrite D3 by assumption. apply B5. lia. }
    destruct (variant k) as [v|] eqn:Ev.
    + destruct (reached_step _ _ _ _ _ (ripe_trace v) t (concat ws) (HSum []) Q (Forall_nil _)) as (t' & r & Es & _ & Er).
      cbn [hash_trace app] in Er. injection Er as ->. cbn [Ripemd.step] in Es. unbind Es. destruct x as [t1 out]. injection Es as _ Eo.
      assert (E' : Ripemd.Sum (Ripemd.hash_fn v) (Ripemd.state_len v) t [] = Ret (t, out)).
      { rewrite E. f_equal. f_equal. clear - E. unfold Ripemd.Sum in E. cbv zeta in E. repeat unbind E. congruence. }
      destruct (SumRipe_sim _ (keeps_ripe v) room _ h c inp t out R Hb Hm E') as (g & outs & Eg & B).
      destruct (W _ _ _ B) as (h' & s & Ea & A & M). rewrite Eg, Ea. exists h', s. split; [reflexivity|]. split; [|exact M].
      replace (digest_of k ws) with out; [exact A|]. rewrite Eo. destruct k; try discriminate Ev; injection Ev as <-; reflexivity.
    + destruct Q as (Ek & Q & L). subst k.
      destruct (reached_step _ _ _ _ _ whirl_trace t (concat ws) (HSum []) Q (Forall_nil _)) as (t' & r & Es & _ & Er).
      cbn [hash_trace app] in Er. injection Er as ->. cbn [Whirlpool.step] in Es. unbind Es. destruct x as [t1 out]. injection Es as _ Eo.
      assert (E' : Whirlpool.Sum t [] = Ret (t, out)).
      { rewrite E. f_equal. f_equal. clear - E. unfold Whirlpool.Sum in E. cbv zeta in E. repeat unbind E. congruence. }
      destruct (SumWhirl_sim room h c inp t out R Hb Hm E') as (g & outs & Eg & B).
      destruct (W _ _ _ B) as (h' & s & Ea & A & M). rewrite Eg, Ea. exists h', s. split; [reflexivity|]. split; [|exact M].
      cbn [digest_of]. rewrite <- WhirlpoolProofs.wdigest_published by exact L. rewrite <- Eo. exact A.
  - assert (W : forall d, bytes_ok d -> exists h' s, append_values room h inp d = (h', s) /\ appended (brk h) h inp d h' s /\ mem_ok (cells h')).
    { intros b Hb. destruct (append_values room h inp b) as [h' s] eqn:E. exists h', s. split; [reflexivity|].
      apply (append_values_spec room h inp b h' s E); assumption. }
    destruct k; try contradiction.
    + destruct S as [S F]. rewrite (sum_values_ok (byte_step KBcc) _ _ _ _ _ _ bcc_trace d ws room h inp S). cbn [digest_of].
      destruct (W [ChecksumSpec.xor_all (concat ws)]) as (h' & s & E & A); [|rewrite E; exists h', s; split; [reflexivity|exact A]].
      constructor; [|constructor]. apply ChecksumProofs.xor_all_byte. clear - F. induction F; cbn [concat]; [constructor|]. apply bytes_ok_app. split; assumption.
    + rewrite (sum_values_ok (byte_step KLrc) _ _ _ _ _ _ lrc_trace d ws room h inp S). cbn [digest_of].
      destruct (W [Z.to_N (ChecksumSpec.alternating ws mod 256)]) as (h' & s & E & A); [|rewrite E; exists h', s; split; [reflexivity|exact A]].
      constructor; [|constructor]. pose proof (Z.mod_pos_bound (ChecksumSpec.alternating ws) 256 eq_refl) as B.
      apply N2Z.inj_lt. rewrite Z2N.id by apply B. apply B.
  - assert (W : forall n v, exists h' s, append_values room h inp (ChecksumSpec.big_endian n v) = (h', s)
      /\ appended (brk h) h inp (ChecksumSpec.big_endian n v) h' s /\ mem_ok (cells h')).
    { intros n v. destruct (append_values room h inp (ChecksumSpec.big_endian n v)) as [h' s] eqn:E. exists h', s. split; [reflexivity|].
      apply (append_values_spec room h inp _ h' s E); try assumption. apply big_endian_ok. }
    destruct k; try contradiction; cbn [digest_of].
    + rewrite (sum_values_ok (word_step KFletcher16) _ _ _ _ _ _ f16_trace d ws room h inp S).
      destruct (W 2%nat (ChecksumSpec.f16_value ws)) as (h' & s & E & A). rewrite E. exists h', s. split; [reflexivity|exact A].
    + rewrite (sum_values_ok (word_step KFletcher32) _ _ _ _ _ _ f32_trace d ws room h inp S).
      match goal with |- context [append_values _ _ _ (ChecksumSpec.big_endian ?n ?v)] => destruct (W n v) as (h' & s & E & A) end.
      rewrite E. exists h', s. split; [reflexivity|exact A].
    + rewrite (sum_values_ok (word_step KFletcher64) _ _ _ _ _ _ f64_trace d ws room h inp S).
      match goal with |- context [append_values _ _ _ (ChecksumSpec.big_endian ?n ?v)] => destruct (W n v) as (h' & s & E & A) end.
      rewrite E. exists h', s. split; [reflexivity|exact A].
Qed.

(** ** Reset and New *)

Lemma reset_obj_sim reset m c t t' : keeps_block reset -> rep m c t -> reset t = Ret t' ->
  exists c', reset_obj reset m c = Ret c' /\ rep m c' t' /\ oblock c' = oblock c.
Proof.
  intros Hk (R1 & R2 & R3 & R4) E. unfold reset_obj. rewrite R1, R2, R3, R4. destruct t as [st tot b pos].
  cbn [state total block bPos] in *. rewrite E. cbn [bind]. eexists. split; [reflexivity|]. split; [|reflexivity].
  unfold rep. cbn [ostate ototal oblock opos]. repeat split. rewrite R4. symmetry. apply (Hk _ _ E).
Qed.
Lemma keeps_reset_ripe n : keeps_block (Ripemd.Reset n).
Proof. intros c t H. unfold Ripemd.Reset in H. cbv zeta in H. unbind H. injection H as <-. reflexivity. Qed.
Lemma keeps_reset_whirl : keeps_block Whirlpool.Reset.
Proof. intros c t H. unfold Whirlpool.Reset in H. unbind H. injection H as <-. reflexivity. Qed.

Lemma reset_object_ok k o m ws : stands k m o ws ->
  exists o', reset_object k o m = Ret o' /\ stands k m o' [] /\ (forall a, private o' a <-> private o a).
Proof.
  intros S. destruct o as [c|d|d]; cbn [stands reset_object] in *.
  - destruct S as (t & R & Q). destruct (variant k) as [v|] eqn:Ev.
    + destruct (reached_step _ _ _ _ _ (ripe_trace v) t (concat ws) HReset Q Logic.I) as (t' & r & Es & Q' & _).
      cbn [Ripemd.step] in Es. unbind Es. injection Es as -> _.
      destruct (reset_obj_sim _ m c t t' (keeps_reset_ripe _) R E) as (c' & E' & R' & B). rewrite E'. cbn [bind].
      exists (Block c'). split; [reflexivity|]. cbn [private stands]. rewrite B. split; [|reflexivity]. exists t'. rewrite Ev. split; [exact R'|exact Q'].
    + destruct Q as (Ek & Q & L). subst k.
      destruct (reached_step _ _ _ _ _ whirl_trace t (concat ws) HReset Q Logic.I) as (t' & r & Es & Q' & _).
      cbn [Whirlpool.step] in Es. unbind Es. injection Es as -> _.
      destruct (reset_obj_sim _ m c t t' keeps_reset_whirl R E) as (c' & E' & R' & B). rewrite E'. cbn [bind].
      exists (Block c'). split; [reflexivity|]. cbn [private stands]. rewrite B. split; [|reflexivity]. exists t'. cbn [variant].
      split; [exact R'|]. repeat split. exact Q'.
  - exists (Byte (match k with KBcc => Bcc.Reset | _ => Lrc.Reset end)). split; [reflexivity|]. cbn [private stands].
    split; [|reflexivity]. destruct k; try contradiction; [split; [apply attained_new|constructor]|apply attained_new].
  - exists (Words Fletcher.Reset). split; [reflexivity|]. cbn [private stands].
    split; [|reflexivity]. destruct k; try contradiction; apply attained_new.
Qed.

Lemma new_obj_sim reset words h t : keeps_block reset -> reset (mkCtx (repeat 0 words) 0 (repeat 0 64) 0) = Ret t -> mem_ok (cells h) ->
  exists h' c, new_obj reset words h = Ret (h', c) /\ rep (cells h') c t /\ oblock c = brk h /\ brk h' = (brk h + 64)%nat
    /\ (forall a, (a < brk h)%nat -> cells h' a = cells h a) /\ mem_ok (cells h').
Proof.
  intros Hk E Hm. pose proof (alloc_spec h 64) as A. unfold new_obj. destruct (alloc h 64) as [g b] eqn:Ea.
  destruct A as (A1 & A2 & A3 & A4 & A5).
  assert (Mg : mem_ok (cells g)) by (injection Ea as <- _; apply zeroed_ok, Hm).
  destruct (reset_obj_sim reset (cells g) (mkObj (repeat 0 words) 0 (off b) 0) (mkCtx (repeat 0 words) 0 (repeat 0 64) 0) t Hk) as (c & Ec & Rc & Bc); [|exact E|].
  - unfold rep. cbn [ostate ototal oblock opos state total block bPos]. repeat split. rewrite A1.
    apply read_eq; [apply repeat_length|]. intros i Hi. rewrite nth_repeat. apply A4. lia.
  - rewrite Ec. cbn [bind]. exists g, c. cbn [oblock] in Bc. split; [reflexivity|]. split; [exact Rc|]. split; [congruence|]. split; [exact A3|].
    split; [|exact Mg]. intros a Ha. apply A5. lia.
Qed.

Lemma new_object_ok k h : mem_ok (cells h) ->
  exists h' o, new_object k h = Ret (h', o) /\ stands k (cells h') o [] /\ (brk h <= brk h')%nat
    /\ (forall a, private o a -> (brk h <= a < brk h')%nat)
    /\ (forall a, (a < brk h)%nat -> cells h' a = cells h a) /\ mem_ok (cells h').
Proof.
  intros Hm. unfold new_object. destruct (variant k) as [v|] eqn:Ev.
  - pose proof (ripe_trace v [] (Forall_nil _)) as T. unbind T. 
    destruct (new_obj_sim (Ripemd.Reset (Ripemd.state_len v)) 10 h x (keeps_reset_ripe _) E Hm) as (h' & c & En & R & B & Bk & K & M).
    rewrite En. cbn [bind]. exists h', (Block c). split; [reflexivity|]. cbn [private stands]. rewrite Ev. split.
    + exists x. split; [exact R|]. apply reached_new, E.
    + repeat split; try assumption; lia.
  - destruct k; try discriminate Ev.
    1:{ pose proof (whirl_trace [] (Forall_nil _)) as T. unbind T.
      destruct (new_obj_sim Whirlpool.Reset 8 h x keeps_reset_whirl E Hm) as (h' & c & En & R & B & Bk & K & M).
      rewrite En. cbn [bind]. exists h', (Block c). split; [reflexivity|]. cbn [private stands variant]. split.
      + exists x. split; [exact R|]. split; [reflexivity|]. split; [apply reached_new, E|reflexivity].
      + repeat split; try assumption; lia. }
    all: eexists _, _; split; [reflexivity|]; cbn [private stands]; (split; [first [apply attained_new|split; [apply attained_new|constructor]]|]).
    all: repeat split; auto; contradiction.
Qed.

(** ** The invariant of a program *)

Definition fits (w : world) (v : view) (i : nat) (k : kind) (o : object) : Prop :=
  (exists ws, nth_error (hashes v) i = Some (k, ws) /\ stands k (cells (hp w)) o ws)
  /\ (forall a, private o a -> (a < brk (hp w))%nat /\ ~ owned v a)
  /\ forall j k' o', j <> i -> nth_error (objs w) j = Some (k', o') -> forall a, private o a -> ~ private o' a.
Definition Inv (w : world) (v : view) : Prop :=
  mem_ok (cells (hp w)) /\ (forall a, owned v a -> (a < brk (hp w))%nat) /\ length (objs w) = length (hashes v)
  /\ forall i k o, nth_error (objs w) i = Some (k, o) -> fits w v i k o.

Lemma Inv_start : Inv start nothing.
Proof.
  unfold Inv, start, nothing. cbn [hp objs cells brk owned hashes length]. split; [intros a; reflexivity|].
  split; [contradiction|]. split; [reflexivity|]. intros [|i] k o E; discriminate E.
Qed.

Lemma Inv_obj w v i k ws : Inv w v -> nth_error (hashes v) i = Some (k, ws) ->
  exists o, nth_error (objs w) i = Some (k, o) /\ stands k (cells (hp w)) o ws
    /\ (forall a, private o a -> (a < brk (hp w))%nat /\ ~ owned v a).
Proof.
  intros (_ & _ & L & F) E. destruct (nth_error (objs w) i) as [[k' o]|] eqn:Eo.
  - destruct (F i k' o Eo) as ((ws' & E' & S) & P & _). rewrite E in E'. injection E' as <- <-. exists o. auto.
  - apply nth_error_None in Eo. assert (i < length (hashes v))%nat by (apply nth_error_Some; congruence). lia.
Qed.
Lemma idx_obj {A} (l : list A) i x : nth_error l i = Some x -> idx l i = Ret x.
Proof. apply idx_nth. Qed.
Lemma upd_replace {A} (l : list A) : forall i x y, nth_error l i = Some y -> upd l i x = Ret (replace i x l).
Proof.
  induction l as [|z l IH]; intros [|i] x y E; cbn [nth_error upd replace] in *; try discriminate; [reflexivity|].
  rewrite (IH i x y E). reflexivity.
Qed.
Lemma nth_replace {A} (l : list A) : forall i j x, nth_error (replace i x l) j =
  if Nat.eqb i j then (match nth_error l i with Some _ => Some x | None => None end) else nth_error l j.
Proof.
  induction l as [|z l IH]; intros [|i] [|j] x; cbn [nth_error replace Nat.eqb]; try reflexivity.
  - destruct (Nat.eqb i j); reflexivity.
  - apply IH.
Qed.
Lemma length_replace {A} (l : list A) : forall i x, length (replace i x l) = length l.
Proof. induction l as [|z l IH]; intros [|i] x; cbn [replace length]; auto. Qed.

(** An object is replaced, everybody else's memory is kept. *)
Lemma Inv_replace w v i k o ws f h' o' : Inv w v -> nth_error (hashes v) i = Some (k, ws) -> nth_error (objs w) i = Some (k, o) ->
  stands k (cells h') o' (f ws) -> written_to (hp w) h' o o' ->
  Inv (mkWorld h' (replace i (k, o') (objs w))) (mkView (owned v) (with_writes v i f)).
Proof.
  intros (Hm & Ho & L & F) Eh Eo S (M & B & K & P). unfold with_writes. rewrite Eh. unfold Inv. cbn [hp objs cells brk owned hashes].
  rewrite B. split; [exact M|]. split; [exact Ho|]. split; [rewrite !length_replace; exact L|].
  intros j k1 o1. rewrite nth_replace. destruct (Nat.eqb_spec i j) as [<-|N].
  - rewrite Eo. intros E. injection E as <- <-. destruct (F i k o Eo) as (_ & P1 & P2). split; [|split]; cbn [hp objs owned hashes].
    + exists (f ws). rewrite nth_replace, Nat.eqb_refl, Eh. split; [reflexivity|exact S].
    + intros a Ha. rewrite B. apply P1, P, Ha.
    + intros j' k2 o2 Nj. rewrite nth_replace. destruct (Nat.eqb_spec i j') as [<-|_]; [contradiction|]. intros E a Ha.
      apply (P2 j' k2 o2 Nj E). apply P, Ha.
  - intros E. destruct (F j k1 o1 E) as ((ws1 & E1 & S1) & P1 & P2). split; [|split]; cbn [hp objs owned hashes].
    + exists ws1. rewrite nth_replace. apply Nat.eqb_neq in N as N'. rewrite N'. split; [exact E1|].
      eapply stands_frame; [|exact S1]. intros a Ha. apply K. apply (P2 i k o N Eo a Ha).
    + intros a Ha. rewrite B. apply P1, Ha.
    + intros j' k2 o2 Nj. rewrite nth_replace. destruct (Nat.eqb_spec i j') as [<-|N2].
      * rewrite Eo. intros E'. injection E' as <- <-. intros a Ha Hb. apply (P2 i k o Nj Eo a Ha). apply P, Hb.
      * intros E'. apply (P2 j' k2 o2 Nj E').
Qed.

(** Memory of the program changes or grows, the objects stay. *)
Lemma Inv_grow w v h' (add : nat -> Prop) : Inv w v -> mem_ok (cells h') -> (brk (hp w) <= brk h')%nat ->
  (forall a, add a -> owned v a \/ (brk (hp w) <= a < brk h')%nat) ->
  (forall a, (a < brk (hp w))%nat -> ~ owned v a -> cells h' a = cells (hp w) a) ->
  Inv (mkWorld h' (objs w)) (mkView (fun x => owned v x \/ add x) (hashes v)).
Proof.
  intros (Hm & Ho & L & F) M B A K. unfold Inv. cbn [hp objs cells brk owned hashes]. split; [exact M|].
  split. { intros a [Ha|Ha]; [apply Ho in Ha; lia|]. destruct (A a Ha) as [H|H]; [apply Ho in H|]; lia. }
  split; [exact L|]. intros i k o E. destruct (F i k o E) as ((ws & E1 & S1) & P1 & P2). split; [|split]; cbn [hp objs owned hashes].
  - exists ws. split; [exact E1|]. eapply stands_frame; [|exact S1]. intros a Ha. apply K; apply P1, Ha.
  - intros a Ha. destruct (P1 a Ha) as [Q1 Q2]. split; [lia|]. intros [H|H]; [contradiction|]. destruct (A a H); [contradiction|lia].
  - exact P2.
Qed.

(** ** Every step *)

Lemma has_below w v s : Inv w v -> has v s -> (bcap s = 0 \/ at_ s + bcap s <= brk (hp w))%nat.
Proof.
  intros (_ & Ho & _) (_ & H). destruct (bcap s) as [|n] eqn:E; [left; reflexivity|]. right.
  assert (at_ s + n < brk (hp w))%nat; [|lia]. apply Ho, H. unfold covers. lia.
Qed.

Lemma step_ok w v u : Inv w v -> legal can_take (cells (hp w)) v u ->
  exists w' a, step w u = Ret (w', a) /\ promised digest_of (cells (hp w)) v u a (cells (hp w')) /\ Inv w' (after (cells (hp w)) v u a).
Proof.
  intros Iv Hl. pose proof Iv as (Hm & Ho & L & F). destruct u as [k|i p|i inp room|i|n c|s j x]; cbn [legal step promised] in *.
  - destruct (new_object_ok k (hp w) Hm) as (h' & o & E & S & B & P & K & M). rewrite E. cbn [bind].
    eexists _, _. split; [reflexivity|]. cbn [hp cells]. split; [split; [rewrite L; reflexivity|]|].
    + intros a Ha _. apply K, Ho, Ha.
    + unfold after. unfold Inv. cbn [hp objs cells brk owned hashes]. split; [exact M|]. split; [intros a Ha; apply Ho in Ha; lia|].
      split; [rewrite !app_length; cbn [length]; lia|]. intros i k1 o1.
      assert (Out : forall j k2 o2, nth_error (objs w ++ [(k, o)]) j = Some (k2, o2) ->
        nth_error (objs w) j = Some (k2, o2) \/ j = length (objs w) /\ k2 = k /\ o2 = o).
      { intros j k2 o2. destruct (Nat.lt_ge_cases j (length (objs w))) as [Lj|Lj].
        - rewrite nth_error_app1 by exact Lj. auto.
        - rewrite nth_error_app2 by exact Lj. destruct (j - length (objs w))%nat as [|[|]] eqn:Ej; cbn [nth_error]; try discriminate.
          intros H. injection H as <- <-. right. repeat split. lia. }
      intros Ei. destruct (Out _ _ _ Ei) as [Ei'|(-> & -> & ->)].
      * destruct (F i k1 o1 Ei') as ((ws & E1 & S1) & P1 & P2). split; [|split]; cbn [hp objs owned hashes].
        { exists ws. rewrite nth_error_app1 by (apply nth_error_Some; congruence). split; [exact E1|].
          eapply stands_frame; [|exact S1]. intros a Ha. apply K, P1, Ha. }
        { intros a Ha. destruct (P1 a Ha). split; [lia|assumption]. }
        { intros j k2 o2 Nj Ej a Ha. destruct (Out _ _ _ Ej) as [Ej'|(-> & -> & ->)]; [apply (P2 j k2 o2 Nj Ej' a Ha)|].
          intros Hb. apply P in Hb. destruct (P1 a Ha). lia. }
      * split; [|split]; cbn [hp objs owned hashes].
        { exists []. rewrite nth_error_app2 by lia. rewrite L, Nat.sub_diag. split; [reflexivity|exact S]. }
        { intros a Ha. apply P in Ha. split; [lia|]. intros Hb. apply Ho in Hb. lia. }
        { intros j k2 o2 Nj Ej a Ha Hb. destruct (Out _ _ _ Ej) as [Ej'|(-> & -> & ->)]; [|contradiction].
          destruct (F j k2 o2 Ej') as (_ & P1 & _). destruct (P1 a Hb). apply P in Ha. lia. }
  - destruct Hl as (Hp & k & ws & Eh & Ht). rewrite bytes_in_contents in Ht.
    destruct (Inv_obj w v i k ws Iv Eh) as (o & Eo & S & P). rewrite (idx_obj _ _ _ Eo). cbn [bind].
    destruct (write_object_ok k o (hp w) p ws S Hm) as (h' & o' & E & S' & W); [|exact Ht|].
    + intros a Ha Hb. destruct (P a Hb) as [_ N]. apply N. destruct Hp as [Hp1 Hp]. apply Hp. unfold covers. lia.
    + rewrite E. cbn [bind]. rewrite (upd_replace _ _ _ _ Eo). cbn [bind]. eexists _, _. split; [reflexivity|]. cbn [hp].
      split; [split; [reflexivity|]|].
      * intros a Ha _. apply W. intros Hb. destruct (P a Hb). contradiction.
      * unfold after. apply (Inv_replace w v i k o ws (fun ws => ws ++ [bytes_in (cells (hp w)) p]) h' o' Iv Eh Eo); [|exact W].
        rewrite bytes_in_contents. exact S'.
  - destruct Hl as (Hp & k & ws & Eh). destruct (Inv_obj w v i k ws Iv Eh) as (o & Eo & S & P). rewrite (idx_obj _ _ _ Eo). cbn [bind].
    destruct (sum_object_ok k o room (hp w) inp ws S Hm) as (h' & s & E & A & M).
    + intros a Ha. apply P, Ha.
    + apply Hp.
    + apply (has_below w v inp Iv Hp).
    + rewrite E. cbn [bind]. eexists _, _. split; [reflexivity|]. cbn [hp]. destruct A as (A1 & A2 & A3 & A4). split.
      * intros k1 ws1 E1. rewrite Eh in E1. injection E1 as <- <-. cbv zeta. exists s. split; [reflexivity|].
        rewrite !bytes_in_contents. split; [exact A2|]. destruct (Nat.leb (blen inp + length (digest_of k ws)) (bcap inp)).
        { destruct A4 as (B1 & B2 & B3). repeat split; try assumption. intros a Ha Hn. apply B3; [apply Ho, Ha|exact Hn]. }
        { destruct A4 as (B1 & B2 & B3). repeat split; try assumption.
          - intros a Hc Ha. apply Ho in Ha. unfold covers in Hc. lia.
          - intros a Ha _. apply B3, Ho, Ha. }
      * unfold after. apply (Inv_grow w v h' (covers s) Iv M A1).
        { intros a Hc. destruct (Nat.leb (blen inp + length (digest_of k ws)) (bcap inp)).
          - destruct A4 as (B1 & B2 & _). left. apply Hp. unfold covers in *. rewrite <- B1, <- B2. exact Hc.
          - destruct A4 as (B1 & B2 & _). right. unfold covers in Hc. lia. }
        { intros a Ha Hn. destruct (Nat.leb_spec (blen inp + length (digest_of k ws)) (bcap inp)) as [Lc|Lc].
          - destruct A4 as (B1 & B2 & B3). apply B3; [exact Ha|]. intros Hx. apply Hn, Hp. unfold covers. lia.
          - destruct A4 as (_ & _ & B3). apply B3, Ha. }
  - destruct Hl as (k & ws & Eh). destruct (Inv_obj w v i k ws Iv Eh) as (o & Eo & S & P). rewrite (idx_obj _ _ _ Eo). cbn [bind].
    destruct (reset_object_ok k o (cells (hp w)) ws S) as (o' & E & S' & Q). rewrite E. cbn [bind].
    rewrite (upd_replace _ _ _ _ Eo). cbn [bind]. eexists _, _. split; [reflexivity|]. cbn [hp].
    split; [split; [reflexivity|]|].
    + intros a _ _. reflexivity.
    + unfold after. apply (Inv_replace w v i k o ws (fun _ => []) (hp w) o' Iv Eh Eo S'). repeat split; auto; apply Q.
  - pose proof (alloc_spec (hp w) c) as A. destruct (alloc (hp w) c) as [h' t] eqn:Ea. destruct A as (A1 & A2 & A3 & A4 & A5).
    eexists _, _. split; [reflexivity|]. cbn [hp]. assert (M : mem_ok (cells h')) by (injection Ea as <- _; apply zeroed_ok, Hm). split.
    + eexists. split; [reflexivity|]. unfold fresh, covers. cbn [blen bcap at_]. rewrite A1. repeat split; try reflexivity.
      * intros a Ha Hb. apply Ho in Hb. lia.
      * exact A4.
      * intros a Ha _. apply A5. apply Ho in Ha. lia.
    + unfold after. apply (Inv_grow w v h' (covers _) Iv M); [lia| |].
      * intros a Ha. right. unfold covers in Ha. cbn [at_ bcap] in Ha. lia.
      * intros a Ha _. apply A5. lia.
  - destruct Hl as (Hp & Hj & Hx). unfold store. cbn [window len]. rewrite (proj2 (Nat.ltb_lt _ _) Hj). cbn [bind off].
    eexists _, _. split; [reflexivity|]. cbn [hp cells]. unfold set, window. cbn [off]. split; [split; [reflexivity|split]|].
    + rewrite Nat.eqb_refl. reflexivity.
    + intros a _ Hn. destruct (Nat.eqb_spec a (at_ s + j)); [contradiction|reflexivity].
    + assert (Hs : owned v (at_ s + j)%nat) by (apply Hp; unfold covers; destruct Hp; lia).
      assert (G : Inv (mkWorld (mkHeap (fun a => if Nat.eqb a (at_ s + j) then x else cells (hp w) a) (brk (hp w))) (objs w))
                      (mkView (fun a => owned v a \/ False) (hashes v))).
      { apply Inv_grow; cbn [cells brk]; try assumption; try lia; try tauto.
        - intros a. destruct (Nat.eqb a (at_ s + j)); [exact Hx|apply Hm].
        - intros a _ Hn. destruct (Nat.eqb_spec a (at_ s + j)); [subst; contradiction|reflexivity]. }
      destruct G as (G1 & G2 & G3 & G4). split; [exact G1|]. split; [intros a Ha; apply G2; left; exact Ha|]. split; [exact G3|].
      intros i k o E. destruct (G4 i k o E) as (Q1 & Q2 & Q3). split; [exact Q1|]. split; [|exact Q3].
      intros a Ha. destruct (Q2 a Ha) as [Q4 Q5]. split; [exact Q4|]. intros H. apply Q5. left. exact H.
Qed.
