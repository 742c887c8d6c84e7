(** HashTest and HashHexTest of package test. *)
From Verif Require Import Base.Go Base.TestApi Base.DigestApi Model.Hex Model.TestPkg Spec.HexSpec Spec.TestSpec
  Spec.DigestSpec Spec.RipemdSpec Spec.WhirlpoolSpec Proofs.Util Proofs.HexProofs Proofs.TestProofs.
From Verif Require Model.Ripemd Model.Whirlpool Proofs.RipemdProofs Proofs.WhirlpoolProofs.
Local Open Scope N_scope.

Section HashTest.
Variables (St : Type) (step : St -> hcall -> outcome (St * hresult)) (split : list N -> list (list N)).

Lemma digest_of_observe h inp n d :
  hobserve step h [HWrite inp; HSum []] = Ret [Wrote n; Digest d] -> digest_of step h inp = Ret d.
Proof.
  unfold hobserve, digest_of. cbn [hrun].
  destruct (step h (HWrite inp)) as [[h1 r1]| |]; cbn [bind]; try discriminate.
  destruct (step h1 (HSum [])) as [[h2 r2]| |]; cbn [bind]; try discriminate.
  intros E. injection E as -> ->. reflexivity.
Qed.

Lemma hash_test_is h inp n d expectHex :
  hobserve step h [HWrite inp; HSum []] = Ret [Wrote n; Digest d] -> bytes_ok d ->
  HashTest split step h inp expectHex
  = StringMatchTitle split ([72; 97; 115; 104; 40] ++ shortened inp ++ [41]) [] expectHex (flat_map numeral d).
Proof.
  intros E B. unfold HashTest. rewrite (digest_of_observe _ _ _ _ E). cbn [bind].
  rewrite fromBytes_correct by exact B. cbn [bind]. rewrite Abbr_ok. reflexivity.
Qed.

Lemma hash_hex_test_is bd h inHex expectHex b n d :
  (ToBytesFast bd inHex = Ret (Some b) \/ (ToBytesFast bd inHex = Ret None /\ b = [])) ->
  hobserve step h [HWrite b; HSum []] = Ret [Wrote n; Digest d] -> bytes_ok d ->
  HashHexTest split bd step h inHex expectHex
  = StringMatchTitle split ([72; 97; 115; 104; 72; 101; 120; 40] ++ shortened inHex ++ [41]) [] expectHex (flat_map numeral d).
Proof.
  intros T E B.
  assert (D : digest_of step h b = Ret d) by exact (digest_of_observe _ _ _ _ E).
  assert (G : (let! found := digest_of step h b in
     let! foundHex := FromBytes found in
     let! ab := Abbr inHex in
     StringMatchTitle split ([72; 97; 115; 104; 72; 101; 120; 40] ++ ab ++ [41]) [] expectHex foundHex)
     = HashHexTest split bd step h inHex expectHex).
  { unfold HashHexTest. destruct T as [->|[-> ->]]; reflexivity. }
  rewrite <- G, D. cbn [bind].
  rewrite fromBytes_correct by exact B. cbn [bind]. rewrite Abbr_ok. reflexivity.
Qed.
End HashTest.

Lemma hrun_app {St} (step : St -> hcall -> outcome (St * hresult)) cs1 cs2 h :
  hrun step h (cs1 ++ cs2)
  = let! (h, r1) := hrun step h cs1 in let! (h, r2) := hrun step h cs2 in Ret (h, r1 ++ r2).
Proof.
  revert h; induction cs1 as [|c cs1 IH]; intros h.
  - cbn [app hrun bind]. destruct (hrun step h cs2) as [[h' r]| |]; reflexivity.
  - cbn [app hrun]. destruct (step h c) as [[h1 r1]| |]; cbn [bind]; try reflexivity.
    rewrite IH. destruct (hrun step h1 cs1) as [[h2 r2]| |]; cbn [bind]; try reflexivity.
    destruct (hrun step h2 cs2) as [[h3 r3]| |]; reflexivity.
Qed.

(** The state after a history, from what is observed of longer histories. *)
Lemma after_history {St} (step : St -> hcall -> outcome (St * hresult)) (new : outcome St) digest size bsize cs inp :
  (let! c := new in hobserve step c (cs ++ [HWrite inp; HSum []]))
    = Ret (hash_trace digest size bsize [] (cs ++ [HWrite inp; HSum []])) ->
  exists c0 c r1, new = Ret c0 /\ hrun step c0 cs = Ret (c, r1)
    /\ hobserve step c [HWrite inp; HSum []] = Ret [Wrote (length inp); Digest (digest (written [] cs ++ inp))].
Proof.
  intros E. destruct new as [c0| |]; cbn [bind] in E; try discriminate.
  unfold hobserve in E. rewrite hrun_app in E.
  destruct (hrun step c0 cs) as [[c r1]| |] eqn:R; cbn [bind] in E; try discriminate.
  destruct (hrun step c [HWrite inp; HSum []]) as [[c2 r2]| |] eqn:R2; cbn [bind] in E; try discriminate.
  exists c0, c, r1. split; [reflexivity|]. split; [exact R|].
  unfold hobserve. rewrite R2. cbn [bind]. f_equal. injection E as E.
  rewrite DigestProofs.hash_trace_app in E. cbn [hash_trace app] in E.
  assert (L2 : length r2 = 2%nat).
  { cbn [hrun] in R2. destruct (step c (HWrite inp)) as [[h1 s1]| |]; cbn [bind] in R2; try discriminate.
    destruct (step h1 (HSum [])) as [[h2 s2]| |]; cbn [bind] in R2; try discriminate. injection R2 as _ <-. reflexivity. }
  assert (Q : forall (a b c d : list hresult), a ++ b = c ++ d -> length b = length d -> b = d).
  { intros a b c' d X L. pose proof (f_equal (@length _) X) as Y. rewrite !app_length in Y.
    destruct (app_eq_len a b c' d X ltac:(lia)); assumption. }
  apply (Q _ _ _ _ E). exact L2.
Qed.

(** ** The two hash packages *)

Lemma little_endian_bytes n : forall v, bytes_ok (little_endian n v).
Proof.
  induction n as [|n IH]; intros v; cbn [little_endian]; [constructor|]. constructor; [|apply IH].
  unfold is_byte. apply N.mod_lt. lia.
Qed.
Lemma flat_map_bytes {A} (f : A -> list N) l : (forall x, bytes_ok (f x)) -> bytes_ok (flat_map f l).
Proof.
  intros H. induction l as [|x l IH]; cbn [flat_map]; [constructor|]. apply bytes_ok_app. split; [apply H|exact IH].
Qed.
Lemma ripemd_bytes comp iv m : bytes_ok (ripemd comp iv m).
Proof. apply flat_map_bytes. intros x. apply little_endian_bytes. Qed.

Definition ripemd_of (v : Model.Ripemd.variant) : list N -> list N :=
  match v with
  | Model.Ripemd.V128 => RIPEMD128 | Model.Ripemd.V160 => RIPEMD160
  | Model.Ripemd.V256 => RIPEMD256 | Model.Ripemd.V320 => RIPEMD320
  end.

Lemma calls_app cs inp : hcalls_ok cs -> bytes_ok inp -> hcalls_ok (cs ++ [HWrite inp; HSum []]).
Proof. intros H B. apply Forall_app. split; [exact H|]. constructor; [exact B|]. repeat constructor. Qed.

Lemma ripemd_state v cs inp : hcalls_ok cs -> bytes_ok inp -> exists c,
  (forall A (k : _ -> _ -> outcome A), with_ripemd v cs k =
     k (Model.Ripemd.step (Model.Ripemd.hash_fn v) (Model.Ripemd.state_len v)) c)
  /\ hobserve (Model.Ripemd.step (Model.Ripemd.hash_fn v) (Model.Ripemd.state_len v)) c [HWrite inp; HSum []]
     = Ret [Wrote (length inp); Digest (ripemd_of v (written [] cs ++ inp))].
Proof.
  intros H B. pose proof (RipemdProofs.use_trace v _ (calls_app cs inp H B)) as U.
  destruct (after_history _ _ _ _ _ cs inp U) as (c0 & c & r1 & E0 & E1 & E2).
  exists c. split.
  - intros A k. unfold with_ripemd. rewrite E0. cbn [bind]. rewrite E1. reflexivity.
  - rewrite E2. destruct v; reflexivity.
Qed.
Lemma ripemd_of_bytes v m : bytes_ok (ripemd_of v m).
Proof. destruct v; apply ripemd_bytes. Qed.

Lemma whirlpool_state cs inp : hcalls_ok cs -> bytes_ok inp -> N.of_nat (length (written [] cs ++ inp)) < 2 ^ 64 -> exists c,
  (forall A (k : _ -> _ -> outcome A), with_whirlpool cs k = k Model.Whirlpool.step c)
  /\ hobserve Model.Whirlpool.step c [HWrite inp; HSum []]
     = Ret [Wrote (length inp); Digest (Whirlpool (written [] cs ++ inp))].
Proof.
  intros H B L.
  pose proof (WhirlpoolProofs.use_trace _ (calls_app cs inp H B)) as U.
  destruct (after_history _ _ _ _ _ cs inp U) as (c0 & c & r1 & E0 & E1 & E2).
  exists c. split; [|rewrite E2, WhirlpoolProofs.wdigest_published by exact L; reflexivity].
  intros A k. unfold with_whirlpool. rewrite E0. cbn [bind]. rewrite E1. reflexivity.
Qed.

Lemma written_ok cs : forall m, hcalls_ok cs -> bytes_ok m -> bytes_ok (written m cs).
Proof.
  induction cs as [|c cs IH]; intros m H B; [exact B|]. inversion H as [|? ? Hc Hcs]; subst.
  destruct c; cbn [written]; apply IH; auto; [|constructor]. apply bytes_ok_app. split; [exact B|exact Hc].
Qed.

Lemma whirlpool_bytes m : bytes_ok m -> bytes_ok (Whirlpool m).
Proof.
  intros B. unfold Whirlpool.
  assert (F : bytes_ok (whirlpool_length m)).
  { unfold whirlpool_length, big_endian. apply Forall_rev, little_endian_bytes. }
  apply WhirlpoolProofs.iterate_ok.
  - apply WhirlpoolProofs.padded_ok; assumption.
  - apply WhirlpoolProofs.padded_field_blocks. unfold whirlpool_length, big_endian. rewrite rev_length.
    assert (L : forall n v, length (little_endian n v) = n).
    { clear. induction n as [|n IH]; intros v; [reflexivity|]. cbn [little_endian length]. rewrite IH. reflexivity. }
    apply L.
Qed.

Theorem hash_test_ripemd_is split v cs inp expectHex : hcalls_ok cs -> bytes_ok inp ->
  with_ripemd v cs (fun step h => HashTest split step h inp expectHex)
  = StringMatchTitle split ([72; 97; 115; 104; 40] ++ shortened inp ++ [41]) [] expectHex
      (flat_map numeral (ripemd_of v (written [] cs ++ inp))).
Proof.
  intros H B. destruct (ripemd_state v cs inp H B) as (c & E & O). rewrite E.
  apply (hash_test_is _ _ split c inp _ _ expectHex O). apply ripemd_of_bytes.
Qed.
Theorem hash_test_whirlpool_is split cs inp expectHex : hcalls_ok cs -> bytes_ok inp ->
  N.of_nat (length (written [] cs ++ inp)) < 2 ^ 64 ->
  with_whirlpool cs (fun step h => HashTest split step h inp expectHex)
  = StringMatchTitle split ([72; 97; 115; 104; 40] ++ shortened inp ++ [41]) [] expectHex
      (flat_map numeral (Whirlpool (written [] cs ++ inp))).
Proof.
  intros H B L. destruct (whirlpool_state cs inp H B L) as (c & E & O). rewrite E.
  apply (hash_test_is _ _ split c inp _ _ expectHex O).
  apply whirlpool_bytes. apply bytes_ok_app. split; [|exact B]. apply written_ok; [exact H|constructor].
Qed.
Lemma title_iff split title expect found : splits split ->
  exists rs, StringMatchTitle split title [] expect found = Ret rs /\ (rs = [] <-> expect = found).
Proof.
  intros HS. destruct (reports_iff split title [] expect found HS) as (rs & R & Q & _). exists rs. split; [exact R|exact Q].
Qed.
Theorem hash_test_ripemd split v cs inp expectHex : splits split -> hcalls_ok cs -> bytes_ok inp ->
  exists rs, with_ripemd v cs (fun step h => HashTest split step h inp expectHex) = Ret rs
  /\ (rs = [] <-> expectHex = flat_map numeral (ripemd_of v (written [] cs ++ inp))).
Proof. intros HS H B. rewrite (hash_test_ripemd_is split v cs inp expectHex H B). apply title_iff, HS. Qed.
Theorem hash_test_whirlpool split cs inp expectHex : splits split -> hcalls_ok cs -> bytes_ok inp ->
  N.of_nat (length (written [] cs ++ inp)) < 2 ^ 64 ->
  exists rs, with_whirlpool cs (fun step h => HashTest split step h inp expectHex) = Ret rs
  /\ (rs = [] <-> expectHex = flat_map numeral (Whirlpool (written [] cs ++ inp))).
Proof. intros HS H B L. rewrite (hash_test_whirlpool_is split cs inp expectHex H B L). apply title_iff, HS. Qed.

(** ** HashHexTest *)

Lemma digit_small c v : digit_value c = Some v -> v < 16.
Proof.
  unfold digit_value.
  destruct ((48 <=? c) && (c <=? 57)) eqn:A; [intros E; injection E as <-; apply andb_prop in A as [A1 A2];
    apply N.leb_le in A1; apply N.leb_le in A2; lia|].
  destruct ((65 <=? c) && (c <=? 70)) eqn:B; [intros E; injection E as <-; apply andb_prop in B as [B1 B2];
    apply N.leb_le in B1; apply N.leb_le in B2; lia|].
  destruct ((97 <=? c) && (c <=? 102)) eqn:C; [intros E; injection E as <-; apply andb_prop in C as [C1 C2];
    apply N.leb_le in C1; apply N.leb_le in C2; lia|discriminate].
Qed.
Lemma toBytes_bytes bd s b : bytes_ok s -> ToBytes bd s = Ret (Some b, None) -> bytes_ok b.
Proof.
  intros H E. destruct (toBytes_accepts bd s H) as (_ & _ & T). destruct (T _ E) as (out & E2 & _ & K).
  injection E2 as <-. apply Forall_forall. intros x I. apply In_nth_error in I as (k & I).
  assert (L : (k < length b)%nat) by (apply nth_error_Some; congruence).
  destruct (K k L) as (a & c & va & vc & _ & _ & Da & Dc & N). rewrite I in N. injection N as ->.
  apply digit_small in Da. apply digit_small in Dc. unfold is_byte. lia.
Qed.

(** What is hashed: the decoded bytes, or nothing if the text is malformed. *)
Definition hashed (bd : build) (inHex b : list N) : Prop :=
  ToBytes bd inHex = Ret (Some b, None) \/ (exists e, ToBytes bd inHex = Ret (None, Some e)) /\ b = [].

Lemma hashed_fast bd inHex b : bytes_ok inHex -> hashed bd inHex b ->
  bytes_ok b /\ (ToBytesFast bd inHex = Ret (Some b) \/ (ToBytesFast bd inHex = Ret None /\ b = [])).
Proof.
  intros H [E|[E ->]]; destruct (fast_agrees bd inHex H) as (F1 & F2 & _).
  - split; [exact (toBytes_bytes bd inHex b H E)|]. left. apply F2, E.
  - split; [constructor|]. right. split; [apply F1, E|reflexivity].
Qed.

Theorem hash_hex_test_ripemd_is split bd v cs inHex b expectHex : hcalls_ok cs -> bytes_ok inHex ->
  hashed bd inHex b ->
  with_ripemd v cs (fun step h => HashHexTest split bd step h inHex expectHex)
  = StringMatchTitle split ([72; 97; 115; 104; 72; 101; 120; 40] ++ shortened inHex ++ [41]) [] expectHex
      (flat_map numeral (ripemd_of v (written [] cs ++ b))).
Proof.
  intros H Bi D. destruct (hashed_fast bd inHex b Bi D) as [B T].
  destruct (ripemd_state v cs b H B) as (c & E & O). rewrite E.
  apply (hash_hex_test_is _ _ split bd c inHex expectHex b _ _ T O). apply ripemd_of_bytes.
Qed.
Theorem hash_hex_test_whirlpool_is split bd cs inHex b expectHex : hcalls_ok cs -> bytes_ok inHex ->
  N.of_nat (length (written [] cs ++ b)) < 2 ^ 64 -> hashed bd inHex b ->
  with_whirlpool cs (fun step h => HashHexTest split bd step h inHex expectHex)
  = StringMatchTitle split ([72; 97; 115; 104; 72; 101; 120; 40] ++ shortened inHex ++ [41]) [] expectHex
      (flat_map numeral (Whirlpool (written [] cs ++ b))).
Proof.
  intros H Bi L D. destruct (hashed_fast bd inHex b Bi D) as [B T].
  destruct (whirlpool_state cs b H B L) as (c & E & O). rewrite E.
  apply (hash_hex_test_is _ _ split bd c inHex expectHex b _ _ T O).
  apply whirlpool_bytes. apply bytes_ok_app. split; [|exact B]. apply written_ok; [exact H|constructor].
Qed.
Theorem hash_hex_test_ripemd split bd v cs inHex b expectHex : splits split -> hcalls_ok cs -> bytes_ok inHex ->
  hashed bd inHex b ->
  exists rs, with_ripemd v cs (fun step h => HashHexTest split bd step h inHex expectHex) = Ret rs
  /\ (rs = [] <-> expectHex = flat_map numeral (ripemd_of v (written [] cs ++ b))).
Proof. intros HS H Bi D. rewrite (hash_hex_test_ripemd_is split bd v cs inHex b expectHex H Bi D). apply title_iff, HS. Qed.
Theorem hash_hex_test_whirlpool split bd cs inHex b expectHex : splits split -> hcalls_ok cs -> bytes_ok inHex ->
  N.of_nat (length (written [] cs ++ b)) < 2 ^ 64 -> hashed bd inHex b ->
  exists rs, with_whirlpool cs (fun step h => HashHexTest split bd step h inHex expectHex) = Ret rs
  /\ (rs = [] <-> expectHex = flat_map numeral (Whirlpool (written [] cs ++ b))).
Proof. intros HS H Bi L D. rewrite (hash_hex_test_whirlpool_is split bd cs inHex b expectHex H Bi L D). apply title_iff, HS. Qed.
