(** C98: a digest and a length determine the digests of longer messages. *)
From Verif Require Import Base.Go Base.DigestApi Spec.DigestSpec Spec.ExtendSpec Proofs.ExtendProofs Props.CollisionProps.
From Verif Require Model.Ripemd Model.Whirlpool Spec.RipemdSpec Spec.WhirlpoolSpec Proofs.RipemdProofs Proofs.WhirlpoolProofs.
Local Open Scope N_scope.

(** After calls that wrote [n] bytes Sum gave [d]. A history that writes the
    same bytes, the closing of [n] bytes and a text [x] ends with a Sum that can
    be computed from [n], [d] and [x]: the bytes themselves are not needed. *)
Theorem C98_ripemd : forall v cs cs' rs d x, hcalls_ok cs -> hcalls_ok cs' ->
  Ripemd.use v (cs ++ [HSum []]) = Ret (rs ++ [Digest d]) ->
  let n := length (written [] cs) in
  written [] cs' = written [] cs ++ closing little_field n ++ x ->
  exists rs', Ripemd.use v (cs' ++ [HSum []]) = Ret (rs' ++ [Digest (extended_words (compress_of v) n d x)]).
Proof.
  intros v cs cs' rs d x H H' E n W.
  rewrite RipemdProofs.use_trace in E by (apply Forall_app; split; [exact H|repeat constructor]). injection E as E.
  apply sum_last in E. rewrite RipemdProofs.use_trace by (apply Forall_app; split; [exact H'|repeat constructor]).
  rewrite DigestProofs.hash_trace_app. cbn [hash_trace app]. eexists. do 4 f_equal. rewrite W, E. unfold n.
  destruct v; cbn [compress_of RipemdProofs.spec_of].
  - apply (ripe_extended 4); [split; [reflexivity|repeat constructor]|exact RipemdProofs.compress128_ok].
  - apply (ripe_extended 5); [split; [reflexivity|repeat constructor]|exact RipemdProofs.compress160_ok].
  - apply (ripe_extended 8); [split; [reflexivity|repeat constructor]|exact RipemdProofs.compress256_ok].
  - apply (ripe_extended 10); [split; [reflexivity|repeat constructor]|exact RipemdProofs.compress320_ok].
Qed.
Print Assumptions C98_ripemd.

Theorem C98_whirlpool : forall cs cs' rs d x, hcalls_ok cs -> hcalls_ok cs' ->
  Whirlpool.use (cs ++ [HSum []]) = Ret (rs ++ [Digest d]) ->
  let n := length (written [] cs) in
  written [] cs' = written [] cs ++ closing big_field n ++ x -> N.of_nat (length (written [] cs')) < 2 ^ 64 ->
  exists rs', Whirlpool.use (cs' ++ [HSum []]) = Ret (rs' ++ [Digest (extended_bytes WhirlpoolSpec.compress n d x)]).
Proof.
  intros cs cs' rs d x H H' E n W L.
  rewrite WhirlpoolProofs.use_trace in E by (apply Forall_app; split; [exact H|repeat constructor]). injection E as E.
  apply sum_last in E. rewrite WhirlpoolProofs.use_trace by (apply Forall_app; split; [exact H'|repeat constructor]).
  rewrite DigestProofs.hash_trace_app. cbn [hash_trace app]. eexists. do 4 f_equal.
  rewrite WhirlpoolProofs.wdigest_published by exact L. rewrite W, app_length in L.
  rewrite WhirlpoolProofs.wdigest_published in E by lia. rewrite W, E. apply whirl_extended.
Qed.
Print Assumptions C98_whirlpool.

(** So two messages of one length that collide go on colliding: after the same
    closing and any text. *)
Theorem C98_ripemd_collisions : forall v cs1 cs2 rs1 rs2 d x, hcalls_ok cs1 -> hcalls_ok cs2 -> bytes_ok x ->
  Ripemd.use v (cs1 ++ [HSum []]) = Ret (rs1 ++ [Digest d]) -> Ripemd.use v (cs2 ++ [HSum []]) = Ret (rs2 ++ [Digest d]) ->
  let n := length (written [] cs1) in length (written [] cs2) = n ->
  exists rs1' rs2' d', let more := [HWrite (closing little_field n ++ x); HSum []] in
  Ripemd.use v (cs1 ++ more) = Ret (rs1' ++ [Digest d']) /\ Ripemd.use v (cs2 ++ more) = Ret (rs2' ++ [Digest d']).
Proof.
  intros v cs1 cs2 rs1 rs2 d x H1 H2 X E1 E2 n L. cbv zeta.
  assert (C : hcalls_ok [HWrite (closing little_field n ++ x)]).
  { constructor; [|constructor]. cbn [hcall_ok]. apply Forall_app. split; [|exact X]. unfold closing. apply Forall_cons; [reflexivity|].
    apply Forall_app. split; [apply Forall_forall; intros b Hb; apply repeat_spec in Hb; subst b; reflexivity|apply DigestProofs.little_endian_ok]. }
  destruct (C98_ripemd v cs1 (cs1 ++ [HWrite (closing little_field n ++ x)]) rs1 d x) as [r1 F1]; [exact H1|apply Forall_app; split; assumption|exact E1|apply written_write|].
  destruct (C98_ripemd v cs2 (cs2 ++ [HWrite (closing little_field n ++ x)]) rs2 d x) as [r2 F2]; [exact H2|apply Forall_app; split; assumption|exact E2|rewrite L; apply written_write|].
  rewrite <- app_assoc in F1, F2. rewrite L in F2. fold n in F1. eauto.
Qed.
Print Assumptions C98_ripemd_collisions.
Theorem C98_whirlpool_collisions : forall cs1 cs2 rs1 rs2 d x, hcalls_ok cs1 -> hcalls_ok cs2 -> bytes_ok x ->
  Whirlpool.use (cs1 ++ [HSum []]) = Ret (rs1 ++ [Digest d]) -> Whirlpool.use (cs2 ++ [HSum []]) = Ret (rs2 ++ [Digest d]) ->
  let n := length (written [] cs1) in length (written [] cs2) = n -> N.of_nat (n + length (closing big_field n) + length x) < 2 ^ 64 ->
  exists rs1' rs2' d', let more := [HWrite (closing big_field n ++ x); HSum []] in
  Whirlpool.use (cs1 ++ more) = Ret (rs1' ++ [Digest d']) /\ Whirlpool.use (cs2 ++ more) = Ret (rs2' ++ [Digest d']).
Proof.
  intros cs1 cs2 rs1 rs2 d x H1 H2 X E1 E2 n L LT. cbv zeta.
  assert (C : hcalls_ok [HWrite (closing big_field n ++ x)]).
  { constructor; [|constructor]. cbn [hcall_ok]. apply Forall_app. split; [|exact X]. unfold closing. apply Forall_cons; [reflexivity|].
    apply Forall_app. split; [apply Forall_forall; intros b Hb; apply repeat_spec in Hb; subst b; reflexivity|apply Forall_rev, DigestProofs.little_endian_ok]. }
  destruct (C98_whirlpool cs1 (cs1 ++ [HWrite (closing big_field n ++ x)]) rs1 d x) as [r1 F1];
    [exact H1|apply Forall_app; split; assumption|exact E1|apply written_write|rewrite written_write, !app_length; fold n; lia|].
  destruct (C98_whirlpool cs2 (cs2 ++ [HWrite (closing big_field n ++ x)]) rs2 d x) as [r2 F2];
    [exact H2|apply Forall_app; split; assumption|exact E2|rewrite L; apply written_write|rewrite written_write, !app_length, L; lia|].
  rewrite <- app_assoc in F1, F2. rewrite L in F2. fold n in F1. eauto.
Qed.
Print Assumptions C98_whirlpool_collisions.

(** "abc", then its closing and "d", RIPEMD-128. *)
Example C98_nonvacuous : let abc := [97; 98; 99] in exists d,
  Ripemd.use Ripemd.V128 [HWrite abc; HSum []] = Ret [Wrote 3; Digest d]
  /\ Ripemd.use Ripemd.V128 [HWrite (abc ++ closing little_field 3 ++ [100]); HSum []]
     = Ret [Wrote 65; Digest (extended_words RipemdSpec.compress128 3 d [100])]
  /\ length (closing little_field 3) = 61%nat.
Proof. eexists. split; [vm_compute; reflexivity|]. split; vm_compute; reflexivity. Qed.
