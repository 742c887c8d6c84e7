(** C86: a collision of a hash is a collision of its compression function. *)
From Verif Require Import Base.Go Base.DigestApi Spec.DigestSpec Spec.CollisionSpec Proofs.CollisionProofs.
From Verif Require Model.Ripemd Model.Whirlpool Spec.RipemdSpec Spec.WhirlpoolSpec Proofs.RipemdProofs Proofs.WhirlpoolProofs.
Local Open Scope N_scope.

Definition compress_of (v : Ripemd.variant) : list N -> list N -> list N :=
  match v with
  | Ripemd.V128 => RipemdSpec.compress128 | Ripemd.V160 => RipemdSpec.compress160
  | Ripemd.V256 => RipemdSpec.compress256 | Ripemd.V320 => RipemdSpec.compress320
  end.
Definition iv_of (v : Ripemd.variant) : list N :=
  match v with
  | Ripemd.V128 => RipemdSpec.iv128 | Ripemd.V160 => RipemdSpec.iv160
  | Ripemd.V256 => RipemdSpec.iv256 | Ripemd.V320 => RipemdSpec.iv320
  end.

(** Two histories of calls that wrote different messages (below 2^61 bytes) and
    whose sums agree: among the compressions of the two messages there are two
    different ones with the same result. C54_compress128 and so on say that the
    code's compressions are these functions. *)
Theorem C86_ripemd : forall v cs1 cs2 rs1 rs2 d, hcalls_ok cs1 -> hcalls_ok cs2 ->
  Ripemd.use v (cs1 ++ [HSum []]) = Ret (rs1 ++ [Digest d]) -> Ripemd.use v (cs2 ++ [HSum []]) = Ret (rs2 ++ [Digest d]) ->
  let m1 := written [] cs1 in let m2 := written [] cs2 in
  N.of_nat (length m1) < 2 ^ 61 -> N.of_nat (length m2) < 2 ^ 61 -> m1 <> m2 ->
  collide (compress_of v) (calls (compress_of v) (iv_of v) (padded (RipemdSpec.bit_length m1) m1))
    (calls (compress_of v) (iv_of v) (padded (RipemdSpec.bit_length m2) m2)).
Proof.
  intros v cs1 cs2 rs1 rs2 d H1 H2 E1 E2 m1 m2 L1 L2 N.
  assert (S : RipemdProofs.spec_of v m1 = RipemdProofs.spec_of v m2).
  { rewrite RipemdProofs.use_trace in E1, E2 by (apply Forall_app; split; [assumption|repeat constructor]).
    rewrite DigestProofs.hash_trace_app in E1, E2. cbn [hash_trace app] in E1, E2. injection E1 as E1. injection E2 as E2.
    apply app_inj_tail in E1. apply app_inj_tail in E2. destruct E1 as [_ E1]. destruct E2 as [_ E2]. unfold m1, m2. congruence. }
  assert (B1 : 8 * N.of_nat (length m1) < 2 ^ 64) by lia. assert (B2 : 8 * N.of_nat (length m2) < 2 ^ 64) by lia.
  destruct v; cbn [compress_of iv_of].
  - apply (ripe_collision 4 RipemdSpec.compress128 RipemdSpec.iv128 (ltac:(split; [reflexivity|repeat constructor])) RipemdProofs.compress128_ok m1 m2 B1 B2 N S).
  - apply (ripe_collision 5 RipemdSpec.compress160 RipemdSpec.iv160 (ltac:(split; [reflexivity|repeat constructor])) RipemdProofs.compress160_ok m1 m2 B1 B2 N S).
  - apply (ripe_collision 8 RipemdSpec.compress256 RipemdSpec.iv256 (ltac:(split; [reflexivity|repeat constructor])) RipemdProofs.compress256_ok m1 m2 B1 B2 N S).
  - apply (ripe_collision 10 RipemdSpec.compress320 RipemdSpec.iv320 (ltac:(split; [reflexivity|repeat constructor])) RipemdProofs.compress320_ok m1 m2 B1 B2 N S).
Qed.
Print Assumptions C86_ripemd.

(** There are such histories, by counting: two messages of one byte more than
    the digest has. *)
Example C86_ripemd_nonvacuous : forall v, exists m1 m2 d, bytes_ok m1 /\ bytes_ok m2 /\ m1 <> m2
  /\ length m1 = S (4 * Ripemd.state_len v) /\ length m2 = S (4 * Ripemd.state_len v)
  /\ Ripemd.use v ([HWrite m1] ++ [HSum []]) = Ret ([Wrote (length m1)] ++ [Digest d])
  /\ Ripemd.use v ([HWrite m2] ++ [HSum []]) = Ret ([Wrote (length m2)] ++ [Digest d]).
Proof.
  intros v. destruct (counting (RipemdProofs.spec_of v) (4 * Ripemd.state_len v)) as (m1 & m2 & O1 & O2 & L1 & L2 & Ne & E).
  - intros m _. split; [apply RipemdProofs.spec_length|]. destruct v; apply flat_little_ok.
  - exists m1, m2, (RipemdProofs.spec_of v m1). repeat split; try assumption.
    + rewrite RipemdProofs.use_trace by (repeat constructor; assumption). reflexivity.
    + rewrite RipemdProofs.use_trace by (repeat constructor; assumption). rewrite E. reflexivity.
Qed.

Theorem C86_whirlpool : forall cs1 cs2 rs1 rs2 d, hcalls_ok cs1 -> hcalls_ok cs2 ->
  Whirlpool.use (cs1 ++ [HSum []]) = Ret (rs1 ++ [Digest d]) -> Whirlpool.use (cs2 ++ [HSum []]) = Ret (rs2 ++ [Digest d]) ->
  let m1 := written [] cs1 in let m2 := written [] cs2 in
  N.of_nat (length m1) < 2 ^ 64 -> N.of_nat (length m2) < 2 ^ 64 -> m1 <> m2 ->
  collide WhirlpoolSpec.compress (calls WhirlpoolSpec.compress (repeat 0 64) (padded (WhirlpoolSpec.whirlpool_length m1) m1))
    (calls WhirlpoolSpec.compress (repeat 0 64) (padded (WhirlpoolSpec.whirlpool_length m2) m2)).
Proof.
  intros cs1 cs2 rs1 rs2 d H1 H2 E1 E2 m1 m2 L1 L2 N. apply whirl_collision; try assumption.
  rewrite <- !WhirlpoolProofs.wdigest_published by assumption.
  rewrite WhirlpoolProofs.use_trace in E1, E2 by (apply Forall_app; split; [assumption|repeat constructor]).
  rewrite DigestProofs.hash_trace_app in E1, E2. cbn [hash_trace app] in E1, E2. injection E1 as E1. injection E2 as E2.
  apply app_inj_tail in E1. apply app_inj_tail in E2. destruct E1 as [_ E1]. destruct E2 as [_ E2]. unfold m1, m2. congruence.
Qed.
Print Assumptions C86_whirlpool.

Example C86_whirlpool_nonvacuous : exists m1 m2 d, bytes_ok m1 /\ bytes_ok m2 /\ m1 <> m2 /\ length m1 = 65%nat /\ length m2 = 65%nat
  /\ Whirlpool.use ([HWrite m1] ++ [HSum []]) = Ret ([Wrote (length m1)] ++ [Digest d])
  /\ Whirlpool.use ([HWrite m2] ++ [HSum []]) = Ret ([Wrote (length m2)] ++ [Digest d]).
Proof.
  destruct (counting WhirlpoolProofs.wdigest 64) as (m1 & m2 & O1 & O2 & L1 & L2 & Ne & E).
  - intros m Hm. destruct (WhirlpoolProofs.wdigest_ok m Hm) as [A B]. split; assumption.
  - exists m1, m2, (WhirlpoolProofs.wdigest m1). repeat split; try assumption.
    + rewrite WhirlpoolProofs.use_trace by (repeat constructor; assumption). reflexivity.
    + rewrite WhirlpoolProofs.use_trace by (repeat constructor; assumption). rewrite E. reflexivity.
Qed.
