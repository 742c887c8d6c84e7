(** From a one-step simulation to whole histories. *)
From Verif Require Import Base.Go Base.HashApi Spec.ChecksumSpec Proofs.Util.
Local Open Scope N_scope.

Lemma run_trace {St} (step : St -> call -> outcome (St * result))
    value ser size bsize (R : St -> list (list N) -> Prop) (ok : list N -> Prop) :
  (forall s ws p, R s ws -> ok p ->
     exists s', step s (CWrite p) = Ret (s', RWrite (length p)) /\ R s' (ws ++ [p])) ->
  (forall s ws inp, R s ws ->
     exists s', step s (CSum inp) = Ret (s', RSum (inp ++ ser (value ws))) /\ R s' ws) ->
  (forall s ws, R s ws ->
     exists s', step s CValue = Ret (s', RValue (value ws)) /\ R s' ws) ->
  (forall s ws, R s ws -> exists s', step s CReset = Ret (s', RUnit) /\ R s' []) ->
  (forall s ws, R s ws -> exists s', step s CSize = Ret (s', RInt size) /\ R s' ws) ->
  (forall s ws, R s ws -> exists s', step s CBlockSize = Ret (s', RInt bsize) /\ R s' ws) ->
  forall cs s ws, R s ws -> writes_ok ok cs ->
  exists s', run step s cs = Ret (s', trace value ser size bsize ws cs)
    /\ R s' (since_reset ws cs).
Proof.
  intros HW HS HV HR HZ HB. induction cs as [|c cs IH]; intros s ws Hs Hok.
  - exists s. split; [reflexivity|exact Hs].
  - inversion Hok as [|? ? Hc Hok']; subst.
    destruct c as [p|inp| | | | ].
    + destruct (HW s ws p Hs Hc) as (s1 & E & H1).
      destruct (IH s1 (ws ++ [p]) H1 Hok') as (s2 & E2 & H2).
      exists s2. cbn [run trace since_reset]. rewrite E. cbn [bind]. rewrite E2.
      split; [reflexivity|exact H2].
    + destruct (HS s ws inp Hs) as (s1 & E & H1).
      destruct (IH s1 ws H1 Hok') as (s2 & E2 & H2).
      exists s2. cbn [run trace since_reset]. rewrite E. cbn [bind]. rewrite E2.
      split; [reflexivity|exact H2].
    + destruct (HV s ws Hs) as (s1 & E & H1).
      destruct (IH s1 ws H1 Hok') as (s2 & E2 & H2).
      exists s2. cbn [run trace since_reset]. rewrite E. cbn [bind]. rewrite E2.
      split; [reflexivity|exact H2].
    + destruct (HR s ws Hs) as (s1 & E & H1).
      destruct (IH s1 [] H1 Hok') as (s2 & E2 & H2).
      exists s2. cbn [run trace since_reset]. rewrite E. cbn [bind]. rewrite E2.
      split; [reflexivity|exact H2].
    + destruct (HZ s ws Hs) as (s1 & E & H1).
      destruct (IH s1 ws H1 Hok') as (s2 & E2 & H2).
      exists s2. cbn [run trace since_reset]. rewrite E. cbn [bind]. rewrite E2.
      split; [reflexivity|exact H2].
    + destruct (HB s ws Hs) as (s1 & E & H1).
      destruct (IH s1 ws H1 Hok') as (s2 & E2 & H2).
      exists s2. cbn [run trace since_reset]. rewrite E. cbn [bind]. rewrite E2.
      split; [reflexivity|exact H2].
Qed.

Lemma calls_ok_writes cs : calls_ok cs -> writes_ok bytes_ok cs.
Proof.
  unfold calls_ok, writes_ok. intros H. induction H as [|c cs Hc H IH]; constructor; auto.
  destruct c; auto.
Qed.

Lemma run_app {St} (step : St -> call -> outcome (St * result)) s cs1 cs2 :
  run step s (cs1 ++ cs2) =
  let! (s1, r1) := run step s cs1 in
  let! (s2, r2) := run step s1 cs2 in Ret (s2, r1 ++ r2).
Proof.
  revert s; induction cs1 as [|c cs1 IH]; intros s; cbn [app run].
  - cbn [bind]. destruct (run step s cs2) as [[s2 r2]| |]; reflexivity.
  - destruct (step s c) as [[s' r]| |]; cbn [bind]; try reflexivity.
    rewrite IH. destruct (run step s' cs1) as [[s1 r1]| |]; cbn [bind]; try reflexivity.
    destruct (run step s1 cs2) as [[s2 r2]| |]; reflexivity.
Qed.
