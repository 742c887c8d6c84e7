(** C87: what a program sees of its own memory when it uses package net. *)
From Verif Require Import Base.Go Base.GoNet Base.Mem Base.Heap Base.NetApi Base.NetUse.
From Verif Require Import Model.NetMem Spec.NetSpec Spec.NetUseSpec Proofs.NetUseProofs.
Local Open Scope N_scope.

(** The states a program can get to: it makes byte slices, stores bytes, calls
    the functions of the package and makes and fills trees, in any order, with
    any slices of memory it was ever given. *)
Inductive reachable {V} : world V -> view V -> Prop :=
| started : reachable start nothing
| went_on w v u fuel w' a : reachable w v -> legal (cells (hp w)) v u -> step fuel w u = Ret (w', a) ->
    reachable w' (after (cells (hp w)) v u a).

Lemma reachable_Inv V (w : world V) v : reachable w v -> Inv w v.
Proof.
  induction 1 as [|w v u fuel w' a _ IH Hl E]; [apply Inv_start|].
  destruct (step_ok w v u IH Hl) as (k & w1 & a1 & E1 & _ & I1).
  specialize (E1 (Nat.max k fuel) ltac:(lia)). apply (step_mono fuel (Nat.max k fuel)) in E; [|lia].
  rewrite E in E1. injection E1 as <- <-. exact I1.
Qed.

(** Every operation returns and changes no memory of the program (but s[j] = x
    does); what it answers is computed from the bytes of the moment; and slices
    it returns are new memory, those of FirstIpv4 apart. *)
Theorem C87_memory_contract_partial : forall V (w : world V) v u, reachable w v -> legal (cells (hp w)) v u ->
  exists k w' a, (forall fuel, (k <= fuel)%nat -> step fuel w u = Ret (w', a))
    /\ promised first_same (cells (hp w)) v u a (cells (hp w')).
Proof.
  intros V w v u R Hl. destruct (step_ok w v u (reachable_Inv V w v R) Hl) as (k & w' & a & E & P & _). exists k, w', a. auto.
Qed.
Print Assumptions C87_memory_contract_partial.

(** Storing into any slice, be it an argument of earlier calls or part of an
    earlier list, does not change what a tree lists. *)
Theorem C87_trees_keep_nothing : forall V (w : world V) v i s j x w1 a1, reachable w v -> tree_of v i ->
  has v s -> (j < blen s)%nat -> x < 256 -> step 0 w (UStore s j x) = Ret (w1, a1) ->
  exists w2 l w3 l', step 0 w (UList i) = Ret (w2, NEntries l) /\ step 0 w1 (UList i) = Ret (w3, NEntries l')
    /\ map (shown (cells (hp w3))) l' = map (shown (cells (hp w2))) l.
Proof.
  intros V w v i s j x w1 a1 R Hi Hs Hj Hx E1.
  assert (L1 : legal (cells (hp w)) v (UStore s j x)) by (repeat split; try assumption; [repeat constructor; apply Hs|discriminate|discriminate]).
  pose proof (reachable_Inv _ _ _ R) as (M & _ & HL & _).
  pose proof (reachable_Inv _ _ _ (went_on _ _ _ _ _ _ R L1 E1)) as (M1 & _).
  assert (Ew : trees w1 = trees w).
  { cbn [step] in E1. destruct (store _ _ _ _); cbn [bind] in E1; try discriminate. injection E1 as <- _. reflexivity. }
  unfold tree_of in Hi. destruct (nth_error (trees w) i) as [t|] eqn:Et; [|apply nth_error_None in Et; lia].
  destruct (ListCidr_made t (hp w) M) as (h2 & l & E2 & _ & _ & _ & _ & _ & S2).
  destruct (ListCidr_made t (hp w1) M1) as (h3 & l' & E3 & _ & _ & _ & _ & _ & S3).
  exists (mkWorld h2 (trees w)), l, (mkWorld h3 (trees w1)), l'. cbn [step hp]. rewrite Ew, Et, E2, E3, S2, S3. auto.
Qed.
Print Assumptions C87_trees_keep_nothing.

(** FirstIpv4 returns the slice of the CIDR itself: storing into the result
    changes the CIDR. A program that meets the hypotheses makes the CIDR 0.0.0.0/0
    from two slices, asks for the first address and stores 10 into it. *)
Theorem C87_refuted : exists (w : world N) v ip mask s w1 w2, reachable w v /\ legal (cells (hp w)) v (UFirst ip mask)
  /\ step 0 w (UFirst ip mask) = Ret (w1, NSlice s) /\ ~ first_new (cells (hp w)) v ip mask (NSlice s) (cells (hp w1))
  /\ step 0 w1 (UStore s 0 10) = Ret (w2, NDone)
  /\ bytes_in (cells (hp w)) ip = [0; 0; 0; 0] /\ bytes_in (cells (hp w2)) ip = [10; 0; 0; 0].
Proof.
  assert (L1 : legal (V := N) (cells (hp (@start N))) nothing (UFromUint 0)) by (split; [apply Forall_nil|split; [discriminate|reflexivity]]).
  pose proof (went_on (V := N) _ _ _ 0 _ _ started L1 eq_refl) as R1.
  match type of R1 with reachable ?w ?v => assert (L2 : legal (cells (hp w)) v (UMaskFrom 0)) by (split; [apply Forall_nil|split; [discriminate|reflexivity]]) end.
  pose proof (went_on _ _ _ 0 _ _ R1 L2 eq_refl) as R2.
  eexists _, _, (mkB 0 4 4), (mkB 4 4 4), (mkB 0 4 4), _, _. split; [exact R2|]. split.
  { split; [|split; [discriminate|exact Logic.I]]. cbn [given].
    constructor; [|constructor; [|constructor]]; (split; [apply le_n|]); cbn [after owned]; intros a Ha; [left|]; right; exact Ha. }
  split; [reflexivity|]. split.
  - intros (s & E & (_ & F) & _). injection E as <-. apply (F 0%nat); [unfold covers; cbn [at_ bcap]; lia|].
    cbn [after owned]. left. right. unfold covers. cbn. lia.
  - split; [reflexivity|]. split; reflexivity.
Qed.
Print Assumptions C87_refuted.

(** A program that meets the hypotheses of the contract: an address is made and
    added to a tree, then overwritten and added again; the list has both; the
    first entry of the list is overwritten; the list is the same. *)
Definition a_program : list (nuse N) :=
  [ UTree N.add; UFromUint (quad 10 0 0 1); UAddIp 0 (mkB 0 4 4) 7; UStore (mkB 0 4 4) 0 9; UAddIp 0 (mkB 0 4 4) 8;
    UList 0; UStore (mkB 4 4 4) 0 77; ULast (mkB 12 4 4) (mkB 16 4 4); UList 0 ].
Fixpoint goes (w : world N) (v : view N) (us : list (nuse N)) : outcome (world N * view N * list (nanswer N)) :=
  match us with
  | [] => Ret (w, v, [])
  | u :: us =>
      let! (w', a) := step 0 w u in
      let! (w2, v2, r) := goes w' (after (cells (hp w)) v u a) us in
      Ret (w2, v2, a :: r)
  end.
Example a_program_runs :
  match goes start nothing a_program with
  | Ret (w, v, r) =>
      r = [ NNew 0; NSlice (mkB 0 4 4); NDone; NDone; NDone; NEntries [(mkB 4 4 4, mkB 8 4 4, 8); (mkB 12 4 4, mkB 16 4 4, 7)];
            NDone; NSlice (mkB 20 4 4); NEntries [(mkB 24 4 4, mkB 28 4 4, 8); (mkB 32 4 4, mkB 36 4 4, 7)] ]
      /\ map snd (grown v) = [[CAddIp [10; 0; 0; 1] 7; CAddIp [9; 0; 0; 1] 8]]
      /\ bytes_in (cells (hp w)) (mkB 4 4 4) = [77; 0; 0; 1]
      /\ bytes_in (cells (hp w)) (mkB 20 4 4) = [10; 0; 0; 1]
      /\ map (shown (cells (hp w))) [(mkB 24 4 4, mkB 28 4 4, 8); (mkB 32 4 4, mkB 36 4 4, 7)]
         = [(net_of (quad 9 0 0 1) 32, 8); (net_of (quad 10 0 0 1) 32, 7)]
  | _ => False
  end.
Proof. vm_compute. repeat split. Qed.

Lemma goes_reachable us : forall w v w' v' r, reachable w v -> goes w v us = Ret (w', v', r) ->
  (forall n w1 v1 r1 u, goes w v (firstn n us) = Ret (w1, v1, r1) -> nth_error us n = Some u -> legal (cells (hp w1)) v1 u) ->
  reachable w' v'.
Proof.
  induction us as [|u us IH]; intros w v w' v' r R E L; cbn [goes] in E; [injection E as <- <- _; exact R|].
  destruct (step 0 w u) as [[w1 a]| |] eqn:Es; cbn [bind] in E; try discriminate.
  destruct (goes w1 _ us) as [[[w2 v2] r2]| |] eqn:Eg; cbn [bind] in E; try discriminate. injection E as <- <- _.
  apply (IH w1 (after (cells (hp w)) v u a) w2 v2 r2); [|exact Eg|].
  - apply (went_on w v u 0 w1 a R); [|exact Es]. apply (L 0%nat w v [] u); reflexivity.
  - intros n w3 v3 r3 u3 E3 Eu. apply (L (S n) w3 v3 (a :: r3) u3); [|exact Eu]. cbn [firstn goes]. rewrite Es. cbn [bind]. rewrite E3. reflexivity.
Qed.
Ltac reach := first [lia | left; reach | right; reach | part 4%nat | part 8%nat | part 12%nat | part 16%nat]
with part x := exists (mkB x 4 4); split; [tauto|cbn; lia].
Ltac mine := repeat (apply Forall_cons; [split; [cbn; lia|unfold covers; cbn; intros ? ?; reach]|]); apply Forall_nil.
Ltac named := intros i c E; first [discriminate E | vm_compute in E; injection E as <- <-; split; [vm_compute; lia|]; 
  first [exists (quad 10 0 0 1); split; [reflexivity|left; reflexivity] | exists (quad 9 0 0 1); split; [reflexivity|left; reflexivity]]].
Example a_program_reachable : exists w v r, goes start nothing a_program = Ret (w, v, r) /\ reachable w v.
Proof.
  destruct (goes start nothing a_program) as [[[w v] r]| |] eqn:E; [|pose proof a_program_runs as X; rewrite E in X; contradiction..].
  exists w, v, r. split; [reflexivity|]. apply (goes_reachable a_program _ _ _ _ _ started E).
  intros n w1 v1 r1 u E1 Eu.
  do 9 (destruct n as [|n]; [cbn [firstn a_program nth_error] in E1, Eu; injection Eu as <-; clear E;
    vm_compute in E1; injection E1 as <- <- <-; split; [cbn [given]; mine|split; [named|unfold tree_of; cbn; first [exact Logic.I | lia | reflexivity | split; [lia|lia || reflexivity]]]]|]).
  destruct n; discriminate Eu.
Qed.
