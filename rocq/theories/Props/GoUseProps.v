(** C93: goroutines that use the hashes at the same time. *)
From Verif Require Import Base.Go Base.HashUse Base.Goroutine Base.GoUse Model.HashAtom Spec.HashUseSpec Spec.GoUseSpec.
From Verif Require Import Proofs.GoroutineProofs Proofs.GoUseProofs.
Local Open Scope N_scope.

(** A program: one goroutine does [g0], then starts the goroutines [gs] and waits
    for them. The rules of Go are kept: what is shared is only read, where Sum of
    a hash object counts as reading it and Write and Reset as writing. *)
Definition fair (g0 : goroutine) (gs : list goroutine) : Prop :=
  plays_fair 0 [] 0 start g0 /\
  let st0 := snd (expects 0 [] start g0) in
  forall i g, nth_error gs i = Some g -> plays_fair (S i) (hashes st0) (made st0) (found st0) g.
Definition started (objs : list object) (m : memory) (gs : list goroutine) : system (list reply * list object) :=
  (m, map (fun g => mkT (behave objs [] g) none) gs).

(** In every interleaving of the memory accesses there is no data race and no
    panic, nothing gets stuck, and every goroutine that has come to its end got
    the replies, and has the bytes in its slices, that it would have got alone.
    What the first goroutine had made is as it was. *)
Theorem C93_goroutines : forall g0 gs, fair g0 gs ->
  let st0 := snd (expects 0 [] start g0) in
  exists objs m u,
    alone 0 (behave [] [] g0) (fun _ => 0) none = Some ((fst (expects 0 [] start g0), objs), m, u) /\
    forall m' ts, becomes (started objs m gs) (m', ts) ->
      ~ race (m', ts)
      /\ ((exists w, moves (m', ts) w) \/ forall i t, nth_error ts i = Some t -> exists r, todo t = Return r)
      /\ (forall a, who a = O -> m' a = m a)
      /\ length ts = length gs
      /\ forall i t g, nth_error ts i = Some t -> nth_error gs i = Some g ->
         todo t <> Crash /\
         forall rs mine, todo t = Return (rs, mine) ->
           rs = fst (expects (S i) (hashes st0) (found st0) g)
           /\ forall a, lib a = false -> who a = S i -> m' a = text (snd (expects (S i) (hashes st0) (found st0) g)) a.
Proof.
  intros g0 gs [P0 Ps] st0. destruct (main_ok g0 P0) as (objs & m & u & E & Iv & Z). exists objs, m, u. split; [exact E|].
  intros m' ts B. pose proof (started_fine g0 gs objs m u Ps Iv Z) as F0.
  assert (F : fine (ends_well g0 gs) (m', ts)) by (apply (fine_becomes _ (ends_well_local g0 gs) _ _ B F0)).
  split; [apply (fine_no_race _ _ F)|]. split; [apply (fine_goes_on _ _ F)|].
  split; [apply (fine_main _ (ends_well_local g0 gs) _ _ B F0)|].
  split; [rewrite (becomes_length _ _ B : length ts = _); cbn [snd started]; apply map_length|].
  intros i t g Ht Hg. destruct (fine_ends _ _ i t F Ht) as [C R]. split; [exact C|]. intros rs mine Er.
  destruct (R _ Er) as (g' & Eg & H). rewrite Hg in Eg. injection Eg as <-. fold st0 in H.
  destruct (expects (S i) (hashes st0) (found st0) g) as [rs' st']. cbn [fst snd] in *. destruct H as [H1 H2]. split; [exact H1|].
  intros a La Wa. apply H2; [exact La|left; exact Wa].
Qed.
(** And there is no infinite execution, of these or any other goroutines. *)
Theorem C93_terminates : forall (f : nat -> system (list reply * list object)), ~ (forall n, moves (f n) (f (S n))).
Proof. exact no_infinite. Qed.

(** ** An example: the text "ab" is written by the first goroutine to a checksum,
    two goroutines call Sum of it and write the same slice to hashes of their own. *)
Definition a0 : gslice := mkS (mkA 0 false 0) 2 2.
Definition first : goroutine :=
  Do (Make 2 2) (fun _ => Do (Store a0 0 97) (fun _ => Do (Store a0 1 98) (fun _ =>
  Do (Make_hash KBcc) (fun _ => Do (Do_write (Mine 0) a0) (fun _ => Stop))))).
Definition both : goroutine :=
  Do (Make 0 3) (fun r =>
    match r with
    | RSlice s =>
        Do (Do_sum (Ours 0) s 0) (fun r =>
          match r with
          | RSlice s =>
              Do (Make_hash KFletcher16) (fun _ => Do (Do_write (Mine 0) a0) (fun _ => Do (Do_sum (Mine 0) s 5) (fun r =>
                match r with RSlice s => Do (Load s 0) (fun _ => Do (Load s 1) (fun _ => Do (Load s 2) (fun _ => Stop))) | _ => Stop end)))
          | _ => Stop
          end)
    | _ => Stop
    end).
Ltac kept := repeat split; cbn in *; try lia; try reflexivity.
Example both_fair : fair first [both; both].
Proof.
  split.
  - split; [kept|]. split; [kept; intros; left; kept|]. split; [kept; intros; left; kept|]. split; [exact Logic.I|]. split; [|exact Logic.I].
    split; [kept; intros; left; kept|]. exists 0%nat, KBcc, []. kept.
  - cbv zeta. intros i g Hg. assert (g = both) as -> by (destruct i as [|[|[|]]]; cbn in Hg; congruence). clear Hg.
    split; [kept|]. 
    split. { split; [kept; intros; left; kept|]. exists KBcc, [[97; 98]]. split; [reflexivity|]. intros _ j Hj. kept. }
    split; [exact Logic.I|].
    split. { split; [kept; intros; right; kept|]. exists 0%nat, KFletcher16, []. repeat split. left. discriminate. }
    split. { split; [kept; intros; left; kept|]. exists KFletcher16, [[97; 98]]. split; [reflexivity|]. intros _ j Hj. kept. }
    split; [split; kept; intros; left; kept|].
    split; [split; kept; intros; left; kept|].
    split; [split; kept; intros; left; kept|exact Logic.I].
Qed.
(** What both of them get: the checksum of "ab" made before, and their own. *)
Example both_replies : fst (expects 2 [(KBcc, [[97; 98]])] (found (snd (expects 0 [] start first))) both)
  = [RSlice (mkS (mkA 2 false 0) 0 3); RSlice (mkS (mkA 2 false 0) 1 3); RHash; RWrote 2; RSlice (mkS (mkA 2 false 0) 3 3);
     RByte 3; RByte 37; RByte 195].
Proof. vm_compute. reflexivity. Qed.

(** The rules are needed: two goroutines that write to one hash object race, and
    so do two that let Sum append to spare capacity of the same slice. *)
Definition writer : goroutine := Do (Do_write (Ours 0) a0) (fun _ => Stop).
Definition summer : goroutine := Do (Do_sum (Ours 0) (mkS (mkA 0 false 0) 0 2) 0) (fun _ => Stop).
Definition steps_of (i : nat) : nat -> system (list reply * list object) -> system (list reply * list object) :=
  fix go n w :=
    match n with
    | O => w
    | S n' =>
        match nth_error (snd w) i with
        | Some t => match advance (S i) (fst w) t with Some (m, t') => go n' (m, replaced i t' (snd w)) | None => w end
        | None => w
        end
    end.
Lemma steps_becomes i n : forall w w0, becomes w0 w -> becomes w0 (steps_of i n w).
Proof.
  induction n as [|n IH]; intros w w0 B; [exact B|]. cbn [steps_of]. destruct w as [m ts]. cbn [fst snd].
  destruct (nth_error ts i) as [t|] eqn:Et; [|exact B]. destruct (advance (S i) m t) as [[m' t']|] eqn:Ea; [|exact B].
  apply IH. apply (More _ _ _ B). econstructor; eassumption.
Qed.
Theorem C93_sharing_needed : exists objs m u,
  alone 0 (behave [] [] first) (fun _ => 0) none = Some ((fst (expects 0 [] start first), objs), m, u)
  /\ (exists w, becomes (started objs m [writer; writer]) w /\ race w)
  /\ exists w, becomes (started objs m [summer; summer]) w /\ race w.
Proof.
  destruct (main_ok first (proj1 both_fair)) as (objs & m & u & E & _). exists objs, m, u. split; [exact E|].
  assert (Eo : objs = [(KBcc, mkA 0 true 0)]) by (vm_compute in E; congruence). subst objs. split.
  - exists (steps_of 0 3 (started [(KBcc, mkA 0 true 0)] m [writer; writer])). split; [apply steps_becomes, Here|].
    exists 0%nat, 1%nat. eexists _, _, _. split; [discriminate|]. split; [reflexivity|]. split; [reflexivity|]. split; [reflexivity|]. left. reflexivity.
  - exists (steps_of 1 1 (steps_of 0 1 (started [(KBcc, mkA 0 true 0)] m [summer; summer]))). split; [apply steps_becomes, steps_becomes, Here|].
    exists 0%nat, 1%nat. eexists _, _, _. split; [discriminate|]. split; [reflexivity|]. split; [reflexivity|]. split; [reflexivity|]. right. reflexivity.
Qed.

Print Assumptions C93_goroutines.
Print Assumptions C93_terminates.
Print Assumptions C93_sharing_needed.
