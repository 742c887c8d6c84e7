(** C101: which memory is accessed, and in which order, does not depend on the data. *)
From Verif Require Import Base.Go Base.Mem Base.Goroutine Base.HashUse Base.GoUse Base.Trace Spec.GoUseSpec Spec.TraceSpec Model.HashAtom.
From Verif Require Import Proofs.GoroutineProofs Proofs.GoUseProofs Proofs.TraceProofs Proofs.TraceBytes Proofs.TraceGo Props.GoUseProps.
From Verif Require Base.BytesUse Model.BytesAtom Props.BytesUseProps.
Local Open Scope N_scope.

(** One goroutine that uses hashes, whatever is in memory: the accesses are those
    of any other that does the same with other data, and if one panics so does
    the other. *)
Theorem C101_hashes : forall id g h m m' u, alike g h ->
  trace id (behave [] [] g) m u = trace id (behave [] [] h) m' u.
Proof.
  intros id g h m m' u H. eapply lock_trace, (t_behave id [] g h [] m m' u H).
  - split; intros; contradiction.
  - intros x (k & c & Hc & _). contradiction.
Qed.
Print Assumptions C101_hashes.

Lemma objects_placed i m u st (objs : list object) : Inv 0 [] [] m u st objs -> placed (S i) none objs.
Proof.
  intros (_ & _ & (_ & St) & (O1 & O2) & _). split.
  - intros k c Hc. apply In_nth_error in Hc. destruct Hc as [j Hj]. destruct (St j k c Hj) as [L _]. split; [exact L|]. destruct (O1 j k c Hj) as [W _]. intros. congruence.
  - intros k c k' c' H H'. apply In_nth_error in H, H'. destruct H as [j Hj], H' as [j' Hj']. destruct (Nat.eq_dec j j') as [<-|Ne]; [left; congruence|].
    right. right. apply (O2 j j' _ _ _ _ Ne Hj Hj').
Qed.
(** What is done is a beginning of [full], and all of it when there is no more to do. *)
Definition begins {A} (full done : list access) (t : thread A) : Prop :=
  exists rest, full = done ++ rest /\ ((exists r, todo t = Return r) \/ todo t = Crash -> rest = []).
Lemma begins_trace {A} id (t : thread A) m l full : l ++ fst (trace id (todo t) m (used t)) = full -> begins full l t.
Proof. intros <-. eexists. split; [reflexivity|]. intros [[r ->]| ->]; reflexivity. Qed.

(** Programs as in C93 that do the same with other data: the first goroutine, and
    then each of the others, makes the same accesses in the same order, in every
    interleaving of the one program and of the other. *)
Theorem C101_goroutines : forall g0 h0 gs hs, fair g0 gs -> fair h0 hs -> alike g0 h0 -> Forall2 alike gs hs ->
  exists rs rs' objs m m' u,
    alone 0 (behave [] [] g0) (fun _ => 0) none = Some ((rs, objs), m, u) /\
    alone 0 (behave [] [] h0) (fun _ => 0) none = Some ((rs', objs), m', u) /\
    trace 0 (behave [] [] g0) (fun _ => 0) none = trace 0 (behave [] [] h0) (fun _ => 0) none /\
    exists all : list (list access), length all = length gs /\
    forall w, w = started objs m gs \/ w = started objs m' hs ->
    forall ls n ts, did w ls (n, ts) -> length ls = length gs /\
      forall i full l t, nth_error all i = Some full -> nth_error ls i = Some l -> nth_error ts i = Some t -> begins full l t.
Proof.
  intros g0 h0 gs hs [P0 Ps] [P0' Ps'] H0 H.
  destruct (main_ok g0 P0) as (objs & m & u & E & Iv & Z). destruct (main_ok h0 P0') as (objs' & m' & u' & E' & Iv' & Z').
  assert (Lk : lock 0 (ended_so 0 []) (behave [] [] g0) (behave [] [] h0) (fun _ => 0) (fun _ => 0) none).
  { apply (t_behave 0 [] g0 h0 [] _ _ _ H0); [split; intros; contradiction|intros x (k & c & Hc & _); contradiction]. }
  destruct (lock_alone _ _ _ _ _ _ _ _ _ _ Lk E) as (y & n & E2 & En). rewrite E' in E2. injection E2 as <- <- <-.
  destruct En as (Eo & _ & _ & Ag). cbn [snd app] in *. subst objs'.
  exists (fst (expects 0 [] start g0)), (fst (expects 0 [] start h0)), objs, m, m', u'. split; [exact E|]. split; [exact E'|]. split; [apply (lock_trace _ _ _ _ _ _ _ Lk)|].
  exists (map (fun p => fst (trace (S (fst p)) (behave objs [] (snd p)) m none)) (combine (seq 0 (length gs)) gs)).
  split. { rewrite map_length, combine_length, seq_length. apply Nat.min_id. }
  assert (Len : length gs = length hs) by (clear - H; induction H; cbn [length]; congruence).
  assert (Nth : forall i full, nth_error (map (fun p => fst (trace (S (fst p)) (behave objs [] (snd p)) m none)) (combine (seq 0 (length gs)) gs)) i = Some full ->
    exists g, nth_error gs i = Some g /\ full = fst (trace (S i) (behave objs [] g) m none)).
  { intros i full F. rewrite nth_error_map in F. assert (G : forall (l : list goroutine) k, nth_error (combine (seq k (length l)) l) i = option_map (fun g => ((k + i)%nat, g)) (nth_error l i)).
    { clear. revert i. induction i as [|i IH]; intros [|g l] k; try reflexivity.
      - cbn. rewrite Nat.add_0_r. reflexivity.
      - cbn [length seq combine nth_error]. rewrite IH. rewrite <- Nat.add_succ_comm. reflexivity. }
    rewrite G in F. destruct (nth_error gs i) as [g|]; [|discriminate]. cbn [option_map fst snd] in F. injection F as <-. exists g. split; reflexivity. }
  intros w [->| ->] ls n ts D.
  - pose proof (did_length _ _ _ D) as L. pose proof (becomes_length _ _ (did_becomes _ _ _ D)) as L2. cbn [started snd] in *. rewrite map_length in L2. split; [congruence|].
    intros i full l t Hf Hl Ht. destruct (Nth i full Hf) as (g & Eg & ->). apply begins_trace with (id := S i) (m := n).
    apply (did_alone (ends_well g0 gs) (ends_well_local g0 gs) _ _ _ (started_fine g0 gs objs m u' Ps Iv Z) D i (mkT (behave objs [] g) none) t l); [|exact Ht|exact Hl].
    cbn [snd]. rewrite nth_error_map, Eg. reflexivity.
  - pose proof (did_length _ _ _ D) as L. pose proof (becomes_length _ _ (did_becomes _ _ _ D)) as L2. cbn [started snd] in *. rewrite map_length in L2. split; [congruence|].
    intros i full l t Hf Hl Ht. destruct (Nth i full Hf) as (g & Eg & ->).
    assert (Hi : exists h, nth_error hs i = Some h /\ alike g h).
    { clear - H Eg. revert i Eg. induction H as [|x y xs ys A F IH]; intros [|i] E; cbn in *; try discriminate; [injection E as <-; eauto|apply IH, E]. }
    destruct Hi as (h & Eh & Ah). apply begins_trace with (id := S i) (m := n).
    rewrite (lock_trace _ _ _ _ m m' none (t_behave (S i) objs g h [] m m' none Ah ltac:(rewrite app_nil_r; apply (objects_placed i _ _ _ _ Iv)) ltac:(rewrite app_nil_r; exact Ag))).
    apply (did_alone (ends_well h0 hs) (ends_well_local h0 hs) _ _ _ (started_fine h0 hs objs m' u' Ps' Iv' Z') D i (mkT (behave objs [] h) none) t l); [|exact Ht|exact Hl].
    cbn [snd]. rewrite nth_error_map, Eh. reflexivity.
Qed.
Print Assumptions C101_goroutines.

Lemma bytes_seem_refl r : bytes_seem r r.
Proof. destruct r; reflexivity || exact Logic.I. Qed.
Lemma bytes_seem_sym r s : bytes_seem r s -> bytes_seem s r.
Proof. destruct r, s; cbn [bytes_seem]; intros H; try discriminate; try exact Logic.I; congruence. Qed.
Lemma bytes_alike_both g : forall g' h, bytes_alike g h -> bytes_alike g' h -> bytes_alike g g'.
Proof.
  induction g as [|c k IH]; intros [|c' k'] [|d j] H H'; cbn [bytes_alike] in *; try contradiction; [exact Logic.I|].
  destruct H as [L H], H' as [L' H']. split.
  - destruct c, d, c'; cbn [bytes_look] in *; try discriminate; try congruence; intuition congruence.
  - intros r1 r2 Hr. apply (IH r1 (k' r2) (j r1)); [apply H, bytes_seem_refl|apply H', bytes_seem_sym, Hr].
Qed.
Lemma bytes_alike_sym g : forall h, bytes_alike g h -> bytes_alike h g.
Proof.
  induction g as [|c k IH]; intros [|d j] H; cbn [bytes_alike] in *; try contradiction; [exact Logic.I|]. destruct H as [L H]. split.
  - destruct c, d; cbn [bytes_look] in *; try discriminate; try congruence; intuition congruence.
  - intros r1 r2 Hr. apply IH, H, bytes_seem_sym, Hr.
Qed.

(** Package bytes: any goroutines, with races or without, from any memory; and the
    accesses are the same for goroutines that do the same with other data. *)
Theorem C101_bytes : forall gs hs, Forall2 bytes_alike gs hs ->
  exists all : list (list access), length all = length gs /\
  forall js, js = gs \/ js = hs -> forall m ls n ts,
    did (m, map (fun g => mkT (BytesAtom.behave g) none) js) ls (n, ts) -> length ls = length gs /\
    forall i full l t, nth_error all i = Some full -> nth_error ls i = Some l -> nth_error ts i = Some t -> begins full l t.
Proof.
  intros gs hs H. set (z := fun _ : addr => 0%N). assert (Len : length gs = length hs) by (clear - H; induction H; cbn [length]; congruence).
  exists (map (fun p => fst (trace (S (fst p)) (BytesAtom.behave (snd p)) z none)) (combine (seq 0 (length gs)) gs)).
  split. { rewrite map_length, combine_length, seq_length. apply Nat.min_id. }
  assert (Nth : forall i full, nth_error (map (fun p => fst (trace (S (fst p)) (BytesAtom.behave (snd p)) z none)) (combine (seq 0 (length gs)) gs)) i = Some full ->
    exists g, nth_error gs i = Some g /\ full = fst (trace (S i) (BytesAtom.behave g) z none)).
  { intros i full F. rewrite nth_error_map in F. assert (G : forall (l : list BytesUse.job) k, nth_error (combine (seq k (length l)) l) i = option_map (fun g => ((k + i)%nat, g)) (nth_error l i)).
    { clear. revert i. induction i as [|i IH]; intros [|g l] k; try reflexivity.
      - cbn. rewrite Nat.add_0_r. reflexivity.
      - cbn [length seq combine nth_error]. rewrite IH. rewrite <- Nat.add_succ_comm. reflexivity. }
    rewrite G in F. destruct (nth_error gs i) as [g|]; [|discriminate]. cbn [option_map fst snd] in F. injection F as <-. exists g. split; reflexivity. }
  assert (Pair : forall i g, nth_error gs i = Some g -> exists h, nth_error hs i = Some h /\ bytes_alike g h).
  { clear - H. induction H as [|x y xs ys A F IH]; intros [|i] g E; cbn in *; try discriminate; [injection E as <-; eauto|apply IH, E]. }
  assert (Riap : forall i h, nth_error hs i = Some h -> exists g, nth_error gs i = Some g /\ bytes_alike g h).
  { clear - H. induction H as [|x y xs ys A F IH]; intros [|i] g E; cbn in *; try discriminate; [injection E as <-; eauto|apply IH, E]. }
  intros js Js m ls n ts D.
  assert (Lj : length js = length gs) by (destruct Js as [->| ->]; congruence).
  assert (Slf : forall i j, nth_error js i = Some j -> exists g, nth_error gs i = Some g /\ bytes_alike g j /\ bytes_alike j j).
  { intros i j Hj. destruct Js as [->| ->].
    - destruct (Pair i j Hj) as (h & Eh & A). exists j. pose proof (bytes_alike_both _ _ _ A A). auto.
    - destruct (Riap i j Hj) as (g & Eg & A). exists g. apply bytes_alike_sym in A as B. pose proof (bytes_alike_both _ _ _ B B). auto. }
  pose proof (did_length _ _ _ D) as L. pose proof (becomes_length _ _ (did_becomes _ _ _ D)) as L2. cbn [snd] in *. rewrite map_length in L2. split; [congruence|].
  intros i full l t Hf Hl Ht. destruct (Nth i full Hf) as (g & Eg & ->).
  assert (Hj : exists j, nth_error js i = Some j).
  { destruct (nth_error js i) as [j|] eqn:E; [eauto|]. apply nth_error_None in E. assert (i < length gs)%nat by (apply nth_error_Some; congruence). lia. }
  destruct Hj as [j Ej]. destruct (Slf i j Ej) as (g' & Eg' & A & _). rewrite Eg in Eg'. injection Eg' as <-.
  apply begins_trace with (id := S i) (m := z). rewrite (par_trace _ _ _ _ z z none (par_behave g j A)).
  assert (Pj : forall k tk, nth_error (map (fun g => mkT (BytesAtom.behave g) none) js) k = Some tk -> par (Forall2 bytes_seem) (todo tk) (todo tk)).
  { intros k tk Hk. rewrite nth_error_map in Hk. destruct (nth_error js k) as [jk|] eqn:Ek; [|discriminate]. injection Hk as <-. destruct (Slf k jk Ek) as (_ & _ & _ & B). apply par_behave, B. }
  apply (did_par (Forall2 bytes_seem) z (m, map (fun g => mkT (BytesAtom.behave g) none) js) ls (n, ts) Pj D i (mkT (BytesAtom.behave j) none) t l); [|exact Ht|exact Hl].
  cbn [snd]. rewrite nth_error_map, Ej. reflexivity.
Qed.
Print Assumptions C101_bytes.

(** ** Examples *)

(** The program of C93 with other texts in the place of "ab". *)
Definition first_with (x y : N) : goroutine :=
  Do (Make 2 2) (fun _ => Do (Store a0 0 x) (fun _ => Do (Store a0 1 y) (fun _ =>
  Do (Make_hash KBcc) (fun _ => Do (Do_write (Mine 0) a0) (fun _ => Stop))))).
Example first_same : first_with 97 98 = first. Proof. reflexivity. Qed.
Example first_alike x y x' y' : alike (first_with x y) (first_with x' y').
Proof. repeat (split; [repeat split|]; split; [exact Logic.I || reflexivity|]; intros ? ? _). exact Logic.I. Qed.
Example both_alike : alike both both.
Proof.
  split; [reflexivity|]. split; [exact Logic.I|]. intros r1 r2 H. destruct r1, r2; cbn [seems] in H; try discriminate; try exact Logic.I. destruct H as [<- H].
  split; [reflexivity|]. split; [exact H|]. intros r1 r2 H1. destruct r1, r2; cbn [seems] in H1; try discriminate; try exact Logic.I. destruct H1 as [<- H1].
  split; [reflexivity|]. split; [exact Logic.I|]. intros ? ? _. split; [reflexivity|]. split; [reflexivity|]. intros ? ? _. split; [reflexivity|]. split; [exact H1|].
  intros q1 q2 H2. destruct q1, q2; cbn [seems] in H2; try discriminate; try exact Logic.I. destruct H2 as [<- H2].
  split; [reflexivity|]. split; [exact H2|]. intros ? ? _. split; [reflexivity|]. split; [exact H2|]. intros ? ? _. split; [reflexivity|]. split; [exact H2|]. intros ? ? _. exact Logic.I.
Qed.
Example others_fair x y : x < 256 -> y < 256 -> fair (first_with x y) [both; both].
Proof.
  intros Hx Hy. split.
  - split; [kept|]. split; [kept; intros; left; kept|]. split; [kept; intros; left; kept|]. split; [exact Logic.I|]. split; [|exact Logic.I].
    split; [kept; intros; left; kept|]. exists 0%nat, KBcc, []. kept.
  - cbv zeta. intros i g Hg. assert (g = both) as -> by (destruct i as [|[|[|]]]; cbn in Hg; congruence). clear Hg.
    split; [kept|].
    split. { split; [kept; intros; left; kept|]. exists KBcc, [[x; y]]. split; [reflexivity|]. intros _ j Hj. kept. }
    split; [exact Logic.I|].
    split. { split; [kept; intros; right; kept|]. exists 0%nat, KFletcher16, []. repeat split. left. discriminate. }
    split. { split; [kept; intros; left; kept|]. exists KFletcher16, [[x; y]]. split; [reflexivity|]. intros _ j Hj. kept. }
    split; [split; kept; intros; left; kept|].
    split; [split; kept; intros; left; kept|].
    split; [split; kept; intros; left; kept|exact Logic.I].
Qed.
Example other_texts x y : x < 256 -> y < 256 -> fair first [both; both] /\ fair (first_with x y) [both; both] /\ alike first (first_with x y) /\ Forall2 alike [both; both] [both; both].
Proof.
  intros Hx Hy. split; [apply both_fair|]. split; [apply (others_fair x y Hx Hy)|]. split; [apply first_alike|]. repeat constructor; apply both_alike.
Qed.
(** The accesses are those of the operations: a checksum of one byte takes other
    ones than a checksum of two. *)
Example lengths_show :
  trace 0 (behave [] [] (Do (Make 2 2) (fun _ => Do (Make_hash KBcc) (fun _ => Do (Do_write (Mine 0) a0) (fun _ => Stop))))) (fun _ => 0) none
  = ([Made false 2; Made true 1; Wrote (mkA 0 true 0); Read (mkA 0 true 0); Read (mkA 0 false 0); Read (mkA 0 false 1); Wrote (mkA 0 true 0)], true)
  /\ trace 0 (behave [] [] (Do (Make 2 2) (fun _ => Do (Make_hash KBcc) (fun _ => Do (Do_write (Mine 0) (mkS (mkA 0 false 0) 1 2)) (fun _ => Stop))))) (fun _ => 0) none
  = ([Made false 2; Made true 1; Wrote (mkA 0 true 0); Read (mkA 0 true 0); Read (mkA 0 false 0); Wrote (mkA 0 true 0)], true).
Proof. vm_compute. split; reflexivity. Qed.
(** A panic is not the same as an end: an index out of range, and nothing at all. *)
Example panics_show :
  trace 0 (behave [] [] (Do (Make 2 2) (fun _ => Do (Load a0 2) (fun _ => Stop)))) (fun _ => 0) none = ([Made false 2], false)
  /\ trace 0 (behave [] [] (Do (Make 2 2) (fun _ => Stop))) (fun _ => 0) none = ([Made false 2], true).
Proof. vm_compute. split; reflexivity. Qed.
(** An addition whose carry runs through and one without carries. *)
Definition adder (x : N) : BytesUse.job :=
  BytesUse.Do (BytesUse.CStore (mkSlice 0 8) 0 x) (fun _ =>
  BytesUse.Do (BytesUse.CAdd LittleEndian BytesUse.W64 (mkSlice 20 8) (mkSlice 0 8) (mkSlice 10 8)) (fun _ => BytesUse.Stop)).
Example adders_alike x y : bytes_alike (adder x) (adder y).
Proof. repeat (split; [repeat split; reflexivity|]; intros ? ? _). exact Logic.I. Qed.
Example adders_same m m' : trace 1 (BytesAtom.behave (adder 255)) m none = trace 1 (BytesAtom.behave (adder 0)) m' none.
Proof. apply (par_trace _ _ _ _ _ _ _ (par_behave _ _ (adders_alike 255 0))). Qed.
