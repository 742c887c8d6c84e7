(** Proofs for C101: the accesses of goroutines in an interleaving. *)
From Verif Require Import Base.Go Base.Goroutine Base.Trace Proofs.GoroutineProofs Proofs.TraceProofs Proofs.TraceBytes.
Local Open Scope N_scope.

Lemma did_becomes {A} (w : system A) ls w' : did w ls w' -> becomes w w'.
Proof. induction 1 as [|ls m ts i t m' t' l _ IH Ht Hl Ha]; [constructor|]. eapply More; [exact IH|]. econstructor; eassumption. Qed.
Lemma did_length {A} (w : system A) ls w' : did w ls w' -> length ls = length (snd w').
Proof. induction 1 as [|ls m ts i t m' t' l _ IH Ht Hl Ha]; [apply map_length|]. cbn [snd] in *. rewrite !replaced_length. exact IH. Qed.
(** what a step takes away *)
Lemma trace_step {A} (id : nat) (t t' : thread A) m m' : advance id m t = Some (m', t') -> fst (trace id (todo t) m (used t)) = next (todo t) ++ fst (trace id (todo t') m' (used t')).
Proof.
  unfold advance. destruct (todo t) as [x| |a k|a v k|l s k]; intros E; try discriminate; injection E as <- <-; cbn [trace next todo used]; cbv zeta.
  - destruct (trace id (k (m a)) m (used t)) as [l e]. reflexivity.
  - destruct (trace id k (put m a v) (used t)) as [l e]. reflexivity.
  - match goal with |- context [trace ?x1 ?x2 ?x3 ?x4] => destruct (trace x1 x2 x3 x4) as [z e] end. reflexivity.
Qed.
Lemma trace_ext {A} (id : nat) (c : code A) Q : forall m m' u, agree id m m' -> safe id c m u Q -> trace id c m' u = trace id c m u.
Proof.
  induction c as [x| |a k IH|a v k IH|l n k IH]; cbn [safe trace]; intros m m' u H S; try reflexivity.
  - destruct S as [M S]. rewrite (H a M). rewrite (IH _ m m' u H S). reflexivity.
  - destruct S as [M S]. rewrite (IH (put m a v) (put m' a v)); [reflexivity| |exact S]. intros b Hb. unfold put. rewrite (H b Hb). reflexivity.
  - cbv zeta. rewrite (IH _ (clear m (mkA id l (u l)) n) (clear m' (mkA id l (u l)) n)); [reflexivity| |exact S]. intros b Hb. unfold clear. rewrite (H b Hb). reflexivity.
Qed.

Section System.
Context {A : Type} (Q : nat -> A -> memory -> Prop) (Loc : forall i, concerns (S i) (Q i)).
Lemma did_alone (w : system A) ls w' : fine Q w -> did w ls w' ->
  forall i t0 t l, nth_error (snd w) i = Some t0 -> nth_error (snd w') i = Some t -> nth_error ls i = Some l ->
    l ++ fst (trace (S i) (todo t) (fst w') (used t)) = fst (trace (S i) (todo t0) (fst w) (used t0)).
Proof.
  intros F. induction 1 as [|ls m ts i t m' t' l D IH Ht Hl Ha].
  - intros i t0 t l H0 H1 H2. rewrite nth_error_map, H1 in H2. rewrite H0 in H1. injection H1 as <-. injection H2 as <-. reflexivity.
  - cbn [fst snd] in *. intros j t0 tj lj H0 H1 H2. rewrite nth_replaced in H1. rewrite nth_replaced in H2.
    pose proof (fine_becomes Q Loc _ _ (did_becomes _ _ _ D) F) as Fm.
    destruct (Nat.eqb_spec i j) as [<-|Ne].
    + rewrite Ht in H1. rewrite Hl in H2. injection H1 as <-. injection H2 as <-. rewrite <- (IH i t0 t l H0 Ht Hl). rewrite (trace_step _ _ _ _ _ Ha), app_assoc. reflexivity.
    + rewrite <- (IH j t0 tj lj H0 H1 H2). do 2 f_equal.
      apply (fun G => trace_ext _ _ _ _ _ _ G (Fm j tj H1)). intros a Ma. pose proof (Fm i t Ht) as Sf. cbn [fst snd] in Sf. assert (W : who a <> S i) by (destruct Ma; lia). unfold advance in Ha.
      destruct (todo t) as [x| |b k|b v k|l' s k]; cbn [safe] in Sf; try discriminate; injection Ha as <- <-; [reflexivity| |].
      * unfold put. destruct (same_spec a b) as [->|]; [destruct Sf; contradiction|reflexivity].
      * unfold clear. destruct (within_spec (mkA (S i) l' (used t l')) s a) as [(X & _)|]; [contradiction|reflexivity].
Qed.
End System.

(** Code whose accesses depend on nothing: in all memories, with or without races. *)
Lemma did_par {A} (R : A -> A -> Prop) m0 (w : system A) ls w' : (forall i t, nth_error (snd w) i = Some t -> par R (todo t) (todo t)) -> did w ls w' ->
  forall i t0 t l, nth_error (snd w) i = Some t0 -> nth_error (snd w') i = Some t -> nth_error ls i = Some l ->
    par R (todo t) (todo t) /\ l ++ fst (trace (S i) (todo t) m0 (used t)) = fst (trace (S i) (todo t0) m0 (used t0)).
Proof.
  intros F. induction 1 as [|ls m ts i t m' t' l D IH Ht Hl Ha].
  - intros i t0 t l H0 H1 H2. rewrite nth_error_map, H1 in H2. rewrite H0 in H1. injection H1 as <-. injection H2 as <-. split; [apply (F i t0 H0)|reflexivity].
  - cbn [fst snd] in *. intros j t0 tj lj H0 H1 H2. rewrite nth_replaced in H1. rewrite nth_replaced in H2.
    destruct (Nat.eqb_spec i j) as [<-|Ne]; [|apply (IH j t0 tj lj H0 H1 H2)].
    rewrite Ht in H1. rewrite Hl in H2. injection H1 as <-. injection H2 as <-. destruct (IH i t0 t l H0 Ht Hl) as [P E].
    assert (P' : par R (todo t') (todo t')).
    { unfold advance in Ha. destruct (todo t) as [x| |b k|b v k|l' s k]; cbn [par] in P; try discriminate; injection Ha as <- <-; cbn [todo]; apply P. }
    split; [exact P'|]. rewrite <- E. rewrite (par_trace _ _ _ _ m0 m _ P). rewrite (trace_step _ _ _ _ _ Ha). rewrite (par_trace _ _ _ _ m0 m' _ P'), app_assoc. reflexivity.
Qed.
