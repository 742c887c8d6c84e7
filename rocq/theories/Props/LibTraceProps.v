(** C107: which memory the functions of packages hex and codegen access, and in
    which order, does not depend on the data. *)
From Verif Require Import Base.Go Base.HashUse Base.Goroutine Base.GoUse Base.Trace Base.LibUse Spec.HexSpec Spec.GoUseSpec Spec.LibUseSpec Spec.TraceSpec Spec.LibTraceSpec.
From Verif Require Import Model.Hex Model.HashAtom Model.HexAtom Proofs.GoroutineProofs Proofs.GoUseProofs Proofs.LibUseProofs Proofs.TraceProofs Proofs.TraceGo Proofs.LibTrace Props.LibUseProps.
From Verif Require Props.TraceProps.
Local Open Scope N_scope.

(** One call of a function of hex or codegen, whatever the bytes are: the accesses
    are those of the same call with other bytes, and if one panics so does the
    other. For the decoders the texts have hex digits in the same places. *)
Theorem C107_call : forall bd id d d' m m' u, deeds_look d d' -> argument_ok m d -> argument_ok m' d' ->
  trace id (do_deed bd [] [] d) m u = trace id (do_deed bd [] [] d') m' u.
Proof.
  intros bd id d d' m m' u Lk A A'.
  assert (Rd : forall e (n : memory), argument_ok n e -> ready n e) by (intros e n Ae; destruct e; [contradiction|exact Ae..]).
  eapply lock_trace, (t_deed bd id [] [] d d' m m' u Lk (Rd _ _ A) (Rd _ _ A')).
  - split; intros; contradiction.
  - intros x (k & c & Hc & _). contradiction.
Qed.
Print Assumptions C107_call.

(** Programs as in C103 that do the same with other data: the first goroutine, and
    then each of the others, makes the same accesses in the same order, in every
    interleaving of the one program and of the other. *)
Theorem C107_goroutines : forall bd g0 h0 gs hs, all_fair g0 gs -> all_fair h0 hs -> works_alike g0 h0 -> Forall2 works_alike gs hs ->
  exists rs rs' objs m m' u,
    alone 0 (work bd [] [] g0) (fun _ => 0) none = Some ((rs, objs), m, u) /\
    alone 0 (work bd [] [] h0) (fun _ => 0) none = Some ((rs', objs), m', u) /\
    trace 0 (work bd [] [] g0) (fun _ => 0) none = trace 0 (work bd [] [] h0) (fun _ => 0) none /\
    exists all : list (list access), length all = length gs /\
    forall w, w = set_off bd objs m gs \/ w = set_off bd objs m' hs ->
    forall ls n ts, did w ls (n, ts) -> length ls = length gs /\
      forall i full l t, nth_error all i = Some full -> nth_error ls i = Some l -> nth_error ts i = Some t -> TraceProps.begins full l t.
Proof.
  intros bd g0 h0 gs hs [P0 Ps] [P0' Ps'] H0 H.
  destruct (main_work bd g0 P0) as (objs & m & u & E & Iv & Z). destruct (main_work bd h0 P0') as (objs' & m' & u' & E' & Iv' & Z').
  assert (Lk : lock 0 (done_so 0 []) (work bd [] [] g0) (work bd [] [] h0) (fun _ => 0) (fun _ => 0) none).
  { apply (t_work bd 0 [] [] [] 0 (fun _ => conj eq_refl eq_refl) g0 h0 [] _ _ _ start start H0 start_Inv start_Inv P0 P0'); [split; intros; contradiction|intros x (k & c & Hc & _); contradiction]. }
  destruct (lock_alone _ _ _ _ _ _ _ _ _ _ Lk E) as (y & n & E2 & En). rewrite E' in E2. injection E2 as <- <- <-.
  destruct En as (Eo & _ & _ & Ag). cbn [snd app] in *. subst objs'.
  exists (fst (foresees 0 [] start g0)), (fst (foresees 0 [] start h0)), objs, m, m', u'. split; [exact E|]. split; [exact E'|]. split; [apply (lock_trace _ _ _ _ _ _ _ Lk)|].
  exists (map (fun p => fst (trace (S (fst p)) (work bd objs [] (snd p)) m none)) (combine (seq 0 (length gs)) gs)).
  split. { rewrite map_length, combine_length, seq_length. apply Nat.min_id. }
  assert (Len : length gs = length hs) by (apply (two_length _ _ _ H)).
  assert (Nth : forall i full, nth_error (map (fun p => fst (trace (S (fst p)) (work bd objs [] (snd p)) m none)) (combine (seq 0 (length gs)) gs)) i = Some full ->
    exists g, nth_error gs i = Some g /\ full = fst (trace (S i) (work bd objs [] g) m none)).
  { intros i full F. rewrite nth_error_map in F. assert (G : forall (l : list worker) k, nth_error (combine (seq k (length l)) l) i = option_map (fun g => ((k + i)%nat, g)) (nth_error l i)).
    { clear. revert i. induction i as [|i IH]; intros [|g l] k; try reflexivity.
      - cbn. rewrite Nat.add_0_r. reflexivity.
      - cbn [length seq combine nth_error]. rewrite IH. rewrite <- Nat.add_succ_comm. reflexivity. }
    rewrite G in F. destruct (nth_error gs i) as [g|]; [|discriminate]. cbn [option_map fst snd] in F. injection F as <-. exists g. split; reflexivity. }
  intros w [->| ->] ls n ts D.
  - pose proof (did_length _ _ _ D) as L. pose proof (becomes_length _ _ (did_becomes _ _ _ D)) as L2. cbn [set_off snd] in *. rewrite map_length in L2. split; [congruence|].
    intros i full l t Hf Hl Ht. destruct (Nth i full Hf) as (g & Eg & ->). apply TraceProps.begins_trace with (id := S i) (m := n).
    apply (did_alone (ends_as_foreseen g0 gs) (ends_local g0 gs) _ _ _ (workers_fine bd g0 gs objs m u' Ps Iv Z) D i (mkT (work bd objs [] g) none) t l); [|exact Ht|exact Hl].
    cbn [snd]. rewrite nth_error_map, Eg. reflexivity.
  - pose proof (did_length _ _ _ D) as L. pose proof (becomes_length _ _ (did_becomes _ _ _ D)) as L2. cbn [set_off snd] in *. rewrite map_length in L2. split; [congruence|].
    intros i full l t Hf Hl Ht. destruct (Nth i full Hf) as (g & Eg & ->).
    assert (Hi : exists h, nth_error hs i = Some h /\ works_alike g h).
    { clear - H Eg. revert i Eg. induction H as [|x y xs ys A F IH]; intros [|i] E; cbn in *; try discriminate; [injection E as <-; eauto|apply IH, E]. }
    destruct Hi as (h & Eh & Ah). apply TraceProps.begins_trace with (id := S i) (m := n).
    assert (Same : made (snd (foresees 0 [] start g0)) = made (snd (foresees 0 [] start h0))).
    { destruct Iv as (_ & <- & _), Iv' as (_ & <- & _). reflexivity. }
    pose proof (Ps i g Eg) as Fg. pose proof (Ps' i h Eh) as Fh. cbv zeta in Fg, Fh. rewrite <- Same in Fh.
    assert (Mn : S i = 0%nat -> objs = [] /\ made (snd (foresees 0 [] start g0)) = 0%nat) by discriminate.
    rewrite (lock_trace _ _ _ _ m m' none (t_work bd (S i) objs _ _ _ Mn g h [] m m' none _ _ Ah (found_Inv i _ _ _ _ Iv Z) (found_Inv i _ _ _ _ Iv' Z') Fg Fh
      ltac:(rewrite app_nil_r; apply (TraceProps.objects_placed i _ _ _ _ Iv)) ltac:(rewrite app_nil_r; exact Ag))).
    apply (did_alone (ends_as_foreseen h0 hs) (ends_local h0 hs) _ _ _ (workers_fine bd h0 hs objs m' u' Ps' Iv' Z') D i (mkT (work bd objs [] h) none) t l); [|exact Ht|exact Hl].
    cbn [snd]. rewrite nth_error_map, Eh. reflexivity.
Qed.
Print Assumptions C107_goroutines.

(** ** Examples *)

(** The accesses of the decoders do depend on where the first character is that is
    not a digit, and the hypothesis cannot be dropped. *)
Example decoders_stop :
  fst (trace 1 (do_deed Default [] [] (To_bytes [48; 48; 48; 120])) (fun _ => 0) none) = [Made false 2; Wrote (mkA 1 false 0)]
  /\ fst (trace 1 (do_deed Default [] [] (To_bytes [48; 48; 48; 57])) (fun _ => 0) none) = [Made false 2; Wrote (mkA 1 false 0); Wrote (mkA 1 false 1)].
Proof. vm_compute. split; reflexivity. Qed.

(** The program of C103 with other bytes in the place of 202 and 254. *)
Definition maker_of (x y : N) : worker :=
  Then (Plain (Make 2 2)) (fun _ => Then (Plain (Store b0 0 x)) (fun _ => Then (Plain (Store b0 1 y)) (fun _ => Rest))).
Example maker_same : maker_of 202 254 = maker. Proof. reflexivity. Qed.
Example makers_alike x y x' y' : works_alike (maker_of x y) (maker_of x' y').
Proof. split; [reflexivity|]. intros _ _ _. split; [split; reflexivity|]. intros _ _ _. split; [split; reflexivity|]. intros _ _ _. exact Logic.I. Qed.
Example alike_again : works_alike back_and_forth back_and_forth /\ works_alike generator generator.
Proof.
  split.
  - split; [reflexivity|]. intros r1 r2 H. destruct r1, r2; cbn [answers_seem] in H; try discriminate; try exact Logic.I.
    split; [exact H|]. intros r1 r2 H1. destruct r1, r2; cbn [answers_seem] in H1; try discriminate; try exact Logic.I. injection H1 as <-.
    split; [split; reflexivity|]. intros _ _ _. do 3 (split; [reflexivity|]; intros _ _ _). split; [apply shape_refl|]. intros _ _ _. exact Logic.I.
  - do 4 (split; [reflexivity|]; intros _ _ _). split; [apply shape_refl|]. intros _ _ _. exact Logic.I.
Qed.
(** It keeps the rules too, so the theorem applies to the pair. *)
Example other_fair : all_fair (maker_of 7 160) [back_and_forth; generator].
Proof.
  split.
  - split; [kept|]. split; [kept; intros; left; kept|]. split; [kept; intros; left; kept|]. exact Logic.I.
  - cbv zeta. intros i g Hg.
    assert (Hb : forall i, slice_ok (S i) 2 (found (snd (foresees 0 [] start (maker_of 7 160)))) b0) by (intros; kept; intros; right; kept).
    destruct i as [|[|i]]; cbn in Hg; [injection Hg as <-..|destruct i; discriminate Hg].
    + split; [apply Hb|]. split; [cbn; repeat constructor|]. split. { kept; intros; left; kept. } split; [exact Logic.I|].
      split. { split; [kept; intros; left; kept|]. exists 0%nat, KBcc, []. kept. }
      split. { split; [kept; intros; left; kept|]. exists KBcc, [[1; 160]]. split; [reflexivity|]. intros _ j Hj. kept; cbn in Hj; lia. }
      split; [cbn; repeat constructor|exact Logic.I].
    + split; [split; [apply Hb|reflexivity]|].
      split; [split; [apply Hb|split; [reflexivity|repeat split; try discriminate]]|].
      split; [split; [apply Hb|split; [reflexivity|repeat split; try discriminate]]|].
      split; [split; [apply Hb|split; [reflexivity|repeat split; try discriminate]]|].
      split; [cbn; repeat constructor|exact Logic.I].
Qed.
Example C107_nonvacuous : all_fair maker [back_and_forth; generator] /\ all_fair (maker_of 7 160) [back_and_forth; generator]
  /\ works_alike maker (maker_of 7 160) /\ Forall2 works_alike [back_and_forth; generator] [back_and_forth; generator].
Proof. split; [exact C103_nonvacuous|]. split; [exact other_fair|]. split; [apply (makers_alike 202 254)|]. apply Forall2_cons; [apply alike_again|]. apply Forall2_cons; [apply alike_again|constructor]. Qed.
