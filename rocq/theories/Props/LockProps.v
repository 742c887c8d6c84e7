(** C109: hashes and slices shared under a lock. *)
From Verif Require Import Base.Go Base.HashUse Base.Goroutine Base.GoUse Base.Lock Base.LockUse Model.HashAtom Model.LockAtom.
From Verif Require Import Spec.HashUseSpec Spec.GoUseSpec Spec.LockSpec Proofs.GoroutineProofs Proofs.GoUseProofs Proofs.LockProofs.
From Verif Require Spec.ChecksumSpec Proofs.ChecksumProofs.
From Coq Require Import Permutation.
Local Open Scope N_scope.

(** A program: one goroutine does [g0], then starts the workers [ws], which use what
    it made only while they hold the lock (alone, if they change it). The user has to check the rules only
    for executions in which every stretch happens at once ([orderly]). *)
Definition guarded (g0 : goroutine) (ws : list worker) : Prop :=
  plays_fair 0 [] 0 start g0 /\ orderly (snd (expects 0 [] start g0)) ws.

(** What can be seen of an execution [y] is what there is in [p], where stretches
    happen at once: the replies so far, the bytes of a worker that is between two
    stretches, and the shared bytes if nobody holds the lock alone. Of a stretch that is
    going on, [p] has the replies it will get. *)
Definition shows (y : locking (list reply * list object)) (p : shop) : Prop :=
  let '(m, ts) := y in
  length ts = length (snd p)
  /\ (forall i t, nth_error ts i = Some t -> exists q said, nth_error (snd p) i = Some (q, said) /\
      match at_stage t with
      | Between k => said = map fst (got t) /\ (k = Over <-> q = Rest) /\ forall a, lib a = false -> who a = S i -> m a = bytes (fst p) a
      | Inside _ _ _ => exists rs, said = map fst (got t) ++ [rs]
      end)
  /\ (unlocked ts -> forall a, lib a = false -> who a = O -> m a = bytes (fst p) a).

Lemma follows_shows u objs y p : follows u objs y p -> shows y p.
Proof.
  intros F. pose proof (fun i t => follows_worker u objs y p i t F) as W. destruct y as [m ts]. destruct F as (L & _ & _ & R). cbn [fst snd] in *.
  split; [exact L|]. split; [|intros E a La Wa; apply (R E); assumption]. intros i t Ht. destruct (W i t Ht) as ([q said] & Eq & T).
  exists q, said. split; [exact Eq|]. unfold tracks in T. destruct (at_stage t) as [k|l c k]; cbn [fst snd] in T.
  - destruct T as (T1 & mine & T2 & T3). split; [exact T1|]. split; [|intros a La Wa; apply T3; assumption].
    destruct q as [|l g f]; cbn [labour] in T2; subst k; split; try discriminate; reflexivity.
  - destruct T as (rs & T1 & _). exists rs. exact T1.
Qed.

(** Every execution, however the memory accesses interleave, looks as if every
    stretch had happened at once, in some order in which stretches that came after
    one another stay so: what is the order at one moment remains at the beginning
    of the order later. *)
Theorem C109_atomic : forall g0 ws, guarded g0 ws ->
  let st0 := snd (expects 0 [] start g0) in
  exists objs m u,
    alone 0 (behave [] [] g0) (fun _ => 0) none = Some ((fst (expects 0 [] start g0), objs), m, u) /\
    forall y1 y2, leads (opened objs m ws) y1 -> leads y1 y2 ->
      exists p1 p2, turns (opening st0 ws) p1 /\ shows y1 p1 /\ turns p1 p2 /\ shows y2 p2.
Proof.
  intros g0 ws [P0 Ps] st0. destruct (main_ok g0 P0) as (objs & m & u & E & Iv & Z). exists objs, m, u. split; [exact E|].
  intros y1 y2 L1 L2. pose proof (follows_opened objs m u st0 ws Iv Z) as F0.
  destruct (follows_leads u objs st0 ws Ps _ _ L1 _ (No_turn _) F0) as (p1 & T1 & F1).
  destruct (follows_leads u objs st0 ws Ps _ _ L2 _ T1 F1) as (p2 & T2 & F2).
  exists p1, p2. split; [exact T1|]. split; [apply (follows_shows _ _ _ _ F1)|]. split; [exact T2|apply (follows_shows _ _ _ _ F2)].
Qed.

(** There is no data race, no panic and no deadlock. *)
Theorem C109_safe : forall g0 ws, guarded g0 ws ->
  exists objs m u,
    alone 0 (behave [] [] g0) (fun _ => 0) none = Some ((fst (expects 0 [] start g0), objs), m, u) /\
    forall y, leads (opened objs m ws) y ->
      ~ conflict y
      /\ (forall i t l c k, nth_error (snd y) i = Some t -> at_stage t = Inside l c k -> c <> Crash)
      /\ unhindered y.
Proof.
  intros g0 ws [P0 Ps]. destruct (main_ok g0 P0) as (objs & m & u & E & Iv & Z). exists objs, m, u. split; [exact E|].
  intros y L. pose proof (follows_opened objs m u _ ws Iv Z) as F0.
  destruct (follows_leads u objs _ ws Ps _ _ L _ (No_turn _) F0) as (p & T & F).
  split; [apply (follows_no_conflict _ _ _ _ F)|]. split; [intros i t l c k; apply (follows_no_crash _ _ _ _ _ _ _ _ _ F)|].
  apply (follows_goes_on _ _ _ _ F).
Qed.
(** Nor an infinite execution, of these or any other workers. *)
Theorem C109_terminates : forall (f : nat -> locking (list reply * list object)), ~ (forall n, steps (f n) (f (S n))).
Proof. exact no_infinite_steps. Qed.

(** When all workers have come to their ends, the first goroutine can go on, with
    what the workers have made of its slices and hash objects. *)
Theorem C109_after : forall g0 ws, guarded g0 ws ->
  let st0 := snd (expects 0 [] start g0) in
  exists objs m u,
    alone 0 (behave [] [] g0) (fun _ => 0) none = Some ((fst (expects 0 [] start g0), objs), m, u) /\
    forall m' ts, leads (opened objs m ws) (m', ts) -> (forall i t, nth_error ts i = Some t -> at_stage t = Between Over) ->
      exists w ps, turns (opening st0 ws) (w, ps)
        /\ (forall i q, nth_error ps i = Some q -> fst q = Rest)
        /\ forall g, let st1 := mkLocal (bytes w) (made_by w 0) (kept w 0) in
           plays_fair 0 [] 0 st1 g ->
           exists objs' m'' u', alone 0 (behave [] objs g) m' u = Some ((fst (expects 0 [] st1 g), objs'), m'', u')
             /\ forall a, lib a = false -> who a = O -> m'' a = text (snd (expects 0 [] st1 g)) a.
Proof.
  intros g0 ws [P0 Ps] st0. destruct (main_ok g0 P0) as (objs & m & u & E & Iv & Z). exists objs, m, u. split; [exact E|].
  intros m' ts L Fin. pose proof (follows_opened objs m u st0 ws Iv Z) as F0.
  destruct (follows_leads u objs st0 ws Ps _ _ L _ (No_turn _) F0) as ([w ps] & T & F). exists w, ps. split; [exact T|].
  pose proof (follows_shows _ _ _ _ F) as (Ln & Sh & _). cbn [fst snd] in *. split.
  - intros i q Hq. destruct (nth_error ts i) as [t|] eqn:Et.
    + destruct (Sh i t Et) as (q' & said & Eq & M). rewrite Hq in Eq. injection Eq as ->. rewrite (Fin i t Et) in M. apply M. reflexivity.
    + apply nth_error_None in Et. assert (i < length ps)%nat by (apply nth_error_Some; congruence). lia.
  - intros g Pg. set (st1 := mkLocal (bytes w) (made_by w 0) (kept w 0)) in *.
    assert (U : unlocked ts) by (intros i t c k Ht Et; rewrite (Fin i t Ht) in Et; discriminate).
    pose proof (follows_after _ _ _ _ _ U F) as I1. unfold remains in I1. cbn [fst] in I1. fold st1 in I1.
    destruct (safe_alone _ _ _ _ _ (behave_ok 0 [] [] 0 (fun _ => conj eq_refl eq_refl) g m' u _ objs I1 Pg)) as ([rs objs'] & m'' & u' & Ea & [Er Iv'] & _).
    cbn [fst snd] in *. subst rs. exists objs', m'', u'. split; [exact Ea|]. intros a La Wa. apply Iv'; [exact La|left; exact Wa].
Qed.

(** ** An example: any number of goroutines write to one checksum, and any number of
    others look at it *)

Definition job (s : gslice) : worker := Stretch Alone (Do (Do_write (Ours 0) s) (fun _ => Stop)) (fun _ => Rest).
Definition look (h : handle) : goroutine := Do (Do_sum h (mkS (mkA 0 false 0) 0 0) 0) (fun r => match r with RSlice s => Do (Load s 0) (fun _ => Stop) | _ => Stop end).
Definition peek : worker := Stretch Reading (look (Ours 0)) (fun _ => Rest).
Definition duty (o : option gslice) : worker := match o with Some s => job s | None => peek end.
Definition slices (ss : list (option gslice)) : list gslice := flat_map (fun o => match o with Some s => [s] | None => [] end) ss.
Definition all_xor (ts : list (list N)) : N := fold_right N.lxor 0 (concat ts).
Definition left_over (w : world) (ps : list (worker * list (list reply))) (ss : list (option gslice)) : list (list N) :=
  flat_map (fun x => match fst (fst x), snd x with Rest, _ | _, None => [] | _, Some s => [slice_text w s] end) (combine ps ss).
Lemma left_turn w q s : forall ps ss i, nth_error ps i = Some q -> nth_error ss i = Some (Some s) -> fst q <> Rest ->
  forall said, Permutation (left_over w ps ss) (slice_text w s :: left_over w (replaced i (Rest, said) ps) ss).
Proof.
  unfold left_over. induction ps as [|p ps IH]; intros ss [|i] Hp Hs Nq said; try discriminate; destruct ss as [|s' ss]; try discriminate; cbn [nth_error] in *.
  - injection Hp as ->. injection Hs as ->. cbn [replaced combine flat_map fst snd]. destruct (fst q); [contradiction|]. reflexivity.
  - cbn [replaced combine flat_map fst snd]. rewrite (IH ss i Hp Hs Nq said). symmetry. apply Permutation_middle.
Qed.
Lemma left_look w q : forall ps ss i, nth_error ps i = Some q -> nth_error ss i = Some None ->
  forall said, left_over w (replaced i (Rest, said) ps) ss = left_over w ps ss.
Proof.
  unfold left_over. induction ps as [|p ps IH]; intros ss [|i] Hp Hs said; try discriminate; destruct ss as [|s' ss]; try discriminate; cbn [nth_error] in *.
  - injection Hp as ->. injection Hs as ->. cbn [replaced combine flat_map fst snd]. destruct (fst q); reflexivity.
  - cbn [replaced combine flat_map fst snd]. rewrite (IH ss i Hp Hs said). reflexivity.
Qed.
Section Jobs.
Context (st : local) (ss : list (option gslice)).
Context (Hh : hashes st = [(KBcc, [])]).
Context (Hs : Forall (fun s => (slen s <= scap s)%nat /\ lib (base s) = false /\ who (base s) = O
  /\ forall j, (j < scap s)%nat -> (num (base s) + j < made st)%nat) (slices ss)).
Let w0 := fst (opening st (map duty ss)).
Lemma slice_in s i : nth_error ss i = Some (Some s) -> In s (slices ss).
Proof. intros H. unfold slices. apply in_flat_map. exists (Some s). split; [apply (nth_error_In _ _ H)|left; reflexivity]. Qed.
Lemma same_text w s i : nth_error ss i = Some (Some s) -> (forall x, who x = O -> bytes w x = bytes w0 x) -> slice_text w s = slice_text w0 s.
Proof using Hs.
  intros Es B. unfold slice_text. apply map_ext. intros j. apply B. cbn [who shift]. apply (proj1 (Forall_forall _ _) Hs s (slice_in s i Es)).
Qed.
(** What a look at the sum shows. *)
Definition looked (x : N) : Prop := exists part rest, Permutation (part ++ rest) (map (slice_text w0) (slices ss)) /\ x = all_xor part.
Lemma overwrite_first t a x : overwrite t a [x] (shift a 0) = x.
Proof. unfold overwrite. cbn [length]. rewrite shift_0, Nat.sub_diag, (proj2 (within_iff a 1 a)); [reflexivity|]. repeat split; lia. Qed.
Lemma look_comes i w ts : kept w 0%nat = [(KBcc, ts)] -> outcome_of (S i) w (look (Ours 0)) =
  ([RSlice (mkS (mkA (S i) false (made_by w (S i))) 1 1); RByte (all_xor ts)], enlarged (S i) w [all_xor ts]).
Proof.
  intros K. unfold look. cbn [outcome_of done]. unfold texts_of. cbn [maker place]. rewrite K. cbn [nth_error digest_of length slen scap Nat.add Nat.leb repeat app].
  unfold slice_text. cbn [slen seq map app outcome_of done fst snd base]. cbn [enlarged bytes].
  change (ChecksumSpec.xor_all (concat ts)) with (all_xor ts). rewrite overwrite_first. reflexivity.
Qed.
Lemma job_turns p : turns (opening st (map duty ss)) p ->
  (forall x, who x = O -> bytes (fst p) x = bytes w0 x) /\ made_by (fst p) 0%nat = made_by w0 0%nat /\ length (snd p) = length ss
  /\ (forall i o q said, nth_error ss i = Some o -> nth_error (snd p) i = Some (q, said) -> (q = duty o /\ said = []) \/ (q = Rest
       /\ (o = None -> exists s x, said = [[RSlice s; RByte x]] /\ looked x)))
  /\ exists ts, kept (fst p) 0%nat = [(KBcc, ts)] /\ Permutation (ts ++ left_over w0 (snd p) ss) (map (slice_text w0) (slices ss)).
Proof using Hh Hs.
  intros T. assert (Eo : exists o, o = opening st (map duty ss)) by eauto. destruct Eo as [o Eo]. rewrite <- Eo in T.
  revert Eo. induction T as [p|p p1 p2 _ IH T]; intros ->.
  - cbn [opening fst snd]. split; [reflexivity|]. split; [reflexivity|]. split; [rewrite !map_length; reflexivity|]. split.
    + intros i s q said Es Eq. rewrite !nth_error_map, Es in Eq. cbn [option_map] in Eq. injection Eq as <- <-. left. split; reflexivity.
    + exists []. split; [exact Hh|]. cbn [app]. unfold left_over, slices. generalize w0. clear. intros w. induction ss as [|[s|] l IHl]; [constructor| |];
        cbn [map combine flat_map fst snd duty job peek app]; [constructor|]; apply IHl.
  - destruct (IH eq_refl) as (B & M & L & Q & ts & K & P). destruct T as [w ps i l g f said Hi]. cbn [fst snd] in *.
    assert (Es : exists o, nth_error ss i = Some o).
    { destruct (nth_error ss i) as [s|] eqn:E; [eauto|]. apply nth_error_None in E. assert (i < length ps)%nat by (apply nth_error_Some; congruence). lia. }
    destruct Es as [o Es]. destruct (Q i o _ _ Es Hi) as [[E ->]|[E _]]; [|discriminate]. destruct o as [s|]; cbn [duty] in E; injection E as -> -> ->.
    + cbn [outcome_of done fst snd]. unfold rewritten, texts_of. cbn [maker place]. rewrite K. cbn [nth_error bytes made_by kept replaced].
      split; [exact B|]. split; [exact M|]. split; [rewrite replaced_length; exact L|]. split.
      * intros j s' q said' Es' Eq. rewrite nth_replaced in Eq. destruct (Nat.eqb_spec i j) as [<-|N]; [|apply (Q j s' q said' Es' Eq)].
        rewrite Hi in Eq. injection Eq as <- <-. right. split; [reflexivity|]. intros ->. congruence.
      * exists (ts ++ [slice_text w s]). split; [reflexivity|]. apply (Permutation_trans) with (2 := P). rewrite <- app_assoc. apply Permutation_app_head. cbn [app].
        rewrite (same_text w s i Es B). symmetry. apply (left_turn w0 _ _ ps ss i Hi Es). discriminate.
    + rewrite (look_comes i w ts K). cbn [fst snd enlarged bytes made_by kept].
      split; [intros x Hx; rewrite <- (B x Hx); unfold overwrite; destruct (within_spec (mkA (S i) false (made_by w (S i))) (length [all_xor ts]) x) as [(X & _)|_]; [cbn [who] in X; congruence|reflexivity]|].
      split; [rewrite is_now_other by discriminate; exact M|]. split; [rewrite replaced_length; exact L|]. split.
      * intros j s' q said' Es' Eq. rewrite nth_replaced in Eq. destruct (Nat.eqb_spec i j) as [<-|N]; [|apply (Q j s' q said' Es' Eq)].
        rewrite Hi in Eq. injection Eq as <- <-. right. split; [reflexivity|]. intros _. eexists _, _. split; [reflexivity|]. exists ts, (left_over w0 ps ss). auto.
      * exists ts. split; [exact K|]. rewrite (left_look w0 _ ps ss i Hi Es). exact P.
Qed.
Lemma jobs_orderly : orderly st (map duty ss).
Proof using Hh Hs.
  intros w ps T i l g f said Hi. destruct (job_turns _ T) as (B & M & L & Q & ts & K & _). cbn [fst snd] in *.
  assert (Es : exists s, nth_error ss i = Some s).
  { destruct (nth_error ss i) as [s|] eqn:E; [eauto|]. apply nth_error_None in E. assert (i < length ps)%nat by (apply nth_error_Some; congruence). lia. }
  destruct Es as [o Es]. destruct (Q i o _ _ Es Hi) as [[E _]|[E _]]; [|discriminate]. destruct o as [s|]; cbn [duty] in E; injection E as -> -> _.
  - destruct (proj1 (Forall_forall _ _) Hs s (slice_in s i Es)) as (H1 & H2 & H3 & H4).
    split; [|exact Logic.I]. split; [|split].
    + split; [exact H1|]. split; [exact H2|]. split; [right; split; [discriminate|exact H3]|]. rewrite H3, M. exact H4.
    + right. split; reflexivity.
    + unfold texts_of. cbn [maker place]. rewrite K. exists KBcc, ts. split; [reflexivity|exact Logic.I].
  - unfold look. cbn [proper may_do]. split.
    + split; [split; [cbn; lia|split; [reflexivity|split; [right; split; [discriminate|reflexivity]|cbn; lia]]]|]. split; [right; split; [discriminate|reflexivity]|].
      unfold texts_of. cbn [maker place]. rewrite K. exists KBcc, ts. split; [reflexivity|]. cbn [digest_of length slen scap]. lia.
    + cbn [done]. unfold texts_of. cbn [maker place]. rewrite K. cbn [nth_error digest_of length slen scap Nat.add Nat.leb repeat app fst snd proper may_do].
      split; [|exact Logic.I]. split; [|cbn; lia]. split; [cbn; lia|]. split; [reflexivity|]. split; [left; reflexivity|].
      cbn [enlarged made_by base who num scap]. rewrite is_now_same. unfold slice_text. cbn. lia.
Qed.
End Jobs.

(** However many there are and in whatever order they come, the first goroutine
    finds the exclusive or of all bytes that were written, and those who look
    meanwhile that of some of the texts. *)
Lemma xor_perm (a b : list (list N)) : Permutation a b -> all_xor a = all_xor b.
Proof.
  change (Permutation a b -> ChecksumSpec.xor_all (concat a) = ChecksumSpec.xor_all (concat b)).
  induction 1 as [|x l l' _ IH|x y l|l l1 l2 _ IH1 _ IH2]; cbn [concat]; rewrite ?ChecksumProofs.xor_all_app; try congruence.
  rewrite <- !N.lxor_assoc. f_equal. apply N.lxor_comm.
Qed.
Theorem C109_total : forall g0 ss, plays_fair 0 [] 0 start g0 ->
  let st0 := snd (expects 0 [] start g0) in
  hashes st0 = [(KBcc, [])] -> Forall (slice_ok 0 0 st0) (slices ss) ->
  exists objs m u,
    alone 0 (behave [] [] g0) (fun _ => 0) none = Some ((fst (expects 0 [] start g0), objs), m, u) /\
    (forall m' ts, leads (opened objs m (map duty ss)) (m', ts) ->
      forall i t, nth_error ss i = Some None -> nth_error ts i = Some t -> at_stage t = Between Over ->
      exists s x part rest, map fst (got t) = [[RSlice s; RByte x]]
        /\ Permutation (part ++ rest) (map (bytes_of st0) (slices ss)) /\ x = all_xor part) /\
    forall m' ts, leads (opened objs m (map duty ss)) (m', ts) -> (forall i t, nth_error ts i = Some t -> at_stage t = Between Over) ->
      exists s objs' m'' u', alone 0 (behave [] objs (look (Mine 0))) m' u = Some (([RSlice s; RByte (all_xor (map (bytes_of st0) (slices ss)))], objs'), m'', u').
Proof.
  intros g0 ss P0 st0 Hh Hs.
  assert (Hs' : Forall (fun s => (slen s <= scap s)%nat /\ lib (base s) = false /\ who (base s) = O
    /\ forall j, (j < scap s)%nat -> (num (base s) + j < made st0)%nat) (slices ss)).
  { apply (Forall_impl _) with (2 := Hs). intros s (A & B & C & D). split; [exact A|]. split; [exact B|]. split; [destruct C; assumption|].
    intros j Hj. destruct (D j Hj) as [(_ & _ & X)|(_ & _ & X)]; [exact X|lia]. }
  pose proof (conj P0 (jobs_orderly st0 ss Hh Hs')) as Gd.
  destruct (C109_after g0 (map duty ss) Gd) as (objs & m & u & E & H). exists objs, m, u. split; [exact E|].
  assert (Tx : map (bytes_of st0) (slices ss) = map (slice_text (fst (opening st0 (map duty ss)))) (slices ss)).
  { apply map_ext_in. intros s Is. destruct (proj1 (Forall_forall _ _) Hs' s Is) as (_ & _ & W & _).
    apply map_ext. intros j. cbn [opening fst bytes found text who shift]. rewrite W. reflexivity. }
  rewrite Tx. split.
  { intros m' ts L i t Hi Ht Et. destruct (C109_atomic g0 (map duty ss) Gd) as (objs' & m1 & u1 & E' & A). fold st0 in A. rewrite E in E'. injection E' as <- <- <-.
    destruct (A _ _ (Stays _) L) as (p1 & p2 & T1 & _ & T2 & (Ln & Sh & _)). destruct (Sh i t Ht) as (q & said & Eq & X). rewrite Et in X. destruct X as (-> & X & _).
    destruct (job_turns st0 ss Hh Hs' _ (turns_trans _ _ _ T1 T2)) as (_ & _ & _ & Q & _). destruct (Q i None q _ Hi Eq) as [[-> _]|[_ Y]]; [discriminate (proj1 X eq_refl)|].
    destruct (Y eq_refl) as (s & x & Es & part & rest & Pm & Ex). exists s, x, part, rest. auto. }
  intros m' ts L Fin. destruct (H m' ts L Fin) as (w & ps & T & Re & G).
  destruct (job_turns st0 ss Hh Hs' _ T) as (B & M & Ln & _ & ws & K & P). cbn [fst snd] in *.
  assert (Lo : forall l l', (forall i q, nth_error l i = Some q -> fst q = Rest) -> left_over (fst (opening st0 (map duty ss))) l l' = []).
  { unfold left_over. induction l as [|q l IH]; intros [|s l'] Hq; try reflexivity. cbn [combine flat_map fst snd]. rewrite (Hq O q eq_refl).
    apply IH. intros i q' Hi. apply (Hq (S i) q' Hi). }
  rewrite (Lo ps ss Re), app_nil_r in P. rewrite <- (xor_perm _ _ P).
  set (st1 := mkLocal (bytes w) (made_by w 0) (kept w 0)) in *.
  assert (Ob : object_at [] st1 (Mine 0) = Some (KBcc, ws)) by (cbn [object_at st1 hashes]; rewrite K; reflexivity).
  assert (Ef : effect 0 [] st1 (Do_sum (Mine 0) (mkS (mkA 0 false 0) 0 0) 0)
    = (mkLocal (overwrite (text st1) (mkA 0 false (made st1)) [all_xor ws]) (made st1 + 1) (hashes st1), RSlice (mkS (mkA 0 false (made st1)) 1 1))).
  { cbn [effect]. rewrite Ob. cbn [digest_of]. unfold bytes_of. cbn [slen scap seq map app length Nat.leb Nat.add repeat]. f_equal. f_equal. lia. }
  assert (Pf : plays_fair 0 [] 0 st1 (look (Mine 0))).
  { unfold look. cbn [plays_fair]. rewrite Ef. cbn [fst snd plays_fair allowed]. split; [|split; [|exact Logic.I]].
    - split; [repeat split; cbn; try lia; left; reflexivity|]. exists KBcc, ws. split; [exact Ob|]. cbn [digest_of length slen scap]. lia.
    - split; [|cbn [slen]; lia]. repeat split; cbn [slen scap base lib who]; try lia. intros j Hj. left.
      repeat split; cbn [num shift made]. lia. }
  destruct (G (look (Mine 0)) Pf) as (objs' & m'' & u' & A & _). cbn [expects look] in A. rewrite Ef in A. cbn [effect expects fst snd text base] in A.
  rewrite overwrite_first in A. eexists _, objs', m'', u'. exact A.
Qed.

(** A case: "ab" and "cd", made by the first goroutine, written by two others. *)
Definition ab : gslice := mkS (mkA 0 false 0) 2 4.
Definition cd : gslice := mkS (mkA 0 false 2) 2 2.
Definition opener : goroutine :=
  Do (Make 4 4) (fun r => match r with
  | RSlice s => Do (Store s 0 97) (fun _ => Do (Store s 1 98) (fun _ => Do (Store s 2 99) (fun _ => Do (Store s 3 100) (fun _ => Do (Make_hash KBcc) (fun _ => Stop)))))
  | _ => Stop end).
Ltac kept := repeat split; cbn in *; try lia; try reflexivity.
Example opener_ok : plays_fair 0 [] 0 start opener /\ hashes (snd (expects 0 [] start opener)) = [(KBcc, [])]
  /\ Forall (slice_ok 0 0 (snd (expects 0 [] start opener))) [ab; cd].
Proof.
  split; [|split; [reflexivity|]].
  - split; [kept|]. split; [kept; intros; left; kept|]. split; [kept; intros; left; kept|]. split; [kept; intros; left; kept|].
    split; [kept; intros; left; kept|]. split; exact Logic.I.
  - constructor; [|constructor; [|constructor]]; kept; intros; left; kept.
Qed.
Example total_value : all_xor (map (bytes_of (snd (expects 0 [] start opener))) [ab; cd]) = 4.
Proof. vm_compute. reflexivity. Qed.
Example jobs_guarded : guarded opener (map duty [Some ab; None; Some cd; None]).
Proof.
  split; [apply opener_ok|]. apply jobs_orderly; [reflexivity|].
  constructor; [|constructor; [|constructor]]; kept.
Qed.

(** Workers that first make a slice of their own, without the lock, and write it to
    the shared checksum with the lock. *)
Definition slice_of (r : reply) : gslice := match r with RSlice s => s | _ => ab end.
Definition mixed (v : N) : worker :=
  Stretch Without (Do (Make 1 1) (fun r => Do (Store (slice_of r) 0 v) (fun _ => Stop))) (fun rs => job (slice_of (nth 0 rs RDone))).
Example mixed_guarded : forall vs, bytes_ok vs -> guarded opener (map mixed vs).
Proof.
  intros vs Hv. split; [apply opener_ok|].
  assert (J : forall p, turns (opening (snd (expects 0 [] start opener)) (map mixed vs)) p ->
    length (snd p) = length vs /\ (exists ts, kept (fst p) 0%nat = [(KBcc, ts)]) /\
    forall i v q said, nth_error vs i = Some v -> nth_error (snd p) i = Some (q, said) ->
      (q = mixed v /\ made_by (fst p) (S i) = 0%nat) \/ (q = job (mkS (mkA (S i) false 0) 1 1) /\ made_by (fst p) (S i) = 1%nat) \/ q = Rest).
  { intros p T. remember (opening (snd (expects 0 [] start opener)) (map mixed vs)) as o eqn:Eo. induction T as [p|p p1 p2 _ IH T]; subst.
    - cbn [opening fst snd]. split; [rewrite !map_length; reflexivity|]. split; [exists []; reflexivity|]. intros i v q said Ev Eq.
      rewrite !nth_error_map, Ev in Eq. injection Eq as <- <-. left. split; reflexivity.
    - destruct (IH eq_refl) as (L & (ts & K) & Q). destruct T as [w ps i l g f said Hi]. cbn [fst snd] in *.
      split; [rewrite replaced_length; exact L|].
      assert (Ev : exists v, nth_error vs i = Some v).
      { destruct (nth_error vs i) as [v|] eqn:E; [eauto|]. apply nth_error_None in E. assert (i < length ps)%nat by (apply nth_error_Some; congruence). lia. }
      destruct Ev as [v Ev]. destruct (Q i v _ _ Ev Hi) as [[E M]|[[E M]|E]]; [| |discriminate]; injection E as -> -> ->.
      + cbn [outcome_of done fst snd slice_of nth enlarged changed kept made_by]. rewrite M. split; [exists ts; exact K|].
        intros j v' q said' Ev' Eq. rewrite nth_replaced in Eq. destruct (Nat.eqb_spec i j) as [<-|N].
        * rewrite Hi in Eq. injection Eq as <- <-. right. left. rewrite is_now_same. split; reflexivity.
        * rewrite is_now_other by congruence. apply (Q j v' q said' Ev' Eq).
      + cbn [outcome_of done fst snd]. unfold rewritten, texts_of. cbn [maker place]. rewrite K. cbn [nth_error bytes made_by kept replaced].
        split; [eexists; apply is_now_same|]. intros j v' q said' Ev' Eq. rewrite nth_replaced in Eq. destruct (Nat.eqb_spec i j) as [<-|N].
        * rewrite Hi in Eq. injection Eq as <- <-. right. right. reflexivity.
        * apply (Q j v' q said' Ev' Eq). }
  intros w ps T i l g f said Hi. destruct (J _ T) as (L & (ts & K) & Q). cbn [fst snd] in *.
  assert (Ev : exists v, nth_error vs i = Some v).
  { destruct (nth_error vs i) as [v|] eqn:E; [eauto|]. apply nth_error_None in E. assert (i < length ps)%nat by (apply nth_error_Some; congruence). lia. }
  destruct Ev as [v Ev]. destruct (Q i v _ _ Ev Hi) as [[E M]|[[E M]|E]]; [| |discriminate]; injection E as -> -> ->.
  - split; [kept|]. split; [|exact Logic.I]. cbn [done snd slice_of fst may_do]. rewrite M. split; [|split; [left; reflexivity|split]].
    + split; [cbn; lia|]. split; [reflexivity|]. split; [left; reflexivity|]. cbn [enlarged made_by base who num scap]. rewrite is_now_same, M. cbn. lia.
    + cbn. lia.
    + apply (proj1 (Forall_forall _ _) Hv v (nth_error_In _ _ Ev)).
  - split; [|exact Logic.I]. split; [|split].
    + split; [cbn; lia|]. split; [reflexivity|]. split; [left; reflexivity|]. cbn [base who num scap]. rewrite M. lia.
    + right. split; reflexivity.
    + unfold texts_of. cbn [maker place]. rewrite K. exists KBcc, ts. split; [reflexivity|exact Logic.I].
Qed.

(** The lock is needed: the same workers without it, or with RLock only, race, and
    both may read the old sum, so that one of the texts is lost. *)
Definition careless (l : hold) (s : gslice) : worker := Stretch l (Do (Do_write (Ours 0) s) (fun _ => Stop)) (fun _ => Rest).
Definition unlucky : list nat := [0; 1; 0; 1; 0; 0; 0; 0; 1; 1; 1; 1]%nat.
Theorem C109_lock_needed : forall l, l <> Alone -> exists objs m u,
  alone 0 (behave [] [] opener) (fun _ => 0) none = Some ((fst (expects 0 [] start opener), objs), m, u)
  /\ (exists y, leads (opened objs m (map (careless l) [ab; cd])) y /\ conflict y)
  /\ exists m' ts, leads (opened objs m (map (careless l) [ab; cd])) (m', ts)
       /\ (forall i t, nth_error ts i = Some t -> at_stage t = Between Over)
       /\ exists s objs' m'' u', alone 0 (behave [] objs (look (Mine 0))) m' u = Some (([RSlice s; RByte 7], objs'), m'', u').
Proof.
  intros l Nl. destruct (main_ok opener (proj1 opener_ok)) as (objs & m & u & E & _). exists objs, m, u. split; [exact E|].
  vm_compute in E. injection E as <- <- <-. destruct l; [contradiction| |]; (split;
  [eexists; split; [apply (steps_leads [0; 1; 0; 0; 0]%nat), Stays|];
   exists 0%nat, 1%nat; do 9 eexists; split; [discriminate|]; split; [reflexivity|]; split; [reflexivity|]; split; [reflexivity|]; split; [reflexivity|];
   split; [reflexivity|]; left; reflexivity|];
   match goal with |- context [opened ?o ?mm ?w] => pose proof (steps_leads unlucky _ _ (Stays (opened o mm w))) as L end;
   match type of L with leads _ ?y => assert (Ey : y = (fst y, snd y)) by reflexivity end;
   rewrite Ey in L; eexists _, _; split; [exact L|]; clear L Ey; split;
   [intros [|[|[|i]]] t Ht; vm_compute in Ht; try discriminate; injection Ht as <-; reflexivity|];
   do 4 eexists; vm_compute; reflexivity).
Qed.

Print Assumptions C109_atomic.
Print Assumptions C109_safe.
Print Assumptions C109_terminates.
Print Assumptions C109_after.
Print Assumptions C109_total.
Print Assumptions C109_lock_needed.
