(** The relay and the publication of Spec/RelaySpec.v come to their end. *)
From Coq Require Import Lia.
From Verif Require Import Base.Go Base.Goroutine Base.HashUse Base.Sync Model.SyncAtom Spec.HashUseSpec Spec.SyncSpec Spec.RelaySpec
  Proofs.GoroutineProofs Proofs.AreaProofs Proofs.SyncProofs Proofs.SyncEndProofs Proofs.RelayProofs Proofs.PublishProofs.
Local Open Scope nat_scope.

Lemma all_ended {G} (ws : list (worker G)) gs : Forall2 (fun v g => stands_at v = Between g) ws gs -> (forall i g, nth_error gs i = Some g -> g = Finish) ->
  forall i v, nth_error ws i = Some v -> stands_at v = Between Finish.
Proof.
  intros F2. induction F2 as [|v0 g0 ws gs S0 F2 IH]; intros Fin [|i] v Ev; try discriminate Ev.
  - injection Ev as <-. rewrite S0. f_equal. apply (Fin O g0 eq_refl).
  - cbn [nth_error] in Ev. apply (IH (fun i g E => Fin (S i) g E) i v Ev).
Qed.

Section Relay.
Context (kd : kind) (xs : list N).
Let n := length xs.

(** Goroutine [i] before the hash comes to it, and while it has it. *)
Inductive before (i : nat) : prog baton -> Prop :=
| Be_runner x : i <= n -> before i (runner i x)
| Be_stores x p : i <= n -> before i (stores_it i x p)
| Be_waits p : i <= n -> before i (waits_for_it i p)
| Be_last : i = S n -> before i (last_runner i).
Inductive active (i : nat) : prog baton -> Prop :=
| Ac_maker : i = 0 -> active i (maker kd)
| Ac_hands h : i <= n -> active i (hands h (S i))
| Ac_writes p h : i <= n -> active i (writes_it i p h)
| Ac_sums h : i = S n -> active i (sums_it i h)
| Ac_tells s : i = S n -> active i (tells s).
Definition shape (p : scene (G := baton)) : Prop :=
  let '(w, b, gs) := p in length gs = n + 2 /\ turn_of b <= S n /\ forall i g, nth_error gs i = Some g ->
    (i < turn_of b -> g = Finish) /\ (turn_of b < i -> before i g)
    /\ (i = turn_of b -> (waiting b <> None /\ before i g) \/ (waiting b = None /\ active i g) \/ (g = Finish /\ i = S n /\ outcome b <> None)).

Lemma shape_start : shape (nothing_yet, at_first, relay kd xs).
Proof.
  split; [unfold relay; rewrite map_length, seq_length; reflexivity|]. cbn [at_first turn_of waiting]. split; [lia|]. intros i g E.
  assert (Hi : i < n + 2) by (replace (n + 2) with (length (relay kd xs)) by (unfold relay; rewrite map_length, seq_length; reflexivity); apply nth_error_Some; congruence).
  unfold relay in E. rewrite nth_error_map in E. destruct (nth_error (seq 0 (length xs + 2)) i) as [j|] eqn:Ej; [|discriminate E]. injection E as <-.
  apply nth_error_nth with (d := O) in Ej. rewrite seq_nth in Ej by exact Hi. cbn [Nat.add] in Ej. subst j. unfold role.
  split; [lia|]. split.
  - intros Li. destruct (Nat.eqb_spec i 0); [lia|]. destruct (Nat.leb_spec i (length xs)) as [L|L]; [apply Be_runner, L|apply Be_last]. unfold n in *. lia.
  - intros ->. right. left. split; [reflexivity|]. apply Ac_maker. reflexivity.
Qed.
Lemma shape_call i c k w w' r : does i w c w' r -> (before i (Call c k) -> before i (k r)) /\ (active i (Call c k) -> active i (k r)).
Proof.
  intros D. split; intros P; remember (Call c k) as g eqn:Eg in P; destruct P; try discriminate Eg; injection Eg as <- <-.
  - apply inv_make in D as (_ & ->). apply Be_stores. assumption.
  - apply Be_waits. assumption.
  - apply inv_new in D as (h & _ & _ & ->). subst i. apply Ac_hands. lia.
  - apply Ac_hands. assumption.
  - assert (exists s, r = GotSlice s) as (s & ->) by (apply inv_sum in D as [(_ & _ & D)|(_ & _ & D)]; eauto). apply Ac_tells. assumption.
Qed.
Lemma shape_step p q : shape p -> turn p q -> shape q.
Proof.
  intros Sp T. destruct T as [w b gs i c k w' r E D|w b gs i f m b' g E F]; destruct Sp as (Ln & Tu & H).
  - split; [rewrite replaced_length; exact Ln|]. split; [exact Tu|]. intros j g Ej. apply at_replaced in Ej as [[-> ->]|[Dj Ej]]; [|apply H, Ej].
    destruct (H i _ E) as (A & B & C). destruct (shape_call i c k w w' r D) as (Sb & Sa). split; [intros X; discriminate (A X)|]. split; [intros X; apply Sb, B, X|].
    intros X. destruct (C X) as [(X1 & X2)|[(X1 & X2)|(X1 & _)]]; [left; auto|right; left; auto|discriminate X1].
  - destruct (H i _ E) as (A & B & C). destruct (Nat.lt_trichotomy i (turn_of b)) as [X|[X|X]]; [discriminate (A X)| |].
    + destruct (C X) as [(X1 & X2)|[(X1 & X2)|(X1 & _)]]; [| |discriminate X1]; subst i.
      * assert (Rc : exists h, waiting b = Some h /\ b' = mkB (turn_of b) None None /\ active (turn_of b) g).
        { remember (Sync f) as g0 eqn:Eg in X2. destruct X2; try discriminate Eg; injection Eg as <-;
            (destruct (waiting b) as [h|]; [|discriminate F]); rewrite Nat.eqb_refl in F; injection F as <- <-; exists h; (split; [reflexivity|]); (split; [reflexivity|]);
            [apply Ac_writes|apply Ac_sums]; assumption. }
        destruct Rc as (h & Wh & -> & Ac). split; [rewrite replaced_length; exact Ln|]. cbn [turn_of waiting outcome]. split; [exact Tu|]. intros j g' Ej.
        apply at_replaced in Ej as [[-> ->]|[Dj Ej]].
        -- split; [lia|]. split; [lia|]. intros _. right. left. auto.
        -- destruct (H j g' Ej) as (A' & B' & _). split; [exact A'|]. split; [exact B'|]. intros X. congruence.
      * remember (Sync f) as g0 eqn:Eg in X2. destruct X2 as [Z|h Z|p h Z|h Z|s Z]; try discriminate Eg; injection Eg as <-; injection F as <- <-;
          (split; [rewrite replaced_length; exact Ln|]); cbn [turn_of waiting outcome]; (split; [lia|]); intros j g' Ej; apply at_replaced in Ej as [[-> ->]|[Dj Ej]].
        -- split; [reflexivity|]. split; lia.
        -- destruct (H j g' Ej) as (A' & B' & _). split; [intros Y; apply A'; lia|]. split; [intros Y; apply B'; lia|]. intros Y. left. split; [discriminate|]. apply B'. lia.
        -- split; [lia|]. split; [lia|]. intros _. right. right. split; [reflexivity|]. split; [exact Z|discriminate].
        -- destruct (H j g' Ej) as (A' & B' & _). split; [exact A'|]. split; [exact B'|]. intros Y. congruence.
    + exfalso. specialize (B X). remember (Sync f) as g0 eqn:Eg in B. destruct B; try discriminate Eg; injection Eg as <-;
        (destruct (waiting b); [|discriminate F]); (destruct (Nat.eqb_spec (turn_of b) i); [lia|discriminate F]).
Qed.
Lemma shape_all p : turns (nothing_yet, at_first, relay kd xs) p -> shape p.
Proof.
  intros T. remember (nothing_yet, at_first, relay kd xs) as p0 eqn:E0. induction T as [p|p p1 p2 T IH St]; [subst p; apply shape_start|apply (shape_step p1 p2); auto].
Qed.
Lemma relay_stands (Hx : bytes_ok xs) (Hl : (N.of_nat (length xs) < 2 ^ 64)%N) m b ws : leads do_ask (started at_first (relay kd xs)) (m, b, ws) ->
  (forall q, ~ moves1 do_ask (m, b, ws) q) -> (forall i v, nth_error ws i = Some v -> stands_at v = Between Finish) /\ outcome b <> None.
Proof.
  intros R No. destruct (stands_still _ _ (relay_synchronised kd xs Hx Hl) m b ws R No) as (w & gs & T & F2 & Al).
  destruct (shape_all _ T) as (Ln & Tu & H).
  destruct (nth_error gs (turn_of b)) as [g|] eqn:Eg; [|apply nth_error_None in Eg; lia].
  assert (K : g = Finish /\ turn_of b = S n /\ outcome b <> None).
  { destruct (H _ g Eg) as (_ & _ & C). destruct (C eq_refl) as [(X1 & X2)|[(X1 & X2)|X]]; [exfalso|exfalso|exact X];
      (destruct (Al g (nth_error_In _ _ Eg)) as [Z|(f & Z & Bl)]; [subst g; inversion X2|]); specialize (Bl O).
    - destruct X2; try discriminate Z; injection Z as <-; (destruct (waiting b); [|contradiction]); rewrite Nat.eqb_refl in Bl; discriminate Bl.
    - destruct X2; try discriminate Z; injection Z as <-; discriminate Bl. }
  destruct K as (K1 & K2 & K3). split; [|exact K3]. apply (all_ended ws gs F2). intros i g' Ei. destruct (H i g' Ei) as (A & _).
  assert (Hi : i < length gs) by (apply nth_error_Some; congruence).
  destruct (Nat.eq_dec i (turn_of b)) as [->|D]; [congruence|]. apply A. lia.
Qed.
End Relay.

Section Publication.
Context (kd : kind) (xs : list N) (n : nat).

Inductive author_at (b : board) : prog board -> Prop :=
| Au_start : author_at b (author kd xs)
| Au_made h : author_at b (author1 xs h)
| Au_puts h p l : author_at b (puts_all h p l)
| Au_write h p l : author_at b (Call (Write_to h p) (fun _ => puts_all h p l))
| Au_end : shown b <> None -> author_at b Finish.
Inductive reader_at (b : board) (i : nat) : prog board -> Prop :=
| Re_start : reader_at b i (reader i)
| Re_sums h : reader_at b i (reads_it i h)
| Re_adds s : who (base s) = i -> reader_at b i (adds s)
| Re_end s : In s (sums b) -> who (base s) = i -> reader_at b i Finish.
Definition pshape (p : scene (G := board)) : Prop :=
  let '(w, b, gs) := p in length gs = S n /\ forall i g, nth_error gs i = Some g -> if Nat.eqb i 0 then author_at b g else reader_at b i g.
Lemma author_goes b b' g : author_at b g -> (shown b <> None -> shown b' <> None) -> author_at b' g.
Proof. intros P H. destruct P; constructor. auto. Qed.
Lemma reader_goes b b' i g : reader_at b i g -> (forall s, In s (sums b) -> In s (sums b')) -> reader_at b' i g.
Proof. intros P H. destruct P as [| | |s]; try (econstructor; eassumption). apply (Re_end b' i s); auto. Qed.

Lemma pshape_start : pshape (nothing_yet, blank, publication kd xs n).
Proof.
  split; [unfold publication; cbn [length]; rewrite map_length, seq_length; reflexivity|]. intros [|i] g E; cbn [publication nth_error Nat.eqb] in *; [injection E as <-; constructor|].
  rewrite nth_error_map in E. destruct (nth_error (seq 1 n) i) as [j|] eqn:Ej; [|discriminate E]. injection E as <-.
  assert (Hi : i < n) by (rewrite <- (seq_length n 1); apply nth_error_Some; congruence).
  apply nth_error_nth with (d := O) in Ej. rewrite seq_nth in Ej by exact Hi. subst j. apply Re_start.
Qed.
Lemma pshape_step p q : pshape p -> turn p q -> pshape q.
Proof.
  intros Sp T. destruct T as [w b gs i c k w' r E D|w b gs i f m b' g E F]; destruct Sp as (Ln & H).
  - split; [rewrite replaced_length; exact Ln|]. intros j g Ej. apply at_replaced in Ej as [[-> ->]|[Dj Ej]]; [|apply H, Ej].
    specialize (H i _ E). destruct (Nat.eqb_spec i 0) as [->|Di].
    + remember (Call c k) as g eqn:Eg in H. destruct H as [|h|h p l|h p l|]; try discriminate Eg.
      * injection Eg as <- <-. apply inv_new in D as (h & _ & _ & ->). constructor.
      * injection Eg as <- <-. apply inv_make in D as (_ & ->). constructor.
      * destruct l as [|x l]; [discriminate Eg|]. injection Eg as <- <-. constructor.
      * injection Eg as <- <-. constructor.
    + remember (Call c k) as g eqn:Eg in H. destruct H as [|h|s Ws|s]; try discriminate Eg. injection Eg as <- <-.
      assert (exists s, r = GotSlice s /\ who (base s) = i) as (s & -> & Ws) by (apply inv_sum in D as [(_ & _ & D)|(_ & _ & D)]; eexists; (split; [exact D|reflexivity])). apply Re_adds, Ws.
  - assert (Hb : (shown b <> None -> shown b' <> None) /\ (forall s, In s (sums b) -> In s (sums b')) /\ if Nat.eqb i 0 then author_at b' g else reader_at b' i g).
    { specialize (H i _ E). destruct (Nat.eqb_spec i 0) as [->|Di].
      - remember (Sync f) as g0 eqn:Eg in H. destruct H as [|h|h p l|h p l|]; try discriminate Eg. destruct l as [|x l]; [|discriminate Eg]. injection Eg as <-. injection F as <- <-.
        cbn [shown sums]. split; [discriminate|]. split; [auto|]. apply Au_end. discriminate.
      - remember (Sync f) as g0 eqn:Eg in H. destruct H as [|h|s Ws|s]; try discriminate Eg; injection Eg as <-.
        + destruct (shown b) as [h|] eqn:Es; [|discriminate F]. injection F as <- <-. rewrite Es. split; [auto|]. split; [auto|]. apply Re_sums.
        + injection F as <- <-. cbn [shown sums]. split; [auto|]. split; [intros s' Is; apply in_or_app; left; exact Is|]. apply (Re_end _ i s); [|exact Ws]. apply in_or_app. right. left. reflexivity. }
    destruct Hb as (H1 & H2 & H3). split; [rewrite replaced_length; exact Ln|]. intros j g' Ej. apply at_replaced in Ej as [[-> ->]|[Dj Ej]]; [exact H3|].
    specialize (H j g' Ej). destruct (Nat.eqb_spec j 0); [apply (author_goes b b' g' H H1)|apply (reader_goes b b' j g' H H2)].
Qed.
Lemma pshape_all p : turns (nothing_yet, blank, publication kd xs n) p -> pshape p.
Proof.
  intros T. remember (nothing_yet, blank, publication kd xs n) as p0 eqn:E0. induction T as [p|p p1 p2 T IH St]; [subst p; apply pshape_start|apply (pshape_step p1 p2); auto].
Qed.
Lemma publication_stands (Hx : bytes_ok xs) (Hl : (N.of_nat (length xs) < 2 ^ 64)%N) m b ws : leads do_ask (started blank (publication kd xs n)) (m, b, ws) ->
  (forall q, ~ moves1 do_ask (m, b, ws) q) ->
  (forall i v, nth_error ws i = Some v -> stands_at v = Between Finish) /\ forall i, 1 <= i <= n -> exists s, In s (sums b) /\ who (base s) = i.
Proof.
  intros R No. destruct (stands_still _ _ (publication_synchronised kd xs Hx Hl n) m b ws R No) as (w & gs & T & F2 & Al).
  destruct (pshape_all _ T) as (Ln & H).
  assert (Sh : shown b <> None).
  { destruct (nth_error gs 0) as [g|] eqn:Eg; [|apply nth_error_None in Eg; lia]. pose proof (H _ g Eg) as P. cbn [Nat.eqb] in P.
    destruct (Al g (nth_error_In _ _ Eg)) as [X|(f & X & Bl)]; destruct P as [|h|h p l|h p l|Z]; try discriminate X; try exact Z; destruct l; try discriminate X.
    injection X as <-. discriminate (Bl O). }
  assert (Fin : forall i g, nth_error gs i = Some g -> g = Finish).
  { intros i g Eg. pose proof (H _ g Eg) as P. destruct (Al g (nth_error_In _ _ Eg)) as [X|(f & X & Bl)]; [exact X|exfalso]. specialize (Bl O). destruct (Nat.eqb_spec i 0).
    - destruct P as [|h|h p l|h p l|Z]; try discriminate X. destruct l; [|discriminate X]. injection X as <-. discriminate Bl.
    - destruct P as [|h|s Ws|s]; try discriminate X; injection X as <-; [|discriminate Bl]. destruct (shown b); [discriminate Bl|contradiction]. }
  split; [apply (all_ended ws gs F2 Fin)|]. intros i Hi. destruct (nth_error gs i) as [g|] eqn:Eg; [|apply nth_error_None in Eg; lia].
  pose proof (H _ g Eg) as P. rewrite (Fin i g Eg) in P. destruct (Nat.eqb_spec i 0); [lia|]. inversion P as [| | |s Is Ws]. exists s. auto.
Qed.
End Publication.
