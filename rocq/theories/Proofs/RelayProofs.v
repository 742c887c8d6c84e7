(** The relay of Spec/RelaySpec.v is well synchronised, and its outcome is the sum
    of the bytes in order. *)
From Verif Require Import Base.Go Base.Goroutine Base.HashUse Base.Sync Spec.HashUseSpec Spec.ChecksumSpec Spec.SyncSpec Spec.RelaySpec
  Proofs.GoroutineProofs Proofs.SyncProofs.
From Coq Require Import Lia.
Local Open Scope N_scope.

Lemma inv_new i w k w' r : does i w (New_hash k) w' r -> exists h, objects w h = None /\ w' = set_object w h (AHash k []) /\ r = GotHash (mkH k h).
Proof. intros D. inversion D; subst; try discriminate; try contradiction. eexists; repeat split; eassumption. Qed.
Lemma inv_write i w h p w' r : does i w (Write_to h p) w' r ->
  exists ws, objects w (hptr h) = Some (AHash (hkind h) ws) /\ w' = set_object w (hptr h) (AHash (hkind h) (ws ++ [slice_text w p])) /\ r = GotCount (slen p).
Proof. intros D. inversion D; subst; try discriminate; try contradiction. eexists; repeat split; eassumption. Qed.
Lemma inv_sum i w h inp room w' r : does i w (Sum_of h inp room) w' r ->
  let d := digest_at w (hptr h) in let l := (slen inp + length d)%nat in
  (fits w (hptr h) inp = true /\ w' = set_bytes w (shift (base inp) (slen inp)) d /\ r = GotSlice (mkS (base inp) l (scap inp)))
  \/ (fits w (hptr h) inp = false /\ w' = add_bytes i w (slice_text w inp ++ d ++ repeat 0 room) /\ r = GotSlice (mkS (mkA i false (made_by w i)) l (l + room))).
Proof. intros D. inversion D; subst; try discriminate; try contradiction; [left|right]; repeat split; eassumption. Qed.
Lemma inv_make i w l c w' r : does i w (Make_bytes l c) w' r ->
  w' = add_bytes i w (repeat 0 c) /\ r = GotSlice (mkS (mkA i false (made_by w i)) l c).
Proof. intros D. inversion D; subst; try discriminate; try contradiction. split; reflexivity. Qed.
Lemma inv_store i w s j v w' r : does i w (Store_byte s j v) w' r -> w' = set_bytes w (shift (base s) j) [v] /\ r = GotNothing.
Proof. intros D. inversion D; subst; try discriminate; try contradiction. split; reflexivity. Qed.

Lemma text_local w w' s i : who (base s) = i -> lib (base s) = false -> (forall j, (j < slen s)%nat -> (num (base s) + j < made_by w i)%nat) ->
  (forall y, who y = i -> lib y = false -> (num y < made_by w i)%nat -> bytes w' y = bytes w y) -> slice_text w' s = slice_text w s.
Proof.
  intros W L B E. unfold slice_text. apply map_ext_in. intros j Hj. apply in_seq in Hj. apply E; cbn [shift who lib num]; [exact W|exact L|apply B; lia].
Qed.

Lemma nothing_fits w h i t j m : fits w h (mkS (mkA i false 0) 0 0) = true -> in_slice (mkS (mkA i false 0) 0 0) j m t -> m = length (digest_at w h) -> False.
Proof. intros F (j' & B & _) E. unfold fits in F. cbn [slen scap] in F. apply Nat.leb_le in F. lia. Qed.

Section Relay.
Context (kd : kind) (xs : list N) (Hx : bytes_ok xs) (Hl : N.of_nat (length xs) < 2 ^ 64).
Let n := length xs.
Definition so_far (xs : list N) (j : nat) : list (list N) := map (fun x => [x]) (firstn j xs).
Let own (i : nat) : gslice := mkS (mkA i false 0) 1 1.
Let x_of (i : nat) : N := nth (i - 1) xs 0.

Definition sum_there (i : nat) (w : world) (s : gslice) : Prop :=
  who (base s) = i /\ lib (base s) = false /\ (forall j, (j < slen s)%nat -> (num (base s) + j < made_by w i)%nat)
  /\ slice_text w s = digest_of kd (so_far xs (length xs)).

(** Where goroutine [i] may be. *)
Inductive phase (w : world) (b : baton) (i : nat) : prog baton -> Prop :=
| Ph_end : phase w b i Finish
| Ph_maker : i = O -> turn_of b = i -> phase w b i (maker kd)
| Ph_made h : i = O -> turn_of b = i -> hkind h = kd -> objects w (hptr h) = Some (AHash kd ([])) -> phase w b i (hands h 1)
| Ph_start : (1 <= i <= n)%nat -> made_by w i = O -> phase w b i (runner i (x_of i))
| Ph_store : (1 <= i <= n)%nat -> made_by w i = 1%nat -> phase w b i (stores_it i (x_of i) (own i))
| Ph_wait : (1 <= i <= n)%nat -> made_by w i = 1%nat -> bytes w (mkA i false 0) = x_of i -> phase w b i (waits_for_it i (own i))
| Ph_write h : (1 <= i <= n)%nat -> made_by w i = 1%nat -> bytes w (mkA i false 0) = x_of i -> turn_of b = i -> waiting b = None ->
    hkind h = kd -> objects w (hptr h) = Some (AHash kd (so_far xs (i - 1))) -> phase w b i (writes_it i (own i) h)
| Ph_hands h : (1 <= i <= n)%nat -> turn_of b = i -> waiting b = None ->
    hkind h = kd -> objects w (hptr h) = Some (AHash kd (so_far xs i)) -> phase w b i (hands h (S i))
| Ph_last : i = (n + 1)%nat -> made_by w i = O -> phase w b i (last_runner i)
| Ph_sum h : i = (n + 1)%nat -> made_by w i = O -> turn_of b = i -> outcome b = None ->
    hkind h = kd -> objects w (hptr h) = Some (AHash kd (so_far xs n)) -> phase w b i (sums_it i h)
| Ph_tell s : i = (n + 1)%nat -> turn_of b = i -> outcome b = None -> sum_there i w s -> phase w b i (tells s).

Definition held (w : world) (b : baton) : Prop :=
  (forall h, waiting b = Some h -> outcome b = None /\ (1 <= turn_of b <= n + 1)%nat /\ hkind h = kd /\ objects w (hptr h) = Some (AHash kd (so_far xs (turn_of b - 1))))
  /\ (forall s, outcome b = Some s -> turn_of b = (n + 1)%nat /\ sum_there (n + 1) w s).
Definition good (p : scene (G := baton)) : Prop :=
  let '(w, b, gs) := p in held w b /\ forall i g, nth_error gs i = Some g -> phase w b i g.

Lemma sum_stays w w' i s : sum_there i w s -> made_by w' i = made_by w i ->
  (forall y, who y = i -> lib y = false -> (num y < made_by w i)%nat -> bytes w' y = bytes w y) -> sum_there i w' s.
Proof.
  intros (A & B & C & D) M E. split; [exact A|]. split; [exact B|]. split; [intros j Hj; rewrite M; apply C, Hj|].
  rewrite <- D. apply (text_local w w' s i A B C E).
Qed.

(** What others do does not matter. *)
Lemma phase_world w w' b i g : phase w b i g -> made_by w' i = made_by w i ->
  (forall y, who y = i -> lib y = false -> (num y < made_by w i)%nat -> bytes w' y = bytes w y) ->
  (forall h, turn_of b = i -> objects w h <> None -> objects w' h = objects w h) -> phase w' b i g.
Proof.
  intros P M E T. assert (E0 : made_by w i = 1%nat -> bytes w' (mkA i false 0) = bytes w (mkA i false 0)) by (intros H; apply E; cbn [who lib num]; auto; lia).
  assert (T' : forall h o, turn_of b = i -> objects w h = Some o -> objects w' h = Some o) by (intros h o Ht Eh; rewrite T; congruence).
  inversion P; subst g; econstructor; try eassumption; try congruence; try (rewrite E0; assumption); try (rewrite M; assumption); try (apply T'; assumption).
  apply (sum_stays w w' i s); assumption.
Qed.
Lemma phase_baton w b b' i g : phase w b i g -> turn_of b <> i -> phase w b' i g.
Proof. intros P D. inversion P; subst g; try (exfalso; congruence); constructor; assumption. Qed.

Lemma at_start i g : nth_error (relay kd xs) i = Some g -> phase nothing_yet at_first i g.
Proof.
  unfold relay. intros H. rewrite nth_error_map in H. destruct (nth_error (seq 0 (length xs + 2)) i) as [j|] eqn:Ej; [|discriminate].
  injection H as <-. assert (Lt : (i < length xs + 2)%nat) by (apply (nth_error_Some) in Ej || (rewrite <- (seq_length (length xs + 2) 0); apply nth_error_Some; congruence); rewrite ?seq_length in *; lia).
  apply nth_error_nth with (d := O) in Ej. rewrite seq_nth in Ej by exact Lt. cbn in Ej. subst j. unfold role.
  destruct (Nat.eqb_spec i 0) as [E0|E0]; [constructor; [exact E0|symmetry; exact E0]|].
  destruct (Nat.leb_spec i (length xs)) as [L|L].
  - apply Ph_start; [unfold n; lia|reflexivity].
  - apply Ph_last; [unfold n; lia|reflexivity].
Qed.

Lemma so_far_step i : (1 <= i <= n)%nat -> so_far xs (i - 1) ++ [[x_of i]] = so_far xs i.
Proof.
  intros B. unfold so_far, x_of. destruct i as [|i]; [lia|]. cbn [Nat.sub]. rewrite Nat.sub_0_r.
  assert (L : (i < length xs)%nat) by (unfold n in B; lia). clear -L. revert i L. induction xs as [|x ys IH]; intros i L; cbn [length] in L; [lia|].
  destruct i as [|i]; [reflexivity|]. cbn [firstn map app nth]. f_equal. rewrite (IH i) by lia. reflexivity.
Qed.
Lemma so_far_len i : (length (concat (so_far xs i)) <= i)%nat /\ (length (concat (so_far xs i)) <= length xs)%nat.
Proof.
  unfold so_far. assert (E : concat (map (fun x => [x]) (firstn i xs)) = firstn i xs) by (generalize (firstn i xs); intros l; induction l as [|a l IH]; cbn [map concat app]; congruence).
  rewrite E, firstn_length. lia.
Qed.
Lemma x_small i : x_of i < 256.
Proof. unfold x_of. destruct (nth_in_or_default (i - 1) xs 0) as [H|H]; [|rewrite H; reflexivity]. revert H. generalize (nth (i - 1) xs 0). apply Forall_forall, Hx. Qed.
Lemma own_text w i : slice_text w (own i) = [bytes w (mkA i false 0)].
Proof. reflexivity. Qed.

(** One turn. *)
Lemma good_step p q : good p -> turn p q -> good q.
Proof.
  intros Gp T. destruct T as [w b gs i c k w' r E D|w b gs i f m b' g E F].
  - destruct Gp as (Hh & Hp). pose proof (Hp i _ E) as P. cbn [good].
    assert (Rest : forall w', phase w' b i (k r) -> (forall j, j <> i -> made_by w' j = made_by w j) ->
      (forall y, who y <> i -> bytes w' y = bytes w y) -> (forall h, turn_of b <> i -> objects w h <> None -> objects w' h = objects w h) ->
      forall j g, nth_error (replaced i (k r) gs) j = Some g -> phase w' b j g).
    { intros w1 Pi M B Tx j g Ej. apply at_replaced in Ej as [[-> ->]|[Dj Ej]]; [exact Pi|].
      apply (phase_world w w1 b j g (Hp j g Ej)); [apply M, Dj|intros y <- _ _; apply B, Dj|].
      intros h Tj Ht. apply Tx; [congruence|exact Ht]. }
    assert (HeldM : forall w', (forall h, waiting b <> None -> objects w h <> None -> objects w' h = objects w h) -> made_by w' (n + 1)%nat = made_by w (n + 1)%nat ->
      (forall y, who y = (n + 1)%nat -> bytes w' y = bytes w y) -> held w' b).
    { intros w1 A B C. destruct Hh as (H1 & H2). split.
      - intros h Eh. destruct (H1 h Eh) as (x1 & x2 & x3 & x4). split; [exact x1|]. split; [exact x2|]. split; [exact x3|]. rewrite A; [exact x4|congruence|congruence].
      - intros s Es. destruct (H2 s Es) as (x1 & x2). split; [exact x1|]. apply (sum_stays w w1 _ s x2 B). intros y Hy _ _. apply C, Hy. }
    remember (Call c k) as g0 eqn:EE in P.
    destruct P as [|I0 I1|h I0 I1 I2 I3|I0 I1|I0 I1|I0 I1 I2|h I0 I1 I2 I3 I4 I5 I6|h I0 I1 I2 I3 I4|I0 I1|h I0 I1 I2 I3 I4 I5|s I0 I1 I2 I3];
      try discriminate EE; unfold maker, runner, stores_it, writes_it, sums_it in EE; injection EE as Ec Ek; subst c k.
    + apply inv_new in D as (h & Nh & -> & ->). split.
      * apply HeldM; cbn [set_object objects made_by bytes]; [|reflexivity|reflexivity].
        intros h0 Hw _. destruct (waiting b) as [h1|] eqn:Ew; [|congruence]. destruct (proj1 Hh h1 Ew) as (_ & X & _). lia.
      * apply Rest; cbn [set_object objects made_by bytes]; [|reflexivity|reflexivity|intros h0 X; congruence].
        apply Ph_made; [exact I0|exact I1|reflexivity|]. cbn [set_object objects hptr]. rewrite same_refl. reflexivity.
    + apply inv_make in D as (-> & ->). cbn [repeat].
      assert (Far : forall y, who y <> i -> overwritten (bytes w) (mkA i false (made_by w i)) [0] y = bytes w y).
      { intros y Dy. unfold overwritten. destruct (within_spec (mkA i false (made_by w i)) (length [0]) y) as [(X & _)|_]; [contradiction|reflexivity]. }
      split.
      * apply HeldM; cbn [add_bytes objects made_by bytes]; [reflexivity| |].
        -- destruct (Nat.eqb_spec (n + 1) i); [lia|reflexivity].
        -- intros y Hy. apply Far. lia.
      * apply Rest; cbn [add_bytes objects made_by bytes]; [| |exact Far|reflexivity].
        -- rewrite I1. apply Ph_store; [exact I0|]. cbn [add_bytes made_by length]. rewrite Nat.eqb_refl, I1. reflexivity.
        -- intros j Dj. destruct (Nat.eqb_spec j i); [contradiction|reflexivity].
    + apply inv_store in D as (-> & ->).
      assert (Far : forall y, who y <> i -> overwritten (bytes w) (shift (base (own i)) 0) [x_of i] y = bytes w y).
      { intros y Dy. unfold overwritten. destruct (within_spec (shift (base (own i)) 0) (length [x_of i]) y) as [(X & _)|_]; [contradiction|reflexivity]. }
      split.
      * apply HeldM; cbn [set_bytes objects made_by bytes]; [reflexivity|reflexivity|]. intros y Hy. apply Far. lia.
      * apply Rest; cbn [set_bytes objects made_by bytes]; [|reflexivity|exact Far|reflexivity].
        apply Ph_wait; [exact I0|exact I1|]. cbn [set_bytes bytes]. unfold overwritten.
        destruct (within_spec (shift (base (own i)) 0) (length [x_of i]) (mkA i false 0)) as [_|X]; [reflexivity|].
        exfalso. apply X. cbn. repeat split; lia.
    + apply inv_write in D as (ws & Ew & -> & ->). rewrite I6 in Ew. assert (ws = so_far xs (i - 1)) as -> by congruence. split.
      * apply HeldM; cbn [set_object objects made_by bytes]; [congruence|reflexivity|reflexivity].
      * apply Rest; cbn [set_object objects made_by bytes]; [|reflexivity|reflexivity|congruence].
        apply Ph_hands; [exact I0|exact I3|exact I4|exact I5|]. cbn [set_object objects]. rewrite same_refl, own_text, I2, so_far_step, I5 by exact I0. reflexivity.
    + apply inv_sum in D. cbn [base slen scap] in D. unfold fits, slice_text, digest_at in D. rewrite I5 in D. cbn [slen scap seq map app repeat Nat.add] in D.
      set (d := digest_of kd (so_far xs n)) in D. rewrite app_nil_r, I1, Nat.add_0_r in D.
      assert (Hd : held w b -> forall w', objects w' = objects w -> held w' b).
      { intros (A1 & A2) w1 Ew. split; [intros h0; rewrite Ew; apply A1|]. intros s Es. congruence. }
      destruct D as [(Fi & -> & ->)|(Fi & -> & ->)].
      * apply Nat.leb_le in Fi. destruct d as [|y d'] eqn:Ed; [|cbn [length] in Fi; lia].
        assert (Far : forall y, overwritten (bytes w) (shift (mkA i false 0) 0) [] y = bytes w y).
        { intros y. unfold overwritten. destruct (within_spec (shift (mkA i false 0) 0) (length (@nil N)) y) as [X|_]; [cbn [length] in X; lia|reflexivity]. }
        split; [apply Hd; [exact Hh|reflexivity]|].
        apply Rest; cbn [set_bytes objects made_by bytes]; [|reflexivity|intros y _; apply Far|reflexivity].
        apply Ph_tell; [exact I0|exact I2|exact I3|]. split; [reflexivity|]. split; [reflexivity|]. split; [cbn [slen length]; intros j Hj; lia|].
        fold n. fold d. rewrite Ed. reflexivity.
      * split; [apply Hd; [exact Hh|reflexivity]|].
        apply Rest; cbn [add_bytes objects made_by bytes]; [| | |reflexivity].
        -- apply Ph_tell; [exact I0|exact I2|exact I3|]. split; [reflexivity|]. split; [reflexivity|]. cbn [slen base num add_bytes made_by].
           rewrite Nat.eqb_refl, I1. split; [intros j Hj; exact Hj|]. fold n. fold d. unfold slice_text. cbn [slen base add_bytes bytes].
           rewrite I1. apply nth_ext with (d := 0) (d' := 0); rewrite map_length, seq_length; [reflexivity|]. intros j Hj.
           rewrite nth_indep with (d' := (fun j0 => overwritten (bytes w) (mkA i false 0) d (shift (mkA i false 0) j0)) O) by (rewrite map_length, seq_length; exact Hj).
           rewrite map_nth with (f := fun j0 => overwritten (bytes w) (mkA i false 0) d (shift (mkA i false 0) j0)), seq_nth by exact Hj. unfold overwritten.
           destruct (within_spec (mkA i false 0) (length d) (shift (mkA i false 0) (0 + j))) as [_|X]; [cbn [num shift]; f_equal; lia|].
           exfalso. apply X. cbn [who lib num shift]. repeat split; lia.
        -- intros j Dj. destruct (Nat.eqb_spec j i); [contradiction|reflexivity].
        -- intros y Dy. unfold overwritten. match goal with |- context [within ?a ?l y] => destruct (within_spec a l y) as [(X & _)|_] end; [contradiction|reflexivity].
  - destruct Gp as (Hh & Hp). pose proof (Hp i _ E) as P. cbn [good].
    assert (Rest : forall b', phase w b' i g -> turn_of b = i -> forall j g', nth_error (replaced i g gs) j = Some g' -> phase w b' j g').
    { intros b1 Pi Tb j g' Ej. apply at_replaced in Ej as [[-> ->]|[Dj Ej]]; [exact Pi|].
      apply (phase_baton w b b1 j g' (Hp j g' Ej)). congruence. }
    remember (Sync f) as g0 eqn:EE in P.
    destruct P as [|I0 I1|h I0 I1 I2 I3|I0 I1|I0 I1|I0 I1 I2|h I0 I1 I2 I3 I4 I5 I6|h I0 I1 I2 I3 I4|I0 I1|h I0 I1 I2 I3 I4 I5|s I0 I1 I2 I3];
      try discriminate EE; unfold hands, waits_for_it, last_runner, receives, tells in EE; injection EE as <-.
    + injection F as <- <-. split; [|apply Rest; [apply Ph_end|exact I1]]. split; cbn [waiting outcome turn_of]; [|discriminate].
      intros h0 X. injection X as <-. split; [reflexivity|]. split; [lia|]. split; [exact I2|exact I3].
    + destruct (waiting b) as [h|] eqn:Ew; [|discriminate F]. destruct (Nat.eqb_spec (turn_of b) i) as [Tb|]; [|discriminate F]. injection F as <- <-.
      destruct (proj1 Hh h Ew) as (X1 & X2 & X3 & X4). split; [split; discriminate|]. apply Rest; [|exact Tb].
      apply Ph_write; try assumption; try reflexivity. rewrite <- Tb. exact X4.
    + injection F as <- <-. split; [|apply Rest; [apply Ph_end|exact I1]]. split; cbn [waiting outcome turn_of]; [|discriminate].
      intros h0 X. injection X as <-. split; [reflexivity|]. split; [lia|]. split; [exact I3|]. replace (S i - 1)%nat with i by lia. exact I4.
    + destruct (waiting b) as [h|] eqn:Ew; [|discriminate F]. destruct (Nat.eqb_spec (turn_of b) i) as [Tb|]; [|discriminate F]. injection F as <- <-.
      destruct (proj1 Hh h Ew) as (X1 & X2 & X3 & X4). split; [split; discriminate|]. apply Rest; [|exact Tb].
      apply Ph_sum; try assumption; try reflexivity. replace n with (turn_of b - 1)%nat by lia. exact X4.
    + injection F as <- <-. split; [|apply Rest; [apply Ph_end|exact I1]]. split; cbn [waiting outcome turn_of]; [discriminate|].
      intros s0 X. injection X as <-. split; [lia|]. rewrite <- I0. exact I3.
Qed.

Lemma good_all p : turns (nothing_yet, at_first, relay kd xs) p -> good p.
Proof.
  intros T. remember (nothing_yet, at_first, relay kd xs) as p0 eqn:E0. induction T as [p|p p1 p2 T IH St]; [|apply (good_step p1 p2); auto].
  subst p. cbn [good]. split; [split; discriminate|]. apply at_start.
Qed.

(** Which calls they can be about to make. *)
Lemma calls_of w b i c k : phase w b i (Call c k) ->
  (c = New_hash kd /\ i = O) \/ c = Make_bytes 1 1 \/ (c = Store_byte (own i) 0 (x_of i) /\ (1 <= i <= n)%nat /\ made_by w i = 1%nat)
  \/ (exists h, c = Write_to h (own i) /\ turn_of b = i /\ (1 <= i <= n)%nat /\ made_by w i = 1%nat /\ bytes w (mkA i false 0) = x_of i /\ hkind h = kd /\ objects w (hptr h) = Some (AHash kd (so_far xs (i - 1))))
  \/ (exists h, c = Sum_of h (mkS (mkA i false 0) 0 0) 0 /\ turn_of b = i /\ outcome b = None /\ hkind h = kd /\ objects w (hptr h) = Some (AHash kd (so_far xs n))).
Proof.
  intros P. remember (Call c k) as g0 eqn:EE in P.
  destruct P as [|I0 I1|h I0 I1 I2 I3|I0 I1|I0 I1|I0 I1 I2|h I0 I1 I2 I3 I4 I5 I6|h I0 I1 I2 I3 I4|I0 I1|h I0 I1 I2 I3 I4 I5|s I0 I1 I2 I3];
    try discriminate EE; unfold maker, runner, stores_it, writes_it, sums_it in EE; injection EE as <- <-.
  - left. auto.
  - right. left. reflexivity.
  - right. right. left. auto.
  - right. right. right. left. exists h. repeat split; auto; lia.
  - right. right. right. right. exists h. repeat split; auto.
Qed.
Lemma own_there w i : made_by w i = 1%nat -> slice_there w (own i).
Proof. intros M. split; [cbn; lia|]. split; [reflexivity|]. intros j Hj. cbn in *. lia. Qed.
Lemma relay_synchronised : well_synchronised at_first (relay kd xs).
Proof.
  intros [[w b] gs] T. apply good_all in T. destruct T as (Hh & Hp). split.
  - intros i c k E. destruct (calls_of _ _ _ _ _ (Hp i _ E)) as [(-> & _)|[-> |[(-> & B & M)|[(h & -> & Tb & B & M & Eb & Kh & Th)|(h & -> & Tb & Ob & Kh & Th)]]]]; cbn [proper].
    + exact Logic.I.
    + lia.
    + split; [apply own_there, M|]. split; [cbn; lia|]. apply x_small.
    + split; [apply own_there, M|]. rewrite Kh. exists (so_far xs (i - 1)). split; [exact Th|]. rewrite own_text.
      destruct kd; try exact Logic.I; cbn [can_take].
      all: try (left; cbn; lia).
      rewrite app_length. cbn [length]. pose proof (so_far_len (i - 1)) as [L1 L2]. unfold n in B. lia.
    + split; [split; [cbn; lia|split; [reflexivity|cbn; intros; lia]]|]. rewrite Kh. eexists. exact Th.
  - intros i j c c' k k' Dij E E' (t & Al & Lk).
    destruct (calls_of _ _ _ _ _ (Hp i _ E)) as [(-> & _)|[-> |[(-> & B & M)|[(h & -> & Tb & B & M & Eb & Kh & Th)|(h & -> & Tb & Ob & Kh & Th)]]]]; cbn [alters] in Al; try contradiction.
    + subst t.
      destruct (calls_of _ _ _ _ _ (Hp j _ E')) as [(-> & _)|[-> |[(-> & B' & M')|[(h' & -> & Tb' & B' & M' & Eb' & Kh' & Th')|(h' & -> & Tb' & Ob' & Kh' & Th')]]]]; cbn [looks alters] in Lk.
      * tauto.
      * tauto.
      * destruct Lk as [[]|Lk]. injection Lk as X. congruence.
      * destruct Lk as [(q & _ & X)|X]; [injection X as X; congruence|discriminate X].
      * destruct Lk as [[X|(_ & q & X & _)]|(F & X)]; [discriminate X|cbn in X; lia|eapply nothing_fits; eauto].
    + subst t.
      destruct (calls_of _ _ _ _ _ (Hp j _ E')) as [(-> & _)|[-> |[(-> & B' & M')|[(h' & -> & Tb' & B' & M' & Eb' & Kh' & Th')|(h' & -> & Tb' & Ob' & Kh' & Th')]]]]; cbn [looks alters] in Lk.
      * tauto.
      * tauto.
      * destruct Lk as [[]|Lk]. discriminate Lk.
      * congruence.
      * congruence.
    + destruct Al as (F & X). eapply nothing_fits; eauto.
Qed.

(** The outcome, when there is one, and that nobody is about to change it. *)
Lemma relay_outcome w b gs s : turns (nothing_yet, at_first, relay kd xs) (w, b, gs) -> outcome b = Some s ->
  slice_text w s = digest_of kd (map (fun x => [x]) xs)
  /\ forall j, (j < slen s)%nat -> lib (shift (base s) j) = false /\ (num (shift (base s) j) < made_by w (who (shift (base s) j)))%nat
     /\ forall i c k, nth_error gs i = Some (Call c k) -> ~ alters w c (TheByte (shift (base s) j)).
Proof.
  intros T Es. apply good_all in T. destruct T as (Hh & Hp). destruct (proj2 Hh s Es) as (Tn & A & B & C & D). split.
  - rewrite D. unfold so_far. rewrite firstn_all. reflexivity.
  - intros j Hj. cbn [shift lib num who]. split; [exact B|]. split; [rewrite A; apply C, Hj|]. intros i c k E.
    destruct (calls_of _ _ _ _ _ (Hp i _ E)) as [(-> & _)|[-> |[(-> & Bi & M)|[(h & -> & _)|(h & -> & Tb & Ob & _)]]]]; cbn [alters]; try tauto.
    + intros X. injection X as X. cbn [shift own base who] in X. lia.
    + discriminate.
    + congruence.
Qed.
End Relay.
