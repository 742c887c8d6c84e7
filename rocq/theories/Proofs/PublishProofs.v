(** The publication of Spec/RelaySpec.v is well synchronised, and all sums are those
    of the bytes in order. *)
From Verif Require Import Base.Go Base.Goroutine Base.HashUse Base.Sync Spec.HashUseSpec Spec.ChecksumSpec Spec.SyncSpec Spec.RelaySpec
  Proofs.GoroutineProofs Proofs.SyncProofs Proofs.RelayProofs.
From Coq Require Import Lia.
Local Open Scope N_scope.

Lemma one_taken k l p : N.of_nat (length l + 1) < 2 ^ 64 -> length p = 1%nat -> can_take k (map (fun x => [x]) l) p.
Proof.
  intros H Lp. destruct k; try exact Logic.I; cbn [can_take].
  - rewrite app_length, Lp. replace (concat (map (fun x => [x]) l)) with l by (induction l as [|a l IH]; cbn [map concat app]; [reflexivity|f_equal; apply IH; cbn [length] in H; lia]). exact H.
  - left. rewrite Lp. lia.
Qed.

Section Publish.
Context (kd : kind) (xs : list N) (Hx : bytes_ok xs) (Hl : N.of_nat (length xs) < 2 ^ 64).
Let own : gslice := mkS (mkA 0 false 0) 1 1.
Let one (l : list N) : list (list N) := map (fun x => [x]) l.
Let all : list N := digest_of kd (one xs).

Definition summed_at (w : world) (i : nat) (s : gslice) : Prop :=
  i <> O /\ who (base s) = i /\ lib (base s) = false /\ (forall j, (j < slen s)%nat -> (num (base s) + j < made_by w i)%nat) /\ slice_text w s = all.

Definition here (w : world) (h : hashv) (l : list N) : Prop := hkind h = kd /\ objects w (hptr h) = Some (AHash kd (one l)).
Inductive station (w : world) (b : board) (i : nat) : prog board -> Prop :=
| St_end : station w b i Finish
| St_author : i = O -> made_by w O = O -> shown b = None -> station w b i (author kd xs)
| St_made h : i = O -> made_by w O = O -> shown b = None -> here w h [] -> station w b i (author1 xs h)
| St_puts h l r : i = O -> made_by w O = 1%nat -> shown b = None -> here w h l -> xs = l ++ r -> station w b i (puts_all h own r)
| St_write h l x r : i = O -> made_by w O = 1%nat -> bytes w (mkA 0 false 0) = x -> shown b = None -> here w h l -> xs = l ++ x :: r ->
    station w b i (Call (Write_to h own) (fun _ => puts_all h own r))
| St_reader : i <> O -> made_by w i = O -> station w b i (reader i)
| St_sum h : i <> O -> made_by w i = O -> shown b = Some h -> here w h xs -> station w b i (reads_it i h)
| St_adds s : summed_at w i s -> station w b i (adds s).

Definition on_board (w : world) (gs : list (prog board)) (b : board) : Prop :=
  (forall h, shown b = Some h -> here w h xs)
  /\ (forall s, In s (sums b) -> summed_at w (who (base s)) s /\ forall g, nth_error gs (who (base s)) = Some g -> g = Finish).
Definition fine (p : scene (G := board)) : Prop :=
  let '(w, b, gs) := p in on_board w gs b /\ forall i g, nth_error gs i = Some g -> station w b i g.

Lemma summed_stays w w' i s : summed_at w i s -> made_by w' i = made_by w i ->
  (forall y, who y = i -> lib y = false -> (num y < made_by w i)%nat -> bytes w' y = bytes w y) -> summed_at w' i s.
Proof.
  intros (Z & A & B & C & D) M E. split; [exact Z|]. split; [exact A|]. split; [exact B|]. split; [intros j Hj; rewrite M; apply C, Hj|].
  rewrite <- D. apply (text_local w w' s i A B C E).
Qed.
Lemma station_world w w' b i g : station w b i g -> made_by w' i = made_by w i ->
  (forall y, who y = i -> lib y = false -> (num y < made_by w i)%nat -> bytes w' y = bytes w y) ->
  (forall h o, i = O \/ shown b <> None -> objects w h = Some o -> objects w' h = Some o) -> station w' b i g.
Proof.
  intros P M E T.
  assert (Hr : forall h l, i = O \/ shown b <> None -> here w h l -> here w' h l) by (intros h l Q (A & B); split; [exact A|apply T; assumption]).
  destruct P as [|I0 I1 I2|h I0 I1 I2 I3|h l r I0 I1 I2 I3 I4|h l x r I0 I1 I2 I3 I4 I5|I0 I1|h I0 I1 I2 I3|s I0].
  - apply St_end.
  - apply St_author; [exact I0|subst i; congruence|exact I2].
  - apply St_made; [exact I0|subst i; congruence|exact I2|apply Hr; [left; exact I0|exact I3]].
  - apply (St_puts w' b i h l r); [exact I0|subst i; congruence|exact I2|apply Hr; [left; exact I0|exact I3]|exact I4].
  - apply (St_write w' b i h l x r); [exact I0|subst i; congruence| |exact I3|apply Hr; [left; exact I0|exact I4]|exact I5].
    rewrite E; [exact I2|cbn; congruence|reflexivity|subst i; cbn; lia].
  - apply St_reader; [exact I0|congruence].
  - apply (St_sum w' b i h); [exact I0|congruence|exact I2|apply Hr; [right; congruence|exact I3]].
  - apply St_adds. apply (summed_stays w w' i s); assumption.
Qed.

Lemma fine_start n : fine (nothing_yet, blank, publication kd xs n).
Proof.
  split; [split; [discriminate|intros s []]|]. intros i g E. unfold publication in E. destruct i as [|i]; cbn [nth_error] in E.
  - injection E as <-. apply St_author; reflexivity.
  - rewrite nth_error_map in E. destruct (nth_error (seq 1 n) i) as [j|] eqn:Ej; [|discriminate]. injection E as <-.
    assert (L : (i < n)%nat) by (rewrite <- (seq_length n 1); apply nth_error_Some; congruence).
    apply nth_error_nth with (d := O) in Ej. rewrite seq_nth in Ej by exact L. subst j. apply St_reader; [discriminate|reflexivity].
Qed.

Lemma same_addr x y : same x y = true -> x = y.
Proof.
  destruct x as [a b c], y as [a' b' c']. unfold same. cbn [who lib num]. intros H. apply andb_prop in H as (H & H3). apply andb_prop in H as (H1 & H2).
  apply Nat.eqb_eq in H1, H3. apply Bool.eqb_prop in H2. congruence.
Qed.

Lemma fine_step p q : fine p -> turn p q -> fine q.
Proof.
  intros Gp T. destruct T as [w b gs i c k w' r E D|w b gs i f m b' g E F].
  - destruct Gp as ((Hs & Hb) & Hp). pose proof (Hp i _ E) as P. cbn [fine].
    assert (Go : forall w', station w' b i (k r) -> (forall j, j <> i -> made_by w' j = made_by w j) -> (forall y, who y <> i -> bytes w' y = bytes w y) ->
      (forall h o, shown b <> None \/ i <> O -> objects w h = Some o -> objects w' h = Some o) ->
      on_board w' (replaced i (k r) gs) b /\ forall j g, nth_error (replaced i (k r) gs) j = Some g -> station w' b j g).
    { intros w1 Pi M B Tx. split; [split|].
      - intros h Eh. destruct (Hs h Eh) as (A1 & A2). split; [exact A1|]. apply Tx; [left; congruence|exact A2].
      - intros s Is. destruct (Hb s Is) as (S1 & S2).
        assert (Ni : who (base s) <> i) by (intros Q; rewrite Q in S2; specialize (S2 _ E); discriminate S2).
        split; [|rewrite at_replaced_other by exact Ni; exact S2].
        apply (summed_stays w w1 _ s S1); [apply M, Ni|]. intros y Hy _ _. apply B. congruence.
      - intros j g Ej. apply at_replaced in Ej as [[-> ->]|[Dj Ej]]; [exact Pi|].
        apply (station_world w w1 b j g (Hp j g Ej)); [apply M, Dj|intros y <- _ _; apply B, Dj|].
        intros h o Q Eh. apply Tx; [|exact Eh]. destruct Q as [Q|Q]; [right; congruence|left; exact Q]. }
    remember (Call c k) as g0 eqn:EE in P.
    destruct P as [|I0 I1 I2|h I0 I1 I2 I3|h l rs I0 I1 I2 I3 I4|h l x rs I0 I1 I2 I3 I4 I5|I0 I1|h I0 I1 I2 I3|s I0]; try discriminate EE.
    + unfold author in EE. injection EE as <- <-. apply inv_new in D as (h & Nh & -> & ->).
      apply Go; cbn [set_object objects made_by bytes]; [|reflexivity|reflexivity|].
      * apply St_made; [exact I0|exact I1|exact I2|]. split; [reflexivity|]. cbn [set_object objects hptr]. rewrite same_refl. reflexivity.
      * intros h0 o _ Eh. destruct (same h0 h) eqn:Sm; [|exact Eh]. apply same_addr in Sm. congruence.
    + unfold author1 in EE. injection EE as <- <-. apply inv_make in D as (-> & ->). cbn [repeat].
      apply Go; cbn [add_bytes objects made_by bytes].
      * subst i. rewrite I1. apply (St_puts _ b O h [] xs); [reflexivity| |exact I2|exact I3|reflexivity]. cbn. rewrite I1. reflexivity.
      * intros j Dj. destruct (Nat.eqb_spec j i); [contradiction|reflexivity].
      * intros y Dy. unfold overwritten. match goal with |- context [within ?a ?n y] => destruct (within_spec a n y) as [(X & _)|_] end; [contradiction|reflexivity].
      * intros h0 o _ Eh. exact Eh.
    + destruct rs as [|x rs]; [discriminate EE|]. cbn [puts_all] in EE. injection EE as <- <-. apply inv_store in D as (-> & ->). subst i.
      apply Go; cbn [set_bytes objects made_by bytes]; [|reflexivity| |intros h0 o _ Eh; exact Eh].
      * apply (St_write _ b O h l x rs); [reflexivity|exact I1| |exact I2|exact I3|exact I4]. reflexivity.
      * intros y Dy. unfold overwritten. match goal with |- context [within ?a ?n y] => destruct (within_spec a n y) as [(X & _)|_] end; [contradiction|reflexivity].
    + injection EE as <- <-. apply inv_write in D as (ws & Ew & -> & ->). destruct I4 as (A1 & A2). rewrite A2 in Ew. assert (ws = one l) as -> by congruence.
      apply Go; cbn [set_object objects made_by bytes]; [|reflexivity|reflexivity|].
      * apply (St_puts _ b i h (l ++ [x]) rs); [exact I0|exact I1|exact I3| |rewrite <- app_assoc; exact I5]. split; [exact A1|]. cbn [set_object objects]. rewrite same_refl.
        rewrite A1. replace (slice_text w own) with [x] by (rewrite <- I2; reflexivity). unfold one. rewrite map_app. reflexivity.
      * intros h0 o [Q|Q]; congruence.
    + unfold reads_it in EE. injection EE as <- <-. apply inv_sum in D. destruct I3 as (A1 & A2).
      cbn [base slen scap] in D. unfold fits, slice_text, digest_at in D. rewrite A2 in D. cbn [slen scap seq map app repeat Nat.add] in D.
      fold all in D. rewrite app_nil_r, I1, Nat.add_0_r in D.
      destruct D as [(Fi & -> & ->)|(Fi & -> & ->)].
      * apply Nat.leb_le in Fi. destruct all as [|y d'] eqn:Ed; [|cbn [length] in Fi; lia].
        assert (Far : forall y, overwritten (bytes w) (shift (mkA i false 0) 0) [] y = bytes w y).
        { intros y. unfold overwritten. match goal with |- context [within ?a ?n y] => destruct (within_spec a n y) as [X|_] end; [cbn [length] in X; lia|reflexivity]. }
        apply Go; cbn [set_bytes objects made_by bytes]; [|reflexivity|intros y _; apply Far|intros h0 o _ Eh; exact Eh].
        apply St_adds. split; [exact I0|]. split; [reflexivity|]. split; [reflexivity|]. split; [cbn [slen length]; intros j Hj; lia|]. rewrite Ed. reflexivity.
      * apply Go; cbn [add_bytes objects made_by bytes].
        -- apply St_adds. split; [exact I0|]. split; [reflexivity|]. split; [reflexivity|]. cbn [slen base num add_bytes made_by].
           rewrite Nat.eqb_refl, I1. split; [intros j Hj; exact Hj|]. unfold slice_text. cbn [slen base add_bytes bytes].
           rewrite I1. apply nth_ext with (d := 0) (d' := 0); rewrite map_length, seq_length; [reflexivity|]. intros j Hj.
           rewrite nth_indep with (d' := (fun j0 => overwritten (bytes w) (mkA i false 0) all (shift (mkA i false 0) j0)) O) by (rewrite map_length, seq_length; exact Hj).
           rewrite map_nth with (f := fun j0 => overwritten (bytes w) (mkA i false 0) all (shift (mkA i false 0) j0)), seq_nth by exact Hj. unfold overwritten.
           destruct (within_spec (mkA i false 0) (length all) (shift (mkA i false 0) (0 + j))) as [_|X]; [cbn [num shift]; f_equal; lia|].
           exfalso. apply X. cbn [who lib num shift]. repeat split; lia.
        -- intros j Dj. destruct (Nat.eqb_spec j i); [contradiction|reflexivity].
        -- intros y Dy. unfold overwritten. match goal with |- context [within ?a ?n y] => destruct (within_spec a n y) as [(X & _)|_] end; [contradiction|reflexivity].
        -- intros h0 o _ Eh. exact Eh.
  - destruct Gp as ((Hs & Hb) & Hp). pose proof (Hp i _ E) as P. cbn [fine].
    assert (Sum : forall b', sums b' = sums b -> forall s, In s (sums b') -> summed_at w (who (base s)) s /\ forall g', nth_error (replaced i g gs) (who (base s)) = Some g' -> g' = Finish).
    { intros b1 Eb s Is. rewrite Eb in Is. destruct (Hb s Is) as (S1 & S2). split; [exact S1|].
      assert (Ni : who (base s) <> i) by (intros Q; rewrite Q in S2; specialize (S2 _ E); discriminate S2).
      rewrite at_replaced_other by exact Ni. exact S2. }
    assert (Rest : forall b', station w b' i g -> (i = O \/ shown b' = shown b) -> (forall h, i = O -> shown b = Some h -> shown b' = Some h) ->
      forall j g', nth_error (replaced i g gs) j = Some g' -> station w b' j g').
    { intros b1 Pi Q Kp j g' Ej. apply at_replaced in Ej as [[-> ->]|[Dj Ej]]; [exact Pi|].
      assert (Sh : forall h, shown b = Some h -> shown b1 = Some h) by (intros h Eh; destruct Q as [Q|Q]; [apply Kp; assumption|congruence]).
      assert (Nh : j = O -> shown b1 = shown b) by (intros Z; destruct Q as [Q|Q]; congruence).
      destruct (Hp j g' Ej) as [|I0 I1 I2|h I0 I1 I2 I3|h l rs I0 I1 I2 I3 I4|h l x rs I0 I1 I2 I3 I4 I5|I0 I1|h I0 I1 I2 I3|s I0].
      - apply St_end.
      - apply St_author; [exact I0|exact I1|rewrite Nh; assumption].
      - apply St_made; [exact I0|exact I1|rewrite Nh; assumption|exact I3].
      - apply (St_puts w b1 j h l rs); [exact I0|exact I1|rewrite Nh; assumption|exact I3|exact I4].
      - apply (St_write w b1 j h l x rs); [exact I0|exact I1|exact I2|rewrite Nh; assumption|exact I4|exact I5].
      - apply St_reader; [exact I0|exact I1].
      - apply St_sum; [exact I0|exact I1|apply Sh, I2|exact I3].
      - apply St_adds, I0. }
    remember (Sync f) as g0 eqn:EE in P.
    destruct P as [|I0 I1 I2|h I0 I1 I2 I3|h l rs I0 I1 I2 I3 I4|h l x rs I0 I1 I2 I3 I4 I5|I0 I1|h I0 I1 I2 I3|s I0]; try discriminate EE.
    + destruct rs as [|x rs]; [|discriminate EE]. cbn [puts_all] in EE. unfold shows in EE. injection EE as <-. injection F as <- <-. rewrite app_nil_r in I4. subst l.
      split; [split; [|apply Sum; reflexivity]|apply Rest; [apply St_end|left; exact I0|congruence]].
      cbn [shown]. intros h0 X. injection X as <-. exact I3.
    + unfold reader in EE. injection EE as <-. destruct (shown b) as [h|] eqn:Es; [|discriminate F]. injection F as <- <-.
      split; [split; [|apply Sum; reflexivity]|apply Rest].
      * rewrite Es. intros h0 X. injection X as <-. apply Hs. reflexivity.
      * apply St_sum; [exact I0|exact I1|exact Es|apply Hs; reflexivity].
      * right. exact Es.
      * intros h0 Z. contradiction.
    + unfold adds in EE. injection EE as <-. injection F as <- <-. pose proof I0 as (Z & Wi & _).
      split; [split; [exact Hs|]|apply Rest; [apply St_end|right; reflexivity|intros h0 Q; contradiction]].
      cbn [sums]. intros s0 Is. apply in_app_or in Is as [Is|[<-|[]]]; [apply (Sum b eq_refl s0 Is)|].
      rewrite Wi. split; [exact I0|]. intros g' Eg. rewrite (at_replaced_same gs i Finish _ E) in Eg. congruence.
Qed.

Lemma fine_all n p : turns (nothing_yet, blank, publication kd xs n) p -> fine p.
Proof.
  intros T. remember (nothing_yet, blank, publication kd xs n) as p0 eqn:E0. induction T as [p|p p1 p2 T IH St]; [|apply (fine_step p1 p2); auto].
  subst p. apply fine_start.
Qed.

Lemma asks_of w b i c k : station w b i (Call c k) ->
  (c = New_hash kd) \/ c = Make_bytes 1 1
  \/ (exists x, c = Store_byte own 0 x /\ i = O /\ made_by w O = 1%nat /\ In x xs)
  \/ (exists h l x r, c = Write_to h own /\ i = O /\ made_by w O = 1%nat /\ shown b = None /\ here w h l /\ xs = l ++ x :: r)
  \/ (exists h, c = Sum_of h (mkS (mkA i false 0) 0 0) 0 /\ i <> O /\ shown b <> None /\ here w h xs).
Proof.
  intros P. remember (Call c k) as g0 eqn:EE in P.
  destruct P as [|I0 I1 I2|h I0 I1 I2 I3|h l rs I0 I1 I2 I3 I4|h l x rs I0 I1 I2 I3 I4 I5|I0 I1|h I0 I1 I2 I3|s I0]; try discriminate EE.
  - injection EE as <- <-. left. reflexivity.
  - injection EE as <- <-. right. left. reflexivity.
  - destruct rs as [|x rs]; [discriminate EE|]. injection EE as <- <-. right. right. left. exists x. repeat split; try assumption. rewrite I4. apply in_or_app. right. left. reflexivity.
  - injection EE as <- <-. right. right. right. left. exists h, l, x, rs. repeat split; try assumption; apply I4.
  - injection EE as <- <-. right. right. right. right. exists h. repeat split; try assumption; try congruence; apply I3.
Qed.

Lemma publication_synchronised n : well_synchronised blank (publication kd xs n).
Proof.
  intros [[w b] gs] T. apply fine_all in T. destruct T as (Hb & Hp). split.
  - intros i c k E. destruct (asks_of _ _ _ _ _ (Hp i _ E)) as [-> |[-> |[(x & -> & -> & M & Ix)|[(h & l & x & r & -> & -> & M & _ & (Kh & Th) & Ex)|(h & -> & _ & _ & (Kh & Th))]]]]; cbn [proper].
    + exact Logic.I.
    + lia.
    + split; [split; [cbn; lia|split; [reflexivity|intros j Hj; cbn in *; lia]]|]. split; [cbn; lia|]. exact (proj1 (Forall_forall _ _) Hx x Ix).
    + split; [split; [cbn; lia|split; [reflexivity|intros j Hj; cbn in *; lia]]|]. rewrite Kh. exists (one l). split; [exact Th|].
      apply one_taken; [rewrite Ex, app_length in Hl; cbn [length] in Hl; lia|reflexivity].
    + split; [split; [cbn; lia|split; [reflexivity|cbn; intros; lia]]|]. rewrite Kh. eexists. exact Th.
  - intros i j c c' k k' Dij E E' (t & Al & Lk).
    destruct (asks_of _ _ _ _ _ (Hp i _ E)) as [-> |[-> |[(x & -> & Zi & M & Ix)|[(h & l & x & r & -> & Zi & M & Sn & (Kh & Th) & Ex)|(h & -> & Zi & Sn & (Kh & Th))]]]]; cbn [alters] in Al; try contradiction.
    + subst t.
      destruct (asks_of _ _ _ _ _ (Hp j _ E')) as [-> |[-> |[(x' & -> & Zj & _)|[(h' & l' & x' & r' & -> & Zj & _)|(h' & -> & Zj & _)]]]]; cbn [looks alters] in Lk; try tauto; try congruence.
      destruct Lk as [[X|(_ & q & X & _)]|(F & X)]; [discriminate X|cbn in X; lia|eapply nothing_fits; eauto].
    + subst t.
      destruct (asks_of _ _ _ _ _ (Hp j _ E')) as [-> |[-> |[(x' & -> & Zj & _)|[(h' & l' & x' & r' & -> & Zj & _)|(h' & -> & Zj & Sj & _)]]]]; cbn [looks alters] in Lk; try tauto; try congruence.
    + destruct Al as (F & X). eapply nothing_fits; eauto.
Qed.

Lemma publication_sums n w b gs s : turns (nothing_yet, blank, publication kd xs n) (w, b, gs) -> In s (sums b) ->
  slice_text w s = digest_of kd (map (fun x => [x]) xs)
  /\ forall j, (j < slen s)%nat -> lib (shift (base s) j) = false /\ (num (shift (base s) j) < made_by w (who (shift (base s) j)))%nat
     /\ forall i c k, nth_error gs i = Some (Call c k) -> ~ alters w c (TheByte (shift (base s) j)).
Proof.
  intros T Is. apply fine_all in T. destruct T as (Hb & Hp). destruct (proj2 Hb s Is) as ((Z & A & B & C & D) & Fin). split; [exact D|].
  intros j Hj. cbn [shift lib num who]. split; [exact B|]. split; [apply C, Hj|]. intros i c k E.
  destruct (asks_of _ _ _ _ _ (Hp i _ E)) as [-> |[-> |[(x & -> & Zi & _)|[(h & l & x & r & -> & _)|(h & -> & _)]]]]; cbn [alters]; try tauto.
  - intros X. injection X as X _ _. cbn in X. congruence.
  - discriminate.
  - intros (F & X). eapply nothing_fits; eauto.
Qed.
End Publish.
