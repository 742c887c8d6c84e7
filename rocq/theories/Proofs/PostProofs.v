(** The letters of Spec/PostSpec.v are well synchronised, and arrive as they were sent. *)
From Coq Require Import Lia.
From Verif Require Import Base.Go Base.Goroutine Base.HashUse Base.Sync Spec.HashUseSpec Spec.SyncSpec Spec.PostSpec
  Proofs.GoroutineProofs Proofs.SyncProofs Proofs.RelayProofs.
From Verif Require Spec.HexSpec Spec.LibUseSpec Proofs.HexProofs Proofs.LibUseProofs.
Local Open Scope N_scope.

Lemma inv_text i w f s w' r : does i w (Text_of f s) w' r -> w' = w /\ r = GotText (text_as f (slice_text w s)).
Proof. intros D. inversion D; subst; try discriminate; try contradiction. split; [reflexivity|assumption]. Qed.
Lemma inv_read i w tiny fast t w' r : does i w (Bytes_of tiny fast t) w' r ->
  w' = add_bytes i w (read_bytes t) /\ r = read_reply fast t (mkS (mkA i false (made_by w i)) (length t / 2) (length t / 2)).
Proof. intros D. inversion D; subst; try discriminate; try contradiction. split; reflexivity. Qed.
Lemma half_numeral xs : (length (flat_map HexSpec.numeral xs) / 2 = length xs)%nat.
Proof. rewrite HexProofs.numeral_length, Nat.mul_comm. apply Nat.div_mul. discriminate. Qed.
Lemma read_numeral xs : bytes_ok xs -> read_bytes (flat_map HexSpec.numeral xs) = xs.
Proof.
  intros B. unfold read_bytes. rewrite LibUseProofs.read_pairs_eq, HexProofs.numeral_pairs, half_numeral, Nat.sub_diag by exact B. apply app_nil_r.
Qed.
Lemma reply_numeral fast xs s : bytes_ok xs -> read_reply fast (flat_map HexSpec.numeral xs) s = GotSlice s.
Proof.
  intros B. unfold read_reply. change 0%Z with (Z.of_nat 0). rewrite LibUseProofs.first_bad_eq, HexProofs.numeral_valid by exact B.
  rewrite HexProofs.numeral_length, Nat.even_mul. reflexivity.
Qed.
Lemma new_text w a xs c : slice_text (mkWorld (overwritten (bytes w) a xs) (made_by w) (objects w)) (mkS a (length xs) c) = xs.
Proof.
  unfold slice_text. cbn [slen base bytes]. apply nth_ext with (d := 0) (d' := 0); rewrite map_length, seq_length; [reflexivity|]. intros j Hj.
  rewrite nth_indep with (d' := (fun j0 => overwritten (bytes w) a xs (shift a j0)) O) by (rewrite map_length, seq_length; exact Hj).
  rewrite map_nth with (f := fun j0 => overwritten (bytes w) a xs (shift a j0)), seq_nth by exact Hj. unfold overwritten.
  destruct (within_spec a (length xs) (shift a (0 + j))) as [_|X]; [cbn [num shift]; f_equal; lia|].
  exfalso. apply X. cbn [who lib num shift]. repeat split; lia.
Qed.
Lemma set_one w a x y : y <> a -> bytes (set_bytes w a [x]) y = bytes w y.
Proof.
  intros D. cbn [set_bytes bytes]. unfold overwritten. destruct (within_spec a (length [x]) y) as [(X1 & X2 & X3)|_]; [|reflexivity].
  exfalso. apply D. destruct y as [yw yl yn], a as [aw al an]. cbn [who lib num length] in *. subst yw yl. f_equal. lia.
Qed.
Lemma set_at w a x : bytes (set_bytes w a [x]) a = x.
Proof.
  cbn [set_bytes bytes]. unfold overwritten. destruct (within_spec a (length [x]) a) as [_|X]; [rewrite Nat.sub_diag; reflexivity|].
  exfalso. apply X. cbn [length]. repeat split; lia.
Qed.
Lemma players_nth room rs : forall i j, nth_error (players room i rs) j = option_map (plays room (i + j)) (nth_error rs j).
Proof.
  induction rs as [|r rs IH]; intros i [|j]; cbn [players nth_error option_map]; try reflexivity; [rewrite Nat.add_0_r; reflexivity|].
  rewrite IH. rewrite <- plus_n_Sm. reflexivity.
Qed.

Section Post.
Context (room : nat) (rs : list role) (Hr : Forall role_ok rs).
Let own (n i : nat) : gslice := mkS (mkA i false 0) n n.

Definition letter_ok (i j : nat) (t : list N) : Prop := exists xs, message rs i j = Some xs /\ bytes_ok xs /\ t = flat_map HexSpec.numeral xs.
Definition slice_ok (w : world) (i j : nat) (s : gslice) : Prop :=
  exists xs tiny fast m, message rs i j = Some xs /\ nth_error rs (who (base s)) = Some (Receives tiny fast m)
    /\ lib (base s) = false /\ (forall k, (k < slen s)%nat -> (num (base s) + k < made_by w (who (base s)))%nat) /\ slice_text w s = xs.

(** Where goroutine [i] may be. *)
Inductive place (w : world) (i : nat) : prog post -> Prop :=
| Pl_end : place w i Finish
| Pl_sender n ms : nth_error rs i = Some (Sends n ms) -> made_by w i = O -> place w i (sender room n i ms)
| Pl_stores n ms done ys zs ms' : nth_error rs i = Some (Sends n ms) -> made_by w i = n -> ms = done ++ (ys ++ zs) :: ms' ->
    (forall k, (k < length ys)%nat -> bytes w (mkA i false k) = nth k ys 0) ->
    place w i (stores (own n i) (length ys) zs (encodes room (own n i) i (length done) (sends_all room (own n i) i (S (length done)) ms')))
| Pl_posts n ms done xs ms' : nth_error rs i = Some (Sends n ms) -> made_by w i = n -> ms = done ++ xs :: ms' ->
    place w i (posts room (i, length done, flat_map HexSpec.numeral xs) (sends_all room (own n i) i (S (length done)) ms'))
| Pl_receiver tiny fast m0 m : nth_error rs i = Some (Receives tiny fast m0) -> place w i (receiver tiny fast m)
| Pl_decodes tiny fast m0 m i' j t : nth_error rs i = Some (Receives tiny fast m0) -> letter_ok i' j t -> place w i (decodes tiny fast i' j t (receiver tiny fast m))
| Pl_delivers tiny fast m0 m i' j s : nth_error rs i = Some (Receives tiny fast m0) -> who (base s) = i -> slice_ok w i' j s -> place w i (delivers i' j s (receiver tiny fast m)).

Definition in_post (w : world) (b : post) : Prop :=
  (forall i j t, In (i, j, t) (letters b) -> letter_ok i j t) /\ (forall i j s, In (i, j, s) (arrived b) -> slice_ok w i j s) /\ complaints b = false.
Definition sound (p : scene (G := post)) : Prop :=
  let '(w, b, gs) := p in in_post w b /\ forall i g, nth_error gs i = Some g -> place w i g.

(** What is made stays. *)
Definition keeps (w w' : world) (i : nat) : Prop :=
  (made_by w i <= made_by w' i)%nat /\ forall y, who y = i -> lib y = false -> (num y < made_by w i)%nat -> bytes w' y = bytes w y.
Lemma slice_keeps w w' i j s : slice_ok w i j s -> keeps w w' (who (base s)) -> slice_ok w' i j s.
Proof.
  intros (xs & tiny & fast & m & M & R & L & B & T) (K1 & K2). exists xs, tiny, fast, m. do 3 (split; [assumption|]). split; [intros k Hk; specialize (B k Hk); lia|].
  rewrite <- T. apply (text_local w w' s _ eq_refl L B K2).
Qed.
Lemma role_at i n ms : nth_error rs i = Some (Sends n ms) -> Forall (fun xs => length xs = n /\ bytes_ok xs) ms.
Proof. intros E. exact (proj1 (Forall_forall _ _) Hr _ (nth_error_In _ _ E)). Qed.
Lemma message_at i n ms done xs ms' : nth_error rs i = Some (Sends n ms) -> ms = done ++ xs :: ms' -> message rs i (length done) = Some xs /\ length xs = n /\ bytes_ok xs.
Proof.
  intros E ->. unfold message. rewrite E. split; [rewrite nth_error_app2, Nat.sub_diag by lia; reflexivity|].
  pose proof (role_at i n _ E) as F. apply Forall_app in F as (_ & F). inversion F; assumption.
Qed.
Lemma place_keeps w w' i g : place w i g -> made_by w' i = made_by w i -> keeps w w' i -> place w' i g.
Proof.
  intros P M K. destruct P as [|n ms R0 R1|n ms dn ys zs ms' R0 R1 R2 R3|n ms dn xs ms' R0 R1 R2|tiny fast m0 m R0|tiny fast m0 m i' j t R0 R1|tiny fast m0 m i' j s R0 R1 R2].
  - apply Pl_end.
  - apply Pl_sender; [exact R0|congruence].
  - apply Pl_stores with (ms := ms); [exact R0|congruence|exact R2|]. intros k Hk. rewrite <- R3 by exact Hk. apply K; try reflexivity. cbn [num].
    destruct (message_at _ _ _ _ _ _ R0 R2) as (_ & L & _). rewrite app_length in L. lia.
  - apply Pl_posts with (ms := ms); [exact R0|congruence|exact R2].
  - apply Pl_receiver with (m0 := m0). exact R0.
  - apply Pl_decodes with (m0 := m0); assumption.
  - apply Pl_delivers with (m0 := m0); [exact R0|exact R1|]. apply (slice_keeps w w'); [exact R2|]. rewrite R1. exact K.
Qed.
(** The next message. *)
Lemma place_next w i n ms done ms' : nth_error rs i = Some (Sends n ms) -> made_by w i = n -> ms = done ++ ms' ->
  place w i (sends_all room (own n i) i (length done) ms').
Proof.
  intros R0 R1 R2. destruct ms' as [|xs ms']; [apply Pl_end|]. cbn [sends_all]. apply (Pl_stores w i n ms done [] xs ms'); [exact R0|exact R1|exact R2|]. cbn [length]. intros k Hk. lia.
Qed.

Lemma sound_start : sound (nothing_yet, no_post, post_office room rs).
Proof.
  split; [split; [intros i j t []|split; [intros i j s []|reflexivity]]|]. intros i g E. unfold post_office in E. rewrite players_nth in E. cbn [Nat.add] in E.
  destruct (nth_error rs i) as [[n ms|tiny fast m]|] eqn:Er; cbn [option_map plays] in E; [| |discriminate]; injection E as <-.
  - apply Pl_sender; [exact Er|reflexivity].
  - apply Pl_receiver with (m0 := m). exact Er.
Qed.

Lemma add_far i w xs y : who y <> i -> bytes (add_bytes i w xs) y = bytes w y.
Proof. intros D. cbn [add_bytes bytes]. unfold overwritten. match goal with |- context [within ?a ?n y] => destruct (within_spec a n y) as [(X & _)|_] end; [contradiction|reflexivity]. Qed.
Lemma add_below i w xs y : (num y < made_by w i)%nat -> bytes (add_bytes i w xs) y = bytes w y.
Proof. intros D. cbn [add_bytes bytes]. unfold overwritten. match goal with |- context [within ?a ?n y] => destruct (within_spec a n y) as [X|_] end; [cbn [num] in X; lia|reflexivity]. Qed.
Lemma add_keeps i w xs j : keeps w (add_bytes i w xs) j.
Proof.
  split; [cbn [add_bytes made_by]; destruct (Nat.eqb_spec j i); [subst; lia|lia]|]. intros y W L B.
  destruct (Nat.eq_dec j i) as [->|D]; [apply add_below, B|apply add_far; congruence].
Qed.

Lemma sound_step p q : sound p -> turn p q -> sound q.
Proof.
  intros Gp T. destruct T as [w b gs i c k w' r E D|w b gs i f m b' g E F].
  - destruct Gp as ((Hl & Ha & Hc) & Hp). pose proof (Hp i _ E) as P. cbn [sound].
    assert (Go : forall w', place w' i (k r) -> (forall j, j <> i -> made_by w' j = made_by w j) ->
      (forall j, j <> i \/ (exists tiny fast m, nth_error rs j = Some (Receives tiny fast m)) -> keeps w w' j) ->
      in_post w' b /\ forall j g, nth_error (replaced i (k r) gs) j = Some g -> place w' j g).
    { intros w1 Pi M K. split; [split; [exact Hl|split; [|exact Hc]]|].
      - intros i0 j0 s Is. pose proof (Ha _ _ _ Is) as Sl. apply (slice_keeps w w1 _ _ _ Sl). apply K. right. destruct Sl as (xs & tiny & fast & m & _ & R & _). eauto.
      - intros j g Ej. apply at_replaced in Ej as [[-> ->]|[Dj Ej]]; [exact Pi|]. apply (place_keeps w w1 j g (Hp j g Ej)); [apply M, Dj|apply K; left; exact Dj]. }
    remember (Call c k) as g0 eqn:EE in P.
    destruct P as [|n ms R0 R1|n ms dn ys zs ms' R0 R1 R2 R3|n ms dn xs ms' R0 R1 R2|tiny fast m0 m R0|tiny fast m0 m i' j t R0 R1|tiny fast m0 m i' j s R0 R1 R2]; try discriminate EE.
    + unfold sender in EE. injection EE as <- <-. apply inv_make in D as (-> & ->).
      apply Go; [|intros j Dj; cbn [add_bytes made_by]; destruct (Nat.eqb_spec j i); [contradiction|reflexivity]|intros j _; apply add_keeps].
      rewrite R1. apply (place_next _ i n ms [] ms); [exact R0| |reflexivity]. cbn [add_bytes made_by]. rewrite Nat.eqb_refl, R1, repeat_length. reflexivity.
    + destruct zs as [|z zs]; cbn [stores] in EE.
      * unfold encodes in EE. injection EE as <- <-. apply inv_text in D as (-> & ->). rewrite app_nil_r in R2.
        apply Go; [|reflexivity|intros j _; split; [apply Nat.le_refl|reflexivity]]. cbn [text_as].
        destruct (message_at _ _ _ _ _ _ R0 R2) as (_ & L & _).
        replace (slice_text w (own n i)) with ys; [apply Pl_posts with (ms := ms); assumption|].
        unfold slice_text, own. cbn [slen base]. symmetry. apply nth_ext with (d := 0) (d' := 0); rewrite map_length, seq_length; [symmetry; exact L|]. intros j Hj.
        rewrite nth_indep with (d' := (fun j0 => bytes w (shift (mkA i false 0) j0)) O) by (rewrite map_length, seq_length; lia).
        rewrite map_nth with (f := fun j0 => bytes w (shift (mkA i false 0) j0)), seq_nth by lia. apply R3. lia.
      * injection EE as <- <-. apply inv_store in D as (-> & ->).
        assert (Ol : forall y, y <> shift (base (own n i)) (length ys) -> bytes (set_bytes w (shift (base (own n i)) (length ys)) [z]) y = bytes w y) by (intros y Dy; apply set_one, Dy).
        apply Go; [|reflexivity|].
        -- replace (S (length ys)) with (length (ys ++ [z])) by (rewrite app_length; cbn [length]; lia).
           apply Pl_stores with (ms := ms); [exact R0|exact R1|rewrite <- app_assoc; exact R2|]. intros j Hj. rewrite app_length in Hj. cbn [length] in Hj.
           destruct (Nat.eq_dec j (length ys)) as [->|Dj].
           ++ rewrite app_nth2, Nat.sub_diag by lia. cbn [nth]. apply set_at.
           ++ rewrite Ol by (cbn [own base shift who lib num]; intros X; injection X as X; lia). rewrite app_nth1 by lia. apply R3. lia.
        -- intros j Dj. split; [apply Nat.le_refl|]. intros y Wy _ _. apply Ol. intros ->. cbn [own base shift who] in Wy. subst j.
           destruct Dj as [Dj|(? & ? & ? & Dj)]; congruence.
    + destruct m; discriminate EE.
    + unfold decodes in EE. injection EE as <- <-. apply inv_read in D as (-> & ->). destruct R1 as (xs & M & B & ->). rewrite reply_numeral, half_numeral in Go by exact B. rewrite reply_numeral, read_numeral, half_numeral by exact B.
      apply Go; [|intros j0 Dj; cbn [add_bytes made_by]; destruct (Nat.eqb_spec j0 i); [contradiction|reflexivity]|intros j0 _; apply add_keeps].
      apply Pl_delivers with (m0 := m0); [exact R0|reflexivity|]. exists xs, tiny, fast, m0. split; [exact M|]. split; [exact R0|]. split; [reflexivity|].
      split; [cbn [slen base num who add_bytes made_by]; rewrite Nat.eqb_refl; intros j0 Hj; lia|]. apply (new_text w (mkA i false (made_by w i)) xs (length xs)).
  - destruct Gp as ((Hl & Ha & Hc) & Hp). pose proof (Hp i _ E) as P. cbn [sound].
    assert (Rest : place w i g -> forall j g', nth_error (replaced i g gs) j = Some g' -> place w j g').
    { intros Pi j g' Ej. apply at_replaced in Ej as [[-> ->]|[Dj Ej]]; [exact Pi|apply Hp, Ej]. }
    remember (Sync f) as g0 eqn:EE in P.
    destruct P as [|n ms R0 R1|n ms dn ys zs ms' R0 R1 R2 R3|n ms dn xs ms' R0 R1 R2|tiny fast m0 m1 R0|tiny fast m0 m1 i' j t R0 R1|tiny fast m0 m1 i' j s R0 R1 R2]; try discriminate EE.
    + destruct zs; discriminate EE.
    + unfold posts in EE. injection EE as <-. destruct (Nat.ltb (length (letters b)) room); [|discriminate F]. injection F as <- <-. split; [|apply Rest].
      * split; [|split; [exact Ha|exact Hc]]. cbn [letters]. intros i0 j0 t0 I0. apply in_app_or in I0 as [I0|[I0|[]]]; [apply Hl, I0|]. injection I0 as <- <- <-.
        destruct (message_at _ _ _ _ _ _ R0 R2) as (M & _ & B). exists xs. auto.
      * replace (S (length dn)) with (length (dn ++ [xs])) by (rewrite app_length; cbn [length]; lia).
        apply place_next with (ms := ms); [exact R0|exact R1|rewrite <- app_assoc; exact R2].
    + destruct m1 as [|m1]; [discriminate EE|]. cbn [receiver] in EE. injection EE as <-. destruct (nth_error (letters b) m) as [[[i0 j0] t0]|] eqn:El; [|discriminate F]. injection F as <- <-.
      split; [|apply Rest].
      * split; [|split; [exact Ha|exact Hc]]. cbn [letters]. intros i1 j1 t1 I1. apply Hl. rewrite <- (firstn_skipn m (letters b)). apply in_app_or in I1 as [I1|I1]; apply in_or_app; [left; exact I1|right].
        clear -I1. revert I1. generalize (letters b). induction m as [|m IH]; intros [|l0 l] I1; cbn [skipn] in *; [contradiction|right; exact I1|contradiction|apply IH, I1].
      * apply Pl_decodes with (m0 := m0); [exact R0|]. apply Hl. apply (nth_error_In _ _ El).
    + unfold delivers in EE. injection EE as <-. injection F as <- <-. split; [|apply Rest, Pl_receiver with (m0 := m0), R0].
      split; [exact Hl|split; [|exact Hc]]. cbn [arrived]. intros i0 j0 s0 I0. apply in_app_or in I0 as [I0|[I0|[]]]; [apply Ha, I0|]. injection I0 as <- <- <-. exact R2.
Qed.

Lemma sound_all p : turns (nothing_yet, no_post, post_office room rs) p -> sound p.
Proof.
  intros T. remember (nothing_yet, no_post, post_office room rs) as p0 eqn:E0. induction T as [p|p p1 p2 T IH St]; [|apply (sound_step p1 p2); auto].
  subst p. apply sound_start.
Qed.

(** The calls there are. *)
Lemma post_asks w i c k : place w i (Call c k) ->
  (exists n, c = Make_bytes n n)
  \/ (exists n ms j x, c = Store_byte (own n i) j x /\ nth_error rs i = Some (Sends n ms) /\ made_by w i = n /\ (j < n)%nat /\ x < 256)
  \/ (exists n ms, c = Text_of In_hex (own n i) /\ nth_error rs i = Some (Sends n ms) /\ made_by w i = n)
  \/ (exists tiny fast t, c = Bytes_of tiny fast t /\ bytes_ok t).
Proof.
  intros P. remember (Call c k) as g0 eqn:EE in P.
  destruct P as [|n ms R0 R1|n ms dn ys zs ms' R0 R1 R2 R3|n ms dn xs ms' R0 R1 R2|tiny fast m0 m R0|tiny fast m0 m i' j t R0 R1|tiny fast m0 m i' j s R0 R1 R2]; try discriminate EE.
  - injection EE as <- <-. left. exists n. reflexivity.
  - destruct (message_at _ _ _ _ _ _ R0 R2) as (_ & L & B). destruct zs as [|z zs]; cbn [stores] in EE; injection EE as <- <-; right; [right; left|left].
    + exists n, ms. auto.
    + exists n, ms, (length ys), z. split; [reflexivity|]. split; [exact R0|]. split; [exact R1|]. rewrite app_length in L. cbn [length] in L. split; [lia|].
      apply Forall_app in B as (_ & B). inversion B; assumption.
  - destruct m; discriminate EE.
  - injection EE as <- <-. right. right. right. destruct R1 as (xs & _ & B & ->). exists tiny, fast, (flat_map HexSpec.numeral xs). split; [reflexivity|apply HexProofs.numeral_bytes, B].
Qed.

Lemma post_synchronised : well_synchronised no_post (post_office room rs).
Proof.
  intros [[w b] gs] T. apply sound_all in T. destruct T as (_ & Hp). split.
  - intros i c k E. destruct (post_asks _ _ _ _ (Hp i _ E)) as [(n & ->)|[(n & ms & j & x & -> & _ & M & Lj & Lx)|[(n & ms & -> & _ & M)|(tiny & fast & t & -> & B)]]]; cbn [proper].
    + apply Nat.le_refl.
    + split; [|split; [exact Lj|exact Lx]]. split; [apply Nat.le_refl|split; [reflexivity|]]. cbn [own scap base num who]. intros; lia.
    + split; [|exact Logic.I]. split; [apply Nat.le_refl|split; [reflexivity|]]. cbn [own scap base num who]. intros; lia.
    + exact B.
  - intros i i' c c' k k' Di E E' (t & Al & Lk).
    destruct (post_asks _ _ _ _ (Hp i _ E)) as [(n & ->)|[(n & ms & j & x & -> & _)|[(n & ms & -> & _)|(tiny & fast & t1 & -> & _)]]]; cbn [alters] in Al; try contradiction. subst t.
    destruct (post_asks _ _ _ _ (Hp i' _ E')) as [(n' & ->)|[(n' & ms' & j' & x' & -> & _)|[(n' & ms' & -> & _)|(tiny & fast & t1 & -> & _)]]]; cbn [alters looks] in Lk; try tauto.
    + destruct Lk as [[]|X]. injection X as X _. congruence.
    + destruct Lk as [(q & _ & X)|[]]. injection X as X _. congruence.
Qed.

Lemma post_arrives w b gs : turns (nothing_yet, no_post, post_office room rs) (w, b, gs) -> complaints b = false /\
  forall i j s, In (i, j, s) (arrived b) -> message rs i j = Some (slice_text w s)
  /\ forall q, (q < slen s)%nat -> lib (shift (base s) q) = false /\ (num (shift (base s) q) < made_by w (who (shift (base s) q)))%nat
     /\ forall i0 c k, nth_error gs i0 = Some (Call c k) -> ~ alters w c (TheByte (shift (base s) q)).
Proof.
  intros T. apply sound_all in T. destruct T as ((_ & Ha & Hc) & Hp). split; [exact Hc|]. intros i j s Is. destruct (Ha i j s Is) as (xs & tiny & fast & m & M & R & L & B & <-).
  split; [exact M|]. intros q Hq. cbn [shift lib num who]. split; [exact L|]. split; [apply B, Hq|]. intros i0 c k E.
  destruct (post_asks _ _ _ _ (Hp i0 _ E)) as [(n & ->)|[(n & ms & j0 & x & -> & R0 & _)|[(n & ms & -> & _)|(? & ? & t1 & -> & _)]]]; cbn [alters]; try tauto.
  intros X. injection X as X _ _. cbn in X. congruence.
Qed.
End Post.
