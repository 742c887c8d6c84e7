(** The snapshots of Spec/SnapshotSpec.v are well synchronised, and every list is
    that of the tree after some number of additions. *)
From Coq Require Import Lia Sorted.
From Verif Require Import Base.Go Base.GoNet Base.NetApi Base.Goroutine Base.HashUse Base.Sync Model.SyncAtom Spec.HashUseSpec Spec.SyncSpec Spec.SnapshotSpec
  Proofs.GoroutineProofs Proofs.AreaProofs Proofs.SyncProofs Proofs.SyncEndProofs.
From Verif Require Spec.NetSpec Spec.NetGoSpec.
Local Open Scope N_scope.

Lemma inv_from i w u w' r : does i w (Ip_from u) w' r -> w' = add_bytes i w (NetSpec.addr u) /\ r = GotSlice (mkS (mkA i false (made_by w i)) 4 4).
Proof. intros D. inversion D; subst; try discriminate; try contradiction. match goal with H : makes _ _ _ |- _ => cbn [makes] in H; subst end. split; reflexivity. Qed.
Lemma inv_tree i w mg w' r : does i w (New_tree mg) w' r -> exists a, objects w a = None /\ w' = set_object w a (ATree mg []) /\ r = GotTree (mkTr a mg).
Proof. intros D. inversion D; subst; try discriminate; try contradiction. eexists; repeat split; eassumption. Qed.
Lemma inv_copy i w t w' r : does i w (Copy_tree t) w' r ->
  exists cs a, objects w (tptr t) = Some (ATree (tmerge t) cs) /\ objects w a = None /\ w' = set_object w a (ATree (tmerge t) cs) /\ r = GotTree (mkTr a (tmerge t)).
Proof. intros D. inversion D; subst; try discriminate; try contradiction. do 2 eexists; repeat split; eassumption. Qed.
Lemma inv_add i w t s v w' r : does i w (Add_ip t s v) w' r ->
  exists cs, objects w (tptr t) = Some (ATree (tmerge t) cs) /\ w' = set_object w (tptr t) (ATree (tmerge t) (cs ++ [CAddIp (slice_text w s) v])).
Proof.
  intros D. inversion D; subst; try contradiction; try (match goal with H : overwrites _ _ = Some _ |- _ => discriminate H end). match goal with H : called _ _ = Some _ |- _ => cbn [called] in H; injection H as <- <- end. eexists; repeat split; eassumption.
Qed.
Lemma inv_list i w t w' r : does i w (List_tree t) w' r ->
  exists cs B L, objects w (tptr t) = Some (ATree (tmerge t) cs) /\ NetSpec.history (tmerge t) NetSpec.no_blocks cs B
    /\ StronglySorted (fun x y => let '(y1, p, _) := x in let '(y2, _, _) := y in y1 + NetSpec.size p <= y2) L
    /\ (forall y p z, In (y, p, z) L <-> B y p = Some z)
    /\ w' = add_bytes i w (NetGoSpec.entry_bytes L) /\ r = GotList (NetGoSpec.entries i (made_by w i) L).
Proof. intros D. inversion D; subst; try discriminate; try contradiction. do 3 eexists. do 4 (split; [eassumption|]). split; reflexivity. Qed.
Lemma made_more i w c w' r : does i w c w' r -> forall j, (made_by w j <= made_by w' j)%nat.
Proof. intros D j. destruct D; cbn [add_bytes set_object set_bytes made_by]; try lia; destruct (Nat.eqb_spec j i); subst; lia. Qed.
Lemma entry_length L : length (NetGoSpec.entry_bytes L) = (8 * length L)%nat.
Proof. induction L as [|[[y p] z] L IH]; [reflexivity|]. unfold NetGoSpec.entry_bytes in *. cbn [flat_map length]. rewrite !app_length, IH. cbn [length NetSpec.addr]. lia. Qed.
Lemma entries_read i m : forall L n, (forall j, (j < 8 * length L)%nat -> m (mkA i false (n + j)) = nth j (NetGoSpec.entry_bytes L) 0) ->
  Forall2 (entry_in m) (NetGoSpec.entries i n L) L.
Proof.
  induction L as [|[[y p] z] L IH]; intros n H; [constructor|]. cbn [NetGoSpec.entries]. constructor.
  - assert (X : forall k a, (k + 4 <= 8)%nat -> (forall j, (j < 4)%nat -> nth (k + j) (NetSpec.addr y ++ NetSpec.addr (2 ^ 32 - NetSpec.size p)) 0 = nth j (NetSpec.addr a) 0) ->
      bytes_in m (mkS (mkA i false (n + k)) 4 4) = NetSpec.addr a).
    { intros k a Hk Hn. unfold bytes_in. cbn [base slen]. transitivity (map (fun j => nth j (NetSpec.addr a) 0) (seq 0 4)); [|reflexivity]. apply map_ext_in. intros j Hj. apply in_seq in Hj.
      rewrite <- Hn by lia. unfold shift. cbn [who lib num]. rewrite <- Nat.add_assoc, H by (cbn [length]; lia). apply app_nth1. cbn [length app NetSpec.addr]. lia. }
    split; [replace n with (n + 0)%nat by lia|split; [|reflexivity]]; apply X; try lia; intros j Hj; do 4 (destruct j as [|j]; [reflexivity|]); lia.
  - apply IH. intros j Hj. rewrite <- Nat.add_assoc, H by (cbn [length]; lia). unfold NetGoSpec.entry_bytes. cbn [flat_map].
    change (8 + j)%nat with (length (NetSpec.addr y ++ NetSpec.addr (2 ^ 32 - NetSpec.size p)) + j)%nat. rewrite app_nth2 by lia. f_equal. lia.
Qed.

Lemma onlookers_nth (ns : list nat) : forall i j, nth_error (onlookers i ns) j = option_map (onlooker (i + j)) (nth_error ns j).
Proof.
  induction ns as [|n ns IH]; intros i [|j]; cbn [onlookers nth_error option_map]; try reflexivity; [rewrite Nat.add_0_r; reflexivity|].
  rewrite IH. rewrite <- plus_n_Sm. reflexivity.
Qed.
Lemma onlookers_length (ns : list nat) : forall i, length (onlookers i ns) = length ns.
Proof. induction ns as [|n l IH]; intros i; [reflexivity|]. cbn [onlookers length]. rewrite IH. reflexivity. Qed.

Section Snapshots.
Context (mg : N -> N -> N) (xs : list (N * N)) (Hx : Forall (fun x => fst x < 2 ^ 32) xs) (ns : list nat).

(** What is known of a copy, and of a list, at stage [k]. *)
Definition tree_is (w : world) (t : treev) (cs : list (tree_call N)) : Prop := tmerge t = mg /\ objects w (tptr t) = Some (ATree mg cs).
Definition copy_is (w : world) (orig : option addr) (c : treev) (k : nat) : Prop := tree_is w c (additions (firstn k xs)) /\ orig <> Some (tptr c).
Definition list_is (w : world) (k : nat) (l : net_list) : Prop :=
  exists B L i n, NetSpec.history mg NetSpec.no_blocks (additions (firstn k xs)) B
    /\ StronglySorted (fun x y => let '(y1, p, _) := x in let '(y2, _, _) := y in y1 + NetSpec.size p <= y2) L
    /\ (forall y p z, In (y, p, z) L <-> B y p = Some z)
    /\ l = NetGoSpec.entries i n L
    /\ forall j, (j < 8 * length L)%nat -> (n + j < made_by w i)%nat /\ bytes w (mkA i false (n + j)) = nth j (NetGoSpec.entry_bytes L) 0.
(** Whatever onlooker [i] has heard is of a stage up to [k]. *)
Definition not_newer (hs : list (nat * net_list)) (ks : list nat) (i k : nat) : Prop :=
  forall j l k', nth_error hs j = Some (i, l) -> nth_error ks j = Some k' -> (k' <= k)%nat.

(** Onlooker [i] is to tell [n] more. *)
Definition owes (b : stand) (i n : nat) : Prop := (told b i + n = nth (i - 1) ns 0)%nat.

Inductive post (w : world) (b : stand) (orig : option addr) (top : nat) (ks : list nat) (i : nat) : prog stand -> Prop :=
| P_keeper : i = O -> orig = None -> top = O -> post w b orig top ks i (keeper mg xs)
| P_keeps t l r : i = O -> orig = Some (tptr t) -> tree_is w t (additions l) -> xs = l ++ r -> top = length l -> post w b orig top ks i (keeps t r)
| P_add t s u v l r : i = O -> orig = Some (tptr t) -> tree_is w t (additions l) -> xs = l ++ (u, v) :: r -> top = length l ->
    slice_there w s -> slice_text w s = NetSpec.addr u -> post w b orig top ks i (adds_it t v s (keeps t r))
| P_copy t l r : i = O -> orig = Some (tptr t) -> tree_is w t (additions l) -> xs = l ++ r -> S top = length l -> post w b orig top ks i (copies_it t (keeps t r))
| P_show t c l r : i = O -> orig = Some (tptr t) -> tree_is w t (additions l) -> xs = l ++ r -> S top = length l -> copy_is w orig c (length l) ->
    post w b orig top ks i (shows_copy c (keeps t r))
| P_looker n : i <> O -> owes b i n -> post w b orig top ks i (onlooker i n)
| P_list c k n : i <> O -> owes b i (S n) -> copy_is w orig c k -> (1 <= k <= top)%nat -> not_newer (heard b) ks i k -> post w b orig top ks i (lists_copy i c (onlooker i n))
| P_tell l k n : i <> O -> owes b i (S n) -> list_is w k l -> (1 <= k <= top)%nat -> not_newer (heard b) ks i k -> post w b orig top ks i (tells_list i l (onlooker i n)).

Definition board_ok (w : world) (b : stand) (orig : option addr) (top : nat) (ks : list nat) : Prop :=
  (top <= length xs)%nat /\ (newest b = None -> top = O) /\ (forall c, newest b = Some c -> (1 <= top)%nat /\ copy_is w orig c top)
  /\ length ks = length (heard b)
  /\ (forall j i l k, nth_error (heard b) j = Some (i, l) -> nth_error ks j = Some k -> (1 <= k <= top)%nat /\ list_is w k l)
  /\ (forall j j' i l l' k k', (j < j')%nat -> nth_error (heard b) j = Some (i, l) -> nth_error (heard b) j' = Some (i, l') ->
        nth_error ks j = Some k -> nth_error ks j' = Some k' -> (k <= k')%nat).
Definition well (p : scene (G := stand)) : Prop :=
  let '(w, b, gs) := p in exists orig top ks, board_ok w b orig top ks /\ forall i g, nth_error gs i = Some g -> post w b orig top ks i g.

(** The world goes on without touching what is there. *)
Definition goes_on (w w' : world) (orig : option addr) : Prop :=
  (forall j, (made_by w j <= made_by w' j)%nat)
  /\ (forall x, lib x = false -> (num x < made_by w (who x))%nat -> bytes w' x = bytes w x)
  /\ forall h o, orig <> Some h -> objects w h = Some o -> objects w' h = Some o.
Lemma copy_on w w' orig orig' c k : goes_on w w' orig -> (orig' = orig \/ exists a, orig' = Some a /\ objects w a = None) -> copy_is w orig c k -> copy_is w' orig' c k.
Proof.
  intros (_ & _ & Ho) Q ((A & B) & C). split; [split; [exact A|apply Ho; [exact C|exact B]]|].
  destruct Q as [-> |(a & -> & Na)]; [exact C|]. intros X. injection X as ->. congruence.
Qed.
Lemma list_on w w' orig k l : goes_on w w' orig -> list_is w k l -> list_is w' k l.
Proof.
  intros (Hm & Hb & _) (B & L & i & n & H1 & H2 & H3 & H4 & H5). exists B, L, i, n. split; [exact H1|]. split; [exact H2|]. split; [exact H3|]. split; [exact H4|].
  intros j Hj. destruct (H5 j Hj) as (X & Y). split; [specialize (Hm i); lia|]. rewrite <- Y. apply Hb; [reflexivity|exact X].
Qed.
Lemma board_on w w' b orig orig' top ks : goes_on w w' orig -> (orig' = orig \/ exists a, orig' = Some a /\ objects w a = None) ->
  board_ok w b orig top ks -> board_ok w' b orig' top ks.
Proof.
  intros Gw Q (A & A' & B & C & D & E). split; [exact A|]. split; [exact A'|]. split; [intros c Ec; destruct (B c Ec) as (B1 & B2); split; [exact B1|apply (copy_on w w' orig); assumption]|].
  split; [exact C|]. split; [|exact E]. intros j i l k E1 E2. destruct (D j i l k E1 E2) as (D1 & D2). split; [exact D1|apply (list_on w w' orig); assumption].
Qed.
Lemma post_on w w' b orig orig' top ks i g : i <> O -> goes_on w w' orig -> (orig' = orig \/ exists a, orig' = Some a /\ objects w a = None) ->
  post w b orig top ks i g -> post w' b orig' top ks i g.
Proof.
  intros Ni Gw Q P.
  destruct P as [I0 I1 I2|t l r I0 I1 I2 I3 I4|t s u v l r I0 I1 I2 I3 I4 I5 I6|t l r I0 I1 I2 I3 I4|t c l r I0 I1 I2 I3 I4 I5|n I0 Io|c k n I0 Io I1 I2 I3|l k n I0 Io I1 I2 I3]; try contradiction.
  - apply P_looker; assumption.
  - apply (P_list _ _ _ _ _ _ c k n); try assumption. apply (copy_on w w' orig); assumption.
  - apply (P_tell _ _ _ _ _ _ l k n); try assumption. apply (list_on w w' orig); assumption.
Qed.

Lemma well_start : well (nothing_yet, nothing_heard, snapshots mg xs ns).
Proof.
  exists None, O, []. split.
  - split; [lia|]. split; [reflexivity|]. split; [discriminate|]. split; [reflexivity|]. split; [intros [|j] i l k; discriminate|intros [|j] j' i l l' k k' _; discriminate].
  - intros i g E. unfold snapshots in E. destruct i as [|i]; cbn [nth_error] in E; [injection E as <-; apply P_keeper; reflexivity|].
    rewrite onlookers_nth in E. destruct (nth_error ns i) as [n|] eqn:En; [|discriminate]. injection E as <-. apply P_looker; [discriminate|].
    unfold owes. replace (S i - 1)%nat with i by lia. rewrite (nth_error_nth _ _ O En). reflexivity.
Qed.

Lemma firstn_part (l r : list (N * N)) : xs = l ++ r -> firstn (length l) xs = l.
Proof. intros ->. rewrite firstn_app, Nat.sub_diag, firstn_all. cbn [firstn]. apply app_nil_r. Qed.
Lemma additions_snoc l u v : additions (l ++ [(u, v)]) = additions l ++ [CAddIp (NetSpec.addr u) v].
Proof. apply map_app. Qed.

(** No call of theirs alters bytes, and only the keeper alters a tree: its own. *)
Lemma call_of w b orig top ks i c k : post w b orig top ks i (Call c k) ->
  (forall x, ~ alters w c (TheByte x)) /\ (forall h, alters w c (TheObject h) -> i = O /\ orig = Some h)
  /\ (forall h, looks w c (TheObject h) -> i = O \/ orig <> Some h) /\ proper w c.
Proof.
  intros P. remember (Call c k) as g0 eqn:EE in P.
  destruct P as [I0 I1 I2|t l r I0 I1 I2 I3 I4|t s u v l r I0 I1 I2 I3 I4 I5 I6|t l r I0 I1 I2 I3 I4|t cc l r I0 I1 I2 I3 I4 I5|n I0 Io|cc kk n I0 Io I1 I2 I3|l kk n I0 Io I1 I2 I3]; try discriminate EE.
  - injection EE as <- <-. cbn [alters looks proper]. tauto.
  - destruct r as [|[u v] r]; [discriminate EE|]. injection EE as <- <-. cbn [alters looks proper]. repeat split; try tauto.
    rewrite I3 in Hx. apply Forall_app in Hx. destruct Hx as (_ & Hy). inversion Hy. assumption.
  - injection EE as <- <-. cbn [alters looks proper]. split; [discriminate|]. split; [intros h X; injection X as ->; auto|]. split; [auto|]. split; [exact I5|].
    unfold call_fine. cbn [called]. destruct I2 as (M & E). split; [exists (additions l); rewrite M; exact E|]. rewrite I6. exists u. split; [|left; reflexivity].
    rewrite I3 in Hx. apply Forall_app in Hx. destruct Hx as (_ & Hy). inversion Hy. assumption.
  - injection EE as <- <-. cbn [alters looks proper]. repeat split; try tauto. destruct I2 as (M & E). exists (additions l). rewrite M. exact E.
  - destruct n; discriminate EE.
  - injection EE as <- <-. cbn [alters looks proper]. destruct I1 as ((M & E) & No). repeat split; try tauto; [|eexists; rewrite M; exact E].
    intros h X. injection X as ->. right. exact No.
Qed.

Lemma add_bytes_text i w l : slice_text (add_bytes i w l) (mkS (mkA i false (made_by w i)) (length l) (length l)) = l.
Proof.
  unfold slice_text. cbn [slen base add_bytes bytes]. apply nth_ext with (d := 0) (d' := 0); rewrite map_length, seq_length; [reflexivity|]. intros j Hj.
  set (f := fun j0 => overwritten (bytes w) (mkA i false (made_by w i)) l (shift (mkA i false (made_by w i)) j0)).
  rewrite nth_indep with (d' := f O) by (rewrite map_length, seq_length; exact Hj). rewrite map_nth with (f := f), seq_nth by exact Hj. unfold f, overwritten.
  destruct (within_spec (mkA i false (made_by w i)) (length l) (shift (mkA i false (made_by w i)) (0 + j))) as [_|X]; [cbn [num shift]; f_equal; lia|].
  exfalso. apply X. cbn [who lib num shift]. repeat split; lia.
Qed.

Lemma well_step p q : well p -> turn p q -> well q.
Proof.
  intros Wp T. destruct T as [w b gs i c k w' r E D|w b gs i f m b' g E F].
  - destruct Wp as (orig & top & ks & Hb & Hp). pose proof (Hp i _ E) as P. cbn [well].
    destruct (call_of _ _ _ _ _ _ _ _ P) as (Ca & Cb & _ & _).
    assert (Gw : goes_on w w' orig).
    { destruct (does_frame _ _ _ _ _ D) as (F1 & F2 & _). split; [apply (made_more _ _ _ _ _ D)|]. split; [intros x Lx Nx; apply F2; [exact Lx|apply Ca|exact Nx]|].
      intros h o Nh Eh. rewrite F1; [exact Eh| |congruence]. intros X. apply Cb in X. destruct X as (_ & X). congruence. }
    assert (Go : forall orig' , (orig' = orig \/ (i = O /\ exists a, orig' = Some a /\ objects w a = None)) -> post w' b orig' top ks i (k r) ->
      (i <> O -> forall g0, nth_error gs O = Some g0 -> post w' b orig top ks O g0) ->
      exists orig top ks, board_ok w' b orig top ks /\ forall j g, nth_error (replaced i (k r) gs) j = Some g -> post w' b orig top ks j g).
    { intros orig' Q Pi P0. exists orig', top, ks.
      assert (Q' : orig' = orig \/ exists a, orig' = Some a /\ objects w a = None) by (destruct Q as [Q|(_ & Q)]; auto).
      split; [apply (board_on w w' b orig); assumption|]. intros j g Ej. apply at_replaced in Ej as [[-> ->]|[Dj Ej]]; [exact Pi|].
      destruct (Nat.eq_dec j O) as [-> |Nj]; [|apply (post_on w w' b orig); [exact Nj|exact Gw|exact Q'|apply Hp, Ej]].
      destruct Q as [-> |(Zi & _)]; [apply P0; [congruence|exact Ej]|congruence]. }
    remember (Call c k) as g0 eqn:EE in P.
    destruct P as [I0 I1 I2|t l rs I0 I1 I2 I3 I4|t s u v l rs I0 I1 I2 I3 I4 I5 I6|t l rs I0 I1 I2 I3 I4|t cc l rs I0 I1 I2 I3 I4 I5|n I0 Io|cc kk n I0 Io I1 I2 I3|l kk n I0 Io I1 I2 I3]; try discriminate EE.
    + injection EE as <- <-. apply inv_tree in D as (a & Na & -> & ->). apply (Go (Some a)); [right; split; [exact I0|exists a; auto]| |congruence].
      apply (P_keeps _ _ _ _ _ _ (mkTr a mg) [] xs); [exact I0|reflexivity| |reflexivity|exact I2]. split; [reflexivity|]. cbn [set_object objects tptr]. rewrite same_refl. reflexivity.
    + destruct rs as [|[u v] rs]; [discriminate EE|]. injection EE as <- <-. apply inv_from in D as (-> & ->). apply (Go orig); [left; reflexivity| |congruence].
      apply (P_add _ _ _ _ _ _ t _ u v l rs); try assumption.
      * split; [cbn; lia|]. split; [reflexivity|]. intros j Hj. cbn [base num who add_bytes made_by scap] in *. rewrite Nat.eqb_refl. cbn [length NetSpec.addr]. lia.
      * apply (add_bytes_text i w (NetSpec.addr u)).
    + injection EE as <- <-. apply inv_add in D as (cs & Ec & ->). destruct I2 as (M & Et). rewrite M in Ec, Go |- *. rewrite Et in Ec. injection Ec as <-.
      apply (Go orig); [left; reflexivity| |congruence]. rewrite I6.
      apply (P_copy _ _ _ _ _ _ t (l ++ [(u, v)]) rs); try assumption; [|rewrite <- app_assoc; exact I3|rewrite app_length; cbn [length]; lia].
      split; [exact M|]. cbn [set_object objects]. rewrite same_refl, additions_snoc. reflexivity.
    + injection EE as <- <-. apply inv_copy in D as (cs & a & Ec & Na & -> & ->). destruct I2 as (M & Et). rewrite M in Ec, Go |- *. rewrite Et in Ec. injection Ec as <-.
      apply (Go orig); [left; reflexivity| |congruence].
      assert (Da : tptr t <> a) by congruence.
      apply (P_show _ _ _ _ _ _ t (mkTr a mg) l rs); try assumption.
      * split; [exact M|]. cbn [set_object objects]. destruct (same_spec (tptr t) a); [contradiction|exact Et].
      * split; [split; [reflexivity|]|cbn [tptr]; congruence]. cbn [set_object objects tptr]. rewrite same_refl, (firstn_part l rs I3). reflexivity.
    + destruct n; discriminate EE.
    + injection EE as <- <-. apply inv_list in D as (cs & B & L & Ec & Hh & Hs & Hi & -> & ->). destruct I1 as ((M & Et) & No). rewrite M in Ec, Hh. rewrite Et in Ec. injection Ec as <-.
      assert (P0 : forall g0, nth_error gs O = Some g0 -> post (add_bytes i w (NetGoSpec.entry_bytes L)) b orig top ks O g0).
      { intros g0 E0. destruct Gw as (G1 & G2 & _). pose proof (Hp O g0 E0) as P.
        assert (Sl : forall s, slice_there w s -> slice_there (add_bytes i w (NetGoSpec.entry_bytes L)) s /\ slice_text (add_bytes i w (NetGoSpec.entry_bytes L)) s = slice_text w s).
        { intros s (S1 & S2 & S3). split; [split; [exact S1|split; [exact S2|]]|].
          - intros j Hj. specialize (S3 j Hj). specialize (G1 (who (base s))). lia.
          - apply map_ext_in. intros j Hj. apply in_seq in Hj. apply G2; [exact S2|]. cbn [num who shift]. apply S3. lia. }
        destruct P as [J0 J1 J2|t l rs J0 J1 J2 J3 J4|t s u v l rs J0 J1 J2 J3 J4 J5 J6|t l rs J0 J1 J2 J3 J4|t c l rs J0 J1 J2 J3 J4 J5|n' J0 Jo|c k n' J0 Jo J1 J2 J3|l k n' J0 Jo J1 J2 J3]; try congruence.
        - apply P_keeper; assumption.
        - apply (P_keeps _ _ _ _ _ _ t l rs); assumption.
        - apply (P_add _ _ _ _ _ _ t s u v l rs); try assumption; [apply Sl, J5|rewrite (proj2 (Sl s J5)); exact J6].
        - apply (P_copy _ _ _ _ _ _ t l rs); assumption.
        - apply (P_show _ _ _ _ _ _ t c l rs); assumption. }
      apply (Go orig); [left; reflexivity| |intros _; exact P0].
      apply (P_tell _ _ _ _ _ _ _ kk n); try assumption. exists B, L, i, (made_by w i). repeat (split; [assumption|]). split; [reflexivity|].
      intros j Hj. cbn [add_bytes made_by bytes]. rewrite Nat.eqb_refl, entry_length. split; [lia|]. unfold overwritten.
      match goal with |- context [within ?a ?n ?y] => destruct (within_spec a n y) as [_|X] end; [cbn [num]; f_equal; lia|].
      exfalso. apply X. cbn [who lib num]. rewrite entry_length. repeat split; lia.
  - destruct Wp as (orig & top & ks & Hb & Hp). pose proof (Hp i _ E) as P. cbn [well]. destruct Hb as (B1 & B0 & B2 & B3 & B4 & B5).
    remember (Sync f) as g0 eqn:EE in P.
    destruct P as [I0 I1 I2|t l rs I0 I1 I2 I3 I4|t s u v l rs I0 I1 I2 I3 I4 I5 I6|t l rs I0 I1 I2 I3 I4|t cc l rs I0 I1 I2 I3 I4 I5|n I0 Io|cc kk n I0 Io I1 I2 I3|l kk n I0 Io I1 I2 I3]; try discriminate EE.
    + destruct rs as [|[u v] rs]; discriminate EE.
    + injection EE as <-. injection F as <- <-. exists orig, (S top), ks. cbn [newest heard].
      assert (Lt : (S top <= length xs)%nat) by (rewrite I3, app_length; lia).
      split; [split; [exact Lt|split; [discriminate|split; [|split; [exact B3|split; [|exact B5]]]]]|].
      * intros c0 X. injection X as <-. split; [lia|]. rewrite I4. exact I5.
      * intros j i0 l0 k E1 E2. destruct (B4 j i0 l0 k E1 E2) as (K1 & K2). split; [lia|exact K2].
      * intros j g' Ej. apply at_replaced in Ej as [[-> ->]|[Dj Ej]]; [apply (P_keeps _ _ _ _ _ _ t l rs); assumption|].
        pose proof (Hp j g' Ej) as P. subst i.
        destruct P as [J0 J1 J2|t' l' rs' J0 J1 J2 J3 J4|t' s' u' v' l' rs' J0 J1 J2 J3 J4 J5 J6|t' l' rs' J0 J1 J2 J3 J4|t' c' l' rs' J0 J1 J2 J3 J4 J5|n' J0 Jo|c' k n' J0 Jo J1 J2 J3|l' k n' J0 Jo J1 J2 J3]; try contradiction.
        -- apply P_looker; assumption.
        -- apply (P_list _ _ _ _ _ _ c' k n'); try assumption. lia.
        -- apply (P_tell _ _ _ _ _ _ l' k n'); try assumption. lia.
    + destruct n as [|n]; [discriminate EE|]. injection EE as <-. destruct (newest b) as [c0|] eqn:En; [|discriminate F]. injection F as <- <-.
      exists orig, top, ks. rewrite <- En in B0, B2. split; [split; [exact B1|split; [exact B0|split; [exact B2|split; [exact B3|split; [exact B4|exact B5]]]]]|].
      intros j g' Ej. apply at_replaced in Ej as [[-> ->]|[Dj Ej]]; [|apply Hp, Ej]. destruct (B2 c0 En) as (T1 & T2).
      apply (P_list _ _ _ _ _ _ c0 top n); try assumption; [lia|]. intros j0 l0 k0 E1 E2. apply (B4 j0 i l0 k0 E1 E2).
    + injection EE as <-. injection F as <- <-. exists orig, top, (ks ++ [kk]). cbn [newest heard].
      assert (At : forall (A : Type) (h : list A) x j y, nth_error (h ++ [x]) j = Some y -> nth_error h j = Some y \/ (j = length h /\ y = x)).
      { intros A h x j y X. destruct (Nat.lt_ge_cases j (length h)) as [Lj|Lj]; [left; rewrite nth_error_app1 in X by exact Lj; exact X|].
        rewrite nth_error_app2 in X by exact Lj. destruct (j - length h)%nat as [|d] eqn:Ed; [|destruct d; discriminate X]. injection X as <-. right. split; [lia|reflexivity]. }
      assert (Lk : forall (A : Type) (h : list A) j y, nth_error h j = Some y -> (j < length h)%nat) by (intros A h j y X; apply nth_error_Some; congruence).
      assert (Tl : forall i0, told (mkStand (newest b) (heard b ++ [(i, l)])) i0 = (told b i0 + (if Nat.eqb i i0 then 1 else 0))%nat).
      { intros i0. unfold told. cbn [heard]. rewrite filter_app, app_length. cbn [filter fst]. destruct (Nat.eqb i i0); reflexivity. }
      assert (Ow : forall i0 n0, i0 <> i -> owes b i0 n0 -> owes (mkStand (newest b) (heard b ++ [(i, l)])) i0 n0).
      { intros i0 n0 Di H. unfold owes in *. rewrite Tl. destruct (Nat.eqb_spec i i0); [congruence|]. lia. }
      assert (Nn : forall i0 k, i0 <> i -> not_newer (heard b) ks i0 k -> not_newer (heard b ++ [(i, l)]) (ks ++ [kk]) i0 k).
      { intros i0 k Di Nw j l0 k' E1 E2. apply At in E1 as [E1|(_ & X)]; [|congruence]. apply At in E2 as [E2|(X & _)]; [apply (Nw j l0 k' E1 E2)|].
        apply Lk in E1. lia. }
      split; [split; [exact B1|split; [exact B0|split; [exact B2|split; [cbn [heard]; rewrite !app_length, B3; reflexivity|cbn [heard]; split]]]]|].
      * intros j i0 l0 k E1 E2. apply At in E1 as [E1|(X1 & Y1)]; apply At in E2 as [E2|(X2 & Y2)].
        -- apply (B4 j i0 l0 k E1 E2).
        -- apply Lk in E1. lia.
        -- apply Lk in E2. lia.
        -- injection Y1 as -> ->. subst k. split; [lia|exact I1].
      * intros j j' i0 l0 l1 k k' Lj E1 E1' E2 E2'.
        assert (Lj' : (j' < length (heard b ++ [(i, l)]))%nat) by (apply (Lk _ _ _ _ E1')). rewrite app_length in Lj'. cbn [length] in Lj'.
        apply At in E1 as [E1|(X1 & _)]; [|lia]. apply At in E2 as [E2|(X2 & _)]; [|lia].
        apply At in E1' as [E1'|(X1 & Y1)]; apply At in E2' as [E2'|(X2 & Y2)].
        -- apply (B5 j j' i0 l0 l1 k k' Lj E1 E1' E2 E2').
        -- apply Lk in E1'. lia.
        -- apply Lk in E2'. lia.
        -- injection Y1 as -> ->. subst k'. apply (I3 j l0 k E1 E2).
      * intros j g' Ej. apply at_replaced in Ej as [[-> ->]|[Dj Ej]]; [apply P_looker; [exact I0|unfold owes in *; rewrite Tl, Nat.eqb_refl; lia]|]. pose proof (Hp j g' Ej) as P.
        destruct P as [J0 J1 J2|t' l' rs' J0 J1 J2 J3 J4|t' s' u' v' l' rs' J0 J1 J2 J3 J4 J5 J6|t' l' rs' J0 J1 J2 J3 J4|t' c' l' rs' J0 J1 J2 J3 J4 J5|n' J0 Jo|c' k n' J0 Jo J1 J2 J3|l' k n' J0 Jo J1 J2 J3].
        -- apply P_keeper; assumption.
        -- apply (P_keeps _ _ _ _ _ _ t' l' rs'); assumption.
        -- apply (P_add _ _ _ _ _ _ t' s' u' v' l' rs'); assumption.
        -- apply (P_copy _ _ _ _ _ _ t' l' rs'); assumption.
        -- apply (P_show _ _ _ _ _ _ t' c' l' rs'); assumption.
        -- apply P_looker; [exact J0|apply Ow; assumption].
        -- apply (P_list _ _ _ _ _ _ c' k n'); try assumption; [apply Ow; assumption|apply Nn; assumption].
        -- apply (P_tell _ _ _ _ _ _ l' k n'); try assumption; [apply Ow; assumption|apply Nn; assumption].
Qed.
Lemma well_all p : turns (nothing_yet, nothing_heard, snapshots mg xs ns) p -> well p.
Proof.
  intros T. remember (nothing_yet, nothing_heard, snapshots mg xs ns) as p0 eqn:E0. induction T as [p|p p1 p2 T IH St]; [|apply (well_step p1 p2); auto].
  subst p. apply well_start.
Qed.

Lemma snapshots_synchronised : well_synchronised nothing_heard (snapshots mg xs ns).
Proof.
  intros [[w b] gs] T. apply well_all in T. destruct T as (orig & top & ks & _ & Hp). split.
  - intros i c k E. apply (call_of _ _ _ _ _ _ _ _ (Hp i _ E)).
  - intros i j c c' k k' Dij E E' ([h|x] & Al & Lk).
    + destruct (call_of _ _ _ _ _ _ _ _ (Hp i _ E)) as (_ & A1 & _). destruct (call_of _ _ _ _ _ _ _ _ (Hp j _ E')) as (_ & A2 & A3 & _).
      destruct (A1 h Al) as (Zi & Eo). destruct Lk as [Lk|Lk]; [destruct (A3 h Lk) as [Zj|No]|destruct (A2 h Lk) as (Zj & _)]; congruence.
    + destruct (call_of _ _ _ _ _ _ _ _ (Hp i _ E)) as (A1 & _). exact (A1 x Al).
Qed.
Lemma snapshots_heard w b gs m : turns (nothing_yet, nothing_heard, snapshots mg xs ns) (w, b, gs) ->
  (forall x, lib x = false -> (num x < made_by w (who x))%nat -> (forall i c k, nth_error gs i = Some (Call c k) -> ~ alters w c (TheByte x)) -> m x = bytes w x) ->
  exists ks, length ks = length (heard b)
    /\ (forall j i l k, nth_error (heard b) j = Some (i, l) -> nth_error ks j = Some k -> (1 <= k <= length xs)%nat /\ lists_after mg xs k m l)
    /\ (forall j j' i l l' k k', (j < j')%nat -> nth_error (heard b) j = Some (i, l) -> nth_error (heard b) j' = Some (i, l') ->
          nth_error ks j = Some k -> nth_error ks j' = Some k' -> (k <= k')%nat).
Proof.
  intros T Hm. apply well_all in T. destruct T as (orig & top & ks & (B1 & _ & _ & B3 & B4 & B5) & Hp). exists ks. split; [exact B3|]. split; [|exact B5].
  intros j i l k E1 E2. destruct (B4 j i l k E1 E2) as (K & B & L & i0 & n & H1 & H2 & H3 & -> & H5). split; [lia|]. exists B, L. repeat (split; [assumption|]).
  apply entries_read. intros q Hq. destruct (H5 q Hq) as (X & Y). rewrite <- Y. apply Hm; [reflexivity|exact X|]. intros i' c k' E. apply (call_of _ _ _ _ _ _ _ _ (Hp i' _ E)).
Qed.

(** ** They come to their end *)

Definition reached (p : group stand) : Prop := leads do_ask (started nothing_heard (snapshots mg xs ns)) p.
Lemma posted m b ws : reached (m, b, ws) -> exists w gs orig top ks, board_ok w b orig top ks /\ (forall i g, nth_error gs i = Some g -> post w b orig top ks i g)
  /\ length ws = length gs /\ forall i v, nth_error ws i = Some v -> exists g, nth_error gs i = Some g /\ stands_before v g.
Proof.
  intros R. destruct (follows _ _ snapshots_synchronised m b ws R) as (w & gs & bb & T & Rl). destruct (well_all _ T) as (orig & top & ks & Hb & Hp).
  exists w, gs, orig, top, ks. split; [exact Hb|]. split; [exact Hp|]. split; [exact (rl_len _ _ _ _ _ Rl)|].
  intros i v E. destruct (rl_at _ _ _ _ _ Rl i v E) as (g & Eg & H). exists g. split; [exact Eg|]. unfold stands_before. destruct (stands_at v); destruct H as (-> & _); reflexivity.
Qed.
Lemma call_ends m b ws i v c k : reached (m, b, ws) -> nth_error ws i = Some v -> stands_before v (Call c k) ->
  exists m' r u', leads do_ask (m, b, ws) (m', b, replaced i (mkW (Between (k r)) u') ws).
Proof.
  assert (Ends : forall m ws p u c k, reached (m, b, ws) -> nth_error ws i = Some (mkW (Inside c p k) u) ->
    exists m' r u', leads do_ask (m, b, ws) (m', b, replaced i (mkW (Between (k r)) u') ws)).
  { intros m0 ws0 p u c0 k0 R E. destruct (follows _ _ snapshots_synchronised m0 b ws0 R) as (w & gs & bb & T & Rl).
    destruct (rel_inside _ _ _ _ _ _ _ _ _ _ Rl E) as (_ & St). exact (finishes (area_of i bb w c0) b c0 k0 _ p m0 u ws0 St E). }
  intros R E Sb. destruct v as [[g|c' p k'] u]; cbn [stands_before stands_at] in Sb; unfold stands_before in Sb; cbn [stands_at] in Sb.
  - subst g. set (ws1 := replaced i (mkW (Inside c (do_ask c) k) u) ws).
    assert (Mv : moves1 do_ask (m, b, ws) (m, b, ws1)) by (apply Enters, E).
    destruct (Ends m ws1 (do_ask c) u c k) as (m' & r & u' & L); [eapply Goes_on; [exact R|exact Mv]|apply (at_replaced_same _ _ _ _ E)|].
    exists m', r, u'. unfold ws1 in *. rewrite replaced_replaced in L. eapply leads_trans; [|exact L]. eapply Goes_on; [apply Stays|exact Mv].
  - injection Sb as -> ->. apply (Ends m ws p u c' k' R E).
Qed.
(** Goroutine [i] gets to its end, by steps of its own. *)
Definition ends_from (i : nat) (g : prog stand) : Prop := forall m b ws v, reached (m, b, ws) -> (i = O \/ newest b <> None) -> nth_error ws i = Some v -> stands_before v g ->
  exists m' b' u', leads do_ask (m, b, ws) (m', b', replaced i (mkW (Between Finish) u') ws) /\ (newest b <> None -> newest b' <> None).
Lemma replaced_self {A} (l : list A) i x : nth_error l i = Some x -> replaced i x l = l.
Proof. revert i. induction l as [|a l IH]; intros [|i] E; cbn [replaced nth_error] in *; try discriminate; [congruence|]. f_equal. apply IH, E. Qed.
Lemma ends_finish i : ends_from i Finish.
Proof.
  intros m b ws [[g|c p k] u] R Q E Sb; unfold stands_before in Sb; cbn [stands_at] in Sb; [|discriminate]. subst g.
  exists m, b, u. rewrite (replaced_self _ _ _ E). split; [apply Stays|auto].
Qed.
Lemma ends_call i c k : (forall r, ends_from i (k r)) -> ends_from i (Call c k).
Proof.
  intros H m b ws v R Q E Sb. destruct (call_ends m b ws i v c k R E Sb) as (m1 & r & u1 & L1).
  destruct (H r m1 b _ _ (leads_trans _ _ _ R L1) Q (at_replaced_same _ _ _ _ E) eq_refl) as (m2 & b2 & u2 & L2 & N2). rewrite replaced_replaced in L2.
  exists m2, b2, u2. split; [exact (leads_trans _ _ _ L1 L2)|exact N2].
Qed.
Lemma ends_sync i f : (forall b, i = O \/ newest b <> None -> exists b' g, f O b = Some (b', g) /\ (newest b <> None -> newest b' <> None) /\ ends_from i g) -> ends_from i (Sync f).
Proof.
  intros H m b ws [[g|c p k] u] R Q E Sb; unfold stands_before in Sb; cbn [stands_at] in Sb; [|discriminate]. subst g.
  destruct (H b Q) as (b1 & g & Ef & N1 & Hg).
  assert (L1 : leads do_ask (m, b, ws) (m, b1, replaced i (mkW (Between g) u) ws)) by (eapply Goes_on; [apply Stays|]; eapply Syncs; eassumption).
  destruct (Hg m b1 _ _ (leads_trans _ _ _ R L1) ltac:(tauto) (at_replaced_same _ _ _ _ E) eq_refl) as (m2 & b2 & u2 & L2 & N2). rewrite replaced_replaced in L2.
  exists m2, b2, u2. split; [exact (leads_trans _ _ _ L1 L2)|auto].
Qed.
Lemma ends_show i c g : ends_from i g -> ends_from i (shows_copy c g).
Proof. intros H. apply ends_sync. intros b _. do 2 eexists. split; [reflexivity|]. split; [discriminate|exact H]. Qed.
Lemma ends_copy i t g : ends_from i g -> ends_from i (copies_it t g).
Proof. intros H. apply ends_call. intros r. destruct r; try apply ends_finish. apply ends_show, H. Qed.
Lemma ends_add i t v s g : ends_from i g -> ends_from i (adds_it t v s g).
Proof. intros H. apply ends_call. intros _. apply ends_copy, H. Qed.
Lemma ends_keeps i t l : ends_from i (keeps t l).
Proof. induction l as [|[u v] l IH]; cbn [keeps]; [apply ends_finish|]. apply ends_call. intros r. destruct r; try apply ends_finish. apply ends_add, IH. Qed.
Lemma ends_tell i l g : ends_from i g -> ends_from i (tells_list i l g).
Proof. intros H. apply ends_sync. intros b _. do 2 eexists. split; [reflexivity|]. split; [auto|exact H]. Qed.
Lemma ends_list i c g : ends_from i g -> ends_from i (lists_copy i c g).
Proof. intros H. apply ends_call. intros r. destruct r; try apply ends_finish. apply ends_tell, H. Qed.
Lemma ends_looker i n : i <> O -> ends_from i (onlooker i n).
Proof.
  intros Ni. induction n as [|n IH]; cbn [onlooker]; [apply ends_finish|]. apply ends_sync. intros b [Z|Q]; [contradiction|].
  destruct (newest b) as [c|] eqn:En; [|congruence]. do 2 eexists. split; [reflexivity|]. split; [intros _; rewrite En; discriminate|apply ends_list, IH].
Qed.
Lemma ends_post w b orig top ks i g : post w b orig top ks i g -> ends_from i g.
Proof.
  intros P. destruct P.
  - apply ends_call. intros r. destruct r; try apply ends_finish. apply ends_keeps.
  - apply ends_keeps.
  - apply ends_add, ends_keeps.
  - apply ends_copy, ends_keeps.
  - apply ends_show, ends_keeps.
  - apply ends_looker. assumption.
  - apply ends_list, ends_looker. assumption.
  - apply ends_tell, ends_looker. assumption.
Qed.
Lemma finished_post w b orig top ks i : post w b orig top ks i Finish -> (i = O -> top = length xs) /\ (i <> O -> told b i = nth (i - 1) ns O).
Proof.
  intros P. remember Finish as g eqn:Eg in P. destruct P as [I0 I1 I2|t l r I0 I1 I2 I3 I4|t s u v l r I0 I1 I2 I3 I4 I5 I6|t l r I0 I1 I2 I3 I4|t c l r I0 I1 I2 I3 I4 I5|n I0 Io|c k n I0 Io I1 I2 I3|l k n I0 Io I1 I2 I3]; try discriminate Eg.
  - destruct r as [|[u v] r]; [|discriminate Eg]. rewrite app_nil_r in I3. split; [congruence|contradiction].
  - destruct n; [|discriminate Eg]. unfold owes in Io. split; [contradiction|lia].
Qed.
Lemma replaced_length {A} (l : list A) i x : length (replaced i x l) = length l.
Proof. revert i. induction l as [|a l IH]; intros [|i]; cbn [replaced length]; congruence. Qed.
Lemma snapshots_end : xs <> [] -> forall m b ws, reached (m, b, ws) ->
  exists m' b' ws', leads do_ask (m, b, ws) (m', b', ws') /\ length ws' = S (length ns) /\ (forall i v, nth_error ws' i = Some v -> stands_at v = Between Finish)
    /\ forall i n, nth_error ns i = Some n -> told b' (S i) = n.
Proof.
  intros Ne m b ws R.
  assert (Len : forall p, reached p -> length (snd p) = S (length ns)).
  { intros p Rp. unfold reached in Rp. remember (started nothing_heard (snapshots mg xs ns)) as p0 eqn:E0. induction Rp as [p|p p1 p2 _ IH Mv].
    - subst p. unfold started, snapshots. cbn [snd]. rewrite map_length. cbn [length]. rewrite onlookers_length. reflexivity.
    - rewrite <- (IH E0). destruct Mv; cbn [snd]; apply replaced_length. }
  assert (Shown : forall m b ws v, reached (m, b, ws) -> nth_error ws O = Some v -> stands_at v = Between Finish -> newest b <> None).
  { intros m0 b0 ws0 v R0 E0 S0. destruct (posted _ _ _ R0) as (w & gs & orig & top & ks & Hb & Hp & _ & Hs). destruct (Hs O v E0) as (g & Eg & Sb).
    unfold stands_before in Sb. rewrite S0 in Sb. subst g. destruct (finished_post _ _ _ _ _ _ (Hp O _ Eg)) as (Ft & _). specialize (Ft eq_refl). destruct Hb as (_ & Hn & _).
    intros X. specialize (Hn X). destruct xs; [contradiction|]. cbn [length] in Ft. lia. }
  assert (All : forall n, (n <= S (length ns))%nat -> exists m' b' ws', leads do_ask (m, b, ws) (m', b', ws') /\ forall i v, (i < n)%nat -> nth_error ws' i = Some v -> stands_at v = Between Finish).
  { induction n as [|n IH]; intros Hn; [exists m, b, ws; split; [apply Stays|intros i v X; lia]|].
    destruct (IH ltac:(lia)) as (m1 & b1 & ws1 & L1 & F1). pose proof (leads_trans _ _ _ R L1 : reached _) as R1.
    destruct (nth_error ws1 n) as [v|] eqn:Ev; [|apply nth_error_None in Ev; pose proof (Len _ R1) as X; cbn [snd] in X; lia].
    destruct (posted _ _ _ R1) as (w & gs & orig & top & ks & Hb & Hp & _ & Hs). destruct (Hs n v Ev) as (g & Eg & Sb).
    assert (Q : n = O \/ newest b1 <> None).
    { destruct n as [|n]; [left; reflexivity|right]. destruct (nth_error ws1 O) as [v0|] eqn:E0; [|apply nth_error_None in E0; pose proof (Len _ R1) as X; cbn [snd] in X; lia].
      apply (Shown _ _ _ _ R1 E0). apply (F1 O v0); [lia|exact E0]. }
    destruct (ends_post _ _ _ _ _ _ _ (Hp n g Eg) m1 b1 ws1 v R1 Q Ev Sb) as (m2 & b2 & u2 & L2 & _).
    exists m2, b2, (replaced n (mkW (Between Finish) u2) ws1). split; [exact (leads_trans _ _ _ L1 L2)|].
    intros i v' Hi Ei. apply at_replaced in Ei as [[-> ->]|[Di Ei]]; [reflexivity|]. apply (F1 i v'); [lia|exact Ei]. }
  destruct (All (S (length ns)) (le_n _)) as (m' & b' & ws' & L & F). exists m', b', ws'. pose proof (leads_trans _ _ _ R L : reached _) as R'. pose proof (Len _ R') as Ln. cbn [snd] in Ln.
  split; [exact L|]. split; [exact Ln|]. split.
  - intros i v E. apply (F i v); [|exact E]. rewrite <- Ln. apply nth_error_Some. congruence.
  - intros i n En. destruct (posted _ _ _ R') as (w & gs & orig & top & ks & _ & Hp & _ & Hs).
    assert (Li : (i < length ns)%nat) by (apply nth_error_Some; congruence).
    destruct (nth_error ws' (S i)) as [v|] eqn:Ev; [|apply nth_error_None in Ev; lia]. destruct (Hs _ _ Ev) as (g & Eg & Sb).
    unfold stands_before in Sb. rewrite (F (S i) v ltac:(lia) Ev) in Sb. subst g. destruct (finished_post _ _ _ _ _ _ (Hp _ _ Eg)) as (_ & X). rewrite X by discriminate.
    replace (S i - 1)%nat with i by lia. apply (nth_error_nth _ _ _ En).
Qed.
(** If nobody can move, all have come to their end. *)
Lemma snapshots_stand : xs <> [] -> forall m b ws, reached (m, b, ws) -> (forall q, ~ moves1 do_ask (m, b, ws) q) ->
  (forall i v, nth_error ws i = Some v -> stands_at v = Between Finish) /\ forall i n, nth_error ns i = Some n -> told b (S i) = n.
Proof.
  intros Ne m b ws R No. destruct (stands_still _ _ snapshots_synchronised m b ws R No) as (w & gs & T & F2 & Al).
  destruct (well_all _ T) as (orig & top & ks & Hb & Hp).
  assert (Ln : length gs = S (length ns)).
  { clear -T. remember (nothing_yet, nothing_heard, snapshots mg xs ns) as p0 eqn:E0. remember (w, b, gs) as p eqn:E. revert w b gs E. induction T as [p|p p1 p2 T IH St]; intros w b gs ->.
    - injection E0 as _ _ ->. unfold snapshots. cbn [length]. rewrite onlookers_length. reflexivity.
    - inversion St; subst; rewrite GoroutineProofs.replaced_length; eapply IH; reflexivity. }
  assert (G0 : nth_error gs O = Some Finish).
  { destruct (nth_error gs O) as [g|] eqn:Eg; [|apply nth_error_None in Eg; lia]. f_equal. destruct (Al g (nth_error_In _ _ Eg)) as [X|(f & X & Bl)]; [exact X|]. specialize (Hp O g Eg). exfalso.
    destruct Hp as [I0 I1 I2|t l r I0 I1 I2 I3 I4|t s u v l r I0 I1 I2 I3 I4 I5 I6|t l r I0 I1 I2 I3 I4|t c l r I0 I1 I2 I3 I4 I5|n I0 Io|c k n I0 Io I1 I2 I3|l k n I0 Io I1 I2 I3]; try discriminate X; try congruence.
    - destruct r as [|[u v] r]; discriminate X.
    - injection X as <-. discriminate (Bl O). }
  assert (Nw : newest b <> None).
  { destruct (finished_post _ _ _ _ _ _ (Hp O _ G0)) as (Ft & _). specialize (Ft eq_refl). destruct Hb as (_ & Hn & _). intros X. specialize (Hn X). destruct xs; [contradiction|]. cbn [length] in Ft. lia. }
  assert (Fin : forall i g, nth_error gs i = Some g -> g = Finish).
  { intros i g Eg. destruct (Al g (nth_error_In _ _ Eg)) as [X|(f & X & Bl)]; [exact X|]. specialize (Hp i g Eg). exfalso.
    destruct Hp as [I0 I1 I2|t l r I0 I1 I2 I3 I4|t s u v l r I0 I1 I2 I3 I4 I5 I6|t l r I0 I1 I2 I3 I4|t c l r I0 I1 I2 I3 I4 I5|n I0 Io|c k n I0 Io I1 I2 I3|l k n I0 Io I1 I2 I3]; try discriminate X.
    - destruct r as [|[u v] r]; discriminate X.
    - injection X as <-. discriminate (Bl O).
    - destruct n; [discriminate X|]. injection X as <-. specialize (Bl O). destruct (newest b); [discriminate Bl|contradiction].
    - injection X as <-. discriminate (Bl O). }
  split.
  - intros i v Ev. clear -F2 Fin Ev. revert i Ev. induction F2 as [|v0 g0 ws gs S0 F2 IH]; intros [|i] Ev; try discriminate Ev.
    + injection Ev as <-. rewrite S0. f_equal. apply (Fin O g0 eq_refl).
    + cbn [nth_error] in Ev. apply (IH (fun i g E => Fin (S i) g E) i Ev).
  - intros i n En. assert (Li : (i < length ns)%nat) by (apply nth_error_Some; congruence).
    destruct (nth_error gs (S i)) as [g|] eqn:Eg; [|apply nth_error_None in Eg; lia]. pose proof (Fin _ _ Eg) as ->.
    destruct (finished_post _ _ _ _ _ _ (Hp _ _ Eg)) as (_ & X). rewrite X by discriminate. replace (S i - 1)%nat with i by lia. apply (nth_error_nth _ _ _ En).
Qed.
End Snapshots.
