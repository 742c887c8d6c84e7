(** No letter of Spec/PostSpec.v is lost or comes twice, and all goroutines can
    come to their end. *)
From Coq Require Import Lia Permutation.
From Verif Require Import Base.Go Base.Goroutine Base.HashUse Base.Sync Model.SyncAtom Spec.HashUseSpec Spec.SyncSpec Spec.PostSpec
  Proofs.GoroutineProofs Proofs.AreaProofs Proofs.SyncProofs Proofs.RelayProofs Proofs.SyncEndProofs Proofs.PostProofs.
From Verif Require Spec.HexSpec.
Local Open Scope nat_scope.

Notation key := (nat * nat)%type.
Definition key_dec : forall a b : key, {a = b} + {a <> b}.
Proof. decide equality; apply Nat.eq_dec. Defined.
Notation count l x := (count_occ key_dec l x).

Definition keys (i d n : nat) : list key := map (pair i) (seq d n).
Fixpoint all_keys (i : nat) (rs : list role) : list key :=
  match rs with
  | [] => []
  | Sends _ ms :: rs' => keys i 0 (length ms) ++ all_keys (S i) rs'
  | Receives _ _ _ :: rs' => all_keys (S i) rs'
  end.
Lemma all_keys_in rs : forall i a j, In (a, j) (all_keys i rs) <-> i <= a /\ message rs (a - i) j <> None.
Proof.
  induction rs as [|r rs IH]; intros i a j.
  - cbn [all_keys]. split; [intros []|]. intros (_ & X). apply X. unfold message. destruct (a - i); reflexivity.
  - assert (Sub : forall x, x <> i -> i <= x -> message (r :: rs) (x - i) j = message rs (x - S i) j).
    { intros x D Lx. unfold message. replace (x - i) with (S (x - S i)) by lia. reflexivity. }
    destruct r as [n ms|tiny fast m]; cbn [all_keys].
    + rewrite in_app_iff, IH. unfold keys. rewrite in_map_iff. split.
      * intros [(j0 & E & Ij)|(La & M)]; [|rewrite Sub by lia; split; [lia|exact M]]. injection E as <- <-. apply in_seq in Ij. split; [lia|].
        rewrite Nat.sub_diag. cbn [message nth_error]. unfold message. cbn [nth_error]. apply nth_error_Some. lia.
      * intros (La & M). destruct (Nat.eq_dec a i) as [->|D]; [left|right; rewrite Sub in M by lia; split; [lia|exact M]].
        rewrite Nat.sub_diag in M. unfold message in M. cbn [nth_error] in M. apply nth_error_Some in M. exists j. split; [reflexivity|]. apply in_seq. lia.
    + rewrite IH. split.
      * intros (La & M). rewrite Sub by lia. split; [lia|exact M].
      * intros (La & M). destruct (Nat.eq_dec a i) as [->|D]; [|rewrite Sub in M by lia; split; [lia|exact M]].
        rewrite Nat.sub_diag in M. exfalso. apply M. reflexivity.
Qed.
Lemma keys_nodup i d n : NoDup (keys i d n).
Proof. unfold keys. apply FinFun.Injective_map_NoDup; [intros x y E; congruence|apply seq_NoDup]. Qed.
Lemma nodup_app {A} (l l' : list A) : NoDup l -> NoDup l' -> (forall x, In x l -> ~ In x l') -> NoDup (l ++ l').
Proof.
  intros H H' D. induction H as [|x l Nx H IH]; [exact H'|]. cbn [app]. constructor.
  - rewrite in_app_iff. intros [X|X]; [exact (Nx X)|]. apply (D x); [left; reflexivity|exact X].
  - apply IH. intros y Iy. apply D. right. exact Iy.
Qed.
Lemma all_keys_nodup rs : forall i, NoDup (all_keys i rs).
Proof.
  induction rs as [|[n ms|tiny fast m] rs IH]; intros i; cbn [all_keys]; [constructor| |apply IH].
  apply nodup_app; [apply keys_nodup|apply IH|]. intros [a j] X Y. apply in_map_iff in X as (j0 & E & _). injection E as <- _. apply all_keys_in in Y. lia.
Qed.
Lemma all_keys_length rs : forall i, length (all_keys i rs) = sent rs.
Proof.
  unfold sent. induction rs as [|[n ms|tiny fast m] rs IH]; intros i; cbn [all_keys map list_sum fold_right]; [reflexivity| |rewrite IH; reflexivity].
  rewrite app_length, IH. unfold keys. rewrite map_length, seq_length. reflexivity.
Qed.
Lemma take_out {A} (l : list A) : forall n x, nth_error l n = Some x -> l = firstn n l ++ x :: skipn (S n) l.
Proof. induction l as [|a l IH]; intros [|n] x E; cbn [nth_error firstn skipn app] in *; try discriminate; [congruence|]. f_equal. apply IH, E. Qed.
Lemma replaced_mid {A} (l : list A) y l' x : replaced (length l) x (l ++ y :: l') = l ++ x :: l'.
Proof. induction l as [|a l IH]; [reflexivity|]. cbn [app length replaced]. rewrite IH. reflexivity. Qed.
Lemma replaced_self {A} (l : list A) i x : nth_error l i = Some x -> replaced i x l = l.
Proof. revert i. induction l as [|a l IH]; intros [|i] E; cbn [replaced nth_error] in *; try discriminate; [congruence|]. f_equal. apply IH, E. Qed.

Section End.
Context (room : nat) (rs : list role) (Hr : Forall role_ok rs).
Let own (n i : nat) : gslice := mkS (mkA i false 0) n n.

(** The letters a goroutine has yet to post, or has taken and not delivered yet;
    and how many it has yet to deliver. *)
Inductive stock (i : nat) : prog post -> list key -> nat -> Prop :=
| St_end : stock i Finish [] 0
| St_sender n ms : nth_error rs i = Some (Sends n ms) -> stock i (sender room n i ms) (keys i 0 (length ms)) 0
| St_stores n ms s j zs d ms' : nth_error rs i = Some (Sends n ms) ->
    stock i (stores s j zs (encodes room s i d (sends_all room s i (S d) ms'))) (keys i d (S (length ms'))) 0
| St_posts n ms t s d ms' : nth_error rs i = Some (Sends n ms) -> stock i (posts room (i, d, t) (sends_all room s i (S d) ms')) (keys i d (S (length ms'))) 0
| St_receiver tiny fast m0 m : nth_error rs i = Some (Receives tiny fast m0) -> stock i (receiver tiny fast m) [] m
| St_decodes tiny fast m0 m i' j t : nth_error rs i = Some (Receives tiny fast m0) -> letter_ok rs i' j t ->
    stock i (decodes tiny fast i' j t (receiver tiny fast m)) [(i', j)] (S m)
| St_delivers tiny fast m0 m i' j s : nth_error rs i = Some (Receives tiny fast m0) -> stock i (delivers i' j s (receiver tiny fast m)) [(i', j)] (S m).

Definition tally (p : scene (G := post)) : Prop :=
  let '(w, b, gs) := p in exists L : list (list key * nat),
    length L = length gs
    /\ (forall i g, nth_error gs i = Some g -> exists h o, nth_error L i = Some (h, o) /\ stock i g h o)
    /\ (forall x, count (flat_map fst L) x + count (map fst (letters b)) x + count (map fst (arrived b)) x = count (all_keys 0 rs) x)
    /\ list_sum (map snd L) + length (arrived b) = asked rs.

Lemma stock_next i n ms s d ms' : nth_error rs i = Some (Sends n ms) -> stock i (sends_all room s i d ms') (keys i d (length ms')) 0.
Proof. intros R. destruct ms' as [|xs ms']; [apply St_end|]. cbn [sends_all length]. apply (St_stores i n ms s 0 xs d ms' R). Qed.

Definition opening (x : nat * role) : list key * nat := match snd x with Sends _ ms => (keys (fst x) 0 (length ms), 0) | Receives _ _ m => ([], m) end.
Lemma tally_start : tally (nothing_yet, no_post, post_office room rs).
Proof.
  exists (map opening (combine (seq 0 (length rs)) rs)).
  assert (Pl : forall i l, length (players room i l) = length l) by (intros i l; revert i; induction l as [|r l IH]; intros i; cbn [players length]; [reflexivity|rewrite IH; reflexivity]).
  assert (Co : forall (l : list role) i j r, nth_error l j = Some r -> nth_error (combine (seq i (length l)) l) j = Some (i + j, r)).
  { induction l as [|r l IH]; intros i [|j] r0 E; cbn [nth_error length seq combine] in *; try discriminate; [rewrite Nat.add_0_r; congruence|].
    rewrite (IH (S i) j r0 E). do 2 f_equal. lia. }
  split; [rewrite map_length, combine_length, seq_length; unfold post_office; rewrite Pl; lia|]. split; [|split].
  - intros i g E. unfold post_office in E. rewrite players_nth in E. cbn [Nat.add] in E. destruct (nth_error rs i) as [r|] eqn:Er; [|discriminate]. injection E as <-.
    rewrite nth_error_map, (Co _ _ _ _ Er). cbn [option_map Nat.add]. destruct r as [n ms|tiny fast m]; unfold opening; cbn [fst snd]; do 2 eexists; (split; [reflexivity|]); cbn [plays].
    + apply St_sender, Er.
    + apply St_receiver with (m0 := m), Er.
  - intros x. cbn [no_post letters arrived map]. cbn [count_occ]. rewrite !Nat.add_0_r. f_equal. generalize 0 as i. generalize rs as l.
    induction l as [|[n ms|tiny fast m] l IH]; intros i; cbn [length seq combine map flat_map all_keys]; try unfold opening at 1; cbn [fst snd app]; [reflexivity|f_equal; apply IH|apply IH].
  - cbn [no_post arrived length]. rewrite Nat.add_0_r. unfold asked. f_equal. rewrite map_map.
    assert (X : forall (l : list role) i, map (fun x => snd (opening x)) (combine (seq i (length l)) l) = map (fun r => match r with Sends _ _ => 0 | Receives _ _ m => m end) l); [|apply X].
    induction l as [|[n ms|tiny fast m] l IH]; intros i; cbn [length seq combine map]; [reflexivity|f_equal; apply IH|f_equal; apply IH].
Qed.

(** Goroutine [i] goes on, and [h], [o] become [h'], [o']. *)
Lemma tally_goes L (gs : list (prog post)) i h o g h' o' : length L = length gs ->
  (forall i g, nth_error gs i = Some g -> exists h o, nth_error L i = Some (h, o) /\ stock i g h o) -> nth_error L i = Some (h, o) -> stock i g h' o' ->
  exists L', length L' = length (replaced i g gs)
    /\ (forall j g', nth_error (replaced i g gs) j = Some g' -> exists h o, nth_error L' j = Some (h, o) /\ stock j g' h o)
    /\ (forall x, count (flat_map fst L') x + count h x = count (flat_map fst L) x + count h' x)
    /\ list_sum (map snd L') + o = list_sum (map snd L) + o'.
Proof.
  intros Ln Hs E St. exists (replaced i (h', o') L). rewrite !replaced_length. split; [exact Ln|]. split.
  - intros j g' Ej. apply at_replaced in Ej as [[-> ->]|[Dj Ej]].
    + exists h', o'. split; [apply (at_replaced_same _ _ _ _ E)|exact St].
    + rewrite at_replaced_other by exact Dj. apply Hs, Ej.
  - apply nth_error_split in E as (A & B & -> & <-). rewrite replaced_mid. split.
    + intros x. rewrite !flat_map_app. cbn [flat_map fst]. rewrite !count_occ_app. lia.
    + rewrite !map_app, !list_sum_app. cbn [map snd list_sum fold_right]. lia.
Qed.

Lemma tally_step p q : sound room rs p -> tally p -> turn p q -> tally q.
Proof.
  intros Sp Gp T. destruct T as [w b gs i c k w' r E D|w b gs i f m b' g E F].
  - destruct Gp as (L & Ln & Hs & Hc & Ho). destruct (Hs i _ E) as (h & o & El & P).
    assert (Go : stock i (k r) h o -> tally (w', b, replaced i (k r) gs)).
    { intros P'. destruct (tally_goes L gs i h o (k r) h o Ln Hs El P') as (L' & L1 & L2 & L3 & L4). exists L'. split; [exact L1|]. split; [exact L2|].
      split; [intros x; specialize (L3 x); specialize (Hc x); lia|lia]. }
    apply Go. clear Go. remember (Call c k) as g0 eqn:EE in P.
    destruct P as [|n ms R0|n ms s j zs d ms' R0|n ms t s d ms' R0|tiny fast m0 m R0|tiny fast m0 m i' j t R0 R1|tiny fast m0 m i' j s R0]; try discriminate EE.
    + unfold sender in EE. injection EE as <- <-. apply inv_make in D as (_ & ->). apply stock_next with (n := n) (ms := ms), R0.
    + destruct zs as [|z zs]; cbn [stores] in EE.
      * unfold encodes in EE. injection EE as <- <-. apply inv_text in D as (_ & ->). apply St_posts with (n := n) (ms := ms), R0.
      * injection EE as <- <-. apply St_stores with (n := n) (ms := ms), R0.
    + destruct m; discriminate EE.
    + unfold decodes in EE. injection EE as <- <-. apply inv_read in D as (_ & ->). destruct R1 as (xs & M & B & ->). rewrite reply_numeral by exact B.
      apply St_delivers with (m0 := m0), R0.
  - destruct Sp as ((Hl & _ & _) & _). destruct Gp as (L & Ln & Hs & Hc & Ho). destruct (Hs i _ E) as (h & o & El & P).
    assert (Go : forall h' o', stock i g h' o' ->
      (forall x, count h' x + count (map fst (letters b')) x + count (map fst (arrived b')) x = count h x + count (map fst (letters b)) x + count (map fst (arrived b)) x) ->
      o' + length (arrived b') = o + length (arrived b) -> tally (w, b', replaced i g gs)).
    { intros h' o' P' C' O'. destruct (tally_goes L gs i h o g h' o' Ln Hs El P') as (L' & L1 & L2 & L3 & L4). exists L'. split; [exact L1|]. split; [exact L2|].
      split; [intros x; specialize (L3 x); specialize (Hc x); specialize (C' x); lia|lia]. }
    remember (Sync f) as g0 eqn:EE in P.
    destruct P as [|n ms R0|n ms s j zs d ms' R0|n ms t s d ms' R0|tiny fast m0 m1 R0|tiny fast m0 m1 i' j t R0 R1|tiny fast m0 m1 i' j s R0]; try discriminate EE.
    + destruct zs; discriminate EE.
    + unfold posts in EE. injection EE as <-. destruct (Nat.ltb (length (letters b)) room); [|discriminate F]. injection F as <- <-. apply (Go (keys i (S d) (length ms')) 0).
      * apply stock_next with (n := n) (ms := ms), R0.
      * intros x. cbn [letters arrived]. rewrite map_app, count_occ_app. unfold keys. cbn [map fst seq count_occ]. destruct (key_dec (i, d) x); lia.
      * reflexivity.
    + destruct m1 as [|m1]; [discriminate EE|]. cbn [receiver] in EE. injection EE as <-. destruct (nth_error (letters b) m) as [[[i0 j0] t0]|] eqn:Et; [|discriminate F]. injection F as <- <-.
      apply (Go [(i0, j0)] (S m1)); [apply St_decodes with (m0 := m0); [exact R0|apply Hl, (nth_error_In _ _ Et)]| |reflexivity].
      intros x. cbn [letters arrived]. pose proof (f_equal (fun l => count (map fst l) x) (take_out _ _ _ Et)) as X. cbn [skipn] in X. rewrite X. rewrite !map_app, !count_occ_app. cbn [map fst count_occ]. destruct (key_dec (i0, j0) x); lia.
    + unfold delivers in EE. injection EE as <-. injection F as <- <-. apply (Go [] m1); [apply St_receiver with (m0 := m0), R0| |cbn [arrived]; rewrite app_length; cbn [length]; lia].
      intros x. cbn [letters arrived]. rewrite map_app, count_occ_app. cbn [map fst count_occ]. destruct (key_dec (i', j) x); lia.
Qed.
Lemma tally_all p : turns (nothing_yet, no_post, post_office room rs) p -> tally p.
Proof.
  intros T. remember (nothing_yet, no_post, post_office room rs) as p0 eqn:E0. induction T as [p|p p1 p2 T IH St]; [subst p; apply tally_start|].
  apply (tally_step p1 p2); auto. apply (sound_all room rs Hr). subst p. exact T.
Qed.

Lemma arrive_once w b gs : turns (nothing_yet, no_post, post_office room rs) (w, b, gs) -> NoDup (map fst (arrived b)).
Proof.
  intros T. destruct (tally_all _ T) as (L & _ & _ & Hc & _). apply (NoDup_count_occ key_dec). intros x.
  pose proof (proj1 (NoDup_count_occ key_dec _) (all_keys_nodup rs 0) x) as X. specialize (Hc x). lia.
Qed.

(** The channel never holds more than it has room for. *)
Lemma never_over p : turns (nothing_yet, no_post, post_office room rs) p -> length (letters (snd (fst p))) <= room.
Proof.
  intros T. remember (nothing_yet, no_post, post_office room rs) as p0 eqn:E0. induction T as [p|p p1 p2 T IH St]; [subst p; apply Nat.le_0_l|].
  subst p. specialize (IH eq_refl). pose proof (tally_all _ T) as Gp. destruct St as [w b gs i c k w' r E D|w b gs i f m b' g E F]; cbn [fst snd] in *; [exact IH|].
  destruct Gp as (L & _ & Hs & _). destruct (Hs i _ E) as (h & o & _ & P). remember (Sync f) as g0 eqn:EE in P.
  destruct P as [|n ms R0|n ms s j zs d ms' R0|n ms t s d ms' R0|tiny fast m0 m1 R0|tiny fast m0 m1 i' j t R0 R1|tiny fast m0 m1 i' j s R0]; try discriminate EE.
  - destruct zs; discriminate EE.
  - injection EE as <-. destruct (Nat.ltb_spec (length (letters b)) room) as [X|X]; [|discriminate F]. injection F as <- _. cbn [letters]. rewrite app_length. cbn [length]. lia.
  - destruct m1; [discriminate EE|]. injection EE as <-. destruct (nth_error (letters b) m) as [[[i0 j0] t0]|] eqn:Et; [|discriminate F]. injection F as <- _. cbn [letters].
    pose proof (f_equal (@length _) (take_out _ _ _ Et)) as X. rewrite app_length in X. cbn [length skipn] in X. rewrite app_length. lia.
  - injection EE as <-. injection F as <- _. exact IH.
Qed.

(** ** They come to their end *)

Definition reached (p : group post) : Prop := leads do_ask (started no_post (post_office room rs)) p.
Lemma counted m b ws : reached (m, b, ws) -> exists w gs, (tally (w, b, gs) /\ length (letters b) <= room)
  /\ length ws = length gs /\ forall i v, nth_error ws i = Some v -> exists g, nth_error gs i = Some g /\ stands_before v g.
Proof.
  intros R. destruct (follows _ _ (post_synchronised room rs Hr) m b ws R) as (w & gs & bb & T & Rl).
  exists w, gs. split; [split; [exact (tally_all _ T)|exact (never_over _ T)]|]. split; [exact (rl_len _ _ _ _ _ Rl)|].
  intros i v E. destruct (rl_at _ _ _ _ _ Rl i v E) as (g & Eg & H). exists g. split; [exact Eg|]. unfold stands_before. destruct (stands_at v); destruct H as (-> & _); reflexivity.
Qed.
Lemma stock_finish i h o : stock i Finish h o -> h = [] /\ o = 0.
Proof.
  intros P. remember Finish as g eqn:Eg in P.
  destruct P as [|n ms R0|n ms s j zs d ms' R0|n ms t s d ms' R0|tiny fast m0 m R0|tiny fast m0 m i' j t R0 R1|tiny fast m0 m i' j s R0]; try discriminate Eg; [auto|destruct zs; discriminate Eg|].
  destruct m; [auto|discriminate Eg].
Qed.
Lemma tally_length w b gs : tally (w, b, gs) -> exists L, length L = length gs
  /\ (forall i g, nth_error gs i = Some g -> exists h o, nth_error L i = Some (h, o) /\ stock i g h o)
  /\ Permutation (flat_map fst L ++ map fst (letters b) ++ map fst (arrived b)) (all_keys 0 rs)
  /\ length (flat_map fst L) + length (letters b) + length (arrived b) = sent rs /\ list_sum (map snd L) + length (arrived b) = asked rs.
Proof.
  intros (L & Ln & Hs & Hc & Ho). exists L. split; [exact Ln|]. split; [exact Hs|].
  assert (P : Permutation (flat_map fst L ++ map fst (letters b) ++ map fst (arrived b)) (all_keys 0 rs)).
  { apply (Permutation_count_occ key_dec). intros x. rewrite !count_occ_app. specialize (Hc x). lia. }
  split; [exact P|]. apply Permutation_length in P. rewrite !app_length, !map_length, all_keys_length in P. split; [lia|exact Ho].
Qed.

Lemma role_of m b ws : reached (m, b, ws) -> length ws = length rs.
Proof.
  assert (Pl : forall i l, length (players room i l) = length l) by (intros i l; revert i; induction l as [|r l IH]; intros i; cbn [players length]; [reflexivity|rewrite IH; reflexivity]).
  assert (Len : forall p, reached p -> length (snd p) = length rs).
  { intros p Rp. unfold reached in Rp. remember (started no_post (post_office room rs)) as p0 eqn:E0. induction Rp as [p|p p1 p2 _ IH Mv].
    - subst p. unfold started, post_office. cbn [snd]. rewrite map_length. apply Pl.
    - rewrite <- (IH E0). destruct Mv; cbn [snd]; apply replaced_length. }
  apply (Len (m, b, ws)).
Qed.
Definition ended (v : worker post) : Prop := stands_at v = Between Finish.
(** Who is at its end or at a synchronising step. *)
Lemma stock_sync i f h o b : stock i (Sync f) h o -> (exists b' g, f O b = Some (b', g)) \/ forall n, f n b = None.
Proof.
  intros P. remember (Sync f) as g eqn:Eg in P.
  destruct P as [|n ms R0|n ms s j zs d ms' R0|n ms t s d ms' R0|tiny fast m0 m R0|tiny fast m0 m i' j t R0 R1|tiny fast m0 m i' j s R0]; try discriminate Eg.
  - destruct zs; discriminate Eg.
  - injection Eg as <-. destruct (Nat.ltb (length (letters b)) room); [left; eauto|right; reflexivity].
  - destruct m; [discriminate Eg|]. injection Eg as <-. destruct (letters b) as [|[[i' j'] t'] l] eqn:El; [right; intros n; destruct n; reflexivity|left; cbn [nth_error]; eauto].
  - injection Eg as <-. left. eauto.
Qed.
Lemma stock_stands i g h o b : stock i g h o -> g = Finish \/ (exists f, g = Sync f /\ forall n, f n b = None) ->
  (g = Finish /\ h = [] /\ o = 0) \/ (room <= length (letters b) /\ 1 <= length h /\ o = 0) \/ (letters b = [] /\ h = [] /\ 1 <= o).
Proof.
  intros P [->|(f & -> & Bl)]; [left; split; [reflexivity|apply (stock_finish _ _ _ P)]|right]. remember (Sync f) as g eqn:Eg in P.
  destruct P as [|n ms R0|n ms s j zs d ms' R0|n ms t s d ms' R0|tiny fast m0 m R0|tiny fast m0 m i' j t R0 R1|tiny fast m0 m i' j s R0]; try discriminate Eg.
  - destruct zs; discriminate Eg.
  - injection Eg as <-. left. specialize (Bl O). destruct (Nat.ltb_spec (length (letters b)) room) as [X|X]; [discriminate Bl|]. split; [exact X|]. split; [|reflexivity].
    unfold keys. rewrite map_length, seq_length. lia.
  - destruct m; [discriminate Eg|]. injection Eg as <-. right. specialize (Bl O). destruct (letters b) as [|[[i' j'] t'] l]; [|cbn [nth_error] in Bl; discriminate Bl].
    split; [reflexivity|]. split; [reflexivity|lia].
  - injection Eg as <-. specialize (Bl O). discriminate Bl.
Qed.
Lemma part_length (L : list (list key * nat)) i h o : nth_error L i = Some (h, o) -> length h <= length (flat_map fst L) /\ o <= list_sum (map snd L).
Proof.
  intros E. apply nth_error_split in E as (A & B & -> & _). rewrite flat_map_app, map_app, list_sum_app. cbn [flat_map map fst snd list_sum fold_right].
  rewrite !app_length. unfold list_sum. lia.
Qed.
Lemma all_zero (L : list (list key * nat)) : (forall i h o, nth_error L i = Some (h, o) -> h = []) -> flat_map fst L = [].
Proof.
  induction L as [|[h o] L IH]; intros H; [reflexivity|]. cbn [flat_map fst]. rewrite (H O h o eq_refl). apply IH. intros i h' o' E. apply (H (S i) h' o' E).
Qed.
Lemma all_none (L : list (list key * nat)) : (forall i h o, nth_error L i = Some (h, o) -> o = 0) -> list_sum (map snd L) = 0.
Proof.
  induction L as [|[h o] L IH]; intros H; [reflexivity|]. cbn [map snd]. rewrite (H O h o eq_refl). apply IH. intros i h' o' E. apply (H (S i) h' o' E).
Qed.
(** If nobody can move, all have come to their end. *)
Lemma post_stands : 1 <= room -> asked rs <= sent rs <= asked rs + room -> forall m b ws, reached (m, b, ws) -> (forall q, ~ moves1 do_ask (m, b, ws) q) ->
  forall i v, nth_error ws i = Some v -> ended v.
Proof.
  intros Ro As m b ws R No. destruct (stands_still _ _ (post_synchronised room rs Hr) m b ws R No) as (w & gs & T & F2 & Al).
  destruct (tally_length _ _ _ (tally_all _ T)) as (L & Ll & Hl & _ & C1 & C2).
  assert (At : forall i h o, nth_error L i = Some (h, o) -> exists g, nth_error gs i = Some g
    /\ ((g = Finish /\ h = [] /\ o = 0) \/ (room <= length (letters b) /\ 1 <= length h /\ o = 0) \/ (letters b = [] /\ h = [] /\ 1 <= o))).
  { intros i h o E. assert (Hi : i < length gs) by (rewrite <- Ll; apply nth_error_Some; congruence).
    destruct (nth_error gs i) as [g|] eqn:Eg; [|apply nth_error_None in Eg; lia]. exists g. split; [reflexivity|].
    destruct (Hl i g Eg) as (h' & o' & E' & P). rewrite E in E'. injection E' as <- <-. apply (stock_stands i g h o b P), Al, (nth_error_In _ _ Eg). }
  assert (Fin : forall i g, nth_error gs i = Some g -> g = Finish).
  { destruct (letters b) as [|l0 l] eqn:El.
    - assert (Z : flat_map fst L = []).
      { apply all_zero. intros i h o E. destruct (At i h o E) as (g & _ & [(_ & X & _)|[(X & _)|(_ & X & _)]]); [exact X|cbn [length] in X; lia|exact X]. }
      rewrite Z in C1. cbn [length] in C1. intros i g Eg. destruct (Hl i g Eg) as (h & o & E & _). destruct (At i h o E) as (g' & Eg' & [(X & _)|[(X & _)|(_ & _ & X)]]).
      + rewrite Eg in Eg'. congruence.
      + cbn [length] in X. lia.
      + pose proof (part_length L i h o E). lia.
    - assert (Z : list_sum (map snd L) = 0).
      { apply all_none. intros i h o E. destruct (At i h o E) as (g & _ & [(_ & _ & X)|[(_ & _ & X)|(X & _)]]); [exact X|exact X|discriminate X]. }
      rewrite Z in C2. intros i g Eg. destruct (Hl i g Eg) as (h & o & E & _). destruct (At i h o E) as (g' & Eg' & [(X & _)|[(X & Y & _)|(X & _)]]).
      + rewrite Eg in Eg'. congruence.
      + pose proof (part_length L i h o E). lia.
      + discriminate X. }
  intros i v Ev. clear -F2 Fin Ev. revert i Ev. induction F2 as [|v0 g0 ws gs S0 F2 IH]; intros [|i] Ev; try discriminate Ev.
  - injection Ev as <-. unfold ended. rewrite S0. f_equal. apply (Fin O g0 eq_refl).
  - cbn [nth_error] in Ev. apply (IH (fun i g E => Fin (S i) g E) i Ev).
Qed.
(** Whether somebody can move. *)
Lemma post_goes m b ws : reached (m, b, ws) -> (exists q, moves1 do_ask (m, b, ws) q) \/ forall q, ~ moves1 do_ask (m, b, ws) q.
Proof.
  intros R. destruct (all_stand _ _ (post_synchronised room rs Hr) m b ws R) as [X|Al]; [left; exact X|].
  destruct (counted _ _ _ R) as (w & gs & ((L & _ & Hl & _) & _) & _ & Hs).
  assert (D : forall n, (exists q, moves1 do_ask (m, b, ws) q) \/ forall i v f, i < n -> nth_error ws i = Some v -> stands_at v = Between (Sync f) -> forall c, f c b = None).
  { induction n as [|n [X|IH]]; [right; intros; lia|left; exact X|]. destruct (nth_error ws n) as [v|] eqn:Ev.
    - destruct (Al v (nth_error_In _ _ Ev)) as [X|(f & X)].
      + right. intros i v' f Hi Ei Sv. destruct (Nat.eq_dec i n) as [->|Di]; [|apply (IH i v' f ltac:(lia) Ei Sv)]. rewrite Ev in Ei. injection Ei as <-. congruence.
      + destruct (Hs n v Ev) as (g & Eg & Sb). unfold stands_before in Sb. rewrite X in Sb. subst g. destruct (Hl n _ Eg) as (h & o & _ & P).
        destruct (stock_sync n f h o b P) as [(b' & g & Ef)|Bl].
        * left. destruct v as [st u]. cbn [stands_at] in X. subst st. eexists. eapply Syncs; eassumption.
        * right. intros i v' f' Hi Ei Sv. destruct (Nat.eq_dec i n) as [->|Di]; [|apply (IH i v' f' ltac:(lia) Ei Sv)]. rewrite Ev in Ei. injection Ei as <-. rewrite X in Sv. injection Sv as <-. exact Bl.
    - right. intros i v' f Hi Ei Sv. destruct (Nat.eq_dec i n) as [->|Di]; [congruence|apply (IH i v' f ltac:(lia) Ei Sv)]. }
  destruct (D (length ws)) as [X|Bl]; [left; exact X|right]. intros q M. remember (m, b, ws) as p eqn:Ep in M.
  destruct M as [m1 s1 ws1 i c k u E|m1 s1 ws1 i c p k u m' p' u' E Ad|m1 s1 ws1 i c r k u E|m1 s1 ws1 i f u n s' g E Ef]; injection Ep as -> -> ->; pose proof (nth_error_In _ _ E) as Iv.
  - destruct (Al _ Iv) as [X|(f & X)]; discriminate X.
  - destruct (Al _ Iv) as [X|(f & X)]; discriminate X.
  - destruct (Al _ Iv) as [X|(f & X)]; discriminate X.
  - rewrite (Bl i _ f ltac:(apply nth_error_Some; congruence) E eq_refl n) in Ef. discriminate Ef.
Qed.
Lemma post_ends : 1 <= room -> asked rs <= sent rs <= asked rs + room -> forall m b ws, reached (m, b, ws) ->
  exists m' b' ws', leads do_ask (m, b, ws) (m', b', ws') /\ length ws' = length rs /\ (forall i v, nth_error ws' i = Some v -> ended v).
Proof.
  intros Ro As m b ws R.
  destruct (comes_to_stand (m, b, ws) (fun q => forall i v, nth_error (snd q) i = Some v -> ended v)) as ([[m' b'] ws'] & L & F).
  - intros [[m1 b1] ws1] L1. pose proof (leads_trans _ _ _ R L1 : reached _) as R1. destruct (post_goes _ _ _ R1) as [M|No]; [right; exact M|left].
    cbn [snd]. apply (post_stands Ro As _ _ _ R1 No).
  - exists m', b', ws'. split; [exact L|]. split; [apply (role_of m' b'), (leads_trans _ _ _ R L)|exact F].
Qed.

(** When all have ended. *)
Lemma post_ended m b ws : reached (m, b, ws) -> (forall i v, nth_error ws i = Some v -> ended v) ->
  asked rs <= sent rs <= asked rs + room /\ length (arrived b) = asked rs /\ (asked rs = sent rs -> Permutation (map fst (arrived b)) (all_keys 0 rs)).
Proof.
  intros R F. destruct (counted _ _ _ R) as (w & gs & (T & Ov) & Ln & Hs). destruct (tally_length _ _ _ T) as (L & Ll & Hl & P & C1 & C2).
  assert (Z : forall x, In x L -> x = ([], 0)).
  { intros [h o] Ix. apply In_nth_error in Ix as (i & Ei). assert (Hi : i < length gs) by (rewrite <- Ll; apply nth_error_Some; congruence).
    destruct (nth_error ws i) as [v|] eqn:Ev; [|apply nth_error_None in Ev; lia]. destruct (Hs i v Ev) as (g & Eg & Sb). unfold stands_before in Sb. rewrite (F i v Ev) in Sb. subst g.
    destruct (Hl i _ Eg) as (h' & o' & Ei' & St). rewrite Ei in Ei'. injection Ei' as <- <-. destruct (stock_finish _ _ _ St) as (-> & ->). reflexivity. }
  assert (Z1 : flat_map fst L = []).
  { clear -Z. induction L as [|x L IH]; [reflexivity|]. cbn [flat_map]. rewrite (Z x (or_introl eq_refl)), IH; [reflexivity|]. intros y Iy. apply Z. right. exact Iy. }
  assert (Z2 : list_sum (map snd L) = 0).
  { clear -Z. induction L as [|x L IH]; [reflexivity|]. unfold list_sum in *. cbn [map fold_right]. rewrite (Z x (or_introl eq_refl)), IH; [reflexivity|]. intros y Iy. apply Z. right. exact Iy. }
  rewrite Z1 in *. rewrite Z2 in C2. cbn [length app] in *. split; [lia|]. split; [lia|]. intros Eq. assert (X : letters b = []) by (destruct (letters b); [reflexivity|cbn [length] in C1; lia]).
  rewrite X in P. exact P.
Qed.
End End.
