(** Code that stays within the memory of its goroutine, and goroutines that run
    such code. *)
From Verif Require Import Base.Go Base.Goroutine.
From Coq Require Import Wellfounded.
Local Open Scope N_scope.

(** ** Addresses *)

Lemma same_spec a b : reflect (a = b) (same a b).
Proof.
  apply iff_reflect. unfold same. rewrite !andb_true_iff, !Nat.eqb_eq, Bool.eqb_true_iff. destruct a as [i l n], b as [j r k]. cbn [who lib num].
  split; [intros H; injection H as -> -> ->; auto|intros [[-> ->] ->]; reflexivity].
Qed.
Lemma same_refl a : same a a = true.
Proof. destruct (same_spec a a); congruence. Qed.
Lemma within_iff a n x : within a n x = true <-> who x = who a /\ lib x = lib a /\ (num a <= num x < num a + n)%nat.
Proof.
  unfold within. rewrite !andb_true_iff, Nat.eqb_eq, Nat.leb_le, Nat.ltb_lt, Bool.eqb_true_iff. tauto.
Qed.
Lemma within_not a n x : within a n x = false <-> ~ (who x = who a /\ lib x = lib a /\ (num a <= num x < num a + n)%nat).
Proof. rewrite <- within_iff. destruct (within a n x); split; try congruence; tauto. Qed.
Lemma within_spec a n x : reflect (who x = who a /\ lib x = lib a /\ (num a <= num x < num a + n)%nat) (within a n x).
Proof. apply iff_reflect. symmetry. apply within_iff. Qed.
Lemma shift_shift a i j : shift (shift a i) j = shift a (i + j).
Proof. unfold shift. cbn [who lib num]. f_equal. lia. Qed.
Lemma shift_0 a : shift a 0 = a.
Proof. destruct a as [i l n]. unfold shift. cbn [who lib num]. f_equal. lia. Qed.
Lemma in_shift a n x : within a n x = true -> x = shift a (num x - num a).
Proof. intros H. apply within_iff in H. destruct x as [xi xl xn], a as [ai al an]. unfold shift. cbn [who lib num] in *. destruct H as (-> & -> & ?). f_equal. lia. Qed.

Definition cells (m : memory) (a : addr) (n : nat) : list N := map (fun i => m (shift a i)) (seq 0 n).
Lemma cells_length m a n : length (cells m a n) = n.
Proof. unfold cells. rewrite map_length, seq_length. reflexivity. Qed.
Lemma nth_cells m a n i d : (i < n)%nat -> nth i (cells m a n) d = m (shift a i).
Proof.
  intros H. unfold cells. rewrite (nth_indep _ d (m (shift a 0))) by (rewrite map_length, seq_length; exact H).
  rewrite (map_nth (fun i => m (shift a i))), seq_nth by exact H. reflexivity.
Qed.
Lemma cells_ext m m' a n : (forall i, (i < n)%nat -> m' (shift a i) = m (shift a i)) -> cells m' a n = cells m a n.
Proof. intros H. apply map_ext_in. intros i Hi. apply in_seq in Hi. apply H. lia. Qed.
Lemma cells_S m a n : cells m a (S n) = m a :: cells m (shift a 1) n.
Proof.
  unfold cells. cbn [seq map]. rewrite shift_0. f_equal. rewrite <- seq_shift, map_map. apply map_ext. intros i.
  rewrite shift_shift. reflexivity.
Qed.
Lemma cells_app m a n k : cells m a (n + k) = cells m a n ++ cells m (shift a n) k.
Proof.
  unfold cells. rewrite seq_app, map_app. f_equal. rewrite Nat.add_0_l.
  apply (nth_ext _ _ 0 0); [rewrite !map_length, !seq_length; reflexivity|]. intros i Hi. rewrite map_length, seq_length in Hi.
  rewrite (nth_indep _ 0 (m (shift a 0))) by (rewrite map_length, seq_length; exact Hi).
  rewrite (map_nth (fun i => m (shift a i))), seq_nth by exact Hi.
  rewrite (nth_indep _ 0 (m (shift (shift a n) 0))) by (rewrite map_length, seq_length; exact Hi).
  rewrite (map_nth (fun i => m (shift (shift a n) i))), seq_nth by exact Hi. rewrite shift_shift. reflexivity.
Qed.

Definition over (m : memory) (a : addr) (xs : list N) : memory :=
  fun x => if within a (length xs) x then nth (num x - num a) xs 0 else m x.

(** ** Code that stays within bounds *)

(** Whose memory a goroutine may read and write. Usually it writes only to its own
    and reads that of the goroutine that started it, too. *)
Record perm := mkPerm { self : nat; rd : nat -> Prop; wr : nat -> Prop; self_wr : wr self; wr_rd : forall w, wr w -> rd w }.
Definition usual (id : nat) : perm := mkPerm id (fun w => w = id \/ w = O) (fun w => w = id) eq_refl (fun w H => or_introl H).
Coercion self : perm >-> nat.
Coercion usual : nat >-> perm.
Definition may (id : perm) (a : addr) : Prop := rd id (who a).
Definition can (id : perm) (a : addr) : Prop := wr id (who a).
Lemma can_may (id : perm) a : can id a -> may id a.
Proof. apply wr_rd. Qed.
Fixpoint safe {A} (id : perm) (c : code A) (m : memory) (u : bool -> nat) (Q : A -> memory -> (bool -> nat) -> Prop) : Prop :=
  match c with
  | Return x => Q x m u
  | Crash => False
  | Get a k => may id a /\ safe id (k (m a)) m u Q
  | Put a v k => can id a /\ safe id k (put m a v) u Q
  | New l n k => safe id (k (mkA id l (u l))) (clear m (mkA id l (u l)) n) (grow u l n) Q
  end.

Lemma safe_mono {A} (id : perm) (c : code A) : forall m u (P Q : A -> memory -> (bool -> nat) -> Prop),
  safe id c m u P -> (forall x m' u', P x m' u' -> Q x m' u') -> safe id c m u Q.
Proof. induction c; cbn [safe]; intros m u P Q S M; try tauto; try (apply M; assumption); try (split; [apply S|eapply H; [apply S|exact M]]); eauto.
  split; [apply S|eapply IHc; [apply S|exact M]]. Qed.
Lemma safe_then {A B} (id : perm) (c : code A) (f : A -> code B) : forall m u Q,
  safe id c m u (fun x m' u' => safe id (f x) m' u' Q) -> safe id (thenc c f) m u Q.
Proof.
  induction c; cbn [safe thenc]; intros m u Q S; try exact S.
  - split; [apply S|]. apply H, S.
  - split; [apply S|]. apply IHc, S.
  - apply H, S.
Qed.
Lemma safe_seq {A B} (id : perm) (c : code A) (f : A -> code B) m u (P : A -> memory -> (bool -> nat) -> Prop) Q :
  safe id c m u P -> (forall x m' u', P x m' u' -> safe id (f x) m' u' Q) -> safe id (thenc c f) m u Q.
Proof. intros S M. apply safe_then. eapply safe_mono; [exact S|exact M]. Qed.

Lemma safe_get (id : perm) a m u (Q : N -> memory -> (bool -> nat) -> Prop) : may id a -> Q (m a) m u -> safe id (get a) m u Q.
Proof. intros M H. split; assumption. Qed.
Lemma safe_set (id : perm) a v m u (Q : unit -> memory -> (bool -> nat) -> Prop) : can id a -> Q tt (put m a v) u -> safe id (set a v) m u Q.
Proof. intros M H. split; assumption. Qed.
Lemma may_shift (id : perm) a i : may id a -> may id (shift a i).
Proof. exact (fun H => H). Qed.
Lemma safe_gets (id : perm) n : forall a m u (Q : list N -> memory -> (bool -> nat) -> Prop),
  may id a -> Q (cells m a n) m u -> safe id (gets a n) m u Q.
Proof.
  induction n as [|n IH]; intros a m u Q M H; [exact H|]. cbn [gets]. apply safe_then, safe_get; [exact M|]. apply safe_then, IH; [exact M|].
  rewrite cells_S in H. exact H.
Qed.
Lemma safe_sets (id : perm) vs : forall a m u (Q : unit -> memory -> (bool -> nat) -> Prop), can id a ->
  (forall m', (forall x, m' x = over m a vs x) -> Q tt m' u) -> safe id (sets a vs) m u Q.
Proof.
  induction vs as [|v vs IH]; intros a m u Q M H.
  - apply H. intros x. unfold over, within. cbn [length]. rewrite Nat.add_0_r.
    destruct (Nat.leb_spec (num a) (num x)), (Nat.ltb_spec (num x) (num a)); try lia; rewrite ?andb_false_r; reflexivity.
  - cbn [sets]. apply safe_then, safe_set; [exact M|]. apply IH; [exact M|]. intros m' Hm. apply H. intros x. rewrite Hm.
    unfold over. destruct (within_spec (shift a 1) (length vs) x) as [W|W], (within_spec a (length (v :: vs)) x) as [V|V];
      cbn [who lib num shift length] in *.
    + replace (num x - num a)%nat with (S (num x - (num a + 1)))%nat by lia. reflexivity.
    + exfalso. apply V. intuition lia.
    + unfold put. destruct (same_spec x a) as [->|D]; [rewrite Nat.sub_diag; reflexivity|].
      exfalso. apply W. destruct V as (V1 & V2 & V3). repeat split; try assumption; try lia.
      assert (num x <> num a) by (intros E; apply D; destruct x as [xi xl xn], a as [ai al an]; cbn [who lib num] in *; congruence). lia.
    + unfold put. destruct (same_spec x a) as [->|D]; [|reflexivity]. exfalso. apply V. repeat split; lia.
Qed.
Lemma safe_new (id : perm) l n m u (Q : addr -> memory -> (bool -> nat) -> Prop) :
  Q (mkA id l (u l)) (clear m (mkA id l (u l)) n) (grow u l n) -> safe id (new l n) m u Q.
Proof. exact (fun H => H). Qed.
Lemma safe_lift {A} (id : perm) (x : outcome A) y m u (Q : A -> memory -> (bool -> nat) -> Prop) : x = Ret y -> Q y m u -> safe id (lift x) m u Q.
Proof. intros -> H. exact H. Qed.

(** Alone, such code gets to its end, and writes to nobody else's memory. *)
Lemma safe_alone_perm {A} (id : perm) (c : code A) : forall m u Q, safe id c m u Q ->
  exists x m' u', alone id c m u = Some (x, m', u') /\ Q x m' u' /\ forall a, ~ can id a -> m' a = m a.
Proof.
  induction c as [x| |a k IH|a v k IH|l n k IH]; cbn [safe alone]; intros m u Q S.
  - exists x, m, u. auto.
  - contradiction.
  - destruct S as [_ S]. apply (IH _ _ _ _ S).
  - destruct S as [W S]. destruct (IH _ _ _ S) as (x & m' & u' & E & HQ & F). exists x, m', u'. split; [exact E|]. split; [exact HQ|].
    intros b Hb. rewrite F by exact Hb. unfold put. destruct (same_spec b a) as [->|]; [contradiction|reflexivity].
  - destruct (IH _ _ _ _ S) as (x & m' & u' & E & HQ & F). exists x, m', u'. split; [exact E|]. split; [exact HQ|].
    intros b Hb. rewrite F by exact Hb. unfold clear. destruct (within_spec (mkA id l (u l)) n b) as [(W & _)|]; [destruct Hb; unfold can; rewrite W; apply self_wr|reflexivity].
Qed.
Lemma safe_alone {A} (id : nat) (c : code A) m u Q : safe id c m u Q ->
  exists x m' u', alone id c m u = Some (x, m', u') /\ Q x m' u' /\ forall a, who a <> id -> m' a = m a.
Proof. apply safe_alone_perm. Qed.

(** What others do to their own memory makes no difference to it. *)
Definition agree (id : perm) (m m' : memory) : Prop := forall a, may id a -> m' a = m a.
Definition concerns {A} (id : perm) (Q : A -> memory -> Prop) : Prop := forall x m m', agree id m m' -> Q x m -> Q x m'.
Lemma safe_ext {A} (id : perm) (c : code A) (Q : A -> memory -> Prop) (L : concerns id Q) : forall m m' u, agree id m m' ->
  safe id c m u (fun x m _ => Q x m) -> safe id c m' u (fun x m _ => Q x m).
Proof.
  induction c as [x| |a k IH|a v k IH|l n k IH]; cbn [safe]; intros m m' u H S; try assumption.
  - apply (L x m); assumption.
  - destruct S as [M S]. split; [exact M|]. rewrite (H a M). apply (IH _ m m'); assumption.
  - destruct S as [M S]. split; [exact M|]. apply (IH (put m a v)); [|exact S]. intros b Hb. unfold put. rewrite (H b Hb). reflexivity.
  - apply (IH _ (clear m (mkA id l (u l)) n)); [|exact S]. intros b Hb. unfold clear. rewrite (H b Hb). reflexivity.
Qed.

(** ** Goroutines *)

Lemma nth_replaced {A} i (x : A) l : forall j, nth_error (replaced i x l) j =
  if Nat.eqb i j then match nth_error l j with Some _ => Some x | None => None end else nth_error l j.
Proof.
  revert i. induction l as [|y l IH]; intros [|i] [|j]; cbn [replaced nth_error Nat.eqb]; try reflexivity.
  - destruct (Nat.eqb i j); reflexivity.
  - apply IH.
Qed.
Lemma replaced_length {A} i (x : A) l : length (replaced i x l) = length l.
Proof. revert i. induction l as [|y l IH]; intros [|i]; cbn [replaced length]; congruence. Qed.

Section System.
Context {A : Type} (Q : nat -> A -> memory -> Prop) (Loc : forall i, concerns (S i) (Q i)).
Definition fine (w : system A) : Prop :=
  forall i t, nth_error (snd w) i = Some t -> safe (S i) (todo t) (fst w) (used t) (fun x m _ => Q i x m).

Lemma fine_moves w w' : fine w -> moves w w' -> fine w'.
Proof.
  intros F M. destruct M as [m ts i t m' t' Ht Ha]. intros j tj Hj. cbn [fst snd] in *. rewrite nth_replaced in Hj.
  pose proof (F i t Ht) as Sf. cbn [fst snd] in Sf.
  assert (D : safe (S i) (todo t') m' (used t') (fun x m _ => Q i x m) /\ forall a, who a <> S i -> m' a = m a).
  { unfold advance in Ha. destruct (todo t) as [x| |a k|a v k|l n k]; cbn [safe] in Sf; try discriminate; injection Ha as <- <-; cbn [todo used].
    - split; [apply Sf|reflexivity].
    - split; [apply Sf|]. intros b Hb. unfold put. destruct (same_spec b a) as [->|]; [destruct Sf; contradiction|reflexivity].
    - split; [exact Sf|]. intros b Hb. unfold clear. destruct (within_spec (mkA (S i) l (used t l)) n b) as [(W & _)|]; [contradiction|reflexivity]. }
  destruct D as [D1 D2]. destruct (Nat.eqb_spec i j) as [<-|N].
  - rewrite Ht in Hj. injection Hj as <-. exact D1.
  - apply (safe_ext _ _ _ (Loc j) m); [|apply (F j tj Hj)]. intros a [Ha'|Ha']; apply D2; lia.
Qed.
Lemma fine_becomes w w' : becomes w w' -> fine w -> fine w'.
Proof. induction 1 as [|w w1 w2 _ IH M]; intros F; [exact F|]. apply (fine_moves w1); [apply IH, F|exact M]. Qed.

Lemma fine_no_race w : fine w -> ~ race w.
Proof.
  intros F (i & j & ti & tj & a & N & Hi & Hj & Wi & X).
  pose proof (F i ti Hi) as Si. pose proof (F j tj Hj) as Sj.
  assert (Wa : who a = S i).
  { unfold writes in Wi. destruct (todo ti); cbn [safe] in Si; try contradiction; [subst; apply Si|]. apply within_iff in Wi. apply Wi. }
  destruct X as [X|X].
  - unfold reads in X. destruct (todo tj); cbn [safe] in Sj; try contradiction. subst. destruct Sj as [[M|M] _]; lia.
  - assert (who a = S j); [|lia]. unfold writes in X. destruct (todo tj); cbn [safe] in Sj; try contradiction; [subst; apply Sj|].
    apply within_iff in X. apply X.
Qed.
Lemma fine_ends w i t : fine w -> nth_error (snd w) i = Some t -> todo t <> Crash /\ forall x, todo t = Return x -> Q i x (fst w).
Proof.
  intros F H. pose proof (F i t H) as Sf. split; [intros E; rewrite E in Sf; exact Sf|]. intros x E. rewrite E in Sf. exact Sf.
Qed.
Lemma fine_main w w' : becomes w w' -> fine w -> forall a, who a = O -> fst w' a = fst w a.
Proof.
  induction 1 as [|w w1 w2 B IH M]; intros F a Ha; [reflexivity|]. rewrite <- IH by assumption. pose proof (fine_becomes _ _ B F) as F1.
  destruct M as [m ts i t m' t' Ht Hm]. pose proof (F1 i t Ht) as Sf. cbn [fst] in *. unfold advance in Hm.
  destruct (todo t) as [x| |b k|b v k|l n k]; cbn [safe] in Sf; try discriminate; injection Hm as <- _.
  - reflexivity.
  - unfold put. destruct (same_spec a b) as [->|]; [destruct Sf as [C _]; change (who b = S i) in C; lia|reflexivity].
  - unfold clear. destruct (within_spec (mkA (S i) l (used t l)) n a) as [(W & _)|]; [cbn [who] in W; lia|reflexivity].
Qed.
Lemma fine_goes_on w : fine w -> (exists w', moves w w') \/ forall i t, nth_error (snd w) i = Some t -> exists x, todo t = Return x.
Proof.
  intros F. destruct w as [m ts]. cbn [snd].
  assert (D : forall l k, (forall i, nth_error l i = nth_error ts (k + i)) ->
    (exists i t, nth_error ts i = Some t /\ exists y, advance (S i) m t = Some y) \/ forall i t, nth_error l i = Some t -> exists x, todo t = Return x).
  { induction l as [|t l IH]; intros k Hk; [right; intros [|i] t0; discriminate|].
    assert (Ht : nth_error ts k = Some t) by (rewrite <- (Nat.add_0_r k), <- Hk; reflexivity).
    destruct (IH (S k)) as [L|R]; [intros i; rewrite Nat.add_succ_comm, <- Hk; reflexivity|left; exact L|].
    destruct (advance (S k) m t) as [y|] eqn:Ea; [left; exists k, t; eauto|]. right. intros [|i] t0 H; [|apply (R i t0 H)].
    injection H as <-. pose proof (proj1 (fine_ends _ _ _ F Ht)) as C. unfold advance in Ea. destruct (todo t); try discriminate; [eauto|contradiction]. }
  destruct (D ts O) as [(i & t & Ht & [m' t'] & Ea)|R]; [reflexivity| |right; exact R]. left. exists (m', replaced i t' ts). econstructor; eassumption.
Qed.
End System.

Lemma becomes_length {A} (w w' : system A) : becomes w w' -> length (snd w') = length (snd w).
Proof. induction 1 as [|w w1 w2 _ IH M]; [reflexivity|]. rewrite <- IH. destruct M. cbn [snd]. apply replaced_length. Qed.

(** There is no infinite execution. *)
Definition later {A} (c' c : code A) : Prop :=
  match c with
  | Get _ k => exists v, c' = k v
  | Put _ _ k => c' = k
  | New _ _ k => exists a, c' = k a
  | _ => False
  end.
Lemma later_wf {A} : forall c : code A, Acc later c.
Proof.
  induction c as [x| |a k IH|a v k IH|l n k IH]; constructor; intros c' L; cbn [later] in L; try contradiction.
  - destruct L as [v ->]. apply IH.
  - subst. exact IH.
  - destruct L as [v ->]. apply IH.
Qed.
Inductive later_one {A} : list (code A) -> list (code A) -> Prop :=
| first c' c l : later c' c -> later_one (c' :: l) (c :: l)
| rest c l' l : later_one l' l -> later_one (c :: l') (c :: l).
Lemma later_one_wf {A} : forall l : list (code A), Acc later_one l.
Proof.
  induction l as [|c l IH]; [constructor; intros l' H; inversion H|].
  revert l IH. induction (later_wf c) as [c _ IHc]. intros l IH. induction IH as [l Hl IHl].
  constructor. intros l' H. inversion H as [c' ? ? L|? l1 ? L]; subst.
  - apply IHc; [exact L|constructor; exact Hl].
  - apply IHl, L.
Qed.
Lemma moves_later {A} (w w' : system A) : moves w w' -> later_one (map todo (snd w')) (map todo (snd w)).
Proof.
  intros M. destruct M as [m ts i t m' t' Ht Ha]. cbn [snd].
  assert (L : later (todo t') (todo t)).
  { unfold advance in Ha. destruct (todo t); try discriminate; injection Ha as <- <-; cbn [later todo]; eauto. }
  clear Ha. revert i Ht. induction ts as [|x ts IH]; intros [|i] Ht; try discriminate; cbn [replaced map].
  - injection Ht as <-. constructor. exact L.
  - constructor. apply IH, Ht.
Qed.
Lemma no_infinite {A} (f : nat -> system A) : ~ (forall n, moves (f n) (f (S n))).
Proof.
  intros M. assert (forall l, Acc later_one l -> forall n, l = map todo (snd (f n)) -> False) as X.
  { induction 1 as [l _ IH]. intros n ->. apply (IH (map todo (snd (f (S n)))) (moves_later _ _ (M n)) (S n) eq_refl). }
  apply (X _ (later_one_wf _) O eq_refl).
Qed.
