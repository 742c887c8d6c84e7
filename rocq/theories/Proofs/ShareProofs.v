(** Goroutines that keep to memory of their own, given as sets of addresses. *)
From Verif Require Import Base.Go Base.Goroutine Proofs.GoroutineProofs.
Local Open Scope N_scope.

(** Code that allocates nothing, reads only R and W, and writes only W, whatever
    it reads. *)
Fixpoint keeps {A} (R W : addr -> Prop) (c : code A) : Prop :=
  match c with
  | Return _ | Crash => True
  | Get a k => (R a \/ W a) /\ forall v, keeps R W (k v)
  | Put a v k => W a /\ keeps R W k
  | New _ _ _ => False
  end.
Lemma keeps_then {A B} R W (c : code A) (f : A -> code B) : keeps R W c -> (forall x, keeps R W (f x)) -> keeps R W (thenc c f).
Proof.
  induction c as [x| |a k IH|a v k IH|l n k IH]; cbn [keeps thenc]; intros K F; auto.
  - split; [apply K|]. intros v. apply IH; [apply K|exact F].
  - split; [apply K|]. apply IH; [apply K|exact F].
Qed.
Lemma keeps_gets (R W : addr -> Prop) n : forall a, (forall i, (i < n)%nat -> R (shift a i) \/ W (shift a i)) -> keeps R W (gets a n).
Proof.
  induction n as [|n IH]; intros a H; [exact Logic.I|]. cbn [gets]. apply keeps_then.
  - split; [|intros v; exact Logic.I]. rewrite <- (shift_0 a). apply H. lia.
  - intros v. apply keeps_then; [|intros; exact Logic.I]. apply IH. intros i Hi. rewrite shift_shift. apply H. lia.
Qed.
Lemma keeps_sets (R W : addr -> Prop) vs : forall a, (forall i, (i < length vs)%nat -> W (shift a i)) -> keeps R W (sets a vs).
Proof.
  induction vs as [|v vs IH]; intros a H; [exact Logic.I|]. cbn [sets]. cbn [length] in H. apply keeps_then.
  - split; [|exact Logic.I]. rewrite <- (shift_0 a). apply H. lia.
  - intros _. apply IH. intros i Hi. rewrite shift_shift. apply H. lia.
Qed.

Lemma alone_then {A B} (id : nat) (c : code A) (f : A -> code B) : forall M u,
  alone id (thenc c f) M u = match alone id c M u with Some (x, M', u') => alone id (f x) M' u' | None => None end.
Proof. induction c as [x| |a k IH|a v k IH|l n k IH]; intros M u; cbn [thenc alone]; auto. Qed.

(** It does the same in memories that agree there. *)
Definition ends_same {A} (S : addr -> Prop) (r r' : option (A * memory * (bool -> nat))) : Prop :=
  match r, r' with
  | Some (x, m, _), Some (x', m', _) => x = x' /\ forall a, S a -> m a = m' a
  | None, None => True
  | _, _ => False
  end.
Definition used_by (R W : addr -> Prop) (a : addr) : Prop := R a \/ W a.
Lemma ends_same_refl {A} S (r : option (A * memory * (bool -> nat))) : ends_same S r r.
Proof. destruct r as [[[x m] u]|]; cbn [ends_same]; auto. Qed.
Lemma ends_same_trans {A} S (r1 r2 r3 : option (A * memory * (bool -> nat))) : ends_same S r1 r2 -> ends_same S r2 r3 -> ends_same S r1 r3.
Proof.
  destruct r1 as [[[x1 m1] u1]|], r2 as [[[x2 m2] u2]|], r3 as [[[x3 m3] u3]|]; cbn [ends_same]; try tauto.
  intros [-> E1] [-> E2]. split; [reflexivity|]. intros a Ha. rewrite E1 by exact Ha. apply E2, Ha.
Qed.
Lemma alone_ext {A} (id : nat) R W (c : code A) : forall m m' u, keeps R W c -> (forall a, used_by R W a -> m a = m' a) ->
  ends_same (used_by R W) (alone id c m u) (alone id c m' u).
Proof.
  induction c as [x| |a k IH|a v k IH|l n k IH]; intros m m' u K E; cbn [alone keeps ends_same] in *; auto.
  - rewrite (E a) by apply K. apply IH; [apply K|exact E].
  - apply IH; [apply K|]. intros b Hb. unfold put. destruct (same b a); [reflexivity|apply E, Hb].
  - contradiction.
Qed.
Lemma alone_outside {A} (id : nat) R W (c : code A) : forall m u x m' u', keeps R W c -> alone id c m u = Some (x, m', u') ->
  u' = u /\ forall a, ~ W a -> m' a = m a.
Proof.
  induction c as [x| |a k IH|a v k IH|l n k IH]; intros m u y m' u' K E; cbn [alone keeps] in *.
  - injection E as _ <- <-. auto.
  - discriminate.
  - apply (IH _ _ _ _ _ _ (proj2 K _) E).
  - destruct (IH _ _ _ _ _ (proj2 K) E) as [E1 E2]. split; [exact E1|]. intros b Hb. rewrite E2 by exact Hb. unfold put.
    destruct (same_spec b a) as [->|_]; [exfalso; apply Hb, K|reflexivity].
  - contradiction.
Qed.

(** ** Several of them *)

Section Share.
Context {A : Type} (R W : nat -> addr -> Prop) (cs : list (code A)) (M : memory).
Hypothesis apart : forall i j a, i <> j -> W i a -> ~ W j a /\ ~ R j a.
Hypothesis kept : forall i c, nth_error cs i = Some c -> keeps (R i) (W i) c.

Definition begin : system A := (M, map (fun c => mkT c none) cs).
Definition going (w : system A) : Prop :=
  length (snd w) = length cs
  /\ (forall a, (forall i, (i < length cs)%nat -> ~ W i a) -> fst w a = M a)
  /\ forall i t, nth_error (snd w) i = Some t -> keeps (R i) (W i) (todo t)
  /\ exists c, nth_error cs i = Some c
     /\ ends_same (used_by (R i) (W i)) (alone (S i) (todo t) (fst w) (used t)) (alone (S i) c M none).

Lemma begin_going : going begin.
Proof.
  unfold going, begin. cbn [fst snd]. split; [apply map_length|]. split; [auto|].
  intros i t Ht. rewrite nth_error_map in Ht. destruct (nth_error cs i) as [c|] eqn:E; [|discriminate]. cbn [option_map] in Ht. injection Ht as <-.
  cbn [todo used]. split; [apply (kept i c E)|]. exists c. split; [reflexivity|apply ends_same_refl].
Qed.
Lemma going_moves w w' : going w -> moves w w' -> going w'.
Proof.
  intros (L & O & G) Mv. destruct Mv as [m ts i t m' t' Ht Ha]. cbn [fst snd] in *.
  destruct (G i t Ht) as (K & c & Ec & En).
  assert (Li : (i < length cs)%nat) by (apply nth_error_Some; congruence).
  assert (X : keeps (R i) (W i) (todo t') /\ (forall a, ~ W i a -> m' a = m a)
            /\ alone (S i) (todo t') m' (used t') = alone (S i) (todo t) m (used t)).
  { unfold advance in Ha. destruct (todo t) as [x| |a k|a v k|l n k] eqn:E; try discriminate; cbn [keeps] in K; try contradiction; injection Ha as <- <-; cbn [todo used alone].
    - split; [apply K|]. auto.
    - split; [apply K|]. split; [|reflexivity]. intros b Hb. unfold put. destruct (same_spec b a) as [->|_]; [exfalso; apply Hb, K|reflexivity]. }
  destruct X as (K' & Out & Al). split; [cbn [snd]; rewrite replaced_length; exact L|]. split.
  { intros a Ha'. rewrite Out by (apply Ha', Li). apply O, Ha'. }
  intros j tj Hj. cbn [fst snd] in Hj |- *. rewrite nth_replaced in Hj. destruct (Nat.eqb_spec i j) as [<-|N].
  - rewrite Ht in Hj. injection Hj as <-. split; [exact K'|]. exists c. split; [exact Ec|]. rewrite Al. exact En.
  - destruct (G j tj Hj) as (Kj & cj & Ej & Enj). split; [exact Kj|]. exists cj. split; [exact Ej|].
    apply (ends_same_trans _ _ (alone (S j) (todo tj) m (used tj))); [|exact Enj].
    apply alone_ext; [exact Kj|]. intros a Ha'. apply Out. intros Wi. destruct (apart i j a N Wi). destruct Ha'; contradiction.
Qed.
Lemma going_becomes w w' : becomes w w' -> going w -> going w'.
Proof. induction 1 as [|w w1 w2 _ IH Mv]; intros G; [exact G|]. apply (going_moves w1); [apply IH, G|exact Mv]. Qed.
Lemma going_no_race w : going w -> ~ race w.
Proof.
  intros (_ & _ & G) (i & j & ti & tj & a & N & Hi & Hj & Wi & X).
  destruct (G i ti Hi) as (Ki & _). destruct (G j tj Hj) as (Kj & _).
  assert (Wa : W i a). { unfold writes in Wi. destruct (todo ti); cbn [keeps] in Ki; try contradiction. subst. apply Ki. }
  destruct (apart i j a N Wa) as [N1 N2]. destruct X as [X|X].
  - unfold reads in X. destruct (todo tj); cbn [keeps] in Kj; try contradiction. subst. destruct Kj as [[Q|Q] _]; contradiction.
  - unfold writes in X. destruct (todo tj); cbn [keeps] in Kj; try contradiction. subst. destruct Kj; contradiction.
Qed.
Lemma goes_on {B} (w : system B) : (exists w', moves w w') \/ forall i t, nth_error (snd w) i = Some t -> (exists x, todo t = Return x) \/ todo t = Crash.
Proof.
  destruct w as [m ts]. cbn [snd].
  assert (D : (exists i (t : thread B), nth_error ts i = Some t /\ advance (S i) m t <> None) \/ forall i t, nth_error ts i = Some t -> advance (S i) m t = None).
  { assert (G : forall (l : list (thread B)) k, (exists i t, nth_error l i = Some t /\ advance (S (k + i)) m t <> None) \/ forall i t, nth_error l i = Some t -> advance (S (k + i)) m t = None).
    { induction l as [|t l IH]; intros k; [right; intros [|i] t E; discriminate|].
      destruct (advance (S (k + 0)) m t) as [w|] eqn:E; [left; exists O, t; split; [reflexivity|congruence]|].
      destruct (IH (S k)) as [(i & t' & E1 & E2)|H].
      - left. exists (S i), t'. split; [exact E1|]. replace (k + S i)%nat with (S k + i)%nat by lia. exact E2.
      - right. intros [|i] t' E'; [injection E' as <-; exact E|]. replace (k + S i)%nat with (S k + i)%nat by lia. apply H, E'. }
    exact (G ts O). }
  destruct D as [(i & t & E1 & E2)|H].
  - left. destruct (advance (S i) m t) as [[m' t']|] eqn:E; [|congruence]. eexists. econstructor; eassumption.
  - right. intros i t E. specialize (H i t E). unfold advance in H. destruct (todo t); try discriminate; eauto.
Qed.
Lemma going_ends w i t : going w -> nth_error (snd w) i = Some t -> exists c, nth_error cs i = Some c
  /\ (todo t = Crash -> alone (S i) c M none = None)
  /\ forall x, todo t = Return x -> exists m u, alone (S i) c M none = Some (x, m, u) /\ forall a, R i a \/ W i a -> fst w a = m a.
Proof.
  intros (_ & _ & G) Ht. destruct (G i t Ht) as (_ & c & Ec & En). exists c. split; [exact Ec|]. split.
  - intros E. rewrite E in En. cbn [alone] in En. destruct (alone (S i) c M none) as [[[x m] u]|]; [contradiction|reflexivity].
  - intros x E. rewrite E in En. cbn [alone ends_same] in En. destruct (alone (S i) c M none) as [[[x' m] u]|]; [|contradiction].
    destruct En as [-> En]. exists m, u. auto.
Qed.
End Share.
