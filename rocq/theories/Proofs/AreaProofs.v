(** Code that stays within an area of memory. As `safe` in GoroutineProofs.v, but
    what may be read and written is said address by address. *)
From Verif Require Import Base.Go Base.Goroutine Proofs.GoroutineProofs Proofs.HashAtomProofs.
Local Open Scope N_scope.

(** Who, and what it may read and write. What it may write it may read. *)
Record area := mkArea { me : nat; rds : addr -> Prop; wrs : addr -> Prop; wrs_rds : forall a, wrs a -> rds a }.

Fixpoint stays {A} (p : area) (c : code A) (m : memory) (u : bool -> nat) (Q : A -> memory -> (bool -> nat) -> Prop) : Prop :=
  match c with
  | Return x => Q x m u
  | Crash => False
  | Get a k => rds p a /\ stays p (k (m a)) m u Q
  | Put a v k => wrs p a /\ stays p k (put m a v) u Q
  | New l n k => (forall j, (j < n)%nat -> wrs p (shift (mkA (me p) l (u l)) j))
      /\ stays p (k (mkA (me p) l (u l))) (clear m (mkA (me p) l (u l)) n) (grow u l n) Q
  end.

Lemma stays_mono {A} (p : area) (c : code A) : forall m u (P Q : A -> memory -> (bool -> nat) -> Prop),
  stays p c m u P -> (forall x m' u', P x m' u' -> Q x m' u') -> stays p c m u Q.
Proof.
  induction c as [x| |a k IH|a v k IH|l n k IH]; cbn [stays]; intros m u P Q S M; try tauto.
  - apply M, S.
  - split; [apply S|]. apply (IH _ _ _ P); [apply S|exact M].
  - split; [apply S|]. apply (IH _ _ P); [apply S|exact M].
  - split; [apply S|]. apply (IH _ _ _ P); [apply S|exact M].
Qed.
Lemma stays_then {A B} (p : area) (c : code A) (f : A -> code B) : forall m u Q,
  stays p c m u (fun x m' u' => stays p (f x) m' u' Q) -> stays p (thenc c f) m u Q.
Proof.
  induction c as [x| |a k IH|a v k IH|l n k IH]; cbn [stays thenc]; intros m u Q S; try exact S.
  - split; [apply S|]. apply IH, S.
  - split; [apply S|]. apply IH, S.
  - split; [apply S|]. apply IH, S.
Qed.
Lemma stays_seq {A B} (p : area) (c : code A) (f : A -> code B) m u (P : A -> memory -> (bool -> nat) -> Prop) Q :
  stays p c m u P -> (forall x m' u', P x m' u' -> stays p (f x) m' u' Q) -> stays p (thenc c f) m u Q.
Proof. intros S M. apply stays_then. eapply stays_mono; [exact S|exact M]. Qed.
Lemma stays_get (p : area) a m u (Q : N -> memory -> (bool -> nat) -> Prop) : rds p a -> Q (m a) m u -> stays p (get a) m u Q.
Proof. intros M H. split; assumption. Qed.
Lemma stays_set (p : area) a v m u (Q : unit -> memory -> (bool -> nat) -> Prop) : wrs p a ->
  (forall m', is_over m a [v] m' -> Q tt m' u) -> stays p (set a v) m u Q.
Proof. intros W H. split; [exact W|]. apply H, put_over. Qed.
Lemma stays_gets (p : area) n : forall a m u (Q : list N -> memory -> (bool -> nat) -> Prop),
  (forall j, (j < n)%nat -> rds p (shift a j)) -> Q (cells m a n) m u -> stays p (gets a n) m u Q.
Proof.
  induction n as [|n IH]; intros a m u Q M H; [exact H|]. cbn [gets]. apply stays_then, stays_get; [rewrite <- (shift_0 a); apply M; lia|].
  apply stays_then, IH; [intros j Hj; rewrite shift_shift; apply M; lia|]. rewrite cells_S in H. exact H.
Qed.
Lemma stays_sets (p : area) vs : forall a m u (Q : unit -> memory -> (bool -> nat) -> Prop), (forall j, (j < length vs)%nat -> wrs p (shift a j)) ->
  (forall m', is_over m a vs m' -> Q tt m' u) -> stays p (sets a vs) m u Q.
Proof.
  induction vs as [|v vs IH]; intros a m u Q M H.
  - apply H. intros x. unfold over, within. cbn [length]. rewrite Nat.add_0_r.
    destruct (Nat.leb_spec (num a) (num x)), (Nat.ltb_spec (num x) (num a)); try lia; rewrite ?andb_false_r; reflexivity.
  - cbn [sets length] in *. apply stays_then. split; [rewrite <- (shift_0 a); apply M; lia|]. apply IH; [intros j Hj; rewrite shift_shift; apply M; lia|].
    intros m' Hm. apply H. intros x. rewrite Hm.
    unfold over. destruct (within_spec (shift a 1) (length vs) x) as [W|W], (within_spec a (length (v :: vs)) x) as [V|V];
      cbn [who lib num shift length] in *.
    + replace (num x - num a)%nat with (S (num x - (num a + 1)))%nat by lia. reflexivity.
    + exfalso. apply V. intuition lia.
    + unfold put. destruct (same_spec x a) as [->|D]; [rewrite Nat.sub_diag; reflexivity|].
      exfalso. apply W. destruct V as (V1 & V2 & V3). repeat split; try assumption; try lia.
      assert (num x <> num a) by (intros E; apply D; destruct x as [xi xl xn], a as [ai al an]; cbn [who lib num] in *; congruence). lia.
    + unfold put. destruct (same_spec x a) as [->|D]; [|reflexivity]. exfalso. apply V. repeat split; lia.
Qed.
Lemma stays_new (p : area) l n m u (Q : addr -> memory -> (bool -> nat) -> Prop) :
  (forall j, (j < n)%nat -> wrs p (shift (mkA (me p) l (u l)) j)) ->
  (forall m', is_over m (mkA (me p) l (u l)) (repeat 0 n) m' -> Q (mkA (me p) l (u l)) m' (grow u l n)) -> stays p (new l n) m u Q.
Proof. intros W H. split; [exact W|]. apply H, clear_over. Qed.
Lemma stays_lift {A} (p : area) (x : outcome A) y m u (Q : A -> memory -> (bool -> nat) -> Prop) : x = Ret y -> Q y m u -> stays p (lift x) m u Q.
Proof. intros -> H. exact H. Qed.

(** Alone, such code gets to its end, and changes nothing outside. *)
Lemma cleared_out (p : area) l n m u x : (forall j, (j < n)%nat -> wrs p (shift (mkA (me p) l (u l)) j)) -> ~ wrs p x -> clear m (mkA (me p) l (u l)) n x = m x.
Proof.
  intros W Nx. unfold clear. destruct (within (mkA (me p) l (u l)) n x) eqn:E; [|reflexivity]. destruct Nx. rewrite (in_shift _ _ _ E).
  apply within_iff in E. cbn [num] in *. apply W. lia.
Qed.
Lemma stays_alone {A} (p : area) (c : code A) : forall m u Q, stays p c m u Q ->
  exists x m' u', alone (me p) c m u = Some (x, m', u') /\ Q x m' u' /\ forall a, ~ wrs p a -> m' a = m a.
Proof.
  induction c as [x| |a k IH|a v k IH|l n k IH]; cbn [stays alone]; intros m u Q S.
  - exists x, m, u. auto.
  - contradiction.
  - destruct S as [_ S]. apply (IH _ _ _ _ S).
  - destruct S as [W S]. destruct (IH _ _ _ S) as (x & m' & u' & E & HQ & F). exists x, m', u'. split; [exact E|]. split; [exact HQ|].
    intros b Hb. rewrite F by exact Hb. unfold put. destruct (same_spec b a) as [->|]; [contradiction|reflexivity].
  - destruct S as [W S]. destruct (IH _ _ _ _ S) as (x & m' & u' & E & HQ & F). exists x, m', u'. split; [exact E|]. split; [exact HQ|].
    intros b Hb. rewrite F by exact Hb. apply cleared_out; assumption.
Qed.

(** What happens outside makes no difference to it. *)
Definition alike_in (p : area) (m m' : memory) : Prop := forall a, rds p a -> m' a = m a.
Lemma stays_ext {A} (p : area) (c : code A) (Q : A -> memory -> (bool -> nat) -> Prop)
  (L : forall x m m' u, alike_in p m m' -> Q x m u -> Q x m' u) : forall m m' u, alike_in p m m' -> stays p c m u Q -> stays p c m' u Q.
Proof.
  induction c as [x| |a k IH|a v k IH|l n k IH]; cbn [stays]; intros m m' u H S; try assumption.
  - apply (L x m); assumption.
  - destruct S as [M S]. split; [exact M|]. rewrite (H a M). apply (IH _ m m'); assumption.
  - destruct S as [M S]. split; [exact M|]. apply (IH (put m a v)); [|exact S]. intros b Hb. unfold put. rewrite (H b Hb). reflexivity.
  - destruct S as [M S]. split; [exact M|]. apply (IH _ (clear m (mkA (me p) l (u l)) n)); [|exact S]. intros b Hb. unfold clear. rewrite (H b Hb). reflexivity.
Qed.
Lemma stays_advance {A} (p : area) (c : code A) m u Q m' t' : stays p c m u Q -> advance (me p) m (mkT c u) = Some (m', t') ->
  stays p (todo t') m' (used t') Q /\ forall x, ~ wrs p x -> m' x = m x.
Proof.
  intros Sf Ha. unfold advance in Ha. destruct c as [x| |a k|a v k|l n k]; cbn [stays todo used] in *; try discriminate; injection Ha as <- <-; cbn [todo used].
  - split; [apply Sf|reflexivity].
  - split; [apply Sf|]. intros b Hb. unfold put. destruct (same_spec b a) as [->|]; [destruct Sf; contradiction|reflexivity].
  - destruct Sf as [W Sf]. split; [exact Sf|]. intros b Hb. apply cleared_out; assumption.
Qed.
(** The next access is inside. *)
Lemma stays_writes {A} (p : area) (c : code A) m u u' Q a : stays p c m u Q -> u' = u -> writes (me p) (mkT c u') a -> wrs p a.
Proof.
  intros S -> W. unfold writes in W. cbn [todo used] in W. destruct c as [x| |b k|b v k|l n k]; cbn [stays] in S; try contradiction; [subst; apply S|].
  rewrite (in_shift _ _ _ W). apply within_iff in W. cbn [num] in *. apply S. lia.
Qed.
Lemma stays_reads {A} (p : area) (c : code A) m u u' Q a : stays p c m u Q -> reads (mkT c u') a -> rds p a.
Proof.
  intros S R. unfold reads in R. cbn [todo] in R. destruct c as [x| |b k|b v k|l n k]; cbn [stays] in S; try contradiction. subst. apply S.
Qed.
