(** Proofs for C107: the accesses of packages hex and codegen do not depend on the data. *)
From Verif Require Import Base.Go Base.HashUse Base.Goroutine Base.GoUse Base.LibUse Base.Trace Spec.HexSpec Spec.CodegenSpec Spec.TraceSpec Spec.LibTraceSpec Spec.GoUseSpec Spec.LibUseSpec.
From Verif Require Import Model.Hex Model.HashAtom Model.HexAtom Proofs.Util Proofs.HexProofs Proofs.GoroutineProofs Proofs.GoUseProofs Proofs.HexAtomProofs Proofs.LibUseProofs Proofs.TraceProofs.
From Verif Require Model.Codegen.
Local Open Scope N_scope.

(** Two runs, and what is known of each. *)
Lemma lock_safe {A B} (id : nat) Q (c : code A) (P : A -> memory -> (bool -> nat) -> Prop) (P' : B -> memory -> (bool -> nat) -> Prop) : forall (d : code B) m m' u,
  lock id Q c d m m' u -> safe id c m u P -> safe id d m' u P' ->
  lock id (fun x y n n' v => Q x y n n' v /\ P x n v /\ P' y n' v) c d m m' u.
Proof.
  induction c as [x| |a k IH|a v k IH|l n k IH]; intros [y| |b j|b w j|l' n' j] m m' u H S S'; cbn [lock safe] in *; try contradiction.
  - auto.
  - destruct H as [<- H], S as [_ S], S' as [_ S']. split; [reflexivity|]. apply IH; assumption.
  - destruct H as [<- H], S as [_ S], S' as [_ S']. split; [reflexivity|]. apply IH; assumption.
  - destruct H as (<- & <- & H). split; [reflexivity|]. split; [reflexivity|]. cbv zeta in *. apply IH; assumption.
Qed.

Lemma shape_length s s' : same_shape s s' -> length s = length s'.
Proof. induction 1; cbn [length]; congruence. Qed.
Lemma shape_nth s s' : same_shape s s' -> forall i c c', nth_error s i = Some c -> nth_error s' i = Some c' -> digit_value c = None <-> digit_value c' = None.
Proof. induction 1 as [|x y xs ys H F IH]; intros [|i] c c' E E'; cbn in *; try discriminate; [injection E as <-; injection E' as <-; exact H|apply (IH i c c' E E')]. Qed.

(** ** Filling a new buffer *)
Section Fill.
Context (id : nat) (J : memory -> memory -> Prop) (ret : addr) (u : bool -> nat).
Hypothesis stable : forall i v w m m', J m m' -> J (put m (shift ret i) v) (put m' (shift ret i) w).
Lemma f_set {A B} (Q : A -> B -> memory -> memory -> (bool -> nat) -> Prop) n i v w f g m m' : J m m' ->
  (forall k k', J k k' -> lock id Q (f tt) (g tt) k k' u) -> lock id Q (thenc (set_at ret n i v) f) (thenc (set_at ret n i w) g) m m' u.
Proof. intros E F. unfold set_at. destruct (Nat.ltb i n); [|exact Logic.I]. cbn [set thenc lock]. split; [reflexivity|]. apply F, stable, E. Qed.
Lemma f_sets {A B} (Q : A -> B -> memory -> memory -> (bool -> nat) -> Prop) xs : forall ys i f g m m', length xs = length ys -> J m m' ->
  (forall k k', J k k' -> lock id Q (f tt) (g tt) k k' u) -> lock id Q (thenc (sets (shift ret i) xs) f) (thenc (sets (shift ret i) ys) g) m m' u.
Proof.
  induction xs as [|x xs IH]; intros [|y ys] i f g m m' L E F; cbn [length] in L; try discriminate; cbn [sets].
  - cbn [thenc]. apply F, E.
  - cbn [set thenc lock]. split; [reflexivity|]. rewrite shift_shift. apply IH; [lia|apply stable, E|exact F].
Qed.
(** the end of a loop: the same pointer *)
Definition level {A} (p q : A) (n n' : memory) (v : bool -> nat) : Prop := p = q /\ J n n' /\ v = u.
Lemma f_seq {A C D} Q (c d : code A) (f : A -> code C) (g : A -> code D) m m' : lock id level c d m m' u ->
  (forall x n n', J n n' -> lock id Q (f x) (g x) n n' u) -> lock id Q (thenc c f) (thenc d g) m m' u.
Proof. intros H F. apply lock_then. eapply lock_mono; [|exact H]. cbv beta. intros x y n n' v (<- & E & ->). apply F, E. Qed.
Ltac st := apply f_set; [assumption|]; let k := fresh "k" in let k' := fresh "k'" in let E := fresh "E" in intros k k' E.
Ltac fin := cbn [lock]; split; [reflexivity|]; split; [assumption|reflexivity].

Lemma f_from src n cnt : (forall m m', J m m' -> forall i, (i < slen src)%nat -> m (shift (base src) i) < 256 /\ m' (shift (base src) i) < 256) ->
  forall i ptr m m', (i + cnt <= slen src)%nat -> J m m' -> lock id level (fromBytes_loop (base src) ret n cnt i ptr) (fromBytes_loop (base src) ret n cnt i ptr) m m' u.
Proof.
  intros Low. assert (T : forall v, v < 16 -> exists c, idx hexTable (N.to_nat v) = Ret c) by (intros v Hv; destruct (hexTable_ok v Hv); eauto).
  induction cnt as [|cnt IH]; intros i ptr m m' H E; cbn [fromBytes_loop]; [fin|].
  assert (G : forall k k', J k k' -> exists c c' d d', idx hexTable (N.to_nat (N.shiftr (k (shift (base src) i)) 4)) = Ret c /\ idx hexTable (N.to_nat (N.shiftr (k' (shift (base src) i)) 4)) = Ret c'
    /\ idx hexTable (N.to_nat (N.land (k (shift (base src) i)) 15)) = Ret d /\ idx hexTable (N.to_nat (N.land (k' (shift (base src) i)) 15)) = Ret d').
  { intros k k' Ek. destruct (Low k k' Ek i ltac:(lia)) as [B B']. rewrite !shiftr4, !land15. destruct (byte_nibbles _ B) as [N1 N2], (byte_nibbles _ B') as [N3 N4].
    destruct (T _ N1) as [c1 H1], (T _ N2) as [c2 H2], (T _ N3) as [c3 H3], (T _ N4) as [c4 H4]. exists c1, c3, c2, c4. auto. }
  destruct (G m m' E) as (c & c' & _ & _ & Ec & Ec' & _ & _).
  cbn [get thenc lock]. split; [reflexivity|]. rewrite Ec, Ec'. cbn [lift thenc]. st.
  destruct (G k k' E0) as (_ & _ & e & e' & _ & _ & Ee & Ee'). cbn [get thenc lock]. split; [reflexivity|]. rewrite Ee, Ee'. cbn [lift thenc]. st.
  apply IH; [lia|assumption].
Qed.
Lemma f_string h n cnt : forall i ptr m m', J m m' -> lock id level (string_loop h ret n cnt i ptr) (string_loop h ret n cnt i ptr) m m' u.
Proof.
  induction cnt as [|cnt IH]; intros i ptr m m' E; cbn [string_loop]; [fin|]. cbn [get thenc lock]. split; [reflexivity|].
  eapply f_seq.
  - destruct (Nat.even i); [st; st; fin|fin].
  - intros p n1 n1' E1. st. apply IH. assumption.
Qed.
Lemma f_string_sep hps h n cnt : forall i ptr m m', J m m' -> lock id level (string_sep_loop hps h ret n cnt i ptr) (string_sep_loop hps h ret n cnt i ptr) m m' u.
Proof.
  induction cnt as [|cnt IH]; intros i ptr m m' E; cbn [string_sep_loop]; [fin|]. cbn [get thenc lock]. split; [reflexivity|].
  eapply f_seq.
  - destruct (Nat.even i); [|fin]. eapply f_seq; [|intros p n1 n1' E1; st; st; fin]. destruct (_ && _)%bool; [st; st; st; fin|fin].
  - intros p n1 n1' E1. st. apply IH. assumption.
Qed.
Lemma f_hex_sep hps h n cnt : forall i ptr m m', J m m' -> lock id level (hex_sep_loop hps h ret n cnt i ptr) (hex_sep_loop hps h ret n cnt i ptr) m m' u.
Proof.
  induction cnt as [|cnt IH]; intros i ptr m m' E; cbn [hex_sep_loop]; [fin|]. cbn [get thenc lock]. split; [reflexivity|].
  eapply f_seq.
  - destruct (Nat.even i); [|fin]. eapply f_seq; [|intros p n1 n1' E1; st; st; fin]. destruct (Nat.ltb 1 ptr); [|fin]. st. st. cbv zeta. destruct (Z.eqb _ _); [st; fin|fin].
  - intros p n1 n1' E1. st. apply IH. assumption.
Qed.
Section Decode.
Context (bd : build) (s s' : list N).
Hypothesis B : bytes_ok s.
Hypothesis B' : bytes_ok s'.
Hypothesis Sh : same_shape s s'.
(** the two characters at a position, decoded *)
Lemma shape_idx i : (exists c c' v v', idx s i = Ret c /\ idx s' i = Ret c' /\ decode bd c = Ret v /\ decode bd c' = Ret v' /\
    ((v < 16 /\ v' < 16) \/ ((N.land v 240 =? 0) = false /\ (N.land v' 240 =? 0) = false /\ 15 < v /\ 15 < v'))) \/ idx s i = Panic /\ idx s' i = Panic.
Proof.
  unfold idx. destruct (nth_error s i) as [c|] eqn:E, (nth_error s' i) as [c'|] eqn:E'.
  - left. pose proof (shape_nth s s' Sh i c c' E E') as D. destruct (decodes bd _ ret eq_refl c (nth_error_bytes _ _ _ B E)) as (v & Ev & Lv & Vn & Vs). destruct (decodes bd _ ret eq_refl c' (nth_error_bytes _ _ _ B' E')) as (v' & Ev' & Lv' & Vn' & Vs').
    exists c, c', v, v'. repeat (split; [assumption || reflexivity|]). destruct (digit_value c) as [x|].
    + left. destruct (digit_value c') as [x'|]; [|exfalso; destruct D as [_ D]; specialize (D eq_refl); discriminate]. destruct (Vs x eq_refl) as [-> ?], (Vs' x' eq_refl) as [-> ?]. auto.
    + right. destruct D as [D _]. specialize (D eq_refl). specialize (Vn eq_refl). specialize (Vn' D). split; [exact Vn|]. split; [exact Vn'|]. split.
      * destruct (N.lt_ge_cases v 16) as [L|L]; [|lia]. rewrite (land_F0_small v L) in Vn. discriminate.
      * destruct (N.lt_ge_cases v' 16) as [L|L]; [|lia]. rewrite (land_F0_small v' L) in Vn'. discriminate.
  - exfalso. apply nth_error_None in E'. assert (i < length s)%nat by (apply nth_error_Some; congruence). pose proof (shape_length _ _ Sh). lia.
  - exfalso. apply nth_error_None in E. assert (i < length s')%nat by (apply nth_error_Some; congruence). pose proof (shape_length _ _ Sh). lia.
  - right. auto.
Qed.
Definition ends_even (r r' : hex_error + nat) : Prop :=
  match r, r' with
  | inl (InvalidHexAt _ i), inl (InvalidHexAt _ j) => i = j
  | inr i, inr j => i = j
  | _, _ => False
  end.
Lemma lor_bad v w : (N.land v 240 =? 0) = false -> (N.land (N.lor v w) 240 =? 0) = false.
Proof. intros H. apply N.eqb_neq. apply N.eqb_neq in H. rewrite N.land_lor_distr_l. intros X. apply N.lor_eq_0_iff in X. destruct X. contradiction. Qed.
Lemma f_to n fuel : forall i ptr m m', J m m' -> lock id (fun r r' k k' v => ends_even r r' /\ J k k' /\ v = u) (toBytes_loop bd s ret n fuel i ptr) (toBytes_loop bd s' ret n fuel i ptr) m m' u.
Proof.
  induction fuel as [|fuel IH]; intros i ptr m m' E; cbn [toBytes_loop]; [exact Logic.I|]. rewrite <- (shape_length _ _ Sh). destruct (Nat.ltb i (length s)); [|cbn [lock ends_even]; auto].
  destruct (shape_idx (i - 1)) as [(c & c' & v & v' & -> & -> & Ev & Ev' & H)|[-> ->]]; [|exact Logic.I].
  destruct (shape_idx i) as [(e & e' & w & w' & -> & -> & Ew & Ew' & H')|[-> ->]]; cbn [lift thenc]; rewrite Ev, Ev'; cbn [lift thenc]; [|exact Logic.I]. rewrite Ew, Ew'. cbn [lift thenc].
  destruct H as [[L L']|(L & L' & _)].
  - rewrite !(land_F0_small v), !(land_F0_small v') by assumption. cbn [N.eqb negb]. destruct H' as [[K K']|(K & K' & _)].
    + rewrite !(land_F0_small w), !(land_F0_small w') by assumption. cbn [N.eqb negb]. st. apply IH. assumption.
    + rewrite K, K'. cbn [negb lock ends_even]. auto.
  - rewrite L, L'. cbn [negb lock ends_even]. auto.
Qed.
Lemma f_fast n fuel : forall i ptr m m', J m m' -> lock id level (toBytesFast_loop bd s ret n fuel i ptr) (toBytesFast_loop bd s' ret n fuel i ptr) m m' u.
Proof.
  induction fuel as [|fuel IH]; intros i ptr m m' E; cbn [toBytesFast_loop]; [exact Logic.I|]. rewrite <- (shape_length _ _ Sh). destruct (Nat.ltb i (length s)); [|fin].
  destruct (shape_idx (i - 1)) as [(c & c' & v & v' & -> & -> & Ev & Ev' & H)|[-> ->]]; [|exact Logic.I].
  destruct (shape_idx i) as [(e & e' & w & w' & -> & -> & Ew & Ew' & H')|[-> ->]]; cbn [lift thenc]; rewrite Ev, Ev'; cbn [lift thenc]; [|exact Logic.I]. rewrite Ew, Ew'. cbn [lift thenc].
  destruct H as [[L L']|(L & L' & _)].
  - destruct H' as [[K K']|(K & K' & _)].
    + rewrite !N.land_lor_distr_l, !(land_F0_small v), !(land_F0_small v'), !(land_F0_small w), !(land_F0_small w') by assumption. cbn [N.lor N.eqb negb]. st. apply IH. assumption.
    + rewrite !(N.lor_comm v), !(N.lor_comm v'), !lor_bad by assumption. cbn [negb]. fin.
  - rewrite !lor_bad by assumption. cbn [negb]. fin.
Qed.
End Decode.
End Fill.

(** ** The functions *)
Section Functions.
Context (id : nat) (K : addr -> Prop).
Definition free_at (ret : addr) : Prop := forall i, ~ K (shift ret i).
Lemma agreed_stable ret : free_at ret -> forall i v w m m', agreed K m m' -> agreed K (put m (shift ret i) v) (put m' (shift ret i) w).
Proof. intros F i v w m m' E. apply put_agreed; [exact E|]. intros H. destruct (F i H). Qed.
Lemma sound_free u : sound K id u -> free_at (mkA id true (u true)).
Proof. intros S i H. destruct (S _ H) as [_ L]. cbn [shift who num] in L. specialize (L eq_refl). lia. Qed.
Lemma sound_false u n : sound K id u -> free_at (mkA id false n).
Proof. intros S i H. destruct (S _ H) as [L _]. discriminate. Qed.
Lemma sound_more u v : sound K id u -> (u true <= v true)%nat -> sound K id v.
Proof. intros S L x H. destruct (S x H) as [A B]. split; [exact A|]. intros W. specialize (B W). lia. Qed.
Lemma cleared a n m m' : agreed K m m' -> agreed K (clear m a n) (clear m' a n).
Proof. intros E x Kx. unfold clear. destruct (within a n x); [reflexivity|apply E, Kx]. Qed.
Lemma f_make {A B} (Q : A -> B -> memory -> memory -> (bool -> nat) -> Prop) l z f g m m' u :
  (forall n, let a := mkA id l (u l) in lock id Q (f (a, n)) (g (a, n)) (clear m a n) (clear m' a n) (grow u l n)) ->
  lock id Q (thenc (make_slice l z) f) (thenc (make_slice l z) g) m m' u.
Proof.
  intros F. unfold make_slice. destruct (make_bytes z) as [zs| |]; [|exact Logic.I|exact Logic.I]. cbn [lift thenc new lock]. split; [reflexivity|]. split; [reflexivity|]. apply F.
Qed.
Definition low (m : memory) (s : gslice) : Prop := lib (base s) = false /\ forall i, (i < slen s)%nat -> m (shift (base s) i) < 256.
Lemma low_clear m s id' u n : low m s -> low (clear m (mkA id' true u) n) s.
Proof.
  intros [L H]. split; [exact L|]. intros i Hi. unfold clear. destruct (within_spec (mkA id' true u) n (shift (base s) i)) as [(_ & X & _)|]; [|apply H, Hi].
  cbn [lib shift] in X. congruence.
Qed.
Lemma low_put m s a v : lib a = true -> low m s -> low (put m a v) s.
Proof. intros La [L H]. split; [exact L|]. intros i Hi. unfold put. destruct (same_spec (shift (base s) i) a) as [<-|]; [|apply H, Hi]. cbn [lib shift] in La. congruence. Qed.

Lemma f_FromBytes {A B} (Q : A -> B -> memory -> memory -> (bool -> nat) -> Prop) src f g m m' u : sound K id u -> agreed K m m' -> low m src -> low m' src ->
  (forall s s' n n' v, length s = length s' -> agreed K n n' -> (u true <= v true)%nat -> v false = u false -> lock id Q (f s) (g s') n n' v) ->
  lock id Q (thenc (FromBytes src) f) (thenc (FromBytes src) g) m m' u.
Proof.
  intros S E Lm Lm' F. unfold FromBytes. apply lock_then, f_make. intros n a. pose proof (sound_free u S) as Fr. fold a in Fr.
  set (J := fun k k' => agreed K k k' /\ low k src /\ low k' src).
  assert (St : forall i v w k k', J k k' -> J (put k (shift a i) v) (put k' (shift a i) w)).
  { intros i v w k k' (J1 & J2 & J3). split; [apply agreed_stable; assumption|]. split; apply low_put; (reflexivity || assumption). }
  apply (f_seq id J (grow u true n)).
  - apply f_from; [exact St| |lia|].
    + intros k k' (_ & [_ J2] & [_ J3]) i Hi. auto.
    + split; [apply cleared, E|]. split; apply low_clear; assumption.
  - intros _ k k' (E1 & _). unfold string_of. apply then_ret. apply (l_gets _ K); [exact E1|]. intros xs ys L [M _]. cbn [lock]. apply F; [exact M|exact E1| |]; cbn [grow Bool.eqb]; [lia|reflexivity].
Qed.
Lemma f_bytes_from {A B} (Q : A -> B -> memory -> memory -> (bool -> nat) -> Prop) s s' f g m m' u : sound K id u -> agreed K m m' -> length s = length s' ->
  (forall h n n' v, agreed K n n' -> (u true <= v true)%nat -> v false = u false -> lock id Q (f h) (g h) n n' v) ->
  lock id Q (thenc (bytes_from s) f) (thenc (bytes_from s') g) m m' u.
Proof.
  intros S E L F. unfold bytes_from. apply lock_then. rewrite <- L. apply (l_new _ _ K); [exact E|]. intros n n' En. assert (E1 : agreed K n n') by (apply (agreed_less _ _ _ _ En); auto).
  rewrite <- (shift_0 (mkA id true (u true))). apply (f_sets id (agreed K) (mkA id true (u true))); [apply agreed_stable, sound_free, S|exact L|exact E1|].
  intros k k' Ek. cbn [lock]. apply F; [exact Ek| |]; cbn [grow Bool.eqb]; [lia|reflexivity].
Qed.
(** the rest of the three functions of codegen *)
Lemma f_emit {A B} (Q : A -> B -> memory -> memory -> (bool -> nat) -> Prop) z c0 c1 (lp : addr -> nat -> code nat) f g m m' u : sound K id u -> agreed K m m' ->
  (forall ret n k k' v, free_at ret -> agreed K k k' -> lock id (level (agreed K) v) (lp ret n) (lp ret n) k k' v) ->
  (forall s s' n n' v, agreed K n n' -> (u true <= v true)%nat -> v false = u false -> lock id Q (f s) (g s') n n' v) ->
  lock id Q (thenc (do (ret, n) <- make_slice true z; set_at ret n 0 c0 ;; do ptr <- lp ret n; set_at ret n ptr c1 ;; string_of ret n) f)
            (thenc (do (ret, n) <- make_slice true z; set_at ret n 0 c0 ;; do ptr <- lp ret n; set_at ret n ptr c1 ;; string_of ret n) g) m m' u.
Proof.
  intros S E Lp F. apply lock_then, f_make. intros n a. pose proof (sound_free u S) as Fr. fold a in Fr.
  apply (f_set id (agreed K) a); [apply agreed_stable, Fr|apply cleared, E|]. intros k k' Ek.
  apply (f_seq id (agreed K)); [apply Lp; [exact Fr|exact Ek]|]. intros ptr k1 k1' E1. apply (f_set id (agreed K) a); [apply agreed_stable, Fr|exact E1|]. intros k2 k2' E2.
  unfold string_of. apply then_ret. apply (l_gets _ K); [exact E2|]. intros xs ys _ _. cbn [lock]. apply F; [exact E2| |]; cbn [grow Bool.eqb]; [lia|reflexivity].
Qed.
End Functions.

(** ** One call *)

(** What the accesses alone say of the answers. *)
Definition nearly (r r' : answer) : Prop :=
  match r, r' with
  | APlain r, APlain r' => seems r r'
  | AText _, AText _ => True
  | ABad _ i, ABad _ i' => i = i'
  | _, _ => r = r'
  end.
Definition coming (id : nat) (ours : list object) (p p' : list object * answer) (n n' : memory) (v : bool -> nat) : Prop :=
  fst p = fst p' /\ nearly (snd p) (snd p') /\ placed id v (ours ++ fst p) /\ agreed (positions (ours ++ fst p)) n n'.
(** What a call needs that is to return. *)
Definition ready (m : memory) (d : deed) : Prop :=
  match d with
  | Plain a => outside a
  | From_bytes s | To_string s | To_string_sep s _ | To_hex_sep s _ => low m s
  | To_bytes s | To_bytes_fast s => bytes_ok s
  end.
Lemma t_deed bd id ours mine d d' m m' u : deeds_look d d' -> ready m d -> ready m' d' -> placed id u (ours ++ mine) -> agreed (positions (ours ++ mine)) m m' ->
  lock id (coming id ours) (do_deed bd ours mine d) (do_deed bd ours mine d') m m' u.
Proof.
  intros Lk Rd Rd' P E. pose proof (placed_sound _ _ _ P) as So. set (K := positions (ours ++ mine)) in *.
  assert (Text : forall s s' n n' v, agreed K n n' -> (u true <= v true)%nat -> lock id (coming id ours) (Return (mine, AText s)) (Return (mine, AText s')) n n' v).
  { intros s s' n n' v En Le. cbn [lock]. split; [reflexivity|]. split; [exact Logic.I|]. split; [apply (placed_more _ _ _ _ P Le)|exact En]. }
  destruct d as [a|src|s|s|inp|inp k|inp k]; destruct d' as [a'|src'|s'|s'|inp'|inp' k'|inp' k']; cbn [deeds_look] in Lk; try discriminate; cbn [ready] in Rd, Rd'; cbn [do_deed].
  - apply lock_then. eapply lock_mono; [|apply (t_act id ours mine a a' m m' u Lk Rd P E)]. cbv beta. intros [mn r] [mn' r'] n n' v H. exact H.
  - injection Lk as <-. apply (f_FromBytes id K); try assumption. intros s s' n n' v _ En Le _. apply Text; assumption.
  - unfold ToBytes. rewrite <- (shape_length _ _ Lk). apply lock_then, f_make. intros n a. apply lock_then.
    eapply lock_mono; [|apply (f_to id (agreed K) a (grow u false n) (agreed_stable K a (sound_false id K u _ So)) bd s s' Rd Rd' Lk); apply cleared, E]. cbv beta.
    intros r r' k k' v (Er & Ek & ->).
    assert (Fin : forall x y, nearly x y -> lock id (coming id ours) (Return (mine, x)) (Return (mine, y)) k k' (grow u false n)).
    { intros x y Hn. cbn [lock]. split; [reflexivity|]. split; [exact Hn|]. split; [apply (placed_more _ _ _ _ P); unfold grow; cbn [Bool.eqb]; lia|exact Ek]. }
    destruct r as [[|c i]|i], r' as [[|c' i']|i']; cbn [ends_even] in Er; try contradiction; subst i'; cbn [lock]; [apply Fin; reflexivity|].
    destruct (Nat.eqb _ 1); [|cbn [lock]; apply Fin; reflexivity]. 
    destruct (shape_idx a bd s s' Rd Rd' Lk (i - 1)) as [(c & c' & v & v' & -> & -> & Ev & Ev' & H)|[-> ->]]; cbn [lift thenc]; [|exact Logic.I]. rewrite Ev, Ev'. cbn [lift thenc].
    destruct (N.ltb_spec 15 v), (N.ltb_spec 15 v'); cbn [lock]; try (apply Fin; reflexivity); exfalso; lia.
  - unfold ToBytesFast. rewrite <- (shape_length _ _ Lk). apply lock_then, f_make. intros n a.
    apply (f_seq id (agreed K)); [apply (f_fast id (agreed K) a (grow u false n) (agreed_stable K a (sound_false id K u _ So)) bd s s' Rd Rd' Lk); apply cleared, E|].
    intros r k k' Ek.
    assert (Fin : forall x, lock id (coming id ours) (Return (mine, x)) (Return (mine, x)) k k' (grow u false n) \/ exists q, x = APlain q).
    { intros x. destruct x as [q|t|t|c i| |]; [right; eauto|left..]; cbn [lock]; (split; [reflexivity|]; split; [reflexivity || exact Logic.I|]; split; [apply (placed_more _ _ _ _ P); unfold grow; cbn [Bool.eqb]; lia|exact Ek]). }
    destruct r; [destruct (Nat.eqb _ 1)|]; cbn [lock];
      [destruct (Fin ANil) as [X|[q X]]; [exact X|discriminate]|destruct (Fin (ABytes (mkS a n n))) as [X|[q X]]; [exact X|discriminate]|destruct (Fin ANil) as [X|[q X]]; [exact X|discriminate]].
  - injection Lk as <-. unfold BytesToString. apply lock_then. apply (f_FromBytes id K); try assumption. intros s s' n n' v L En Le _.
    apply (f_bytes_from id K); [apply (sound_more id K u v So Le)|exact En|exact L|]. intros h k k' v1 Ek Le1 _. rewrite <- L. apply then_ret.
    apply (f_emit id K _ _ _ _ (fun ret n => string_loop h ret n (length s) 0 1)); [apply (sound_more id K u v1 So); lia|exact Ek| |].
    + intros ret j q q' w Fr Eq. apply f_string; [apply agreed_stable, Fr|exact Eq].
    + intros t t' q q' w Eq Lw _. cbn [lock]. apply Text; [exact Eq|lia].
  - injection Lk as <- <-. unfold BytesToStringSep. destruct (Z.ltb k 1); [exact Logic.I|]. apply lock_then. apply (f_FromBytes id K); try assumption. intros s s' n n' v L En Le _.
    apply (f_bytes_from id K); [apply (sound_more id K u v So Le)|exact En|exact L|]. intros h j j' v1 Ek Le1 _. rewrite <- L. cbv zeta.
    apply (lock_lift _ _ eq); [apply both_same|]. intros q _ <-. apply then_ret.
    apply (f_emit id K _ _ _ _ (fun ret n => string_sep_loop (Codegen.int64 (k * 2)) h ret n (length s) 0 1)); [apply (sound_more id K u v1 So); lia|exact Ek| |].
    + intros ret i p p' w Fr Eq. apply f_string_sep; [apply agreed_stable, Fr|exact Eq].
    + intros t t' p p' w Eq Lw _. cbn [lock]. apply Text; [exact Eq|lia].
  - injection Lk as <- <-. unfold BytesToHexSep. destruct (Z.ltb k 1); [exact Logic.I|]. apply lock_then. apply (f_FromBytes id K); try assumption. intros s s' n n' v L En Le _.
    apply (f_bytes_from id K); [apply (sound_more id K u v So Le)|exact En|exact L|]. intros h j j' v1 Ek Le1 _. rewrite <- L. cbv zeta.
    apply (lock_lift _ _ eq); [apply both_same|]. intros q _ <-. apply then_ret.
    apply (f_emit id K _ _ _ _ (fun ret n => hex_sep_loop (Codegen.int64 (k * 2)) h ret n (length s) 0 1)); [apply (sound_more id K u v1 So); lia|exact Ek| |].
    + intros ret i p p' w Fr Eq. apply f_hex_sep; [apply agreed_stable, Fr|exact Eq].
    + intros t t' p p' w Eq Lw _. cbn [lock]. apply Text; [exact Eq|lia].
Qed.

(** ** The texts *)
Definition two_bytes (x y : N) : Prop := x < 256 /\ y < 256.
Lemma two_lists xs : forall ys, bytes_ok xs -> bytes_ok ys -> length xs = length ys -> Forall2 two_bytes xs ys.
Proof.
  induction xs as [|x xs IH]; intros [|y ys] B B' L; cbn [length] in L; try discriminate; constructor.
  - inversion B. inversion B'. split; assumption.
  - inversion B. inversion B'. apply IH; try assumption. lia.
Qed.
Lemma shape_refl s : same_shape s s.
Proof. induction s; constructor; [tauto|assumption]. Qed.
Lemma shape_numeral x y : two_bytes x y -> same_shape (numeral x) (numeral y).
Proof.
  intros [Hx Hy]. destruct (byte_nibbles x Hx) as [X1 X2], (byte_nibbles y Hy) as [Y1 Y2].
  destruct (hexTable_ok _ X1) as (_ & _ & D1 & _), (hexTable_ok _ X2) as (_ & _ & D2 & _), (hexTable_ok _ Y1) as (_ & _ & D3 & _), (hexTable_ok _ Y2) as (_ & _ & D4 & _).
  unfold numeral. constructor; [rewrite D1, D3; split; discriminate|]. constructor; [rewrite D2, D4; split; discriminate|constructor].
Qed.
Lemma shape_flat {A} (R : A -> A -> Prop) (f : A -> list N) xs ys : (forall x y, R x y -> same_shape (f x) (f y)) -> Forall2 R xs ys -> same_shape (flat_map f xs) (flat_map f ys).
Proof. intros H. induction 1; cbn [flat_map]; [constructor|]. apply Forall2_app; [apply H; assumption|assumption]. Qed.
Lemma shape_joined {A} (R : A -> A -> Prop) sep (f : A -> list N) xs ys : (forall x y, R x y -> same_shape (f x) (f y)) -> Forall2 R xs ys -> same_shape (joined sep (map f xs)) (joined sep (map f ys)).
Proof.
  intros H [|x y xs' ys' Hxy F]; cbn [map joined]; [constructor|]. apply Forall2_app; [apply H, Hxy|]. apply shape_flat with (R := same_shape).
  - intros a b Hab. apply Forall2_app; [apply shape_refl|exact Hab].
  - clear Hxy. induction F; cbn [map]; constructor; auto.
Qed.
Lemma two_pieces {A} (R : A -> A -> Prop) k n : forall xs ys, Forall2 R xs ys -> Forall2 (Forall2 R) (pieces_fuel n k xs) (pieces_fuel n k ys).
Proof.
  induction n as [|n IH]; intros xs ys F; [constructor|]. destruct F as [|x y xs ys H F]; cbn [pieces_fuel]; [constructor|].
  assert (F' : Forall2 R (x :: xs) (y :: ys)) by (constructor; assumption). clear H F. constructor.
  - revert F'. generalize (x :: xs) (y :: ys). clear. induction k as [|k IH]; intros l l' F; [constructor|]. destruct F; cbn [firstn]; constructor; auto.
  - apply IH. revert F'. generalize (x :: xs) (y :: ys). clear. induction k as [|k IH]; intros l l' F; [exact F|]. destruct F; cbn [skipn]; [constructor|auto].
Qed.
Lemma shape_go_string xs ys : Forall2 two_bytes xs ys -> same_shape (go_string xs) (go_string ys).
Proof.
  intros F. unfold go_string. apply Forall2_app; [apply shape_refl|]. apply Forall2_app; [|apply shape_refl]. apply (shape_flat two_bytes); [|exact F].
  intros x y H. apply Forall2_app; [apply shape_refl|apply shape_numeral, H].
Qed.
Lemma shape_go_line xs ys : Forall2 two_bytes xs ys -> same_shape (go_line xs) (go_line ys).
Proof.
  intros F. unfold go_line. apply (shape_joined two_bytes); [|exact F]. intros x y H. apply Forall2_app; [apply shape_refl|apply shape_numeral, H].
Qed.
Lemma two_length {A} (R : A -> A -> Prop) xs ys : Forall2 R xs ys -> length xs = length ys.
Proof. induction 1; cbn [length]; congruence. Qed.
Lemma shape_go_strings k xs ys : Forall2 two_bytes xs ys -> same_shape (go_strings k xs) (go_strings k ys).
Proof.
  intros F. unfold go_strings, pieces. apply (shape_joined (Forall2 two_bytes)); [exact shape_go_string|]. rewrite (two_length _ _ _ F). apply two_pieces, F.
Qed.
Lemma shape_go_list k xs ys : Forall2 two_bytes xs ys -> same_shape (go_list k xs) (go_list k ys).
Proof.
  intros F. unfold go_list, pieces. apply Forall2_app; [apply shape_refl|]. apply Forall2_app; [|apply shape_refl].
  apply (shape_joined (Forall2 two_bytes)); [exact shape_go_line|]. rewrite (two_length _ _ _ F). apply two_pieces, F.
Qed.

(** ** Workers *)
Section Workers.
Context (bd : build) (id : nat) (shared : list object) (ours ours' : list (kind * list (list N))) (before : nat).
Context (Main : id = O -> shared = [] /\ before = O).
Lemma permitted_ready hs m u st mine d : Inv id shared hs m u st mine -> permitted id hs before st d -> ready m d.
Proof.
  intros (I1 & _) Al.
  assert (Lo : forall s, slice_ok id before st s -> low m s).
  { intros s (_ & L & W & R). split; [exact L|]. intros i Hi.
    destruct (I1 (shift (base s) i)) as [-> B]; [exact L|exact W|exact B]. }
  destruct d as [a|src|s|s|inp|inp k|inp k]; cbn [permitted ready] in *; try assumption; try (apply Lo; tauto).
  destruct a; cbn [allowed outside] in *; try exact Logic.I; destruct Al as [(_ & L & _) _]; exact L.
Qed.
Lemma seem_of m m' u u' st st' mine d d' : Inv id shared ours m u st mine -> Inv id shared ours' m' u' st' mine -> permitted id ours before st d -> permitted id ours' before st' d' ->
  deeds_look d d' -> nearly (snd (consequence id ours st d)) (snd (consequence id ours' st' d')) -> answers_seem (snd (consequence id ours st d)) (snd (consequence id ours' st' d')).
Proof.
  intros Iv Iv' Al Al' Lk Nr.
  assert (Two : forall s, slice_ok id before st s -> slice_ok id before st' s -> Forall2 two_bytes (bytes_of st s) (bytes_of st' s)).
  { intros s Hs Hs'. destruct (source_of id shared ours before m u st mine s Iv Hs) as (_ & B & L), (source_of id shared ours' before m' u' st' mine s Iv' Hs') as (_ & B' & L'). apply two_lists; congruence. }
  destruct d as [a|src|s|s|inp|inp k|inp k]; destruct d' as [a'|src'|s'|s'|inp'|inp' k'|inp' k']; cbn [deeds_look] in Lk; try discriminate; cbn [consequence permitted snd] in *.
  - destruct (effect id ours st a), (effect id ours' st' a'). exact Nr.
  - injection Lk as <-. cbn [answers_seem]. apply (shape_flat two_bytes); [exact shape_numeral|apply Two; assumption].
  - unfold gets_bytes in *. destruct (first_bad s 0) as [[? ?]|], (first_bad s' 0) as [[? ?]|]; try exact Nr; repeat destruct (Nat.even _); exact Nr.
  - unfold gets_bytes in *. destruct (first_bad s 0) as [[? ?]|], (first_bad s' 0) as [[? ?]|]; try exact Nr; repeat destruct (Nat.even _); exact Nr.
  - injection Lk as <-. cbn [answers_seem]. apply shape_go_string, Two; [apply Al|apply Al'].
  - injection Lk as <- <-. cbn [answers_seem]. apply shape_go_strings, Two; [apply Al|apply Al'].
  - injection Lk as <- <-. cbn [answers_seem]. apply shape_go_list, Two; [apply Al|apply Al'].
Qed.
Definition done_so (p p' : list answer * list object) (n n' : memory) (v : bool -> nat) : Prop :=
  snd p = snd p' /\ Forall2 answers_seem (fst p) (fst p') /\ placed id v (shared ++ snd p) /\ agreed (positions (shared ++ snd p)) n n'.
Lemma t_work g : forall h mine m m' u st st', works_alike g h -> Inv id shared ours m u st mine -> Inv id shared ours' m' u st' mine ->
  works_fair id ours before st g -> works_fair id ours' before st' h -> placed id u (shared ++ mine) -> agreed (positions (shared ++ mine)) m m' ->
  lock id done_so (work bd shared mine g) (work bd shared mine h) m m' u.
Proof.
  induction g as [|d k IH]; intros [|d' k'] mine m m' u st st' Al Iv Iv' F F' P E; cbn [works_alike works_fair] in *; try contradiction; cbn [work].
  - cbn [lock]. split; [reflexivity|]. split; [constructor|]. split; assumption.
  - destruct Al as [Lk Al], F as [Pm F], F' as [Pm' F']. apply lock_then.
    eapply lock_mono; [|apply (lock_safe id _ _ _ _ _ _ _ _ (t_deed bd id shared mine d d' m m' u Lk (permitted_ready ours m u st mine d Iv Pm) (permitted_ready ours' m' u st' mine d' Iv' Pm') P E)
      (deed_ok bd id shared ours before Main m u st mine d Iv Pm) (deed_ok bd id shared ours' before Main m' u st' mine d' Iv' Pm'))].
    cbv beta. intros [mn r] [mn' r'] n n' v ((H1 & H2 & H3 & H4) & [Er Jv] & [Er' Jv']). cbn [fst snd] in *. subst mn'. subst r r'.
    pose proof (seem_of m m' u u st st' mine d d' Iv Iv' Pm Pm' Lk H2) as Sm. apply lock_then.
    eapply lock_mono; [|apply (IH _ (k' (snd (consequence id ours' st' d'))) mn n n' v _ _ (Al _ _ Sm) Jv Jv' F F' H3 H4)]. cbv beta.
    intros [rs os] [rs' os'] n2 n2' v2 (J1 & J2 & J3 & J4). cbn [fst snd] in *. cbn [lock]. split; [exact J1|]. cbn [fst snd]. split; [constructor; assumption|]. split; assumption.
Qed.
End Workers.
