(** Proofs for C101: the accesses of package bytes do not depend on the data. *)
From Verif Require Import Base.Go Base.Mem Base.Goroutine Base.BytesUse Base.Trace Spec.TraceSpec Model.BytesAtom Proofs.TraceProofs.
From Verif Require Model.Bytes.
Local Open Scope N_scope.

(** Two runs with any values in memory. *)
Fixpoint par {A B} (R : A -> B -> Prop) (c : code A) (d : code B) : Prop :=
  match c, d with
  | Return x, Return y => R x y
  | Crash, Crash => True
  | Get a k, Get b j => a = b /\ forall v w, par R (k v) (j w)
  | Put a _ k, Put b _ j => a = b /\ par R k j
  | New l n k, New l' n' j => l = l' /\ n = n' /\ forall a, par R (k a) (j a)
  | _, _ => False
  end.
Lemma par_trace {A B} id R (c : code A) : forall (d : code B) m m' u, par R c d -> trace id c m u = trace id d m' u.
Proof.
  induction c as [x| |a k IH|a v k IH|l n k IH]; intros [y| |b j|b w j|l' n' j] m m' u H; cbn [par trace] in *; try contradiction; try reflexivity.
  - destruct H as [<- H]. rewrite (IH _ _ _ m' _ (H _ (m' a))). reflexivity.
  - destruct H as [<- H]. rewrite (IH _ _ (put m' a w) _ H). reflexivity.
  - destruct H as (<- & <- & H). cbv zeta. rewrite (IH _ _ _ (clear m' (mkA id l (u l)) n) _ (H _)). reflexivity.
Qed.
Lemma par_then {A B C D} (R : A -> B -> Prop) (T : C -> D -> Prop) (c : code A) (f : A -> code C) (g : B -> code D) : forall d,
  par R c d -> (forall x y, R x y -> par T (f x) (g y)) -> par T (thenc c f) (thenc d g).
Proof.
  induction c as [x| |a k IH|a v k IH|l n k IH]; intros [y| |b j|b w j|l' n' j] H F; cbn [par thenc] in *; try contradiction; try exact Logic.I; auto.
  - destruct H as [? H]. split; [assumption|]. intros v w. apply IH; [apply H|exact F].
  - destruct H as [? H]. split; [assumption|]. apply IH; [apply H|exact F].
  - destruct H as (? & ? & H). split; [assumption|]. split; [assumption|]. intros b. apply IH; [apply H|exact F].
Qed.
Lemma par_lift {A} (x : outcome A) : par eq (lift x) (lift x).
Proof. destruct x; cbn [lift par]; auto. Qed.
Lemma par_lift_then {A C D} (T : C -> D -> Prop) (x : outcome A) (f : A -> code C) g : (forall y, par T (f y) (g y)) -> par T (thenc (lift x) f) (thenc (lift x) g).
Proof. intros F. eapply par_then; [apply par_lift|]. intros y _ <-. apply F. Qed.
Lemma par_gets n : forall a, par sized (gets a n) (gets a n).
Proof.
  induction n as [|n IH]; intros a; cbn [gets]; [reflexivity|]. cbn [get thenc par]. split; [reflexivity|]. intros v w. eapply par_then; [apply IH|]. intros xs ys H.
  unfold sized in *. cbn [par length]. congruence.
Qed.
Lemma par_sets xs : forall ys a, sized xs ys -> par eq (sets a xs) (sets a ys).
Proof.
  induction xs as [|x xs IH]; intros [|y ys] a H; unfold sized in H; cbn [length] in H; try discriminate; cbn [sets]; [reflexivity|]. cbn [set thenc par]. split; [reflexivity|].
  apply IH. unfold sized. lia.
Qed.
Lemma par_load s i : par any2 (load s i) (load s i).
Proof. unfold load. destruct (Nat.ltb _ _); [|exact Logic.I]. split; [reflexivity|]. intros v w. exact Logic.I. Qed.
Lemma par_store s i v w : par eq (store s i v) (store s i w).
Proof. unfold store. destruct (Nat.ltb _ _); [|exact Logic.I]. split; reflexivity. Qed.
Lemma par_check s i : par eq (check s i) (check s i).
Proof. unfold check. destruct (Nat.ltb _ _); [reflexivity|exact Logic.I]. Qed.
Lemma par_copy d s : par eq (copy d s) (copy d s).
Proof. unfold copy. eapply par_then; [apply par_gets|]. intros xs ys H. apply par_sets, H. Qed.
Lemma par_same {A} (x : A) : par eq (Return x) (Return x).
Proof. reflexivity. Qed.
Ltac ld := eapply par_then; [apply par_load|]; let v := fresh "v" in let w := fresh "w" in intros v w _.
Ltac st := eapply par_then; [apply par_store|]; intros [] [] _.
Ltac ck := eapply par_then; [apply par_check|]; intros [] [] _.
Lemma par_le16 s : par any2 (le_uint16 s) (le_uint16 s). Proof. unfold le_uint16. ld. ld. exact Logic.I. Qed.
Lemma par_be16 s : par any2 (be_uint16 s) (be_uint16 s). Proof. unfold be_uint16. ld. ld. exact Logic.I. Qed.
Lemma par_le32 s : par any2 (le_uint32 s) (le_uint32 s). Proof. unfold le_uint32. do 4 ld. exact Logic.I. Qed.
Lemma par_be32 s : par any2 (be_uint32 s) (be_uint32 s). Proof. unfold be_uint32. do 4 ld. exact Logic.I. Qed.
Lemma par_lep16 s v w : par eq (le_put16 s v) (le_put16 s w). Proof. unfold le_put16. ck. st. apply par_store. Qed.
Lemma par_bep16 s v w : par eq (be_put16 s v) (be_put16 s w). Proof. unfold be_put16. ck. st. apply par_store. Qed.
Lemma par_lep32 s v w : par eq (le_put32 s v) (le_put32 s w). Proof. unfold le_put32. ck. do 3 st. apply par_store. Qed.
Lemma par_bep32 s v w : par eq (be_put32 s v) (be_put32 s w). Proof. unfold be_put32. ck. do 3 st. apply par_store. Qed.
Lemma par_zero_loop fuel : forall t, par eq (zero_loop fuel t) (zero_loop fuel t).
Proof.
  induction fuel as [|f IH]; intros t; cbn [zero_loop]; destruct (Nat.ltb 8 (len t)).
  - exact Logic.I.
  - apply par_sets. reflexivity.
  - eapply par_then; [apply par_sets; reflexivity|]. intros [] [] _. apply par_lift_then. intros y. apply IH.
  - apply par_sets. reflexivity.
Qed.
Lemma par_Zero t : par eq (Zero t) (Zero t).
Proof. apply par_zero_loop. Qed.
Lemma par_xor k d o : forall i, par eq (xor_loop k i d o) (xor_loop k i d o).
Proof. induction k as [|k IH]; intros i; cbn [xor_loop]; [reflexivity|]. ld. ld. st. apply IH. Qed.
Lemma par_XorEq d o : par eq (XorEq d o) (XorEq d o).
Proof. unfold XorEq. cbv zeta. eapply par_then; [apply par_xor|]. intros [] [] _. reflexivity. Qed.
Lemma par_padLE d s n : par eq (padLE d s n) (padLE d s n).
Proof.
  unfold padLE. destruct (Nat.ltb (len d) n); [reflexivity|]. cbv zeta. destruct (_ && _)%bool; [reflexivity|]. apply par_lift_then. intros y. eapply par_then; [apply par_copy|]. intros [] [] _.
  destruct (Nat.ltb _ n); [|reflexivity]. apply par_lift_then. intros z. eapply par_then; [apply par_Zero|]. intros [] [] _. reflexivity.
Qed.
Lemma par_padBE d s n : par eq (padBE d s n) (padBE d s n).
Proof.
  unfold padBE. destruct (Nat.ltb (len d) n); [reflexivity|]. cbv zeta. eapply par_then.
  - match goal with |- par _ (if ?b then _ else _) _ => destruct b end; [apply par_lift_then; intros z; apply par_Zero|apply par_same].
  - intros [] [] _. apply par_lift_then. intros y. eapply par_then; [apply par_copy|]. intros [] [] _. reflexivity.
Qed.
Lemma par_addEq8 s b v w : par any2 (addEq8 s b v) (addEq8 s b w).
Proof.
  unfold addEq8. ld. eapply (par_then any2).
  - destruct (Nat.ltb 0 (len b)); [apply par_load|exact Logic.I].
  - intros x y _. cbv zeta. st. exact Logic.I.
Qed.
Lemma par_acc32LE k b : forall i v w, par any2 (acc32LE k i b v) (acc32LE k i b w).
Proof. induction k as [|k IH]; intros i v w; cbn [acc32LE]; [exact Logic.I|]. ld. apply IH. Qed.
Lemma par_acc16LE k b : forall i v w, par any2 (acc16LE k i b v) (acc16LE k i b w).
Proof. induction k as [|k IH]; intros i v w; cbn [acc16LE]; [exact Logic.I|]. ld. apply IH. Qed.
Lemma par_acc32BE k b : forall i v w, par any2 (acc32BE k i b v) (acc32BE k i b w).
Proof. induction k as [|k IH]; intros i v w; cbn [acc32BE]; [exact Logic.I|]. ld. apply IH. Qed.
Lemma par_acc16BE k b : forall i v w, par any2 (acc16BE k i b v) (acc16BE k i b w).
Proof. induction k as [|k IH]; intros i v w; cbn [acc16BE]; [exact Logic.I|]. ld. apply IH. Qed.
Lemma par_32LE s b v w : par any2 (addEq32LE s b v) (addEq32LE s b w).
Proof.
  unfold addEq32LE. eapply par_then; [apply par_le32|]. intros x y _. cbv zeta. eapply par_then; [apply par_acc32LE|]. intros z t _. eapply par_then; [apply par_lep32|]. intros [] [] _. exact Logic.I.
Qed.
Lemma par_16LE s b v w : par any2 (addEq16LE s b v) (addEq16LE s b w).
Proof.
  unfold addEq16LE. eapply par_then; [apply par_le16|]. intros x y _. cbv zeta. eapply par_then; [apply par_acc16LE|]. intros z t _. eapply par_then; [apply par_lep16|]. intros [] [] _. exact Logic.I.
Qed.
Lemma par_32BE s b v w : par any2 (addEq32BE s b v) (addEq32BE s b w).
Proof.
  unfold addEq32BE. eapply par_then; [apply par_be32|]. intros x y _. cbv zeta. eapply par_then; [apply par_acc32BE|]. intros z t _. eapply par_then; [apply par_bep32|]. intros [] [] _. exact Logic.I.
Qed.
Lemma par_16BE s b v w : par any2 (addEq16BE s b v) (addEq16BE s b w).
Proof.
  unfold addEq16BE. eapply par_then; [apply par_be16|]. intros x y _. cbv zeta. eapply par_then; [apply par_acc16BE|]. intros z t _. eapply par_then; [apply par_bep16|]. intros [] [] _. exact Logic.I.
Qed.
(** all but the carry *)
Definition but_carry {A} (p q : A * N) : Prop := fst p = fst q.
Definition but_first {A} (p q : N * A) : Prop := snd p = snd q.
Lemma par_fullLE k s : forall n b v w, par but_carry (fullLE k n s b v) (fullLE k n s b w).
Proof.
  induction k as [|k IH]; intros n b v w; cbn [fullLE]; [reflexivity|]. destruct (Nat.ltb 4 (len b)); [|reflexivity]. apply par_lift_then. intros y.
  eapply par_then; [apply par_32LE|]. intros c c' _. apply par_lift_then. intros z. apply IH.
Qed.
Lemma par_restLE k s : forall n v w, par but_carry (restLE k n s v) (restLE k n s w).
Proof.
  induction k as [|k IH]; intros n v w; cbn [restLE]; [reflexivity|]. apply par_lift_then. intros y. eapply par_then; [apply par_32LE|]. intros c c' _. apply IH.
Qed.
Lemma par_fullBE k s : forall b v w, par but_carry (fullBE k s b v) (fullBE k s b w).
Proof.
  induction k as [|k IH]; intros b v w; cbn [fullBE]; [reflexivity|]. destruct (Nat.ltb 4 (len b)); [|reflexivity]. apply par_lift_then. intros y. apply par_lift_then. intros t.
  eapply par_then; [apply par_32BE|]. intros c c' _. apply par_lift_then. intros z. apply IH.
Qed.
Lemma par_restBE k s : forall v w, par any2 (restBE k s v) (restBE k s w).
Proof.
  induction k as [|k IH]; intros v w; cbn [restBE]; [exact Logic.I|]. apply par_lift_then. intros y. eapply par_then; [apply par_32BE|]. intros c c' _. apply IH.
Qed.
Lemma par_anyLE s a b n : par but_first (addAnyLE s a b n) (addAnyLE s a b n).
Proof.
  unfold addAnyLE. eapply par_then; [apply par_padLE|]. intros e _ <-. destruct e; [reflexivity|]. cbv zeta.
  eapply par_then; [apply par_fullLE|]. intros [[[k n1] b1] v] [[[k' n1'] b1'] w] H. unfold but_carry in H. cbn [fst] in H. injection H as <- <- <-.
  eapply (par_then but_carry).
  - destruct k as [|k]; [reflexivity|]. destruct (Nat.ltb 0 (len b1)); [|reflexivity]. apply par_lift_then. intros y. eapply par_then; [apply par_32LE|]. intros c c' _. apply par_lift_then. intros z. reflexivity.
  - intros [[[k2 n2] b2] v2] [[[k2' n2'] b2'] w2] H. unfold but_carry in H. cbn [fst] in H. injection H as <- <- <-.
    eapply par_then; [apply par_restLE|]. intros [n3 v3] [n3' w3] H. unfold but_carry in H. cbn [fst] in H. subst n3'.
    eapply (par_then (fun p q => fst (fst (fst p)) = fst (fst (fst q)) /\ snd (fst p) = snd (fst q) /\ snd p = snd q)).
    + destruct (Nat.ltb 1 _); [|repeat split]. apply par_lift_then. intros y. eapply par_then; [apply par_16LE|]. intros c c' _. apply par_lift_then. intros z. repeat split.
    + intros [[[b3 v4] m4] i4] [[[b3' w4] m4'] i4'] (H1 & H2 & H3). cbn [fst snd] in H1, H2, H3. subst b3' m4' i4'. eapply (par_then any2).
      * destruct (Nat.ltb 0 i4); [|exact Logic.I]. apply par_lift_then. intros y. apply par_addEq8.
      * intros x y _. reflexivity.
Qed.
Lemma par_anyBE s a b n : par but_first (addAnyBE s a b n) (addAnyBE s a b n).
Proof.
  unfold addAnyBE. eapply par_then; [apply par_padBE|]. intros e _ <-. destruct e; [reflexivity|]. cbv zeta.
  eapply par_then; [apply par_fullBE|]. intros [[k b1] v] [[k' b1'] w] H. unfold but_carry in H. cbn [fst] in H. injection H as <- <-.
  eapply (par_then but_carry).
  - destruct k as [|k]; [reflexivity|]. destruct (Nat.ltb 0 (len b1)); [|reflexivity]. apply par_lift_then. intros y. eapply par_then; [apply par_32BE|]. intros c c' _. apply par_lift_then. intros z. reflexivity.
  - intros [[k2 b2] v2] [[k2' b2'] w2] H. unfold but_carry in H. cbn [fst] in H. injection H as <- <-.
    eapply par_then; [apply par_restBE|]. intros v3 w3 _.
    eapply (par_then (fun p q => fst (fst p) = fst (fst q) /\ snd p = snd q)).
    + destruct (Nat.ltb 1 _); [|repeat split]. apply par_lift_then. intros y. eapply par_then; [apply par_16BE|]. intros c c' _. apply par_lift_then. intros z. repeat split.
    + intros [[b3 v4] i4] [[b3' w4] i4'] (H1 & H3). cbn [fst snd] in H1, H3. subst b3' i4'. eapply (par_then any2).
      * destruct (Nat.ltb 0 i4); [|exact Logic.I]. apply par_addEq8.
      * intros x y _. reflexivity.
Qed.
Ltac small P A := unfold Add16LE, Add32LE, Add16BE, Add32BE; eapply par_then; [apply P|]; intros e _ <-; destruct e; [reflexivity|]; eapply par_then; [apply A|]; intros; reflexivity.
Lemma par_AddLE w s a b : par but_first (AddLE w s a b) (AddLE w s a b).
Proof. destruct w; cbn [AddLE]; try apply par_anyLE; [small par_padLE par_16LE|small par_padLE par_32LE]. Qed.
Lemma par_AddBE w s a b : par but_first (AddBE w s a b) (AddBE w s a b).
Proof. destruct w; cbn [AddBE]; try apply par_anyBE; [small par_padBE par_16BE|small par_padBE par_32BE]. Qed.
Lemma par_Add p w s a b : par but_first (Add p w s a b) (Add p w s a b).
Proof.
  destruct p, w; cbn [Add]; try apply par_AddLE; try apply par_AddBE;
    (eapply par_then; [first [apply par_padLE|apply par_padBE]|]; intros e _ <-; eapply par_then; [first [apply par_16LE|apply par_32LE|apply par_16BE|apply par_32BE]|]; intros; reflexivity).
Qed.
Lemma par_call c c' : bytes_look c c' -> par bytes_seem (do_call c) (do_call c').
Proof.
  intros H. destruct c as [t|d o|e w s a b|e w s a b|s j|s j v]; destruct c' as [t'|d' o'|e' w' s' a' b'|e' w' s' a' b'|s' j'|s' j' v']; cbn [bytes_look] in H; try discriminate.
  - injection H as <-. cbn [do_call]. eapply par_then; [apply par_Zero|]. intros [] [] _. reflexivity.
  - injection H as <- <-. cbn [do_call]. eapply par_then; [apply par_XorEq|]. intros n _ <-. reflexivity.
  - injection H as <- <- <- <- <-. cbn [do_call]. destruct e.
    + eapply par_then; [apply par_AddLE|]. intros [v f] [v' f'] E. unfold but_first in E. cbn [snd] in E. subst f'. reflexivity.
    + eapply par_then; [apply par_AddBE|]. intros [v f] [v' f'] E. unfold but_first in E. cbn [snd] in E. subst f'. reflexivity.
  - injection H as <- <- <- <- <-. cbn [do_call]. eapply par_then; [apply par_Add|]. intros [v f] [v' f'] E. unfold but_first in E. cbn [snd] in E. subst f'. reflexivity.
  - injection H as <- <-. cbn [do_call]. ld. exact Logic.I.
  - destruct H as [<- <-]. cbn [do_call]. st. reflexivity.
Qed.
Theorem par_behave g : forall g', bytes_alike g g' -> par (Forall2 bytes_seem) (behave g) (behave g').
Proof.
  induction g as [|c k IH]; intros [|c' k'] H; cbn [bytes_alike] in H; try contradiction; cbn [behave]; [constructor|].
  destruct H as [L H]. eapply par_then; [apply par_call, L|]. intros r r' Hr. eapply par_then; [apply (IH r (k' r')), H, Hr|]. intros rs rs' Hrs. constructor; assumption.
Qed.
