(** Bounds on the number of memory accesses of package bytes. *)
From Verif Require Import Base.Go Base.Mem Base.Goroutine Base.BytesUse Base.Cost Spec.CostSpec.
From Verif Require Import Model.BytesAtom Proofs.GoroutineProofs Proofs.CostProofs.
From Verif Require Model.Bytes.
Local Open Scope nat_scope.

Ltac one n := match goal with |- pays _ ?N _ => eapply (pays_seq _ _ n (N - n) _ any) end.
Ltac free := apply pays_lift; intros; exact Logic.I.
Lemma pays_more {A} (c : code A) n N P : pays c n P -> n <= N -> pays c N P.
Proof. intros H L. eapply pays_mono; [exact H|exact L|auto]. Qed.

Lemma pays_load s i : pays (load s i) 1 any.
Proof. apply pays_if; [apply pays_get|exact Logic.I]. Qed.
Lemma pays_store s i v : pays (store s i v) 1 any.
Proof. apply pays_if; [apply pays_set|exact Logic.I]. Qed.
Lemma pays_check s i : pays (check s i) 0 any.
Proof. apply pays_if; exact Logic.I. Qed.
Lemma pays_copy d s : pays (copy d s) (2 * Nat.min (len d) (len s)) any.
Proof.
  unfold copy. eapply pays_seq; [apply pays_gets| |].
  - intros xs L. cbn beta in L. eapply pays_more; [apply pays_sets|rewrite L; apply le_n].
  - lia.
Qed.
Lemma sub_len s i j y : sub s i j = Ret y -> len y = j - i.
Proof. unfold sub. destruct (_ && _)%bool; [|discriminate]. intros E. injection E as <-. reflexivity. Qed.
Lemma pays_zero_loop fuel : forall t, pays (zero_loop fuel t) (len t) any.
Proof.
  assert (T : forall t, pays (copy_text t Bytes.z8) (Nat.min (len t) 8) any).
  { intros t. unfold copy_text. eapply pays_more; [apply pays_sets|]. rewrite firstn_length. reflexivity. }
  induction fuel as [|fuel IH]; intros t; cbn [zero_loop]; destruct (Nat.ltb_spec 8 (len t)); try (eapply pays_more; [apply T|lia]); [exact Logic.I|].
  one 8; [eapply pays_more; [apply T|lia]|intros _ _|lia].
  apply (pays_seq _ _ 0 (len t - 8) _ (fun t' => len t' = len t - 8)); [| |lia].
  - apply pays_lift. intros y E. apply sub_len in E. exact E.
  - intros t' <-. apply IH.
Qed.
Lemma pays_Zero t : pays (Zero t) (len t) any.
Proof. apply pays_zero_loop. Qed.
Lemma pays_xor_loop d o k : forall i, pays (xor_loop k i d o) (3 * k) any.
Proof.
  induction k as [|k IH]; intros i; cbn [xor_loop]; [exact Logic.I|].
  one 1; [apply pays_load|intros x _|lia]. one 1; [apply pays_load|intros y _|lia]. one 1; [apply pays_store|intros _ _|lia]. eapply pays_more; [apply IH|lia].
Qed.
Lemma pays_XorEq d o : pays (XorEq d o) (3 * Nat.min (len d) (len o)) any.
Proof.
  unfold XorEq. cbv zeta. one (3 * Nat.min (len d) (len o)); [|intros; exact Logic.I|lia]. eapply pays_more; [apply pays_xor_loop|]. destruct (Nat.ltb_spec (len o) (len d)); lia.
Qed.
Lemma pays_padLE d s n : pays (padLE d s n) (2 * n) any.
Proof.
  unfold padLE. apply pays_if; [exact Logic.I|]. cbv zeta. set (sn := if Nat.ltb (len s) n then len s else n).
  assert (Hs : sn <= n) by (subst sn; destruct (Nat.ltb_spec (len s) n); lia).
  apply pays_if; [exact Logic.I|].
  apply (pays_seq _ _ 0 (2 * n) _ (fun x => len x = sn)); [| |lia].
  { apply pays_lift. intros y E. apply sub_len in E. lia. }
  intros x Lx. one (2 * sn); [eapply pays_more; [apply pays_copy|lia]|intros _ _|lia]. destruct (Nat.ltb_spec sn n); [|exact Logic.I].
  apply (pays_seq _ _ 0 (n - sn) _ (fun z => len z = n - sn)); [| |lia].
  { apply pays_lift. intros y E. apply sub_len in E. exact E. }
  intros z Lz. one (n - sn); [rewrite <- Lz; apply pays_Zero|intros; exact Logic.I|lia].
Qed.
Lemma pays_padBE d s n : pays (padBE d s n) (n + 2 * len s) any.
Proof.
  unfold padBE. apply pays_if; [exact Logic.I|]. cbv zeta. set (sn := if Nat.ltb (len s) n then len s else n).
  one n; [|intros _ _|lia].
  { apply pays_if; [|exact Logic.I]. apply (pays_seq _ _ 0 n _ (fun z => len z <= n)); [| |lia].
    - apply pays_lift. intros y E. apply sub_len in E. lia.
    - intros z Lz. eapply pays_more; [apply pays_Zero|exact Lz]. }
  one 0; [free|intros x _|lia]. one (2 * len s); [eapply pays_more; [apply pays_copy|lia]|intros; exact Logic.I|lia].
Qed.

Ltac reads := repeat match goal with
  | |- pays (thenc (load _ _) _) _ _ => one 1; [apply pays_load|intros ? _|lia]
  | |- pays (thenc (store _ _ _) _) _ _ => one 1; [apply pays_store|intros _ _|lia]
  | |- pays (thenc (check _ _) _) _ _ => one 0; [apply pays_check|intros _ _|lia]
  | |- pays (store _ _ _) _ _ => eapply pays_more; [apply pays_store|lia]
  | |- pays (Return _) _ _ => exact Logic.I
  end.
Lemma pays_addEq8 s b c : pays (addEq8 s b c) 3 any.
Proof.
  unfold addEq8. one 1; [apply pays_load|intros x _|lia]. one 1; [apply pays_if; [apply pays_load|exact Logic.I]|intros y _|lia]. cbv zeta. reads.
Qed.
Lemma pays_acc32LE b k : forall i v, pays (acc32LE k i b v) k any.
Proof. induction k as [|k IH]; intros i v; cbn [acc32LE]; [exact Logic.I|]. one 1; [apply pays_load|intros x _|lia]. eapply pays_more; [apply IH|lia]. Qed.
Lemma pays_acc16LE b k : forall i v, pays (acc16LE k i b v) k any.
Proof. induction k as [|k IH]; intros i v; cbn [acc16LE]; [exact Logic.I|]. one 1; [apply pays_load|intros x _|lia]. eapply pays_more; [apply IH|lia]. Qed.
Lemma pays_acc32BE b k : forall i v, pays (acc32BE k i b v) k any.
Proof. induction k as [|k IH]; intros i v; cbn [acc32BE]; [exact Logic.I|]. one 1; [apply pays_load|intros x _|lia]. eapply pays_more; [apply IH|lia]. Qed.
Lemma pays_acc16BE b k : forall i v, pays (acc16BE k i b v) k any.
Proof. induction k as [|k IH]; intros i v; cbn [acc16BE]; [exact Logic.I|]. one 1; [apply pays_load|intros x _|lia]. eapply pays_more; [apply IH|lia]. Qed.
Lemma pays_addEq32LE s b c : pays (addEq32LE s b c) 12 any.
Proof.
  unfold addEq32LE. one 4; [unfold le_uint32; reads|intros x _|lia]. cbv zeta.
  one 4; [eapply pays_more; [apply pays_acc32LE|destruct (Nat.ltb_spec (len b) 4); lia]|intros y _|lia]. one 4; [unfold le_put32; reads|intros; exact Logic.I|lia].
Qed.
Lemma pays_addEq32BE s b c : pays (addEq32BE s b c) 12 any.
Proof.
  unfold addEq32BE. one 4; [unfold be_uint32; reads|intros x _|lia]. cbv zeta.
  one 4; [eapply pays_more; [apply pays_acc32BE|destruct (Nat.ltb_spec (len b) 4); lia]|intros y _|lia]. one 4; [unfold be_put32; reads|intros; exact Logic.I|lia].
Qed.
Lemma pays_addEq16LE s b c : pays (addEq16LE s b c) 6 any.
Proof.
  unfold addEq16LE. one 2; [unfold le_uint16; reads|intros x _|lia]. cbv zeta.
  one 2; [eapply pays_more; [apply pays_acc16LE|destruct (Nat.ltb_spec (len b) 2); lia]|intros y _|lia]. one 2; [unfold le_put16; reads|intros; exact Logic.I|lia].
Qed.
Lemma pays_addEq16BE s b c : pays (addEq16BE s b c) 6 any.
Proof.
  unfold addEq16BE. one 2; [unfold be_uint16; reads|intros x _|lia]. cbv zeta.
  one 2; [eapply pays_more; [apply pays_acc16BE|destruct (Nat.ltb_spec (len b) 2); lia]|intros y _|lia]. one 2; [unfold be_put16; reads|intros; exact Logic.I|lia].
Qed.

Lemma pays_assoc {A B C} (c : code A) (f : A -> code B) (g : B -> code C) : forall n Q, pays (thenc c (fun x => thenc (f x) g)) n Q -> pays (thenc (thenc c f) g) n Q.
Proof.
  induction c as [x| |a k IH|a v k IH|l s k IH]; cbn [pays thenc]; intros n Q H; auto.
  - split; [apply H|]. intros v. apply IH, H.
  - split; [apply H|]. apply IH, H.
  - split; [apply H|]. intros v. apply IH, H.
Qed.
(** Twelve accesses for every word that is done, so that the others can be paid later. *)
Lemma pays_fullLE {A} s X Q k : forall num b c (f : nat * nat * slice * N -> code A),
  (forall k' num' b' c', pays (f (k', num', b', c')) (12 * k' + X) Q) -> pays (thenc (fullLE k num s b c) f) (12 * k + X) Q.
Proof.
  induction k as [|k IH]; intros num b c f H; cbn [fullLE]; [apply H|]. destruct (Nat.ltb 4 (len b)); [|apply H].
  apply pays_assoc. one 0; [free|intros t _|lia]. apply pays_assoc. one 12; [apply pays_addEq32LE|intros c' _|lia].
  apply pays_assoc. one 0; [free|intros b' _|lia]. eapply pays_more; [apply IH, H|lia].
Qed.
Lemma pays_fullBE {A} s X Q k : forall b c (f : nat * slice * N -> code A),
  (forall k' b' c', pays (f (k', b', c')) (12 * k' + X) Q) -> pays (thenc (fullBE k s b c) f) (12 * k + X) Q.
Proof.
  induction k as [|k IH]; intros b c f H; cbn [fullBE]; [apply H|]. destruct (Nat.ltb 4 (len b)); [|apply H].
  apply pays_assoc. one 0; [free|intros t _|lia]. apply pays_assoc. one 0; [free|intros t' _|lia]. apply pays_assoc. one 12; [apply pays_addEq32BE|intros c' _|lia].
  apply pays_assoc. one 0; [free|intros b' _|lia]. eapply pays_more; [apply IH, H|lia].
Qed.
Lemma pays_restLE s k : forall num c, pays (restLE k num s c) (12 * k) any.
Proof.
  induction k as [|k IH]; intros num c; cbn [restLE]; [exact Logic.I|]. one 0; [free|intros t _|lia]. one 12; [apply pays_addEq32LE|intros c' _|lia]. eapply pays_more; [apply IH|lia].
Qed.
Lemma pays_restBE s k : forall c, pays (restBE k s c) (12 * k) any.
Proof.
  induction k as [|k IH]; intros c; cbn [restBE]; [exact Logic.I|]. one 0; [free|intros t _|lia]. one 12; [apply pays_addEq32BE|intros c' _|lia]. eapply pays_more; [apply IH|lia].
Qed.
Lemma pays_addAnyLE s a b n : pays (addAnyLE s a b n) (5 * n) any.
Proof.
  unfold addAnyLE. one (2 * n); [apply pays_padLE|intros [e|] _; [exact Logic.I|]|lia]. cbv zeta.
  pose proof (Nat.div_mod n 4 ltac:(lia)) as D. set (in8 := n mod 4) in *. set (in32 := n / 4) in *.
  eapply pays_more; [apply (pays_fullLE s (3 * in8) any in32)|lia]. intros k num b1 c.
  assert (T : forall k num b1 c, pays (do (numU32, carry) <- restLE k num s c;
      do (b, carry, numU16, in8) <-
        (if Nat.ltb 1 in8 then
          do s <- lift (from s (numU32 * 4));
          do carry <- addEq16LE s b1 carry;
          do b <- lift (if Nat.eqb (len b1) 1 then from b1 1
                        else if Nat.leb 2 (len b1) then from b1 2 else Ret b1);
          Return (b, carry, 1%nat, (in8 - 2)%nat)
        else Return (b1, carry, O, in8));
      do carry <-
        (if Nat.ltb 0 in8 then
          do s <- lift (from s (numU32 * 4 + numU16 * 2));
          addEq8 s b carry
        else Return carry);
      Return (carry, None)) (12 * k + 3 * in8) (@any (N * option Bytes.error))).
  { clear. intros k num b1 c. one (12 * k); [apply pays_restLE|intros [num1 c1] _|lia]. destruct (Nat.ltb_spec 1 in8).
    - apply pays_assoc. one 0; [free|intros t _|lia]. apply pays_assoc. one 6; [apply pays_addEq16LE|intros c2 _|lia]. apply pays_assoc. one 0; [free|intros b2 _|lia]. cbn [thenc].
      destruct (Nat.ltb_spec 0 (in8 - 2)); [|exact Logic.I]. apply pays_assoc. one 0; [free|intros t' _|lia]. one 3; [apply pays_addEq8|intros; exact Logic.I|lia].
    - cbn [thenc]. destruct (Nat.ltb_spec 0 in8); [|exact Logic.I]. apply pays_assoc. one 0; [free|intros t' _|lia]. one 3; [apply pays_addEq8|intros; exact Logic.I|lia]. }
  destruct k as [|k]; [apply T|]. destruct (Nat.ltb 0 (len b1)); [|apply T].
  apply pays_assoc. one 0; [free|intros t _|lia]. apply pays_assoc. one 12; [apply pays_addEq32LE|intros c2 _|lia]. apply pays_assoc. one 0; [free|intros b2 _|lia]. cbn [thenc].
  eapply pays_more; [apply T|lia].
Qed.
Lemma pays_addAnyBE s a b n : pays (addAnyBE s a b n) (4 * n + 2 * len a) any.
Proof.
  unfold addAnyBE. one (n + 2 * len a); [apply pays_padBE|intros [e|] _; [exact Logic.I|]|lia]. cbv zeta.
  pose proof (Nat.div_mod n 4 ltac:(lia)) as D. set (in8 := n mod 4) in *. set (in32 := n / 4) in *.
  eapply pays_more; [apply (pays_fullBE s (3 * in8) any in32)|lia]. intros k b1 c.
  assert (T : forall k b1 c, pays (do carry <- restBE k s c;
      do (b, carry, in8) <-
        (if Nat.ltb 1 in8 then
          do s <- lift (from s (in8 - 2));
          do carry <- addEq16BE s b1 carry;
          do b <- lift (if Nat.eqb (len b1) 1 then upto b1 0
                        else if Nat.leb 2 (len b1) then upto b1 (len b1 - 2) else Ret b1);
          Return (b, carry, (in8 - 2)%nat)
        else Return (b1, carry, in8));
      do carry <- (if Nat.ltb 0 in8 then addEq8 s b carry else Return carry);
      Return (carry, None)) (12 * k + 3 * in8) (@any (N * option Bytes.error))).
  { clear. intros k b1 c. one (12 * k); [apply pays_restBE|intros c1 _|lia]. destruct (Nat.ltb_spec 1 in8).
    - apply pays_assoc. one 0; [free|intros t _|lia]. apply pays_assoc. one 6; [apply pays_addEq16BE|intros c2 _|lia]. apply pays_assoc. one 0; [free|intros b2 _|lia]. cbn [thenc].
      destruct (Nat.ltb_spec 0 (in8 - 2)); [|exact Logic.I]. one 3; [apply pays_addEq8|intros; exact Logic.I|lia].
    - cbn [thenc]. destruct (Nat.ltb_spec 0 in8); [|exact Logic.I]. one 3; [apply pays_addEq8|intros; exact Logic.I|lia]. }
  destruct k as [|k]; [apply T|]. destruct (Nat.ltb 0 (len b1)); [|apply T].
  apply pays_assoc. one 0; [free|intros t _|lia]. apply pays_assoc. one 12; [apply pays_addEq32BE|intros c2 _|lia]. apply pays_assoc. one 0; [free|intros b2 _|lia]. cbn [thenc].
  eapply pays_more; [apply T|lia].
Qed.
Lemma pays_AddLE w s a b : pays (AddLE w s a b) (5 * width_bytes w) any.
Proof.
  destruct w; cbn [AddLE width_bytes]; try apply pays_addAnyLE.
  - unfold Add16LE. one (2 * 2); [apply pays_padLE|intros [e|] _; [exact Logic.I|]|lia]. one 6; [apply pays_addEq16LE|intros; exact Logic.I|lia].
  - unfold Add32LE. one (2 * 4); [apply pays_padLE|intros [e|] _; [exact Logic.I|]|lia]. one 12; [apply pays_addEq32LE|intros; exact Logic.I|lia].
Qed.
Lemma pays_AddBE w s a b : pays (AddBE w s a b) (5 * width_bytes w + 2 * len a) any.
Proof.
  destruct w; cbn [AddBE width_bytes]; try (eapply pays_more; [apply pays_addAnyBE|lia]).
  - unfold Add16BE. one (2 + 2 * len a); [apply pays_padBE|intros [e|] _; [exact Logic.I|]|lia]. one 6; [apply pays_addEq16BE|intros; exact Logic.I|lia].
  - unfold Add32BE. one (4 + 2 * len a); [apply pays_padBE|intros [e|] _; [exact Logic.I|]|lia]. one 12; [apply pays_addEq32BE|intros; exact Logic.I|lia].
Qed.
Lemma pays_Add p w s a b : pays (Add p w s a b) (5 * width_bytes w + 2 * match p with LittleEndian => 0 | BigEndian => len a end) any.
Proof.
  destruct p, w; cbn [Add]; try (eapply pays_more; [apply pays_AddLE|lia]); try apply pays_AddBE; cbn [width_bytes].
  - one (2 * 2); [apply pays_padLE|intros e _|lia]. one 6; [apply pays_addEq16LE|intros; exact Logic.I|lia].
  - one (2 * 4); [apply pays_padLE|intros e _|lia]. one 12; [apply pays_addEq32LE|intros; exact Logic.I|lia].
  - one (2 + 2 * len a); [apply pays_padBE|intros e _|lia]. one 6; [apply pays_addEq16BE|intros; exact Logic.I|lia].
  - one (4 + 2 * len a); [apply pays_padBE|intros e _|lia]. one 12; [apply pays_addEq32BE|intros; exact Logic.I|lia].
Qed.
Lemma pays_call c : pays (do_call c) (bytes_price c) any.
Proof.
  destruct c as [t|d o|e w s a b|p w s a b|s j|s j v]; cbn [do_call bytes_price].
  - one (len t); [apply pays_Zero|intros; exact Logic.I|lia].
  - one (3 * Nat.min (len d) (len o)); [apply pays_XorEq|intros; exact Logic.I|lia].
  - destruct e; [one (5 * width_bytes w); [apply pays_AddLE|intros; exact Logic.I|lia]|one (5 * width_bytes w + 2 * len a); [apply pays_AddBE|intros; exact Logic.I|lia]].
  - eapply pays_seq; [apply pays_Add|intros r _; apply (pays_ret _ 0); exact Logic.I|lia].
  - one 1; [apply pays_load|intros; exact Logic.I|lia].
  - one 1; [apply pays_store|intros; exact Logic.I|lia].
Qed.
Lemma owes_job g : forall n (Q : list result -> nat -> Prop) (R : nat -> Prop),
  (forall rs j, j <= bytes_bill g rs -> R (n + j)) -> (forall rs j, j <= bytes_bill g rs -> Q rs (n + j)) -> owes (behave g) n Q R.
Proof.
  induction g as [|c k IH]; intros n Q R HR HQ; cbn [behave].
  - cbn [owes]. split; [specialize (HR [] 0 (le_n _))|specialize (HQ [] 0 (le_n _))]; rewrite Nat.add_0_r in *; assumption.
  - apply (owes_then _ _ (bytes_price c) n any); [apply pays_call| |].
    + intros j Hj. apply (HR []). cbn [bytes_bill]. lia.
    + intros r j Hj _.
      assert (X : owes (behave (k r)) (n + j) (fun x j' => Q (r :: x) j') R).
      { apply IH.
        - intros rs i Hi. rewrite <- Nat.add_assoc. apply (HR (r :: rs)). cbn [bytes_bill]. lia.
        - intros rs i Hi. rewrite <- Nat.add_assoc. apply (HQ (r :: rs)). cbn [bytes_bill]. lia. }
      revert X. generalize (n + j). generalize (behave (k r)). clear.
      induction c as [rs| |a k IH|a v k IH|l s k IH]; cbn [owes thenc]; intros n X; try tauto.
      * split; [apply X|]. intros v. apply IH, X.
      * split; [apply X|]. apply IH, X.
      * split; [apply X|]. intros v. apply IH, X.
Qed.
