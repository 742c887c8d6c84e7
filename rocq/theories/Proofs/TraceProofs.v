(** Proofs for C101: the accesses of the hashes do not depend on the data. *)
From Verif Require Import Base.Go Base.DigestApi Base.HashApi Base.HashUse Base.Goroutine Base.GoUse Base.Trace Spec.TraceSpec Model.HashAtom Proofs.Util Proofs.GoroutineProofs.
From Verif Require Model.Ripemd Model.Whirlpool Model.WhirlpoolTables Model.Bcc Model.Lrc Model.Fletcher Model.HashMem.
Local Open Scope N_scope.

(** ** Two computations on values that both return or both do not *)
Definition both {A B} (R : A -> B -> Prop) (x : outcome A) (y : outcome B) : Prop :=
  match x, y with
  | Ret a, Ret b => R a b
  | Ret _, _ | _, Ret _ => False
  | _, _ => True
  end.
Lemma both_bind {A B C D} (R : A -> B -> Prop) (T : C -> D -> Prop) x y (f : A -> outcome C) (g : B -> outcome D) :
  both R x y -> (forall a b, R a b -> both T (f a) (g b)) -> both T (bind x f) (bind y g).
Proof. destruct x, y; cbn [both bind]; intros H K; try contradiction; auto. Qed.
Lemma both_same {A} (x : outcome A) : both eq x x.
Proof. destruct x; reflexivity. Qed.
Definition sized {A B} (l : list A) (k : list B) : Prop := length l = length k.
Definition any2 {A B} (_ : A) (_ : B) : Prop := True.
Lemma both_idx {A} (l k : list A) i : sized l k -> both any2 (idx l i) (idx k i).
Proof.
  unfold sized, idx. intros H. destruct (nth_error l i) eqn:E, (nth_error k i) eqn:F; cbn [both]; try exact Logic.I.
  - apply nth_error_None in F. assert (i < length l)%nat by (apply nth_error_Some; congruence). lia.
  - apply nth_error_None in E. assert (i < length k)%nat by (apply nth_error_Some; congruence). lia.
Qed.
Lemma both_upd {A} (l k : list A) i v w : sized l k -> both (fun l' k' => sized l' k' /\ sized l' l) (upd l i v) (upd k i w).
Proof.
  unfold sized. intros H. destruct (Nat.ltb_spec i (length l)).
  - rewrite !upd_in by lia. cbn [both]. rewrite !app_length, !firstn_length. cbn [length]. rewrite !skipn_length. lia.
  - rewrite !upd_out by lia. exact Logic.I.
Qed.
Lemma both_slice {A} (l k : list A) i j : sized l k -> both sized (slice_of l i j) (slice_of k i j).
Proof.
  unfold sized, slice_of. intros H. rewrite H. destruct (_ && _)%bool; cbn [both]; [|exact Logic.I]. rewrite !firstn_length, !skipn_length. lia.
Qed.
Lemma both_le32 l k : sized l k -> both any2 (get_le32 l) (get_le32 k).
Proof.
  unfold sized. destruct l as [|a [|b [|c [|d l]]]], k as [|a' [|b' [|c' [|d' k]]]]; cbn [length get_le32 both]; intros H; try lia; exact Logic.I.
Qed.

(** *** The compression functions *)
Ltac two :=
  match goal with
  | |- both _ (bind (upd ?l _ _) _) (bind (upd ?k _ _) _) =>
      eapply both_bind; [apply both_upd; assumption|]; let l := fresh "l" in let k := fresh "k" in intros l k [? ?]
  | |- both _ (bind (idx ?l _) _) (bind (idx ?l _) _) => eapply both_bind; [apply both_same|]; let v := fresh "v" in intros v _ <-
  | |- both _ (bind (Ripemd.be_at ?l _) _) (bind (Ripemd.be_at ?l _) _) => eapply both_bind; [apply both_same|]; let v := fresh "v" in intros v _ <-
  | |- both _ (bind (idx _ _) _) (bind (idx _ _) _) => eapply both_bind; [apply both_idx; assumption|]; let v := fresh "v" in let w := fresh "w" in intros v w _
  end.
Lemma both_getX n : forall i b b' l l', sized b b' -> sized l l' -> both sized (Ripemd.getX_loop n i b l) (Ripemd.getX_loop n i b' l').
Proof.
  induction n as [|n IH]; intros i b b' l l' Hb Hl; cbn [Ripemd.getX_loop]; [exact Hl|]. rewrite Hb.
  eapply both_bind; [apply both_slice; exact Hb|]. intros s s' Hs. eapply both_bind; [apply both_le32; exact Hs|]. intros v w _. two. apply IH; assumption.
Qed.
Lemma both_loop4 n : forall j r tk tkk x x' v v', sized x x' -> both any2 (Ripemd.loop4 n j r tk tkk x v) (Ripemd.loop4 n j r tk tkk x' v').
Proof.
  induction n as [|n IH]; intros j r tk tkk x x' v v' Hx; cbn [Ripemd.loop4]; [exact Logic.I|].
  destruct v as [[[[a b] c] d] [[[aa bb] cc] dd]], v' as [[[[a' b'] c'] d'] [[[aa' bb'] cc'] dd']]. repeat two. cbv zeta. repeat two. apply IH. exact Hx.
Qed.
Lemma both_loop5 n : forall j r tk tkk x x' v v', sized x x' -> both any2 (Ripemd.loop5 n j r tk tkk x v) (Ripemd.loop5 n j r tk tkk x' v').
Proof.
  induction n as [|n IH]; intros j r tk tkk x x' v v' Hx; cbn [Ripemd.loop5]; [exact Logic.I|].
  destruct v as [[[[[a b] c] d] e] [[[[aa bb] cc] dd] ee]], v' as [[[[[a' b'] c'] d'] e'] [[[[aa' bb'] cc'] dd'] ee']]. repeat two. cbv zeta. repeat two. apply IH. exact Hx.
Qed.
Lemma both_rounds4 n : forall r x x' v v', sized x x' -> both any2 (Ripemd.rounds128 n r x v) (Ripemd.rounds128 n r x' v').
Proof.
  induction n as [|n IH]; intros r x x' v v' Hx; cbn [Ripemd.rounds128]; [exact Logic.I|]. repeat two.
  eapply both_bind; [apply both_loop4; exact Hx|]. intros y y' _. apply IH. exact Hx.
Qed.
Lemma both_rounds5 n : forall r x x' v v', sized x x' -> both any2 (Ripemd.rounds160 n r x v) (Ripemd.rounds160 n r x' v').
Proof.
  induction n as [|n IH]; intros r x x' v v' Hx; cbn [Ripemd.rounds160]; [exact Logic.I|]. repeat two.
  eapply both_bind; [apply both_loop5; exact Hx|]. intros y y' _. apply IH. exact Hx.
Qed.
(** what is left behind: as many words as before, and an empty block *)
Definition left_so (n : nat) (t t' : ctx) : Prop := length (state t) = n /\ length (state t') = n /\ bPos t = bPos t'.
Ltac regs := let y := fresh "y" in let y' := fresh "y" in intros y y' _; unfold Ripemd.regs4, Ripemd.regs5 in y, y'; repeat match goal with p : (_ * _)%type |- _ => destruct p end.
Ltac ended := cbn [both]; unfold left_so, sized in *; cbn [state bPos]; repeat split; congruence.
Lemma both_ripemd v n c c' : length (state c) = n -> length (state c') = n -> sized (block c) (block c') -> both (left_so n) (Ripemd.hash_fn v c) (Ripemd.hash_fn v c').
Proof.
  intros Hn Hn' Hb. assert (Hs : sized (state c) (state c')) by (unfold sized; congruence).
  assert (X : both sized (Ripemd.getX c) (Ripemd.getX c')) by (apply both_getX; [exact Hb|reflexivity]).
  destruct v; cbn [Ripemd.hash_fn].
  - unfold Ripemd.hash128. cbv zeta. repeat two. eapply both_bind; [exact X|]. intros x x' Hx. eapply both_bind; [apply both_rounds4; exact Hx|]. regs. repeat two. ended.
  - unfold Ripemd.hash160. cbv zeta. repeat two. eapply both_bind; [exact X|]. intros x x' Hx. eapply both_bind; [apply both_rounds5; exact Hx|]. regs. repeat two. ended.
  - unfold Ripemd.hash256. cbv zeta. repeat two. eapply both_bind; [exact X|]. intros x x' Hx. repeat two.
    do 4 (eapply both_bind; [apply both_loop4; exact Hx|]; regs; cbv zeta beta iota; repeat two). ended.
  - unfold Ripemd.hash320. cbv zeta. repeat two. eapply both_bind; [exact X|]. intros x x' Hx. repeat two.
    do 5 (eapply both_bind; [apply both_loop5; exact Hx|]; regs; cbv zeta beta iota; repeat two). ended.
Qed.

Lemma look_some base w k : (base <= 1792) -> base mod 256 = 0 -> exists e, Whirlpool.look base w k = Ret e.
Proof.
  intros H M. unfold Whirlpool.look.
  assert (L : length WhirlpoolTables.ct = 2048%nat) by (vm_compute; reflexivity).
  assert (B : (N.to_nat (N.lor base (N.land (N.shiftr w k) 255)) < length WhirlpoolTables.ct)%nat).
  { rewrite L. enough (N.lor base (N.land (N.shiftr w k) 255) < 2048) by lia.
    apply N.log2_lt_cancel. 
    destruct (N.eq_dec (N.lor base (N.land (N.shiftr w k) 255)) 0) as [->|Z]; [reflexivity|].
    rewrite N.log2_lor. apply N.max_lub_lt.
    - eapply N.le_lt_trans; [apply N.log2_le_mono, H|reflexivity].
    - change 255 with (N.ones 8). rewrite N.land_ones. eapply N.le_lt_trans; [apply N.log2_le_mono; apply N.lt_le_incl; apply N.mod_lt; discriminate|reflexivity]. }
  unfold idx. destruct (nth_error WhirlpoolTables.ct _) eqn:E; [eauto|]. apply nth_error_None in E. lia.
Qed.
Lemma both_look base v w k : (base <= 1792) -> base mod 256 = 0 -> both any2 (Whirlpool.look base v k) (Whirlpool.look base w k).
Proof. intros H M. destruct (look_some base v k H M) as [e ->], (look_some base w k H M) as [e' ->]. exact Logic.I. Qed.
Ltac two_look := eapply both_bind; [apply both_look; [lia|reflexivity]|]; let v := fresh "v" in let w := fresh "w" in intros v w _.
Lemma both_mixed l k i : sized l k -> both any2 (Whirlpool.mixed l i) (Whirlpool.mixed k i).
Proof. intros H. unfold Whirlpool.mixed. do 8 (two; two_look). exact Logic.I. Qed.
Lemma both_load l k i : sized l k -> both any2 (Whirlpool.load l i) (Whirlpool.load k i).
Proof. intros H. unfold Whirlpool.load. cbv zeta. repeat two. exact Logic.I. Qed.
Lemma both_init n : forall i c c' x K st x' K' st', sized (block c) (block c') -> sized (state c) (state c') -> sized x x' -> sized K K' -> sized st st' ->
  both (fun p q => sized (fst (fst p)) (fst (fst q)) /\ sized (snd (fst p)) (snd (fst q)) /\ sized (snd p) (snd q)) (Whirlpool.init_loop n i c x K st) (Whirlpool.init_loop n i c' x' K' st').
Proof.
  induction n as [|n IH]; intros i c c' x K st x' K' st' Hb Hs Hx HK Ht; cbn [Whirlpool.init_loop]; [repeat split; assumption|].
  eapply both_bind; [apply both_load; exact Hb|]. intros v w _. repeat two. apply IH; assumption.
Qed.
Lemma both_key n : forall i K L K' L', sized K K' -> sized L L' -> both sized (Whirlpool.key_loop n i K L) (Whirlpool.key_loop n i K' L').
Proof.
  induction n as [|n IH]; intros i K L K' L' HK HL; cbn [Whirlpool.key_loop]; [exact HL|].
  eapply both_bind; [apply both_mixed; exact HK|]. intros v w _. two. apply IH; assumption.
Qed.
Lemma both_state n : forall i st K L st' K' L', sized st st' -> sized K K' -> sized L L' ->
  both (fun p q => sized (fst p) (fst q) /\ sized (snd p) (snd q)) (Whirlpool.state_loop n i st K L) (Whirlpool.state_loop n i st' K' L').
Proof.
  induction n as [|n IH]; intros i st K L st' K' L' Hs HK HL; cbn [Whirlpool.state_loop]; [split; assumption|].
  two. two. eapply both_bind; [apply both_mixed; exact Hs|]. intros a b _. two. apply IH; assumption.
Qed.
Lemma both_copy n : forall i L st L' st', sized L L' -> sized st st' -> both sized (Whirlpool.copy_loop n i L st) (Whirlpool.copy_loop n i L' st').
Proof. induction n as [|n IH]; intros i L st L' st' HL Hs; cbn [Whirlpool.copy_loop]; [exact Hs|]. two. two. apply IH; assumption. Qed.
Lemma both_round n : forall r K st L K' st' L', sized K K' -> sized st st' -> sized L L' -> both sized (Whirlpool.round_loop n r K st L) (Whirlpool.round_loop n r K' st' L').
Proof.
  induction n as [|n IH]; intros r K st L K' st' L' HK Hs HL; cbn [Whirlpool.round_loop]; [exact Hs|].
  eapply both_bind; [apply both_key; assumption|]. intros a a' Ha. two. two. two.
  eapply both_bind; [apply both_state; eassumption|]. intros [b d] [b' d'] [H1 H2]. cbn [fst snd] in H1, H2.
  eapply both_bind; [apply both_copy; assumption|]. intros e e' He. apply IH; assumption.
Qed.
Lemma both_final n : forall i cs st x cs' st' x' k, length cs = k -> length cs' = k -> sized st st' -> sized x x' ->
  both (fun a b => length a = k /\ length b = k) (Whirlpool.final_loop n i cs st x) (Whirlpool.final_loop n i cs' st' x').
Proof.
  induction n as [|n IH]; intros i cs st x cs' st' x' k Hc Hc' Hs Hx; cbn [Whirlpool.final_loop]; [split; assumption|].
  assert (Hcc : sized cs cs') by (unfold sized; congruence). two. two. two. two. apply IH; unfold sized in *; congruence.
Qed.
Lemma both_whirl n c c' : length (state c) = n -> length (state c') = n -> sized (block c) (block c') -> both (left_so n) (Whirlpool.hash c) (Whirlpool.hash c').
Proof.
  intros Hn Hn' Hb. assert (Hs : sized (state c) (state c')) by (unfold sized; congruence). unfold Whirlpool.hash. cbv zeta.
  eapply both_bind; [apply both_init; [exact Hb|exact Hs|reflexivity|reflexivity|reflexivity]|]. intros [[x K] st] [[x' K'] st'] (H1 & H2 & H3). cbn [fst snd] in *.
  eapply both_bind; [apply both_round; [exact H2|exact H3|reflexivity]|]. intros s s' H4.
  eapply both_bind; [apply (both_final _ _ _ _ _ _ _ _ n); assumption|]. intros f f' [F F']. ended.
Qed.
Lemma both_hash k n c c' : length (state c) = n -> length (state c') = n -> sized (block c) (block c') -> both (left_so n) (hash_of k c) (hash_of k c').
Proof. intros Hn Hn' Hb. unfold hash_of. destruct (HashMem.variant k); [apply both_ripemd|apply both_whirl]; assumption. Qed.

(** *** The checksums *)
Lemma both_inner16 k : forall l l' a b a' b', sized l l' -> both (fun p q => sized (fst (fst p)) (fst (fst q))) (Fletcher.inner16 k l a b) (Fletcher.inner16 k l' a' b').
Proof.
  induction k as [|k IH]; intros l l' a b a' b' H; cbn [Fletcher.inner16]; [exact H|]. unfold sized in H.
  destruct l as [|x l], l' as [|x' l']; cbn [length] in H; try discriminate; [exact Logic.I|]. apply IH. unfold sized. lia.
Qed.
Lemma both_outer16 fuel total : forall l l' a b a' b', sized l l' -> both any2 (Fletcher.outer16 fuel total l a b) (Fletcher.outer16 fuel total l' a' b').
Proof.
  induction fuel as [|f IH]; intros l l' a b a' b' H; unfold sized in H; (destruct l as [|x l], l' as [|x' l']; cbn [length] in H; try discriminate; cbn [Fletcher.outer16]; try exact Logic.I).
  cbv zeta. eapply both_bind; [apply both_inner16; unfold sized; cbn [length]; lia|]. intros [[r c] d] [[r' c'] d'] Hr. apply IH. exact Hr.
Qed.
Lemma both_inner32 n : forall k l l' a b a' b', (k <= n)%nat -> sized l l' -> both (fun p q => sized (fst (fst p)) (fst (fst q))) (Fletcher.inner32 k l a b) (Fletcher.inner32 k l' a' b').
Proof.
  induction n as [|n IH]; intros [|k] l l' a b a' b' Hk H; cbn [Fletcher.inner32]; try lia; try exact H. unfold sized in H.
  destruct l as [|x l], l' as [|x' l']; cbn [length] in H; try discriminate; [exact Logic.I|].
  destruct l as [|y l], l' as [|y' l']; cbn [length] in H; try discriminate; (destruct k as [|k]; [unfold sized; cbn [both fst length] in *; lia|apply IH; unfold sized; cbn [length]; lia]).
Qed.
Lemma both_outer32 fuel : forall l l' a b a' b', sized l l' -> both any2 (Fletcher.outer32 fuel l a b) (Fletcher.outer32 fuel l' a' b').
Proof.
  induction fuel as [|f IH]; intros l l' a b a' b' H; unfold sized in H; (destruct l as [|x l], l' as [|x' l']; cbn [length] in H; try discriminate; cbn [Fletcher.outer32]; try exact Logic.I).
  cbv zeta. replace (length (x' :: l')) with (length (x :: l)) by (cbn [length]; lia). eapply both_bind; [apply (both_inner32 _ _ _ _ _ _ _ _ (le_n _)); unfold sized; cbn [length]; lia|].
  intros [[r c] d] [[r' c'] d'] Hr. apply IH. exact Hr.
Qed.
Lemma read_sized x x' l l' : sized l l' -> sized (snd (Fletcher.read_word64 x l)) (snd (Fletcher.read_word64 x' l')).
Proof.
  unfold sized. intros H. destruct l as [|y [|z [|t l]]], l' as [|y' [|z' [|t' l']]]; cbn [length Fletcher.read_word64 snd] in *; lia.
Qed.
Lemma both_inner64 n : forall k l l' a b a' b', (k <= n)%nat -> sized l l' -> both (fun p q => sized (fst (fst p)) (fst (fst q))) (Fletcher.inner64 k l a b) (Fletcher.inner64 k l' a' b').
Proof.
  induction n as [|n IH]; intros [|k] l l' a b a' b' Hk H; cbn [Fletcher.inner64]; try lia; try exact H. unfold sized in H.
  destruct l as [|x l], l' as [|x' l']; cbn [length] in H; try discriminate; [exact Logic.I|].
  assert (H' : sized l l') by (unfold sized; lia). pose proof (read_sized x x' l l' H') as R.
  destruct (Fletcher.read_word64 x l) as [w r], (Fletcher.read_word64 x' l') as [w' r']. cbn [snd] in R. cbv zeta.
  destruct k as [|[|[|k]]]; try exact R. apply IH; [lia|exact R].
Qed.
Lemma both_outer64 fuel : forall l l' a b a' b', sized l l' -> both any2 (Fletcher.outer64 fuel l a b) (Fletcher.outer64 fuel l' a' b').
Proof.
  induction fuel as [|f IH]; intros l l' a b a' b' H; unfold sized in H; (destruct l as [|x l], l' as [|x' l']; cbn [length] in H; try discriminate; cbn [Fletcher.outer64]; try exact Logic.I).
  cbv zeta. replace (length (x' :: l')) with (length (x :: l)) by (cbn [length]; lia). eapply both_bind; [apply (both_inner64 _ _ _ _ _ _ _ _ (le_n _)); unfold sized; cbn [length]; lia|].
  intros [[r c] d] [[r' c'] d'] Hr. apply IH. exact Hr.
Qed.
Lemma both_byte k d d' xs ys : sized xs ys -> both any2 (HashMem.byte_step k d (CWrite xs)) (HashMem.byte_step k d' (CWrite ys)).
Proof. intros H. destruct k; exact Logic.I. Qed.
Lemma both_word k d d' xs ys : sized xs ys -> both any2 (HashMem.word_step k d (CWrite xs)) (HashMem.word_step k d' (CWrite ys)).
Proof.
  intros H. unfold HashMem.word_step.
  assert (H16 : both any2 (Fletcher.step16 d (CWrite xs)) (Fletcher.step16 d' (CWrite ys))).
  { cbn [Fletcher.step16]. unfold Fletcher.update16. eapply (both_bind any2); [|intros; exact Logic.I]. rewrite H. eapply both_bind; [apply both_outer16; exact H|]. intros [? ?] [? ?] _. exact Logic.I. }
  assert (H32 : both any2 (Fletcher.step32 d (CWrite xs)) (Fletcher.step32 d' (CWrite ys))).
  { cbn [Fletcher.step32]. unfold Fletcher.update32. eapply (both_bind any2); [|intros; exact Logic.I]. rewrite H. eapply both_bind; [apply both_outer32; exact H|]. intros [? ?] [? ?] _. exact Logic.I. }
  assert (H64 : both any2 (Fletcher.step64 d (CWrite xs)) (Fletcher.step64 d' (CWrite ys))).
  { cbn [Fletcher.step64]. unfold Fletcher.update64. eapply (both_bind any2); [|intros; exact Logic.I]. rewrite H. eapply both_bind; [apply both_outer64; exact H|]. intros [? ?] [? ?] _. exact Logic.I. }
  destruct k; assumption.
Qed.
Lemma both_summed_byte k d d' : both sized (summed (let! (_, r) := HashMem.byte_step k d (CSum []) in Ret r)) (summed (let! (_, r) := HashMem.byte_step k d' (CSum []) in Ret r)).
Proof. destruct k; reflexivity. Qed.
Lemma both_summed_word k d d' : both sized (summed (let! (_, r) := HashMem.word_step k d (CSum []) in Ret r)) (summed (let! (_, r) := HashMem.word_step k d' (CSum []) in Ret r)).
Proof. destruct k; reflexivity. Qed.

(** ** Two runs, access by access *)
Fixpoint lock {A B} (id : nat) (Q : A -> B -> memory -> memory -> (bool -> nat) -> Prop) (c : code A) (d : code B) (m m' : memory) (u : bool -> nat) : Prop :=
  match c, d with
  | Return x, Return y => Q x y m m' u
  | Crash, Crash => True
  | Get a k, Get b j => a = b /\ lock id Q (k (m a)) (j (m' b)) m m' u
  | Put a v k, Put b w j => a = b /\ lock id Q k j (put m a v) (put m' b w) u
  | New l n k, New l' n' j => l = l' /\ n = n' /\ let a := mkA id l (u l) in lock id Q (k a) (j a) (clear m a n) (clear m' a n) (grow u l n)
  | _, _ => False
  end.
Lemma lock_trace {A B} (id : nat) Q (c : code A) : forall (d : code B) m m' u, lock id Q c d m m' u -> trace id c m u = trace id d m' u.
Proof.
  induction c as [x| |a k IH|a v k IH|l n k IH]; intros [y| |b j|b w j|l' n' j] m m' u H; cbn [lock trace] in *; try contradiction; try reflexivity.
  - destruct H as [<- H]. rewrite (IH _ _ _ _ _ H). reflexivity.
  - destruct H as [<- H]. rewrite (IH _ _ _ _ H). reflexivity.
  - destruct H as (<- & <- & H). cbv zeta in *. rewrite (IH _ _ _ _ _ H). reflexivity.
Qed.
Lemma lock_alone {A B} (id : nat) Q (c : code A) : forall (d : code B) m m' u x n v, lock id Q c d m m' u -> alone id c m u = Some (x, n, v) ->
  exists y n', alone id d m' u = Some (y, n', v) /\ Q x y n n' v.
Proof.
  induction c as [z| |a k IH|a w k IH|l s k IH]; intros [y| |b j|b w' j|l' s' j] m m' u x n v H E; cbn [lock alone] in *; try contradiction; try discriminate.
  - injection E as <- <- <-. eauto.
  - destruct H as [<- H]. apply (IH _ _ _ _ _ _ _ _ H E).
  - destruct H as [<- H]. apply (IH _ _ _ _ _ _ _ H E).
  - destruct H as (<- & <- & H). cbv zeta in *. apply (IH _ _ _ _ _ _ _ _ H E).
Qed.
Lemma lock_then {A B C D} (id : nat) Q (c : code A) (f : A -> code C) (g : B -> code D) : forall d m m' u,
  lock id (fun x y n n' v => lock id Q (f x) (g y) n n' v) c d m m' u -> lock id Q (thenc c f) (thenc d g) m m' u.
Proof.
  induction c as [x| |a k IH|a v k IH|l n k IH]; intros [y| |b j|b w j|l' n' j] m m' u H; cbn [lock thenc] in *; try contradiction; try exact H; destruct H as [? H].
  - split; [assumption|]. apply IH. exact H.
  - split; [assumption|]. apply IH. exact H.
  - destruct H as [? H]. split; [assumption|]. split; [assumption|]. cbv zeta in *. apply IH. exact H.
Qed.
Lemma lock_mono {A B} (id : nat) (Q Q' : A -> B -> memory -> memory -> (bool -> nat) -> Prop) (c : code A) : (forall x y n n' v, Q x y n n' v -> Q' x y n n' v) ->
  forall d m m' u, lock id Q c d m m' u -> lock id Q' c d m m' u.
Proof.
  intros K. induction c as [x| |a k IH|a v k IH|l n k IH]; intros [y| |b j|b w j|l' n' j] m m' u H; cbn [lock] in *; try contradiction; try exact Logic.I; auto.
  - destruct H. split; auto.
  - destruct H. split; auto.
  - destruct H as (? & ? & H). split; [assumption|]. split; [assumption|]. cbv zeta in *. apply IH. exact H.
Qed.
Lemma lock_lift {A B C D} (id : nat) Q R (x : outcome A) (y : outcome B) (f : A -> code C) (g : B -> code D) m m' u : both R x y ->
  (forall a b, R a b -> lock id Q (f a) (g b) m m' u) -> lock id Q (thenc (lift x) f) (thenc (lift y) g) m m' u.
Proof. destruct x, y; cbn [both lift thenc lock]; intros H K; try contradiction; auto. Qed.

(** The cells in which the two runs agree. *)
Definition agreed (K : addr -> Prop) (m m' : memory) : Prop := forall a, K a -> m a = m' a.
Section Steps.
Context (id : nat) {A B : Type} (Q : A -> B -> memory -> memory -> (bool -> nat) -> Prop) (K : addr -> Prop).
Lemma l_get a (f : N -> code A) (g : N -> code B) m m' u : (forall v w, lock id Q (f v) (g w) m m' u) -> lock id Q (thenc (get a) f) (thenc (get a) g) m m' u.
Proof. intros H. cbn [get thenc lock]. auto. Qed.
Lemma l_known a (f : N -> code A) (g : N -> code B) m m' u : agreed K m m' -> K a -> (forall v, lock id Q (f v) (g v) m m' u) -> lock id Q (thenc (get a) f) (thenc (get a) g) m m' u.
Proof. intros E H F. cbn [get thenc lock]. split; [reflexivity|]. rewrite (E a H). apply F. Qed.
Lemma put_agreed a v w m m' : agreed K m m' -> (K a -> v = w) -> agreed K (put m a v) (put m' a w).
Proof.
  intros E H x Kx. unfold put. destruct (same x a) eqn:S; [|apply E, Kx].
  apply H. assert (x = a) as <-; [|exact Kx]. unfold same in S. apply andb_prop in S. destruct S as [S S3]. apply andb_prop in S. destruct S as [S1 S2].
  apply Nat.eqb_eq in S1. apply eqb_prop in S2. apply Nat.eqb_eq in S3. destruct x as [x1 x2 x3], a as [a1 a2 a3]. cbn [who lib num] in *. congruence.
Qed.
Lemma l_set a v w (f g : unit -> code _) m m' u : agreed K m m' -> (K a -> v = w) ->
  (forall n n', agreed K n n' -> lock id Q (f tt : code A) (g tt : code B) n n' u) -> lock id Q (thenc (set a v) f) (thenc (set a w) g) m m' u.
Proof. intros E H F. cbn [set thenc lock]. split; [reflexivity|]. apply F, put_agreed; assumption. Qed.
Lemma clear_agreed a n m m' : agreed K m m' -> agreed (fun x => K x \/ within a n x = true) (clear m a n) (clear m' a n).
Proof. intros E x Hx. unfold clear. destruct (within a n x); [reflexivity|]. destruct Hx as [Hx|Hx]; [apply E, Hx|discriminate]. Qed.
Lemma l_new l s (f : addr -> code A) (g : addr -> code B) m m' u : agreed K m m' ->
  (forall n n', agreed (fun x => K x \/ within (mkA id l (u l)) s x = true) n n' -> lock id Q (f (mkA id l (u l))) (g (mkA id l (u l))) n n' (grow u l s)) ->
  lock id Q (thenc (new l s) f) (thenc (new l s) g) m m' u.
Proof. intros E F. cbn [new thenc lock]. split; [reflexivity|]. split; [reflexivity|]. cbv zeta. apply F, clear_agreed, E. Qed.
End Steps.
(** Lists of cells, equal where the cells are known. *)
Definition matching (K : addr -> Prop) (a : addr) (xs ys : list N) : Prop := length xs = length ys /\ forall i, K (shift a i) -> nth i xs 0 = nth i ys 0.
Lemma l_gets (id : nat) K n : forall A B (Q : A -> B -> memory -> memory -> (bool -> nat) -> Prop) a f g m m' u, agreed K m m' ->
  (forall xs ys, length xs = n -> matching K a xs ys -> lock id Q (f xs) (g ys) m m' u) -> lock id Q (thenc (gets a n) f) (thenc (gets a n) g) m m' u.
Proof.
  induction n as [|n IH]; intros A B Q a f g m m' u E F; cbn [gets].
  - apply F; [reflexivity|]. split; [reflexivity|]. intros i _. reflexivity.
  - cbn [get thenc lock]. split; [reflexivity|]. apply lock_then. 
    apply IH with (f := fun r => Return (m a :: r)) (g := fun r => Return (m' a :: r)); [exact E|].
    intros xs ys L [M1 M2]. cbn [lock]. apply F; [cbn [length]; congruence|]. split; [cbn [length]; congruence|].
    intros [|i] Ki; cbn [nth]; [rewrite shift_0 in Ki; apply E, Ki|]. apply M2. rewrite shift_shift. exact Ki.
Qed.
Lemma l_sets (id : nat) {A B} (Q : A -> B -> memory -> memory -> (bool -> nat) -> Prop) K xs : forall ys a f g m m' u, agreed K m m' -> matching K a xs ys ->
  (forall n n', agreed K n n' -> lock id Q (f tt) (g tt) n n' u) -> lock id Q (thenc (sets a xs) f) (thenc (sets a ys) g) m m' u.
Proof.
  induction xs as [|x xs IH]; intros [|y ys] a f g m m' u E [M1 M2] F; cbn [length] in M1; try discriminate; cbn [sets].
  - cbn [thenc]. apply F, E.
  - cbn [set thenc lock]. split; [reflexivity|]. apply IH; [apply put_agreed; [exact E|]|split; [lia|]|exact F].
    + intros Ka. specialize (M2 0%nat). rewrite shift_0 in M2. apply M2, Ka.
    + intros i Ki. specialize (M2 (S i)). rewrite shift_shift in Ki. apply M2, Ki.
Qed.
Lemma agreed_less (K K' : addr -> Prop) m m' : agreed K m m' -> (forall x, K' x -> K x) -> agreed K' m m'.
Proof. intros E H x Kx. apply E, H, Kx. Qed.
Definition tied {A B} id (R : A -> B -> Prop) K (c : code A) (d : code B) m m' u : Prop :=
  lock id (fun x y n n' v => R x y /\ agreed K n n' /\ v = u) c d m m' u.
Lemma l_seq {A B C D} (id : nat) Q R K (c : code A) (d : code B) (f : A -> code C) (g : B -> code D) m m' u : tied id R K c d m m' u ->
  (forall x y n n', R x y -> agreed K n n' -> lock id Q (f x) (g y) n n' u) -> lock id Q (thenc c f) (thenc d g) m m' u.
Proof.
  intros H F. apply lock_then. eapply lock_mono; [|exact H]. cbv beta. intros x y n n' v (Rx & E & ->). apply F; assumption.
Qed.
Lemma then_ret {A} (c : code A) id {B} Q (d : code B) m m' u : lock id Q (thenc c Return) (thenc d Return) m m' u -> lock id Q c d m m' u.
Proof.
  revert d m m' u. induction c as [x| |a k IH|a v k IH|l n k IH]; intros [y| |b j|b w j|l' n' j] m m' u H; cbn [lock thenc] in *; try contradiction; try exact H; destruct H as [? H].
  - split; [assumption|]. apply IH. exact H.
  - split; [assumption|]. apply IH. exact H.
  - destruct H as [? H]. split; [assumption|]. split; [assumption|]. cbv zeta in *. apply IH. exact H.
Qed.

(** ** The block hashes: the position is known, the rest is not *)
Section Object.
Context (id : nat) (K : addr -> Prop) (c : addr).
Hypothesis known : K (f_pos c).
Hypothesis unknown : forall i, (i < 75)%nat -> ~ K (shift c i).

Lemma o_get_pos {A B} (Q : A -> B -> memory -> memory -> (bool -> nat) -> Prop) f g m m' u : agreed K m m' -> (forall p, lock id Q (f p) (g p) m m' u) -> lock id Q (thenc (get_pos c) f) (thenc (get_pos c) g) m m' u.
Proof. intros E F. unfold get_pos. cbn [get thenc lock]. split; [reflexivity|]. rewrite (E _ known). apply F. Qed.
Lemma o_set_pos {A B} (Q : A -> B -> memory -> memory -> (bool -> nat) -> Prop) p f g m m' u : agreed K m m' -> (forall n n', agreed K n n' -> lock id Q (f tt) (g tt) n n' u) ->
  lock id Q (thenc (set_pos c p) f) (thenc (set_pos c p) g) m m' u.
Proof. intros E F. unfold set_pos. apply (l_set _ _ K); [exact E|reflexivity|exact F]. Qed.
Lemma o_block {A B} (Q : A -> B -> memory -> memory -> (bool -> nat) -> Prop) i xs ys f g m m' u : agreed K m m' -> length xs = length ys -> (i + length xs <= 64)%nat ->
  (forall n n', agreed K n n' -> lock id Q (f tt) (g tt) n n' u) -> lock id Q (thenc (sets (f_block c i) xs) f) (thenc (sets (f_block c i) ys) g) m m' u.
Proof.
  intros E L H F. apply (l_sets _ _ K); [exact E| |exact F]. split; [exact L|]. intros j Kj. unfold f_block in Kj. rewrite shift_shift in Kj.
  destruct (Nat.ltb_spec j (length xs)).
  - exfalso. apply (unknown (11 + i + j)); [lia|]. exact Kj.
  - rewrite !nth_overflow by lia. reflexivity.
Qed.
Lemma o_set_block {A B} (Q : A -> B -> memory -> memory -> (bool -> nat) -> Prop) i v w f g m m' u : agreed K m m' -> (forall n n', agreed K n n' -> lock id Q (f tt) (g tt) n n' u) ->
  lock id Q (thenc (set_block c i v) f) (thenc (set_block c i w) g) m m' u.
Proof.
  intros E F. unfold set_block. destruct (Nat.ltb_spec i 64); [|exact Logic.I]. apply (l_set _ _ K); [exact E| |exact F].
  intros Kx. exfalso. apply (unknown (11 + i)); [lia|exact Kx].
Qed.
Lemma o_zero {A B} (Q : A -> B -> memory -> memory -> (bool -> nat) -> Prop) i j f g m m' u : agreed K m m' -> (forall n n', agreed K n n' -> lock id Q (f tt) (g tt) n n' u) ->
  lock id Q (thenc (zero_block c i j) f) (thenc (zero_block c i j) g) m m' u.
Proof.
  intros E F. unfold zero_block. destruct (_ && _)%bool eqn:G; [|exact Logic.I]. apply andb_prop in G. destruct G as [G1 G2]. apply Nat.leb_le in G1. apply Nat.leb_le in G2.
  apply o_block; [exact E|reflexivity|rewrite repeat_length; lia|exact F].
Qed.
Lemma o_copy {A B} (Q : A -> B -> memory -> memory -> (bool -> nat) -> Prop) i p n f g m m' u : agreed K m m' -> (forall n n', agreed K n n' -> lock id Q (f tt) (g tt) n n' u) ->
  lock id Q (thenc (copy_block c i p n) f) (thenc (copy_block c i p n) g) m m' u.
Proof.
  intros E F. unfold copy_block. destruct (Nat.leb_spec i 64); [|exact Logic.I]. apply lock_then. apply (l_gets _ K); [exact E|]. intros xs ys L [M _].
  apply then_ret. apply o_block; [exact E|exact M|rewrite L; lia|]. intros k k' E'. cbn [lock]. apply F, E'.
Qed.
Lemma o_state {A B} (Q : A -> B -> memory -> memory -> (bool -> nat) -> Prop) i xs ys f g m m' u : agreed K m m' -> length xs = length ys -> (i + length xs <= 75)%nat ->
  (forall n n', agreed K n n' -> lock id Q (f tt) (g tt) n n' u) -> lock id Q (thenc (sets (shift c i) xs) f) (thenc (sets (shift c i) ys) g) m m' u.
Proof.
  intros E L H F. apply (l_sets _ _ K); [exact E| |exact F]. split; [exact L|]. intros j Kj. rewrite shift_shift in Kj.
  destruct (Nat.ltb_spec j (length xs)).
  - exfalso. apply (unknown (i + j)); [lia|]. exact Kj.
  - rewrite !nth_overflow by lia. reflexivity.
Qed.
Lemma o_state0 {A B} (Q : A -> B -> memory -> memory -> (bool -> nat) -> Prop) xs ys f g m m' u : agreed K m m' -> length xs = length ys -> (length xs <= 75)%nat ->
  (forall n n', agreed K n n' -> lock id Q (f tt) (g tt) n n' u) -> lock id Q (thenc (sets c xs) f) (thenc (sets c ys) g) m m' u.
Proof. intros E L H F. pose proof (o_state Q 0 xs ys f g m m' u E L H F) as X. rewrite shift_0 in X. exact X. Qed.
Lemma o_len {A B} (Q : A -> B -> memory -> memory -> (bool -> nat) -> Prop) v w f g m m' u : agreed K m m' -> (forall n n', agreed K n n' -> lock id Q (f tt) (g tt) n n' u) ->
  lock id Q (thenc (set (f_len c) v) f) (thenc (set (f_len c) w) g) m m' u.
Proof. intros E F. apply (l_set _ _ K); [exact E| |exact F]. intros Kx. exfalso. apply (unknown 10); [lia|exact Kx]. Qed.
Definition even (hash : ctx -> outcome ctx) : Prop := forall n x y, length (state x) = n -> length (state y) = n -> sized (block x) (block y) -> both (left_so n) (hash x) (hash y).
Lemma o_hash {A B} (Q : A -> B -> memory -> memory -> (bool -> nat) -> Prop) hash w f g m m' u : even hash -> (w <= 10)%nat -> agreed K m m' -> (forall n n', agreed K n n' -> lock id Q (f tt) (g tt) n n' u) ->
  lock id Q (thenc (hash_at hash w c) f) (thenc (hash_at hash w c) g) m m' u.
Proof.
  intros V W E F. unfold hash_at. apply lock_then. apply (l_gets _ K); [exact E|]. intros b b' Lb [Mb _]. apply (l_gets _ K); [exact E|]. intros st st' Ls [Ms _].
  apply (lock_lift _ _ (left_so w)); [apply V; [exact Ls|cbn [state]; congruence|exact Mb]|]. intros t t' (T1 & T2 & T3).
  apply o_state0; [exact E|congruence|rewrite T1; lia|]. intros k k' E'. rewrite T3. apply then_ret, o_set_pos; [exact E'|]. intros z z' E''. cbn [lock]. apply F, E''.
Qed.
End Object.

Lemma even_hash k : even (hash_of k).
Proof. intros n x y. apply both_hash. Qed.
Section Writes.
Context (id : nat) (K : addr -> Prop) (c : addr) (hash : ctx -> outcome ctx) (w : nat).
Hypothesis known : K (f_pos c).
Hypothesis unknown : forall i, (i < 75)%nat -> ~ K (shift c i).
Hypothesis fine_hash : even hash.
Hypothesis short : (w <= 10)%nat.
Lemma t_write_loop fuel : forall p n space m m' u, agreed K m m' -> tied id eq K (write_loop hash w fuel c p n space) (write_loop hash w fuel c p n space) m m' u.
Proof.
  induction fuel as [|fuel IH]; intros p n space m m' u E; cbn [write_loop]; (destruct (Nat.ltb 0 n); [|repeat split; exact E]); [exact Logic.I|].
  destruct (Nat.ltb n space).
  - apply (o_get_pos id K c known); [exact E|]. intros i. apply (o_copy id K c unknown); [exact E|]. intros m1 m1' E1. apply (o_get_pos id K c known); [exact E1|]. intros j.
    apply then_ret, (o_set_pos id K c); [exact E1|]. intros m2 m2' E2. repeat split. exact E2.
  - apply (o_get_pos id K c known); [exact E|]. intros i. apply (o_copy id K c unknown); [exact E|]. intros m1 m1' E1. apply (o_get_pos id K c known); [exact E1|]. intros j.
    apply (o_set_pos id K c); [exact E1|]. intros m2 m2' E2. apply (o_hash id K c unknown); [exact fine_hash|exact short|exact E2|]. intros m3 m3' E3. apply IH, E3.
Qed.
Lemma t_Write p m m' u : agreed K m m' -> tied id eq K (Write hash w c p) (Write hash w c p) m m' u.
Proof.
  intros E. unfold Write. cbv zeta. apply l_get. intros v v'. apply (o_len id K c unknown); [exact E|]. intros m1 m1' E1. apply (o_get_pos id K c known); [exact E1|]. intros i.
  eapply l_seq; [apply t_write_loop; exact E1|]. intros [] [] n n' _ En. repeat split. exact En.
Qed.
End Writes.

(** Known cells belong to the library, and are not new. *)
Definition sound (K : addr -> Prop) (id : nat) (u : bool -> nat) : Prop := forall x, K x -> lib x = true /\ (who x = id -> (num x < u true)%nat).
Definition out_ok (K : addr -> Prop) (least : nat) (s s' : gslice) (n n' : memory) (v : bool -> nat) : Prop :=
  s = s' /\ lib (base s) = false /\ agreed K n n' /\ (least <= v true)%nat.
Lemma t_append (id : nat) (K : addr -> Prop) room s xs ys m m' u : (forall x, K x -> lib x = true) -> lib (base s) = false -> length xs = length ys -> agreed K m m' ->
  lock id (out_ok K (u true)) (append room s xs) (append room s ys) m m' u.
Proof.
  intros S L H E. unfold append. cbv zeta. rewrite <- H.
  assert (M : forall a vs ws, lib a = false -> length vs = length ws -> matching K a vs ws).
  { intros a vs ws La Hv. split; [exact Hv|]. intros i Ki. apply S in Ki. cbn [shift lib] in Ki. congruence. }
  destruct (Nat.leb _ _).
  - apply (l_sets _ _ K); [exact E|apply M; [exact L|exact H]|]. intros n n' En. split; [reflexivity|]. split; [exact L|]. split; [exact En|lia].
  - apply (l_new _ _ K); [exact E|]. intros n n' En. assert (E1 : agreed K n n') by (apply (agreed_less _ _ _ _ En); auto).
    apply (l_gets _ K); [exact E1|]. intros o o' Lo [Mo _]. apply (l_sets _ _ K); [exact E1|apply M; [reflexivity|exact Mo]|]. intros n2 n2' E2.
    apply (l_sets _ _ K); [exact E2|apply M; [reflexivity|exact H]|]. intros n3 n3' E3. split; [reflexivity|]. split; [reflexivity|]. split; [exact E3|]. cbn [grow Bool.eqb]. lia.
Qed.
Section Sums.
Context (id : nat) (K : addr -> Prop) (c : addr) (u : bool -> nat).
Hypothesis known : K (f_pos c).
Hypothesis old : sound K id u.
Let h := mkA id true (u true).
Let K1 (x : addr) := K x \/ x = f_pos h.
Let u1 := grow u true fields.
Lemma h_known : K1 (f_pos h).
Proof. right. reflexivity. Qed.
Lemma h_unknown i : (i < 75)%nat -> ~ K1 (shift h i).
Proof.
  intros Hi [H|H].
  - destruct (old _ H) as [_ H']. cbn [shift h who num] in H'. specialize (H' eq_refl). lia.
  - unfold f_pos, shift in H. injection H as H. lia.
Qed.
Lemma K1_lib x : K1 x -> lib x = true.
Proof. intros [H| ->]; [apply (old _ H)|reflexivity]. Qed.
Lemma t_clone {A B} (Q : A -> B -> memory -> memory -> (bool -> nat) -> Prop) f g m m' : agreed K m m' ->
  (forall n n', agreed K1 n n' -> lock id Q (f h) (g h) n n' u1) -> lock id Q (thenc (clone c) f) (thenc (clone c) g) m m' u.
Proof.
  intros E F. unfold clone. apply lock_then. apply (l_new _ _ K); [exact E|]. intros n n' En. fold h.
  assert (E1 : agreed K1 n n').
  { apply (agreed_less _ _ _ _ En). intros x [H| ->]; [left; exact H|right]. unfold h, within, f_pos, shift, fields. cbn [who lib num]. rewrite !Nat.eqb_refl. cbn [Bool.eqb andb].
    apply andb_true_intro. split; [apply Nat.leb_le; lia|apply Nat.ltb_lt; lia]. }
  apply (l_gets _ K1); [exact E1|]. intros xs ys L [M1 M2]. apply (l_sets _ _ K1); [exact E1| |].
  - split; [exact M1|]. intros i [H|H].
    + destruct (old _ H) as [_ H']. cbn [shift h who num] in H'. specialize (H' eq_refl). lia.
    + unfold f_pos, shift in H. injection H as H. assert (i = 75)%nat as -> by lia. apply M2. left. exact known.
  - intros n2 n2' E2. cbn [lock]. apply F, E2.
Qed.
Lemma t_put_len j f m m' v : agreed K1 m m' -> tied id eq K1 (put_len h j f) (put_len h j f) m m' v.
Proof.
  intros E. unfold put_len. apply (o_get_pos id K1 h h_known); [exact E|]. intros i. apply l_get. intros x y.
  apply then_ret, (o_set_block id K1 h h_unknown); [exact E|]. intros n n' En. repeat split. exact En.
Qed.
Lemma t_put_length i f m m' v : agreed K1 m m' -> tied id eq K1 (put_length h c i f) (put_length h c i f) m m' v.
Proof.
  intros E. unfold put_length. apply l_get. intros x y. apply then_ret, (o_set_block id K1 h h_unknown); [exact E|]. intros n n' En. repeat split. exact En.
Qed.
Let out := mkA id true (u1 true).
Lemma out_free i vs ws : length vs = length ws -> matching K1 (shift out i) vs ws.
Proof.
  intros L. split; [exact L|]. intros j Hj. exfalso. rewrite shift_shift in Hj. destruct Hj as [H|H].
  - destruct (old _ H) as [_ H']. cbn [shift out who num] in H'. specialize (H' eq_refl). unfold u1, grow in H'. cbn [Bool.eqb] in H'. lia.
  - unfold f_pos, shift in H. injection H as H. unfold u1, grow in H. cbn [Bool.eqb h num] in H. unfold fields in H. lia.
Qed.
Lemma t_put_le32s cnt : forall i m m' v, agreed K1 m m' -> tied id eq K1 (put_le32s cnt i h out) (put_le32s cnt i h out) m m' v.
Proof.
  induction cnt as [|cnt IH]; intros i m m' v E; cbn [put_le32s]; [repeat split; exact E|]. apply l_get. intros x y. apply (l_sets _ _ K1); [exact E|apply out_free; reflexivity|].
  intros n n' En. apply IH, En.
Qed.
Lemma t_put_be64s cnt : forall i m m' v, agreed K1 m m' -> tied id eq K1 (put_be64s cnt i h out) (put_be64s cnt i h out) m m' v.
Proof.
  induction cnt as [|cnt IH]; intros i m m' v E; cbn [put_be64s]; [repeat split; exact E|]. apply l_get. intros x y. apply (l_sets _ _ K1); [exact E|apply out_free; reflexivity|].
  intros n n' En. apply IH, En.
Qed.
Lemma t_finish inp room n (put : addr -> code unit) m m' : lib (base inp) = false -> (forall m m' v, agreed K1 m m' -> tied id eq K1 (put out) (put out) m m' v) -> agreed K1 m m' ->
  lock id (out_ok K (u true)) (do out <- new true n; put out ;; do xs <- gets out n; append room inp xs) (do out <- new true n; put out ;; do xs <- gets out n; append room inp xs) m m' u1.
Proof.
  intros L P E. apply (l_new _ _ K1); [exact E|]. fold out. intros k k' Ek. assert (E1 : agreed K1 k k') by (apply (agreed_less _ _ _ _ Ek); auto).
  eapply l_seq; [apply P, E1|]. intros [] [] k2 k2' _ E2. apply (l_gets _ K1); [exact E2|]. intros xs ys Lx [Mx _].
  eapply lock_mono; [|apply (t_append id K1); [exact K1_lib|exact L|exact Mx|exact E2]]. cbv beta. intros x y q q' v (H1 & H2 & H3 & H4). split; [exact H1|]. split; [exact H2|].
  split; [apply (agreed_less _ _ _ _ H3); left; assumption|]. unfold u1, grow in H4. cbn [Bool.eqb] in H4. lia.
Qed.
Ltac get_pos := apply (o_get_pos id K1 h h_known); [assumption|]; let i := fresh "i" in intros i.
Ltac next := let n := fresh "n" in let n' := fresh "n'" in let E := fresh "E" in intros n n' E.
Lemma t_SumRipe k sl room inp m m' : lib (base inp) = false -> agreed K m m' ->
  lock id (out_ok K (u true)) (SumRipe (Ripemd.hash_fn k) sl room c inp) (SumRipe (Ripemd.hash_fn k) sl room c inp) m m' u.
Proof.
  intros L E. assert (V : even (Ripemd.hash_fn k)) by (intros n x y; apply both_ripemd). unfold SumRipe. apply t_clone; [exact E|]. next. get_pos.
  apply (o_set_block id K1 h h_unknown); [assumption|]. next. apply (o_set_pos id K1 h); [assumption|]. next. get_pos.
  apply (l_seq _ _ eq K1).
  { destruct (Nat.ltb 56 i0); [|repeat split; assumption]. apply (o_zero id K1 h h_unknown); [assumption|]. next.
    apply then_ret, (o_hash id K1 h h_unknown); [exact V|lia|assumption|]. next. repeat split; assumption. }
  intros [] [] n2 n2' _ E3. get_pos. apply (o_zero id K1 h h_unknown); [assumption|]. next. apply (o_set_pos id K1 h); [assumption|]. next.
  do 8 (eapply l_seq; [apply t_put_len; assumption|]; let n := fresh "n" in let n' := fresh "n'" in let E := fresh "E" in intros [] [] n n' _ E).
  get_pos. apply (o_set_pos id K1 h); [assumption|]. next. apply (o_hash id K1 h h_unknown); [exact V|lia|assumption|]. next.
  apply (t_finish inp room (sl * 4) (put_le32s sl 0 h)); [exact L|intros; apply t_put_le32s; assumption|assumption].
Qed.
Lemma t_SumWhirl room inp m m' : lib (base inp) = false -> agreed K m m' ->
  lock id (out_ok K (u true)) (SumWhirl room c inp) (SumWhirl room c inp) m m' u.
Proof.
  intros L E. assert (V : even Whirlpool.hash) by (intros n x y; apply both_whirl). unfold SumWhirl. apply t_clone; [exact E|]. next. get_pos.
  apply (o_set_block id K1 h h_unknown); [assumption|]. next. apply (o_set_pos id K1 h); [assumption|]. next. get_pos.
  apply (l_seq _ _ eq K1).
  { destruct (Nat.ltb 32 i0); [|repeat split; assumption]. apply (o_zero id K1 h h_unknown); [assumption|]. next.
    apply then_ret, (o_hash id K1 h h_unknown); [exact V|lia|assumption|]. next. repeat split; assumption. }
  intros [] [] n2 n2' _ E3. get_pos. apply (o_zero id K1 h h_unknown); [assumption|]. next.
  do 9 (eapply l_seq; [apply t_put_length; assumption|]; let n := fresh "n" in let n' := fresh "n'" in let E := fresh "E" in intros [] [] n n' _ E).
  apply (o_hash id K1 h h_unknown); [exact V|lia|assumption|]. next.
  apply (t_finish inp room 64 (put_be64s 8 0 h)); [exact L|intros; apply t_put_be64s; assumption|assumption].
Qed.
End Sums.

(** ** All objects *)
Definition positions (all : list object) (x : addr) : Prop := exists k c, In (k, c) all /\ shape_of k = SBlock /\ x = f_pos c.
Definition placed (id : nat) (u : bool -> nat) (all : list object) : Prop :=
  (forall k c, In (k, c) all -> lib c = true /\ (who c = id -> (num c + size_of k <= u true)%nat))
  /\ forall k c k' c', In (k, c) all -> In (k', c') all -> (k, c) = (k', c') \/ who c <> who c' \/ (num c + size_of k <= num c')%nat \/ (num c' + size_of k' <= num c)%nat.
Lemma placed_sound (id : nat) u all : placed id u all -> sound (positions all) id u.
Proof.
  intros [P _] x (k & c & Hc & Hk & ->). destruct (P k c Hc) as [L B]. split; [exact L|]. cbn [f_pos shift who num]. intros W. specialize (B W). unfold size_of in B. rewrite Hk in B.
  unfold fields in B. lia.
Qed.
Lemma placed_unknown (id : nat) u all k c i : placed id u all -> In (k, c) all -> (i < size_of k)%nat -> (shape_of k = SBlock -> i < 75)%nat -> ~ positions all (shift c i).
Proof.
  intros [_ P] H Hi Hs (k' & c' & H' & Hk & E). unfold f_pos, shift in E. injection E as E1 E2 E3.
  assert (B : size_of k' = 76%nat) by (unfold size_of; rewrite Hk; reflexivity).
  destruct (P k c k' c' H H') as [X|[X|[X|X]]].
  - injection X as <- <-. specialize (Hs Hk). lia.
  - contradiction.
  - lia.
  - lia.
Qed.
Lemma placed_more (id : nat) u u' all : placed id u all -> (u true <= u' true)%nat -> placed id u' all.
Proof. intros [P1 P2] H. split; [|exact P2]. intros k c Hc. destruct (P1 k c Hc) as [L B]. split; [exact L|]. intros W. specialize (B W). lia. Qed.
Lemma l_any {A B} (id : nat) (Q : A -> B -> memory -> memory -> (bool -> nat) -> Prop) K a v f g m m' u : agreed K m m' ->
  (forall n n', agreed K n n' -> lock id Q (f tt) (g tt) n n' u) -> lock id Q (thenc (set a v) f) (thenc (set a v) g) m m' u.
Proof. intros E F. apply (l_set _ _ K); [exact E|reflexivity|exact F]. Qed.
Lemma t_reset2 (id : nat) K n c cnt : forall i m m' u, agreed K m m' -> tied id eq K (reset2_loop cnt i n c) (reset2_loop cnt i n c) m m' u.
Proof.
  induction cnt as [|cnt IH]; intros i m m' u E; cbn [reset2_loop]; [repeat split; exact E|].
  apply (lock_lift _ _ eq); [apply both_same|]. intros v _ <-. apply (l_any _ _ K); [exact E|]. intros m1 m1' E1.
  apply (lock_lift _ _ eq); [apply both_same|]. intros w _ <-. apply (l_any _ _ K); [exact E1|]. intros m2 m2' E2. apply IH, E2.
Qed.
Lemma t_reset1 (id : nat) K c cnt : forall i m m' u, agreed K m m' -> tied id eq K (reset1_loop cnt i c) (reset1_loop cnt i c) m m' u.
Proof.
  induction cnt as [|cnt IH]; intros i m m' u E; cbn [reset1_loop]; [repeat split; exact E|].
  apply (lock_lift _ _ eq); [apply both_same|]. intros v _ <-. apply (l_any _ _ K); [exact E|]. intros m1 m1' E1. apply IH, E1.
Qed.
Lemma t_reset0 (id : nat) K c cnt : forall i m m' u, agreed K m m' -> tied id eq K (reset_loop cnt i c) (reset_loop cnt i c) m m' u.
Proof.
  induction cnt as [|cnt IH]; intros i m m' u E; cbn [reset_loop]; [repeat split; exact E|].
  apply (l_any _ _ K); [exact E|]. intros m1 m1' E1. apply IH, E1.
Qed.
Lemma t_reset (id : nat) K k c m m' u : agreed K m m' -> tied id eq K (do_reset k c) (do_reset k c) m m' u.
Proof.
  intros E. unfold do_reset. assert (Fin : forall n n', agreed K n n' -> tied id eq K (set (f_len c) 0 ;; set_pos c 0) (set (f_len c) 0 ;; set_pos c 0) n n' u).
  { intros n n' En. apply (l_any _ _ K); [exact En|]. intros n1 n1' E1. unfold set_pos. apply then_ret, (l_any _ _ K); [exact E1|]. intros n2 n2' E2. repeat split. exact E2. }
  destruct (HashMem.variant k) as [v|].
  - unfold ResetRipe. eapply (l_seq _ _ eq K); [destruct (Nat.ltb 5 _); [apply t_reset2|apply t_reset1]; exact E|]. intros [] [] n n' _ En. apply Fin, En.
  - destruct (shape_of k).
    + unfold ResetWhirl. eapply l_seq; [apply t_reset0; exact E|]. intros [] [] n n' _ En. apply Fin, En.
    + apply then_ret, (l_any _ _ K); [exact E|]. intros n n' En. repeat split. exact En.
    + apply (l_any _ _ K); [exact E|]. intros n n' En. apply then_ret, (l_any _ _ K); [exact En|]. intros n1 n1' E1. repeat split. exact E1.
Qed.
Lemma words_short k : (words_of k <= 10)%nat.
Proof. destruct k; cbn [words_of]; lia. Qed.
Section Known.
Context (id : nat) (all : list object) (u : bool -> nat).
Hypothesis P : placed id u all.
Let K := positions all.
Lemma t_write k c p m m' : In (k, c) all -> agreed K m m' -> tied id eq K (do_write k c p) (do_write k c p) m m' u.
Proof.
  intros H E. unfold do_write. destruct (shape_of k) eqn:Sh.
  - apply t_Write; [exists k, c; auto| |apply even_hash|apply words_short|exact E].
    intros i Hi. apply (placed_unknown _ _ _ _ _ _ P H); [unfold size_of; rewrite Sh; unfold fields; lia|auto].
  - assert (U : ~ K c). { rewrite <- (shift_0 c). apply (placed_unknown _ _ _ _ _ _ P H); [unfold size_of; rewrite Sh; lia|congruence]. }
    apply l_get. intros d d'. apply (l_gets _ K); [exact E|]. intros xs ys L [M _]. apply (lock_lift _ _ any2); [apply both_byte, M|]. intros [v r] [v' r'] _.
    apply (l_set _ _ K); [exact E|contradiction|]. intros n n' En. repeat split. exact En.
  - assert (U0 : ~ K c). { rewrite <- (shift_0 c). apply (placed_unknown _ _ _ _ _ _ P H); [unfold size_of; rewrite Sh; lia|congruence]. }
    assert (U1 : ~ K (shift c 1)). { apply (placed_unknown _ _ _ _ _ _ P H); [unfold size_of; rewrite Sh; lia|congruence]. }
    apply l_get. intros a a'. apply l_get. intros b b'. apply (l_gets _ K); [exact E|]. intros xs ys L [M _]. apply (lock_lift _ _ any2); [apply both_word, M|]. intros [v r] [v' r'] _.
    apply (l_set _ _ K); [exact E|contradiction|]. intros n n' En. apply (l_set _ _ K); [exact En|contradiction|]. intros n1 n1' E1. repeat split. exact E1.
Qed.
Lemma t_sum k c inp room m m' : In (k, c) all -> lib (base inp) = false -> agreed K m m' -> lock id (out_ok K (u true)) (do_sum k c inp room) (do_sum k c inp room) m m' u.
Proof.
  intros H L E. pose proof (placed_sound _ _ _ P) as S. unfold do_sum. destruct (shape_of k) eqn:Sh.
  - assert (Kn : K (f_pos c)) by (exists k, c; auto). destruct (HashMem.variant k); [apply t_SumRipe|apply t_SumWhirl]; assumption.
  - apply l_get. intros d d'. apply (lock_lift _ _ sized); [apply both_summed_byte|]. intros xs ys M. apply t_append; [intros x Kx; apply (S x Kx)|exact L|exact M|exact E].
  - apply l_get. intros d d'. apply l_get. intros b b'. apply (lock_lift _ _ sized); [apply both_summed_word|]. intros xs ys M. apply t_append; [intros x Kx; apply (S x Kx)|exact L|exact M|exact E].
Qed.
End Known.

(** ** Goroutines *)
Definition going (id : nat) (ours : list object) (p p' : list object * reply) (n n' : memory) (v : bool -> nat) : Prop :=
  fst p = fst p' /\ seems (snd p) (snd p') /\ placed id v (ours ++ fst p) /\ agreed (positions (ours ++ fst p)) n n'.
Lemma t_new (id : nat) ours mine k m m' u : placed id u (ours ++ mine) -> agreed (positions (ours ++ mine)) m m' ->
  lock id (going id ours) (do c <- do_new k; Return (mine ++ [(k, c)], RHash)) (do c <- do_new k; Return (mine ++ [(k, c)], RHash)) m m' u.
Proof.
  intros P E. unfold do_new. apply lock_then. apply (l_new _ _ (positions (ours ++ mine))); [exact E|]. intros n n' En. set (c := mkA id true (u true)) in *.
  assert (E1 : agreed (positions (ours ++ mine ++ [(k, c)])) n n').
  { apply (agreed_less _ _ _ _ En). intros x (k' & c' & H & Hk & ->). rewrite app_assoc, in_app_iff in H. destruct H as [H|[H|[]]]; [left; exists k', c'; auto|right].
    injection H as <- <-. unfold c, within, f_pos, shift. cbn [who lib num]. rewrite !Nat.eqb_refl. unfold size_of. rewrite Hk. unfold fields. cbn [Bool.eqb andb].
    apply andb_true_intro. split; [apply Nat.leb_le; lia|apply Nat.ltb_lt; lia]. }
  eapply l_seq; [apply t_reset, E1|]. intros [] [] k1 k1' _ E2. cbn [lock fst snd]. split; [reflexivity|]. split; [reflexivity|]. split; [|exact E2]. cbn [fst].
  destruct P as [P1 P2]. split.
  - intros k' c' H. rewrite app_assoc, in_app_iff in H. unfold grow. cbn [Bool.eqb]. destruct H as [H|[H|[]]].
    + destruct (P1 k' c' H) as [L B]. split; [exact L|]. intros W. specialize (B W). lia.
    + injection H as <- <-. split; [reflexivity|]. intros _. cbn [c num]. lia.
  - intros q1 c1 k2 c2 H1 H2. rewrite app_assoc, in_app_iff in H1, H2. destruct H1 as [H1|[H1|[]]], H2 as [H2|[H2|[]]].
    + apply P2; assumption.
    + injection H2 as <- <-. destruct (P1 q1 c1 H1) as [L B]. destruct (Nat.eq_dec (who c1) id) as [W|W]; [right; right; left; cbn [c num]; apply B, W|right; left; exact W].
    + injection H1 as <- <-. destruct (P1 k2 c2 H2) as [L B]. destruct (Nat.eq_dec (who c2) id) as [W|W]; [right; right; right; cbn [c num]; apply B, W|right; left; cbn [c who]; congruence].
    + left. congruence.
Qed.
Lemma object_in (ours mine : list object) h o : match h with Mine i => idx mine i | Ours i => idx ours i end = Ret o -> In o (ours ++ mine).
Proof.
  intros E. apply in_app_iff. destruct h as [i|i]; unfold idx in E; [right|left].
  - destruct (nth_error mine i) eqn:F; [|discriminate]. injection E as <-. eapply nth_error_In, F.
  - destruct (nth_error ours i) eqn:F; [|discriminate]. injection E as <-. eapply nth_error_In, F.
Qed.
Lemma l_object {A B} (id : nat) (Q : A -> B -> memory -> memory -> (bool -> nat) -> Prop) (ours mine : list object) h (f : object -> code A) (g : object -> code B) m m' u :
  (forall k c, In (k, c) (ours ++ mine) -> lock id Q (f (k, c)) (g (k, c)) m m' u) ->
  lock id Q (thenc (object_of ours mine h) f) (thenc (object_of ours mine h) g) m m' u.
Proof.
  intros F. unfold object_of. apply (lock_lift _ _ (fun o o' => o = o' /\ In o (ours ++ mine))); [|intros [k c] _ [<- H]; apply F, H].
  pose proof (object_in ours mine h) as H. destruct h as [i|i].
  - fold object. destruct (idx mine i) as [o| |]; cbn [both]; [split; [reflexivity|apply H; reflexivity]|exact Logic.I|exact Logic.I].
  - fold object. destruct (idx ours i) as [o| |]; cbn [both]; [split; [reflexivity|apply H; reflexivity]|exact Logic.I|exact Logic.I].
Qed.
Lemma t_act (id : nat) ours mine a a' m m' u : looks a a' -> outside a -> placed id u (ours ++ mine) -> agreed (positions (ours ++ mine)) m m' ->
  lock id (going id ours) (do_act ours mine a) (do_act ours mine a') m m' u.
Proof.
  intros Lk Out P E. pose proof (placed_sound _ _ _ P) as So.
  assert (Lib : forall s j, lib (base s) = false -> ~ positions (ours ++ mine) (shift (base s) j)).
  { intros s j L H. destruct (So _ H) as [H' _]. cbn [shift lib] in H'. congruence. }
  destruct a as [k|h p|h inp room|h|n c|s j v|s j]; destruct a' as [k'|h' p'|h' inp' room'|h'|n0 c'|s' j' v'|s' j']; cbn [looks] in Lk; try discriminate; cbn [outside] in Out.
  - injection Lk as <-. apply (t_new id ours mine k); assumption.
  - injection Lk as <- <-. cbn [do_act]. apply l_object. intros k c Hc. eapply l_seq; [apply (t_write _ _ _ P _ _ _ _ _ Hc E)|]. intros n _ n1 n1' <- En. cbn [lock].
    split; [reflexivity|]. split; [reflexivity|]. split; assumption.
  - injection Lk as <- <- <-. cbn [do_act]. apply l_object. intros k c Hc. apply lock_then. eapply lock_mono; [|apply (t_sum _ _ _ P _ _ _ _ _ _ Hc Out E)]. cbv beta.
    intros s _ n n' v' (<- & Ls & En & Le). cbn [lock]. split; [reflexivity|]. split; [split; [reflexivity|exact Ls]|]. split; [apply (placed_more _ _ _ _ P Le)|exact En].
  - injection Lk as <-. cbn [do_act]. apply l_object. intros k c Hc. eapply l_seq; [apply t_reset, E|]. intros [] [] n n' _ En. cbn [lock].
    split; [reflexivity|]. split; [reflexivity|]. split; assumption.
  - injection Lk as <- <-. cbn [do_act]. apply (l_new _ _ (positions (ours ++ mine))); [exact E|]. intros n1 n1' En. cbn [lock]. split; [reflexivity|]. split; [split; reflexivity|].
    cbn [fst]. split; [apply (placed_more _ _ _ _ P); unfold grow; cbn [Bool.eqb]; lia|]. apply (agreed_less _ _ _ _ En). auto.
  - destruct Lk as [<- <-]. cbn [do_act]. destruct (Nat.ltb j (slen s)); [|exact Logic.I].
    apply (l_set _ _ (positions (ours ++ mine))); [exact E|intros H; exfalso; apply (Lib s j Out H)|]. intros n n' En. cbn [lock].
    split; [reflexivity|]. split; [reflexivity|]. split; assumption.
  - injection Lk as <- <-. cbn [do_act]. destruct (Nat.ltb j (slen s)); [|exact Logic.I]. apply l_get. intros v w. cbn [lock]. split; [reflexivity|]. split; [exact Logic.I|]. split; assumption.
Qed.
Definition ended_so (id : nat) (ours : list object) (p p' : list reply * list object) (n n' : memory) (v : bool -> nat) : Prop :=
  snd p = snd p' /\ Forall2 seems (fst p) (fst p') /\ placed id v (ours ++ snd p) /\ agreed (positions (ours ++ snd p)) n n'.
Theorem t_behave id ours g : forall g' mine m m' u, alike g g' -> placed id u (ours ++ mine) -> agreed (positions (ours ++ mine)) m m' ->
  lock id (ended_so id ours) (behave ours mine g) (behave ours mine g') m m' u.
Proof.
  induction g as [|a k IH]; intros [|a' k'] mine m m' u Al P E; cbn [alike] in Al; try contradiction; cbn [behave].
  - cbn [lock]. split; [reflexivity|]. split; [constructor|]. split; assumption.
  - destruct Al as (Lk & Out & Al). apply lock_then. eapply lock_mono; [|apply (t_act id ours mine a a' m m' u Lk Out P E)]. cbv beta.
    intros [mn r] [mn' r'] n n' v (H1 & H2 & H3 & H4). cbn [fst snd] in *. subst mn'. apply lock_then. eapply lock_mono; [|apply (IH r (k' r') mn n n' v (Al r r' H2) H3 H4)]. cbv beta.
    intros [rs os] [rs' os'] n2 n2' v2 (J1 & J2 & J3 & J4). cbn [fst snd] in *. cbn [lock]. split; [exact J1|]. cbn [fst snd]. split; [constructor; assumption|]. split; assumption.
Qed.
