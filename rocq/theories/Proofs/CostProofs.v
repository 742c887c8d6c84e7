(** Bounds on the number of memory accesses. *)
From Verif Require Import Base.Go Base.Mem Base.DigestApi Base.HashApi Base.HashUse Base.Goroutine Base.GoUse Base.Cost Spec.CostSpec.
From Verif Require Import Model.HashAtom Proofs.Util Proofs.GoroutineProofs.
From Verif Require Model.Ripemd Model.Whirlpool Model.Bcc Model.Lrc Model.Fletcher Model.HashMem.
Local Open Scope nat_scope.

(** ** Code that makes at most [n] accesses, whatever it reads *)

Fixpoint pays {A} (c : code A) (n : nat) (P : A -> Prop) : Prop :=
  match c with
  | Return x => P x
  | Crash => True
  | Get _ k => 1 <= n /\ forall v, pays (k v) (n - 1) P
  | Put _ _ k => 1 <= n /\ pays k (n - 1) P
  | New _ s k => S s <= n /\ forall a, pays (k a) (n - S s) P
  end.
Lemma pays_mono {A} (c : code A) : forall n n' (P P' : A -> Prop), pays c n P -> n <= n' -> (forall x, P x -> P' x) -> pays c n' P'.
Proof.
  induction c as [x| |a k IH|a v k IH|l s k IH]; cbn [pays]; intros n n' P P' H L M; auto.
  - destruct H as [H1 H2]. split; [lia|]. intros v. apply (IH v (n - 1) _ P); [apply H2|lia|exact M].
  - destruct H as [H1 H2]. split; [lia|]. apply (IH (n - 1) _ P); [apply H2|lia|exact M].
  - destruct H as [H1 H2]. split; [lia|]. intros v. apply (IH v (n - S s) _ P); [apply H2|lia|exact M].
Qed.
Lemma pays_then {A B} (c : code A) (f : A -> code B) : forall n k (P : A -> Prop) (Q : B -> Prop), pays c n P ->
  (forall x, P x -> pays (f x) k Q) -> pays (thenc c f) (n + k) Q.
Proof.
  induction c as [x| |a g IH|a v g IH|l s g IH]; cbn [pays thenc]; intros n k P Q H M; auto.
  - apply (pays_mono (f x) k (n + k) Q Q); [apply M, H|lia|auto].
  - destruct H as [H1 H2]. split; [lia|]. intros v. replace (n + k - 1) with (n - 1 + k) by lia. apply (IH v _ _ P); auto.
  - destruct H as [H1 H2]. split; [lia|]. replace (n + k - 1) with (n - 1 + k) by lia. apply (IH _ _ P); auto.
  - destruct H as [H1 H2]. split; [lia|]. intros v. replace (n + k - S s) with (n - S s + k) by lia. apply (IH v _ _ P); auto.
Qed.
(** The same, with the sum to be found. *)
Lemma pays_seq {A B} (c : code A) (f : A -> code B) n k N (P : A -> Prop) (Q : B -> Prop) : pays c n P ->
  (forall x, P x -> pays (f x) k Q) -> n + k <= N -> pays (thenc c f) N Q.
Proof. intros H M L. eapply pays_mono; [apply (pays_then c f n k P Q H M)|exact L|auto]. Qed.
Definition any {A} (_ : A) : Prop := True.
Lemma pays_get a : pays (get a) 1 any.
Proof. split; [lia|]. intros v. exact Logic.I. Qed.
Lemma pays_set a v : pays (set a v) 1 any.
Proof. split; [lia|exact Logic.I]. Qed.
Lemma pays_new l n : pays (new l n) (S n) any.
Proof. split; [lia|]. intros v. exact Logic.I. Qed.
Lemma pays_gets n : forall a, pays (gets a n) n (fun xs => length xs = n).
Proof.
  induction n as [|n IH]; intros a; [reflexivity|]. cbn [gets]. apply (pays_seq _ _ 1 n _ any); [apply pays_get| |lia]. intros v _.
  apply (pays_seq _ _ n 0 _ (fun xs => length xs = n)); [apply IH| |lia]. intros xs L. cbn [pays length]. congruence.
Qed.
Lemma pays_sets xs : forall a, pays (sets a xs) (length xs) any.
Proof.
  induction xs as [|x xs IH]; intros a; [exact Logic.I|]. cbn [sets length]. apply (pays_seq _ _ 1 (length xs) _ any); [apply pays_set|intros _ _; apply IH|lia].
Qed.
Lemma pays_lift {A} (x : outcome A) (P : A -> Prop) : (forall y, x = Ret y -> P y) -> pays (lift x) 0 P.
Proof. destruct x; cbn [lift pays]; auto. Qed.
Lemma pays_if {A} (b : bool) (c d : code A) n P : pays c n P -> pays d n P -> pays (if b then c else d) n P.
Proof. destruct b; auto. Qed.
Lemma pays_ret {A} (x : A) n (P : A -> Prop) : P x -> pays (Return x) n P.
Proof. exact (fun H => H). Qed.

(** ** Alone, and among others *)

Lemma pays_accesses {A} (id : nat) (c : code A) : forall n P m u, pays c n P -> accesses id c m u <= n.
Proof.
  induction c as [x| |a k IH|a v k IH|l s k IH]; cbn [pays accesses]; intros n P m u H; try lia.
  - destruct H as [H1 H2]. specialize (IH (m a) (n - 1) P m u (H2 _)). lia.
  - destruct H as [H1 H2]. specialize (IH (n - 1) P (put m a v) u H2). lia.
  - destruct H as [H1 H2]. cbv zeta. specialize (IH (mkA id l (u l)) (n - S s) P (clear m (mkA id l (u l)) s) (grow u l s) (H2 _)). lia.
Qed.
(** [n] accesses have been made; R holds of their number all the time and Q at
    the end. *)
Fixpoint owes {A} (c : code A) (n : nat) (Q : A -> nat -> Prop) (R : nat -> Prop) : Prop :=
  R n /\
  match c with
  | Return x => Q x n
  | Crash => True
  | Get _ k => forall v, owes (k v) (n + 1) Q R
  | Put _ _ k => owes k (n + 1) Q R
  | New _ s k => forall a, owes (k a) (n + S s) Q R
  end.
Lemma owes_then {A B} (c : code A) (f : A -> code B) : forall p n (P : A -> Prop) (Q : B -> nat -> Prop) (R : nat -> Prop), pays c p P -> (forall j, j <= p -> R (n + j)) ->
  (forall x j, j <= p -> P x -> owes (f x) (n + j) Q R) -> owes (thenc c f) n Q R.
Proof.
  induction c as [x| |a k IH|a v k IH|l s k IH]; cbn [pays thenc]; intros p n P Q R H HR M.
  - specialize (M x 0 ltac:(lia) H). rewrite Nat.add_0_r in M. exact M.
  - cbn [owes]. split; [|exact Logic.I]. specialize (HR 0 ltac:(lia)). rewrite Nat.add_0_r in HR. exact HR.
  - cbn [owes]. destruct H as [H1 H2]. split; [specialize (HR 0 ltac:(lia)); rewrite Nat.add_0_r in HR; exact HR|]. intros v.
    apply (IH v (p - 1) (n + 1) P); [apply H2| |].
    + intros j Hj. replace (n + 1 + j) with (n + (1 + j)) by lia. apply HR. lia.
    + intros x j Hj HP. replace (n + 1 + j) with (n + (1 + j)) by lia. apply M; [lia|exact HP].
  - cbn [owes]. destruct H as [H1 H2]. split; [specialize (HR 0 ltac:(lia)); rewrite Nat.add_0_r in HR; exact HR|].
    apply (IH (p - 1) (n + 1) P); [exact H2| |].
    + intros j Hj. replace (n + 1 + j) with (n + (1 + j)) by lia. apply HR. lia.
    + intros x j Hj HP. replace (n + 1 + j) with (n + (1 + j)) by lia. apply M; [lia|exact HP].
  - cbn [owes]. destruct H as [H1 H2]. split; [specialize (HR 0 ltac:(lia)); rewrite Nat.add_0_r in HR; exact HR|]. intros v.
    apply (IH v (p - S s) (n + S s) P); [apply H2| |].
    + intros j Hj. replace (n + S s + j) with (n + (S s + j)) by lia. apply HR. lia.
    + intros x j Hj HP. replace (n + S s + j) with (n + (S s + j)) by lia. apply M; [lia|exact HP].
Qed.
Lemma owes_takes {A} (Q : nat -> A -> nat -> Prop) (R : nat -> nat -> Prop) w ns w' : takes w ns w' ->
  (forall i t, nth_error (snd w) i = Some t -> owes (todo t) 0 (Q i) (R i)) ->
  length ns = length (snd w') /\ forall i t n, nth_error (snd w') i = Some t -> nth_error ns i = Some n -> owes (todo t) n (Q i) (R i).
Proof.
  induction 1 as [|ns m ts i t m' t' n _ IH Ht Hn Ha]; intros H.
  - split; [apply map_length|]. intros i t n Ht Hn. rewrite nth_error_map in Hn. rewrite Ht in Hn. injection Hn as <-. apply H, Ht.
  - destruct (IH H) as [L O]. cbn [snd] in *. split; [rewrite !replaced_length; exact L|]. intros j tj nj Htj Hnj. rewrite nth_replaced in Htj. rewrite nth_replaced in Hnj.
    destruct (Nat.eqb_spec i j) as [<-|D]; [|apply (O j tj nj Htj Hnj)]. rewrite Ht in Htj. rewrite Hn in Hnj. injection Htj as <-. injection Hnj as <-.
    specialize (O i t n Ht Hn). unfold advance in Ha. destruct (todo t) as [x| |a k|a v k|l s k]; cbn [owes] in O; try discriminate; injection Ha as <- <-; cbn [todo weight]; destruct O as [_ O]; auto.
Qed.

(** ** The hashes *)

Lemma bind_ret {A B} (x : outcome A) (f : A -> outcome B) y : bind x f = Ret y -> exists z, x = Ret z /\ f z = Ret y.
Proof. destruct x; cbn [bind]; intros H; try discriminate. eauto. Qed.
Ltac peel H := repeat match type of H with
  | bind _ _ = Ret _ => apply bind_ret in H; let y := fresh "y" in let E := fresh "E" in destruct H as (y & E & H)
  | (let '(_, _) := ?p in _) = Ret _ => destruct p
  end.
Ltac lengths := repeat match goal with U : upd _ _ _ = Ret _ |- _ => apply upd_length in U end.
Lemma ripemd_length v c t : Ripemd.hash_fn v c = Ret t -> length (state t) = length (state c).
Proof.
  destruct v; cbn [Ripemd.hash_fn]; intros H.
  - unfold Ripemd.hash128 in H. peel H. injection H as <-. cbn [state]. lengths. congruence.
  - unfold Ripemd.hash160 in H. peel H. injection H as <-. cbn [state]. lengths. congruence.
  - unfold Ripemd.hash256 in H. peel H. injection H as <-. cbn [state]. lengths. congruence.
  - unfold Ripemd.hash320 in H. peel H. injection H as <-. cbn [state]. lengths. congruence.
Qed.
Lemma final_length n : forall i cs st x cs', Whirlpool.final_loop n i cs st x = Ret cs' -> length cs' = length cs.
Proof.
  induction n as [|n IH]; intros i cs st x cs' H; cbn [Whirlpool.final_loop] in H; [congruence|]. peel H. lengths. apply IH in H. congruence.
Qed.
Lemma whirlpool_length c t : Whirlpool.hash c = Ret t -> length (state t) = length (state c).
Proof. unfold Whirlpool.hash. intros H. cbv zeta in H. peel H. injection H as <-. cbn [state]. eapply final_length. eassumption. Qed.

Lemma pays_get_pos c : pays (get_pos c) 1 any.
Proof. unfold get_pos. apply (pays_seq _ _ 1 0 _ any); [apply pays_get|intros; exact Logic.I|lia]. Qed.
Lemma pays_set_pos c p : pays (set_pos c p) 1 any.
Proof. apply pays_set. Qed.
Lemma pays_set_block c i v : pays (set_block c i v) 1 any.
Proof. apply pays_if; [apply pays_set|exact Logic.I]. Qed.
Lemma pays_zero_block c i j : pays (zero_block c i j) 64 any.
Proof.
  unfold zero_block. destruct (Nat.leb_spec i j), (Nat.leb_spec j 64); cbn [andb]; try exact Logic.I.
  eapply pays_mono; [apply pays_sets|rewrite repeat_length; lia|auto].
Qed.
Lemma pays_copy_block c i p n : pays (copy_block c i p n) (2 * Nat.min (64 - i) n) any.
Proof.
  unfold copy_block. apply pays_if; [|exact Logic.I]. eapply pays_seq; [apply pays_gets| |].
  - intros xs L. cbn beta in L. eapply pays_mono; [apply pays_sets|rewrite L; apply le_n|auto].
  - lia.
Qed.
Section Block.
Context (hash : ctx -> outcome ctx) (words : nat) (Hl : forall c t, hash c = Ret t -> length (state t) = length (state c)) (Hw : words <= 10).
Lemma pays_hash_at c : pays (hash_at hash words c) 85 any.
Proof.
  unfold hash_at. apply (pays_seq _ _ 64 21 _ any); [eapply pays_mono; [apply pays_gets|lia|intros; exact Logic.I]| |lia]. intros b _.
  apply (pays_seq _ _ words (words + 1) _ (fun xs => length xs = words)); [apply pays_gets| |lia]. intros st L.
  apply (pays_seq _ _ 0 (words + 1) _ (fun t => length (state t) = words)); [apply pays_lift; intros t E; rewrite (Hl _ _ E); exact L| |lia]. intros t Lt.
  apply (pays_seq _ _ words 1 _ any); [rewrite <- Lt; apply pays_sets|intros _ _; apply pays_set_pos|lia].
Qed.
(** Rounds: each full one takes 64 bytes, but for the first. *)
Lemma pays_write_loop c fuel : forall p n space, pays (write_loop hash words fuel c p n space) (4 * n + (if Nat.eqb space 64 then 0 else 88) + 3) any.
Proof.
  induction fuel as [|fuel IH]; intros p n space; cbn [write_loop]; destruct (Nat.ltb_spec 0 n); try exact Logic.I.
  destruct (Nat.ltb_spec n space).
  - apply (pays_seq _ _ 1 (2 * n + 2) _ any); [apply pays_get_pos| |lia]. intros i _.
    apply (pays_seq _ _ (2 * n) 2 _ any); [eapply pays_mono; [apply pays_copy_block|lia|auto]| |lia]. intros _ _.
    apply (pays_seq _ _ 1 1 _ any); [apply pays_get_pos|intros; apply pays_set_pos|lia].
  - apply (pays_seq _ _ 1 (2 * space + 2 + 85 + (4 * (n - space) + 3)) _ any); [apply pays_get_pos| |destruct (Nat.eqb_spec space 64); lia]. intros i _.
    apply (pays_seq _ _ (2 * space) (2 + 85 + (4 * (n - space) + 3)) _ any); [eapply pays_mono; [apply pays_copy_block|lia|auto]| |lia]. intros _ _.
    apply (pays_seq _ _ 1 (1 + 85 + (4 * (n - space) + 3)) _ any); [apply pays_get_pos| |lia]. intros i' _.
    apply (pays_seq _ _ 1 (85 + (4 * (n - space) + 3)) _ any); [apply pays_set_pos| |lia]. intros _ _.
    apply (pays_seq _ _ 85 (4 * (n - space) + 3) _ any); [apply pays_hash_at| |lia]. intros _ _.
    eapply pays_mono; [apply IH|cbn [Nat.eqb]; lia|auto].
Qed.
Lemma pays_Write c p : pays (Write hash words c p) (4 * slen p + 94) any.
Proof.
  unfold Write. cbv zeta. apply (pays_seq _ _ 1 (4 * slen p + 93) _ any); [apply pays_get| |lia]. intros l _.
  apply (pays_seq _ _ 1 (4 * slen p + 92) _ any); [apply pays_set| |lia]. intros _ _.
  apply (pays_seq _ _ 1 (4 * slen p + 91) _ any); [apply pays_get_pos| |lia]. intros i _.
  apply (pays_seq _ _ (4 * slen p + 91) 0 _ any); [|intros; exact Logic.I|lia]. eapply pays_mono; [apply pays_write_loop| |auto]. destruct (Nat.eqb (64 - i) 64); lia.
Qed.
End Block.
Lemma pays_clone c : pays (clone c) 229 any.
Proof.
  unfold clone, fields. apply (pays_seq _ _ 77 152 _ any); [apply pays_new| |lia]. intros t _.
  apply (pays_seq _ _ 76 76 _ (fun xs => length xs = 76)); [apply pays_gets| |lia]. intros xs L.
  apply (pays_seq _ _ 76 0 _ any); [rewrite <- L; apply pays_sets|intros; exact Logic.I|lia].
Qed.
Lemma pays_append room s xs : pays (append room s xs) (3 * slen s + room + 2 * length xs + 1) any.
Proof.
  unfold append. cbv zeta. apply pays_if.
  - apply (pays_seq _ _ (length xs) 0 _ any); [apply pays_sets|intros; exact Logic.I|lia].
  - apply (pays_seq _ _ (S (slen s + length xs + room)) (2 * slen s + length xs) _ any); [apply pays_new| |lia]. intros t _.
    apply (pays_seq _ _ (slen s) (slen s + length xs) _ (fun l => length l = slen s)); [apply pays_gets| |lia]. intros l L.
    apply (pays_seq _ _ (slen s) (length xs) _ any); [rewrite <- L; apply pays_sets| |lia]. intros _ _.
    apply (pays_seq _ _ (length xs) 0 _ any); [apply pays_sets|intros; exact Logic.I|lia].
Qed.
Lemma pays_put_len h j f : pays (put_len h j f) 3 any.
Proof.
  unfold put_len. apply (pays_seq _ _ 1 2 _ any); [apply pays_get_pos| |lia]. intros i _.
  apply (pays_seq _ _ 1 1 _ any); [apply pays_get|intros; apply pays_set_block|lia].
Qed.
Lemma pays_put_le32s h out cnt : forall i, pays (put_le32s cnt i h out) (5 * cnt) any.
Proof.
  induction cnt as [|cnt IH]; intros i; cbn [put_le32s]; [exact Logic.I|]. apply (pays_seq _ _ 1 (4 + 5 * cnt) _ any); [apply pays_get| |lia]. intros v _.
  apply (pays_seq _ _ 4 (5 * cnt) _ any); [apply (pays_sets (le32 v))|intros; apply IH|lia].
Qed.
Lemma pays_put_be64s h out cnt : forall i, pays (put_be64s cnt i h out) (9 * cnt) any.
Proof.
  induction cnt as [|cnt IH]; intros i; cbn [put_be64s]; [exact Logic.I|]. apply (pays_seq _ _ 1 (8 + 9 * cnt) _ any); [apply pays_get| |lia]. intros v _.
  apply (pays_seq _ _ 8 (9 * cnt) _ any); [apply (pays_sets (be64 v))|intros; apply IH|lia].
Qed.
Ltac cut n := match goal with |- pays _ (?X + ?K) _ => let k := eval compute in (K - n) in eapply (pays_seq _ _ n (X + k) _ any) end.
Ltac one n := match goal with |- pays _ ?N _ => eapply (pays_seq _ _ n (N - n) _ any) end.
Lemma state_len_le v : Ripemd.state_len v <= 10.
Proof. destruct v; cbn; lia. Qed.
Lemma pays_SumRipe v room c inp : pays (SumRipe (Ripemd.hash_fn v) (Ripemd.state_len v) room c inp) (3 * slen inp + room + 900) any.
Proof.
  pose proof (state_len_le v) as Ls. pose proof (fun c => pays_hash_at (Ripemd.hash_fn v) 10 (ripemd_length v) (le_n _) c) as Ha.
  unfold SumRipe. 
  cut 229; [apply pays_clone|intros h _|lia].
  cut 1; [apply pays_get_pos|intros i _|lia]. cut 1; [apply pays_set_block|intros _ _|lia]. cut 1; [apply pays_set_pos|intros _ _|lia].
  cut 1; [apply pays_get_pos|clear i; intros i _|lia].
  cut 149; [apply pays_if; [one 64; [apply pays_zero_block|intros _ _; apply Ha|lia]|exact Logic.I]|intros _ _|lia].
  cut 1; [apply pays_get_pos|clear i; intros i _|lia]. cut 64; [apply pays_zero_block|intros _ _|lia]. cut 1; [apply pays_set_pos|intros _ _|lia].
  do 8 (cut 3; [apply pays_put_len|intros _ _|lia]).
  cut 1; [apply pays_get_pos|clear i; intros i _|lia]. cut 1; [apply pays_set_pos|intros _ _|lia].
  cut 85; [apply Ha|intros _ _|lia].
  cut 41; [eapply pays_mono; [apply pays_new|lia|auto]|intros out _|lia].
  cut 50; [eapply pays_mono; [apply pays_put_le32s|lia|auto]|intros _ _|lia].
  eapply (pays_seq _ _ 40 (3 * slen inp + room + 81) _ (fun xs => length xs <= 40)); [eapply pays_mono; [apply pays_gets|lia|cbn beta; intros; lia]|intros xs L|lia].
  eapply pays_mono; [apply pays_append|lia|auto].
Qed.
Lemma pays_put_length h c i f : pays (put_length h c i f) 2 any.
Proof. unfold put_length. one 1; [apply pays_get|intros; apply pays_set_block|lia]. Qed.
Lemma pays_SumWhirl room c inp : pays (SumWhirl room c inp) (3 * slen inp + room + 1000) any.
Proof.
  pose proof (fun c => pays_hash_at Whirlpool.hash 8 whirlpool_length (le_S _ _ (le_S _ _ (le_n _))) c) as Ha.
  unfold SumWhirl.
  cut 229; [apply pays_clone|intros h _|lia].
  cut 1; [apply pays_get_pos|intros i _|lia]. cut 1; [apply pays_set_block|intros _ _|lia]. cut 1; [apply pays_set_pos|intros _ _|lia].
  cut 1; [apply pays_get_pos|clear i; intros i _|lia].
  cut 149; [apply pays_if; [one 64; [apply pays_zero_block|intros _ _; apply Ha|lia]|exact Logic.I]|intros _ _|lia].
  cut 1; [apply pays_get_pos|clear i; intros i _|lia]. cut 64; [apply pays_zero_block|intros _ _|lia].
  do 9 (cut 2; [apply pays_put_length|intros _ _|lia]).
  cut 85; [apply Ha|intros _ _|lia].
  cut 65; [eapply pays_mono; [apply pays_new|lia|auto]|intros out _|lia].
  cut 72; [eapply pays_mono; [apply pays_put_be64s|lia|auto]|intros _ _|lia].
  eapply (pays_seq _ _ 64 (3 * slen inp + room + 129) _ (fun xs => length xs <= 64)); [eapply pays_mono; [apply pays_gets|lia|cbn beta; intros; lia]|intros xs L|lia].
  eapply pays_mono; [apply pays_append|lia|auto].
Qed.
Lemma pays_reset2 n c cnt : forall i, pays (reset2_loop cnt i n c) (2 * cnt) any.
Proof.
  induction cnt as [|cnt IH]; intros i; cbn [reset2_loop]; [exact Logic.I|].
  one 0; [apply pays_lift; intros; exact Logic.I|intros v _|lia]. one 1; [apply pays_set|intros _ _|lia].
  one 0; [apply pays_lift; intros; exact Logic.I|intros v' _|lia]. one 1; [apply pays_set|intros _ _|lia].
  eapply pays_mono; [apply IH|lia|auto].
Qed.
Lemma pays_reset1 c cnt : forall i, pays (reset1_loop cnt i c) cnt any.
Proof.
  induction cnt as [|cnt IH]; intros i; cbn [reset1_loop]; [exact Logic.I|].
  one 0; [apply pays_lift; intros; exact Logic.I|intros v _|lia]. one 1; [apply pays_set|intros _ _|lia].
  eapply pays_mono; [apply IH|lia|auto].
Qed.
Lemma pays_reset0 c cnt : forall i, pays (reset_loop cnt i c) cnt any.
Proof.
  induction cnt as [|cnt IH]; intros i; cbn [reset_loop]; [exact Logic.I|]. one 1; [apply pays_set|intros _ _|lia].
  eapply pays_mono; [apply IH|lia|auto].
Qed.
Lemma pays_reset k c : pays (do_reset k c) 12 any.
Proof.
  unfold do_reset. destruct (HashMem.variant k) as [v|].
  - unfold ResetRipe. pose proof (state_len_le v). one 10; [|intros _ _|lia].
    + apply pays_if; [eapply pays_mono; [apply pays_reset2| |auto]; pose proof (Nat.div_mod (Ripemd.state_len v) 2); lia|eapply pays_mono; [apply pays_reset1|lia|auto]].
    + one 1; [apply pays_set|intros _ _; apply pays_set|lia].
  - destruct (shape_of k).
    + unfold ResetWhirl. one 8; [apply pays_reset0|intros _ _|lia]. one 1; [apply pays_set|intros _ _; eapply pays_mono; [apply pays_set|lia|auto]|lia].
    + eapply pays_mono; [apply pays_set|lia|auto].
    + one 1; [apply pays_set|intros _ _; eapply pays_mono; [apply pays_set|lia|auto]|lia].
Qed.
Lemma pays_write k c p : pays (do_write k c p) (4 * slen p + 94) any.
Proof.
  unfold do_write. destruct (shape_of k).
  - apply pays_Write.
    + unfold hash_of. destruct (HashMem.variant k) as [v|]; [apply ripemd_length|apply whirlpool_length].
    + destruct k; cbn; lia.
  - one 1; [apply pays_get|intros d _|lia]. one (slen p); [eapply pays_mono; [apply pays_gets|lia|intros; exact Logic.I]|intros xs _|lia].
    one 0; [apply pays_lift; intros; exact Logic.I|intros [d' r] _|lia]. one 1; [apply pays_set|intros; exact Logic.I|lia].
  - one 1; [apply pays_get|intros a _|lia]. one 1; [apply pays_get|intros b _|lia]. one (slen p); [eapply pays_mono; [apply pays_gets|lia|intros; exact Logic.I]|intros xs _|lia].
    one 0; [apply pays_lift; intros; exact Logic.I|intros [d' r] _|lia]. one 1; [apply pays_set|intros _ _|lia]. one 1; [apply pays_set|intros; exact Logic.I|lia].
Qed.
Lemma summed_byte k d xs : summed (let! (_, r) := HashMem.byte_step k d (CSum []) in Ret r) = Ret xs -> length xs = 1.
Proof. destruct k; cbn; intros H; injection H as <-; reflexivity. Qed.
Lemma summed_word k d xs : summed (let! (_, r) := HashMem.word_step k d (CSum []) in Ret r) = Ret xs -> length xs <= 8.
Proof. destruct k; cbn; intros H; injection H as <-; cbn; lia. Qed.
Lemma pays_sum k c inp room : pays (do_sum k c inp room) (3 * slen inp + room + 1000) any.
Proof.
  unfold do_sum. destruct (shape_of k).
  - destruct (HashMem.variant k) as [v|]; [eapply pays_mono; [apply pays_SumRipe|lia|auto]|apply pays_SumWhirl].
  - one 1; [apply pays_get|intros d _|lia].
    eapply (pays_seq _ _ 0 (3 * slen inp + room + 900) _ (fun xs => length xs = 1)); [apply pays_lift; apply summed_byte|intros xs L|lia]. eapply pays_mono; [apply pays_append|lia|auto].
  - one 1; [apply pays_get|intros b _|lia]. one 1; [apply pays_get|intros a _|lia].
    eapply (pays_seq _ _ 0 (3 * slen inp + room + 900) _ (fun xs => length xs <= 8)); [apply pays_lift; apply summed_word|intros xs L|lia]. eapply pays_mono; [apply pays_append|lia|auto].
Qed.
Lemma size_le k : size_of k <= 76.
Proof. unfold size_of, fields. destruct k; cbn [shape_of]; lia. Qed.
Lemma pays_act ours mine a : pays (do_act ours mine a) (price a) any.
Proof.
  destruct a as [k|h p|h inp room|h|n c|s j v|s j]; cbn [do_act price].
  - unfold do_new. one 100; [|intros c _; exact Logic.I|lia]. one (S (size_of k)); [apply pays_new|intros c _|pose proof (size_le k); lia].
    one 12; [eapply pays_mono; [apply pays_reset|lia|auto]|intros; exact Logic.I|pose proof (size_le k); lia].
  - one 0; [apply pays_lift; intros; exact Logic.I|intros [k c] _|lia]. one (4 * slen p + 94); [apply pays_write|intros; exact Logic.I|lia].
  - one 0; [apply pays_lift; intros; exact Logic.I|intros [k c] _|lia]. one (3 * slen inp + room + 1000); [apply pays_sum|intros; exact Logic.I|lia].
  - one 0; [apply pays_lift; intros; exact Logic.I|intros [k c] _|lia]. one 12; [apply pays_reset|intros; exact Logic.I|lia].
  - one (S c); [apply pays_new|intros; exact Logic.I|lia].
  - apply pays_if; [|exact Logic.I]. one 1; [apply pays_set|intros; exact Logic.I|lia].
  - apply pays_if; [|exact Logic.I]. one 1; [apply pays_get|intros; exact Logic.I|lia].
Qed.
Lemma owes_behave ours g : forall mine n (Q : list reply * list object -> nat -> Prop) (R : nat -> Prop),
  (forall rs j, j <= bill g rs -> R (n + j)) -> (forall rs os j, j <= bill g rs -> Q (rs, os) (n + j)) -> owes (behave ours mine g) n Q R.
Proof.
  induction g as [|a k IH]; intros mine n Q R HR HQ; cbn [behave].
  - cbn [owes]. split; [specialize (HR [] 0 (le_n _))|specialize (HQ [] mine 0 (le_n _))]; rewrite Nat.add_0_r in *; assumption.
  - apply (owes_then _ _ (price a) n any); [apply pays_act| |].
    + intros j Hj. apply (HR []). cbn [bill]. lia.
    + intros [mine' r] j Hj _.
      assert (X : owes (behave ours mine' (k r)) (n + j) (fun x j' => Q (r :: fst x, snd x) j') R).
      { apply IH.
        - intros rs i Hi. rewrite <- Nat.add_assoc. apply (HR (r :: rs)). cbn [bill]. lia.
        - intros rs os i Hi. rewrite <- Nat.add_assoc. apply (HQ (r :: rs)). cbn [bill]. lia. }
      revert X. generalize (n + j). generalize (behave ours mine' (k r)). clear.
      induction c as [[rs os]| |a k IH|a v k IH|l s k IH]; cbn [owes thenc fst snd]; intros n X; try tauto.
      * split; [apply X|]. intros v. apply IH, X.
      * split; [apply X|]. apply IH, X.
      * split; [apply X|]. intros v. apply IH, X.
Qed.
