(** The hashes access by access against the models on lists. *)
From Verif Require Import Base.Go Base.DigestApi Base.HashApi Base.HashUse Base.Goroutine Base.GoUse.
From Verif Require Import Model.HashBlock Model.HashAtom Proofs.Util Proofs.HeapProofs Proofs.GoroutineProofs.
From Verif Require Model.Ripemd Model.Whirlpool Model.HashMem Proofs.DigestProofs.
Local Open Scope N_scope.

Ltac unbind H := apply bind_ret in H; let x := fresh "x" in let E := fresh "E" in destruct H as (x & E & H).

(** ** Memory *)

Definition is_over (m : memory) (a : addr) (xs : list N) (m' : memory) : Prop := forall x, m' x = over m a xs x.
Definition outside (a : addr) (n : nat) (m m' : memory) : Prop := forall x, within a n x = false -> m' x = m x.

Lemma outside_refl a n m : outside a n m m.
Proof. intros x _. reflexivity. Qed.
Lemma outside_trans a n m1 m2 m3 : outside a n m1 m2 -> outside a n m2 m3 -> outside a n m1 m3.
Proof. intros H1 H2 x Hx. rewrite H2, H1 by exact Hx. reflexivity. Qed.
Lemma put_over m a v : is_over m a [v] (put m a v).
Proof.
  intros x. unfold put, over. cbn [length]. destruct (same_spec x a) as [Ex|D], (within_spec a 1 x) as [W|W]; try subst x.
  - rewrite Nat.sub_diag. reflexivity.
  - exfalso. apply W. repeat split; lia.
  - exfalso. apply D. destruct x as [xi xl xn], a as [ai al an]. cbn [who lib num] in W. destruct W as (-> & -> & ?). f_equal. lia.
  - reflexivity.
Qed.
Lemma nth_zeros n i : nth i (repeat 0 n) 0 = 0.
Proof. revert i. induction n as [|n IH]; intros [|i]; cbn [repeat nth]; auto. Qed.
Lemma clear_over m a n : is_over m a (repeat 0 n) (clear m a n).
Proof. intros x. unfold clear, over. rewrite repeat_length, nth_zeros. reflexivity. Qed.
Lemma over_in m a xs m' i : is_over m a xs m' -> (i < length xs)%nat -> m' (shift a i) = nth i xs 0.
Proof.
  intros H Hi. rewrite H. unfold over. destruct (within_spec a (length xs) (shift a i)) as [W|W]; cbn [who lib num shift] in *.
  - f_equal. lia.
  - exfalso. apply W. repeat split; lia.
Qed.
Lemma over_out m a xs m' x : is_over m a xs m' -> within a (length xs) x = false -> m' x = m x.
Proof. intros H Hx. rewrite H. unfold over. rewrite Hx. reflexivity. Qed.
Lemma over_outside m a xs m' : is_over m a xs m' -> outside a (length xs) m m'.
Proof. intros H x Hx. apply (over_out _ _ _ _ _ H Hx). Qed.
Lemma outside_in a n i k m m' : outside (shift a i) k m m' -> (i + k <= n)%nat -> outside a n m m'.
Proof.
  intros H L x Hx. apply H. apply within_not. apply within_not in Hx. cbn [who lib num shift]. intros W. apply Hx. intuition lia.
Qed.

Lemma cells_eq m a n l : length l = n -> (forall i, (i < n)%nat -> m (shift a i) = nth i l 0) -> cells m a n = l.
Proof.
  intros L H. apply (nth_ext _ _ 0 0); [rewrite cells_length; congruence|]. rewrite cells_length. intros i Hi.
  rewrite nth_cells by exact Hi. apply H, Hi.
Qed.
Lemma cells_over_all m a xs m' : is_over m a xs m' -> cells m' a (length xs) = xs.
Proof. intros H. apply cells_eq; [reflexivity|]. intros i Hi. apply (over_in _ _ _ _ _ H Hi). Qed.
Lemma cells_over_at m a i xs m' n : is_over m (shift a i) xs m' -> (i + length xs <= n)%nat ->
  cells m' a n = copy_at (cells m a n) i xs.
Proof.
  intros H L. apply cells_eq; [rewrite copy_at_length by (rewrite cells_length; lia); apply cells_length|]. intros j Hj.
  rewrite nth_copy_at by (rewrite cells_length; lia). rewrite cells_length, Nat.min_r by lia.
  destruct (Nat.leb_spec i j) as [A|A], (Nat.ltb_spec j (i + length xs)) as [B|B]; cbn [andb].
  1:{ replace (shift a j) with (shift (shift a i) (j - i)) by (rewrite shift_shift; f_equal; lia). apply (over_in _ _ _ _ _ H). lia. }
  all: rewrite nth_cells by exact Hj; apply (over_out _ _ _ _ _ H), within_not; cbn [who lib num shift]; lia.
Qed.
Lemma cells_outside m a n m' b k : outside a n m m' -> (forall j, (j < k)%nat -> within a n (shift b j) = false) -> cells m' b k = cells m b k.
Proof. intros H D. apply cells_ext. intros j Hj. apply H, D, Hj. Qed.
Lemma cells_firstn m a n k : (k <= n)%nat -> firstn k (cells m a n) = cells m a k.
Proof.
  intros H. apply (nth_ext _ _ 0 0); [rewrite firstn_length, !cells_length; lia|]. rewrite firstn_length, cells_length. intros i Hi.
  rewrite nth_cells by lia. rewrite <- (nth_cells m a n i 0) by lia. rewrite <- (firstn_skipn k (cells m a n)) at 2. rewrite app_nth1; [reflexivity|].
  rewrite firstn_length, cells_length. exact Hi.
Qed.
Lemma cells_skipn m a n k : (k <= n)%nat -> skipn k (cells m a n) = cells m (shift a k) (n - k).
Proof.
  intros H. replace n with (k + (n - k))%nat at 1 by lia. rewrite cells_app. rewrite skipn_app, cells_length, Nat.sub_diag, skipn_all2 by (rewrite cells_length; lia).
  reflexivity.
Qed.

Lemma safe_set' (id : perm) a v m u (Q : unit -> memory -> (bool -> nat) -> Prop) : can id a ->
  (forall m', is_over m a [v] m' -> Q tt m' u) -> safe id (set a v) m u Q.
Proof. intros W H. apply safe_set; [exact W|]. apply H, put_over. Qed.
Lemma safe_new' (id : perm) l n m u (Q : addr -> memory -> (bool -> nat) -> Prop) :
  (forall m', is_over m (mkA id l (u l)) (repeat 0 n) m' -> Q (mkA id l (u l)) m' (grow u l n)) -> safe id (new l n) m u Q.
Proof. intros H. apply safe_new, H, clear_over. Qed.
Lemma safe_sets0 (id : perm) vs a m u (Q : unit -> memory -> (bool -> nat) -> Prop) : (vs <> [] -> can id a) ->
  (forall m', is_over m a vs m' -> Q tt m' u) -> safe id (sets a vs) m u Q.
Proof.
  destruct vs as [|v vs]; intros W H.
  - apply H. intros x. unfold over. destruct (within_spec a (length (@nil N)) x) as [X|_]; [cbn [length] in X; lia|reflexivity].
  - apply safe_sets; [apply W; discriminate|exact H].
Qed.
Lemma grow_same u l n : grow u l n l = (u l + n)%nat.
Proof. unfold grow. rewrite Bool.eqb_reflx. reflexivity. Qed.
Lemma grow_other u l n : grow u l n (negb l) = u (negb l).
Proof. unfold grow. destruct l; reflexivity. Qed.

(** ** Objects *)

Definition rep (w : nat) (m : memory) (c : addr) (x : ctx) : Prop :=
  cells m c w = state x /\ m (f_len c) = total x /\ cells m (f_block c 0) 64 = block x /\ m (f_pos c) = N.of_nat (bPos x).
(** In memory [m], which is [m0] but for the object at [c]. *)
Definition holds (w : nat) (m0 : memory) (c : addr) (x : ctx) (m : memory) : Prop := rep w m c x /\ outside c fields m0 m.

Ltac addrs := unfold f_len, f_block, f_pos, fields in *; cbn [who lib num shift length] in *.
Ltac out := apply within_not; addrs; lia.

Lemma rep_outside w m m' c x a n : rep w m c x -> outside a n m m' -> (w <= 10)%nat ->
  (forall j, (j < fields)%nat -> within a n (shift c j) = false) -> rep w m' c x.
Proof.
  intros (R1 & R2 & R3 & R4) O Hw D. unfold rep. rewrite <- R1, <- R2, <- R3, <- R4. repeat split.
  - apply (cells_outside _ _ _ _ _ _ O). intros j Hj. apply D. unfold fields. lia.
  - apply O. apply D. unfold fields. lia.
  - apply (cells_outside _ _ _ _ _ _ O). intros j Hj. unfold f_block. rewrite shift_shift. apply D. unfold fields. lia.
  - apply O. apply D. unfold fields. lia.
Qed.

Section Fields.
Context (w : nat) (Hw : (w <= 10)%nat) (m0 : memory) (id : perm) (c : addr) (u : bool -> nat).

Lemma op_get_pos x m (Q : nat -> memory -> (bool -> nat) -> Prop) : may id c -> holds w m0 c x m -> Q (bPos x) m u -> safe id (get_pos c) m u Q.
Proof.
  intros M ((_ & _ & _ & R) & _) H. unfold get_pos. apply safe_then, safe_get; [exact M|]. cbn [safe]. rewrite R, Nnat.Nat2N.id. exact H.
Qed.
Lemma op_get_len x m (Q : N -> memory -> (bool -> nat) -> Prop) : may id c -> holds w m0 c x m -> Q (total x) m u -> safe id (get (f_len c)) m u Q.
Proof. intros M ((_ & R & _ & _) & _) H. apply safe_get; [exact M|]. rewrite R. exact H. Qed.

Lemma over_field x m m' i xs : holds w m0 c x m -> is_over m (shift c i) xs m' -> (i + length xs <= fields)%nat -> outside c fields m0 m'.
Proof. intros (_ & O) H L. apply (outside_trans _ _ _ m); [exact O|]. apply (outside_in _ _ i (length xs)); [apply over_outside, H|exact L]. Qed.

Lemma op_set_pos x m p (Q : unit -> memory -> (bool -> nat) -> Prop) : can id c -> holds w m0 c x m ->
  (forall m', holds w m0 c (mkCtx (state x) (total x) (block x) p) m' -> Q tt m' u) -> safe id (set_pos c p) m u Q.
Proof.
  intros M Hh H. unfold set_pos. apply safe_set'; [exact M|]. intros m' O. apply H. split.
  - destruct Hh as ((R1 & R2 & R3 & R4) & _). unfold rep. cbn [state total block bPos]. rewrite <- R1, <- R2, <- R3. repeat split.
    + apply (cells_outside _ _ _ _ _ _ (over_outside _ _ _ _ O)). intros j Hj. out.
    + apply (over_out _ _ _ _ _ O). out.
    + apply (cells_outside _ _ _ _ _ _ (over_outside _ _ _ _ O)). intros j Hj. out.
    + pose proof (over_in _ _ _ _ 0%nat O) as X. cbn [length nth] in X. rewrite shift_0 in X. apply X. lia.
  - apply (over_field x m m' _ _ Hh O). cbn [length]. unfold fields. lia.
Qed.
Lemma op_set_len x m v (Q : unit -> memory -> (bool -> nat) -> Prop) : can id c -> holds w m0 c x m ->
  (forall m', holds w m0 c (mkCtx (state x) v (block x) (bPos x)) m' -> Q tt m' u) -> safe id (set (f_len c) v) m u Q.
Proof.
  intros M Hh H. apply safe_set'; [exact M|]. intros m' O. apply H. split.
  - destruct Hh as ((R1 & R2 & R3 & R4) & _). unfold rep. cbn [state total block bPos]. rewrite <- R1, <- R3, <- R4. repeat split.
    + apply (cells_outside _ _ _ _ _ _ (over_outside _ _ _ _ O)). intros j Hj. out.
    + pose proof (over_in _ _ _ _ 0%nat O) as X. cbn [length nth] in X. rewrite shift_0 in X. apply X. lia.
    + apply (cells_outside _ _ _ _ _ _ (over_outside _ _ _ _ O)). intros j Hj. out.
    + apply (over_out _ _ _ _ _ O). out.
  - apply (over_field x m m' _ _ Hh O). cbn [length]. unfold fields. lia.
Qed.
Lemma op_blocks x m i xs (Q : unit -> memory -> (bool -> nat) -> Prop) : can id c -> holds w m0 c x m -> (i + length xs <= 64)%nat ->
  (forall m', holds w m0 c (mkCtx (state x) (total x) (copy_at (block x) i xs) (bPos x)) m' -> Q tt m' u) -> safe id (sets (f_block c i) xs) m u Q.
Proof.
  intros M Hh L H. apply safe_sets; [exact M|]. intros m' O. change (is_over m (f_block c i) xs m') in O. apply H. split.
  - destruct Hh as ((R1 & R2 & R3 & R4) & _). unfold rep. cbn [state total block bPos]. rewrite <- R1, <- R2, <- R3, <- R4. repeat split.
    + apply (cells_outside _ _ _ _ _ _ (over_outside _ _ _ _ O)). intros j Hj. out.
    + apply (over_out _ _ _ _ _ O). out.
    + apply cells_over_at; [|exact L]. replace (shift (f_block c 0) i) with (f_block c i) by (unfold f_block; rewrite shift_shift; reflexivity). exact O.
    + apply (over_out _ _ _ _ _ O). out.
  - apply (over_field x m m' _ _ Hh O). unfold fields. lia.
Qed.
Lemma op_states x m i xs (Q : unit -> memory -> (bool -> nat) -> Prop) : can id c -> holds w m0 c x m -> (i + length xs <= w)%nat ->
  (forall m', holds w m0 c (mkCtx (copy_at (state x) i xs) (total x) (block x) (bPos x)) m' -> Q tt m' u) -> safe id (sets (shift c i) xs) m u Q.
Proof.
  intros M Hh L H. apply safe_sets; [exact M|]. intros m' O. change (is_over m (shift c i) xs m') in O. apply H. split.
  - destruct Hh as ((R1 & R2 & R3 & R4) & _). unfold rep. cbn [state total block bPos]. rewrite <- R1, <- R2, <- R3, <- R4. repeat split.
    + apply cells_over_at; [exact O|exact L].
    + apply (over_out _ _ _ _ _ O). out.
    + apply (cells_outside _ _ _ _ _ _ (over_outside _ _ _ _ O)). intros j Hj. out.
    + apply (over_out _ _ _ _ _ O). out.
  - apply (over_field x m m' _ _ Hh O). unfold fields. lia.
Qed.

Lemma holds_block x m : holds w m0 c x m -> length (block x) = 64%nat /\ length (state x) = w.
Proof. intros ((R1 & _ & R3 & _) & _). rewrite <- R1, <- R3, !cells_length. split; reflexivity. Qed.
Lemma upd_copy l i v l' : upd l i v = Ret l' -> l' = copy_at l i [v] /\ (i + 1 <= length l)%nat.
Proof.
  intros H. pose proof (upd_range _ _ _ _ H) as L. split; [|lia]. rewrite upd_in in H by exact L. injection H as <-.
  unfold copy_at. cbn [length]. rewrite Nat.min_r by lia. cbn [firstn app]. rewrite Nat.add_1_r. reflexivity.
Qed.
Lemma op_set_block x m i v b (Q : unit -> memory -> (bool -> nat) -> Prop) : can id c -> holds w m0 c x m -> upd (block x) i v = Ret b ->
  (forall m', holds w m0 c (mkCtx (state x) (total x) b (bPos x)) m' -> Q tt m' u) -> safe id (set_block c i v) m u Q.
Proof.
  intros M Hh E H. apply upd_copy in E. destruct E as [-> L]. rewrite (proj1 (holds_block _ _ Hh)) in L.
  unfold set_block. rewrite (proj2 (Nat.ltb_lt _ _)) by lia.
  pose proof (op_blocks x m i [v] Q M Hh L H) as X. cbn [sets] in X. exact X.
Qed.
Lemma zero_copy l i j l' : zero_range l i j = Ret l' -> l' = copy_at l i (repeat 0 (j - i)) /\ (i <= j <= length l)%nat.
Proof.
  intros H. assert (L : (i <= j <= length l)%nat).
  { unfold zero_range, Mem.sub in H. cbn [Mem.len] in H. destruct (Nat.leb_spec i j), (Nat.leb_spec j (length l)); cbn [andb bind] in H; try discriminate. lia. }
  split; [|exact L]. 
  assert (E : l = firstn i l ++ firstn (j - i) (skipn i l) ++ skipn j l).
  { rewrite <- (firstn_skipn i l) at 1. f_equal. rewrite <- (firstn_skipn (j - i) (skipn i l)) at 1. f_equal.
    clear H. revert i j L. induction l as [|y l IH]; intros [|i] [|j] L; cbn [skipn Nat.sub]; try reflexivity; cbn [length] in L; try lia.
    apply IH. lia. }
  pose proof (DigestProofs.zero_range_from i j (firstn i l) (firstn (j - i) (skipn i l)) (skipn j l)) as Z.
  rewrite <- E in Z. rewrite !firstn_length, skipn_length in Z. rewrite Z in H by lia. injection H as <-.
  unfold copy_at. rewrite repeat_length. replace (Nat.min (length l - i) (j - i)) with (j - i)%nat by lia.
  replace (Nat.min (j - i) (length l - i)) with (j - i)%nat by lia.
  rewrite (firstn_all2 (repeat _ _)) by (rewrite repeat_length; lia). replace (i + (j - i))%nat with j by lia. reflexivity.
Qed.
Lemma op_zero x m i j b (Q : unit -> memory -> (bool -> nat) -> Prop) : can id c -> holds w m0 c x m -> zero_range (block x) i j = Ret b ->
  (forall m', holds w m0 c (mkCtx (state x) (total x) b (bPos x)) m' -> Q tt m' u) -> safe id (zero_block c i j) m u Q.
Proof.
  intros M Hh E H. apply zero_copy in E. destruct E as [-> L]. rewrite (proj1 (holds_block _ _ Hh)) in L.
  unfold zero_block. rewrite (proj2 (Nat.leb_le _ _)), (proj2 (Nat.leb_le _ _)) by lia. cbn [andb].
  apply (op_blocks x m i _ Q M Hh); [rewrite repeat_length; lia|exact H].
Qed.
Lemma copy_min l i xs : copy_at l i (firstn (Nat.min (length l - i) (length xs)) xs) = copy_at l i xs.
Proof.
  unfold copy_at. rewrite firstn_length. rewrite firstn_firstn.
  replace (Nat.min (length l - i) (Nat.min (Nat.min (length l - i) (length xs)) (length xs))) with (Nat.min (length l - i) (length xs)) by lia.
  rewrite Nat.min_id. reflexivity.
Qed.
Lemma op_copy x m i p n b (Q : unit -> memory -> (bool -> nat) -> Prop) : can id c -> may id p -> holds w m0 c x m ->
  copy_from (block x) i (cells m p n) = Ret b ->
  (forall m', holds w m0 c (mkCtx (state x) (total x) b (bPos x)) m' -> Q tt m' u) -> safe id (copy_block c i p n) m u Q.
Proof.
  intros M Mp Hh E H. unfold copy_from in E. pose proof (proj1 (holds_block _ _ Hh)) as B. rewrite B in E. unfold copy_block.
  destruct (Nat.leb_spec i 64) as [L|L]; [|discriminate]. injection E as <-.
  apply safe_then, safe_gets; [exact Mp|]. rewrite <- (cells_firstn m p n) by lia.
  apply (op_blocks x m i _ Q M Hh); [rewrite firstn_length, cells_length; lia|].
  replace (Nat.min (64 - i) n) with (Nat.min (length (block x) - i) (length (cells m p n))) by (rewrite B, cells_length; reflexivity).
  rewrite copy_min. exact H.
Qed.

(** A compression function reads only state and block, and assigns state and
    bPos. *)
Definition hash_local (hash : ctx -> outcome ctx) : Prop := forall st tot b pos t, hash (mkCtx st tot b pos) = Ret t ->
  exists st', hash (mkCtx st 0 b 0) = Ret (mkCtx st' 0 b 0) /\ t = mkCtx st' tot b 0 /\ length st' = length st.
Lemma copy_all l xs : length xs = length l -> copy_at l 0 xs = xs.
Proof.
  intros L. unfold copy_at. rewrite Nat.sub_0_r, L, Nat.min_id. cbn [firstn app Nat.add]. rewrite skipn_all, <- L, firstn_all, app_nil_r. reflexivity.
Qed.
Lemma op_hash hash x m t (Q : unit -> memory -> (bool -> nat) -> Prop) : hash_local hash -> can id c -> holds w m0 c x m -> hash x = Ret t ->
  (forall m', holds w m0 c t m' -> Q tt m' u) -> safe id (hash_at hash w c) m u Q.
Proof.
  intros HL M Hh E H. destruct x as [st tot b pos]. destruct (HL _ _ _ _ _ E) as (st' & E' & -> & L).
  pose proof (holds_block _ _ Hh) as [B1 B2]. cbn [block state] in B1, B2.
  unfold hash_at. apply safe_then, safe_gets; [apply can_may; exact M|]. apply safe_then, safe_gets; [apply can_may; exact M|].
  pose proof Hh as ((R1 & _ & R3 & _) & _). cbn [state block] in R1, R3. rewrite R1, R3.
  apply safe_then. apply (safe_lift _ _ (mkCtx st' 0 b 0)); [exact E'|]. cbn [state bPos].
  apply safe_then. rewrite <- (shift_0 c). apply (op_states _ _ 0 st' _ M Hh); [lia|]. cbn [state total block bPos]. rewrite copy_all by exact L.
  intros m' Hh'. rewrite shift_0. apply (op_set_pos _ _ _ _ M Hh'). cbn [state total block]. exact H.
Qed.

Lemma write_loop_at hash (HL : hash_local hash) fuel : forall p n space x x' m, can id c -> may id p ->
  (forall j, (j < n)%nat -> within c fields (shift p j) = false) -> holds w m0 c x m ->
  Ripemd.write_loop fuel hash x (cells m p n) n space = Ret x' ->
  safe id (write_loop hash w fuel c p n space) m u (fun _ m' u' => u' = u /\ holds w m0 c x' m').
Proof.
  induction fuel as [|fuel IH]; intros p n space x x' m M Mp D Hh E; cbn [Ripemd.write_loop write_loop] in *.
  - destruct (Nat.ltb 0 n); [discriminate|]. injection E as <-. split; [reflexivity|exact Hh].
  - destruct (Nat.ltb 0 n); [|injection E as <-; split; [reflexivity|exact Hh]].
    assert (Mc : may id c) by (apply can_may; exact M). destruct (Nat.ltb n space).
    + unbind E. injection E as <-.
      apply safe_then, (op_get_pos _ _ _ Mc Hh). apply safe_then, (op_copy _ _ _ _ _ _ _ M Mp Hh E0). intros m1 H1.
      apply safe_then, (op_get_pos _ _ _ Mc H1). apply (op_set_pos _ _ _ _ M H1). cbn [bPos state total block]. intros m2 H2. split; [reflexivity|exact H2].
    + unbind E. unbind E. unbind E. unbind E.
      unfold slice_of in E0, E3. rewrite cells_length in E0, E3. cbn [Nat.leb andb] in E0.
      destruct (Nat.leb_spec space n) as [L|L]; [|discriminate]. rewrite Nat.leb_refl in E3. cbn [andb] in E3.
      rewrite Nat.sub_0_r in E0. cbn [skipn] in E0. rewrite cells_firstn in E0 by exact L. injection E0 as <-. 
      rewrite cells_skipn, cells_firstn in E3 by lia. injection E3 as <-.
      apply safe_then, (op_get_pos _ _ _ Mc Hh). apply safe_then, (op_copy _ _ _ _ _ _ _ M Mp Hh E1). intros m1 H1.
      apply safe_then, (op_get_pos _ _ _ Mc H1). apply safe_then, (op_set_pos _ _ _ _ M H1). cbn [bPos state total block]. intros m2 H2.
      apply safe_then, (op_hash hash _ _ _ _ HL M H2 E2). intros m3 H3.
      apply (IH _ _ _ x2); try assumption.
      * intros j Hj. rewrite shift_shift. apply D. lia.
      * rewrite <- E. f_equal. apply cells_ext. intros j Hj. rewrite shift_shift. destruct Hh as [_ O0], H3 as [_ O3].
        rewrite O3, O0 by (apply D; lia). reflexivity.
Qed.
End Fields.

Lemma Write_at hash w (id : perm) c p m u x x' k : hash_local hash -> (w <= 10)%nat -> can id c -> may id (base p) ->
  (forall j, (j < slen p)%nat -> within c fields (shift (base p) j) = false) -> rep w m c x ->
  Ripemd.Write hash x (cells m (base p) (slen p)) = Ret (x', k) ->
  safe id (Write hash w c p) m u (fun r m' u' => r = slen p /\ u' = u /\ rep w m' c x' /\ outside c fields m m').
Proof.
  intros HL Hw M Mp D R E. unfold Ripemd.Write in E. rewrite cells_length in E. unbind E. injection E as -> _.
  assert (Hh : holds w m c x m) by (split; [exact R|apply outside_refl]). assert (Mc : may id c) by (apply can_may; exact M).
  unfold Write. cbv zeta. apply safe_then, (op_get_len w m id c u _ _ _ Mc Hh). apply safe_then, (op_set_len w Hw m id c u _ _ _ _ M Hh). intros m1 H1.
  apply safe_then, (op_get_pos w m id c u _ _ _ Mc H1). cbn [bPos] in *.
  eapply safe_seq; [apply (write_loop_at w Hw m id c u hash HL _ _ _ _ _ x' m1 M Mp D H1)|].
  - rewrite <- E0. f_equal. apply cells_ext. intros j Hj. destruct H1 as [_ O]. apply O, D, Hj.
  - intros _ m2 u2 (-> & R2 & O2). repeat split; try apply R2. exact O2.
Qed.

(** ** The compression functions *)

Lemma ret_inj {A} (x y : A) : Ret x = Ret y -> x = y.
Proof. intros H. injection H as ->. reflexivity. Qed.
Lemma bind_step {A B} (e : outcome A) (k k' : A -> outcome B) (P : B -> B -> Prop) :
  (forall a, e = Ret a -> forall y, k a = Ret y -> exists y', k' a = Ret y' /\ P y y') ->
  forall y, bind e k = Ret y -> exists y', bind e k' = Ret y' /\ P y y'.
Proof. intros H y E. destruct e as [a| |]; cbn [bind] in *; try discriminate. apply (H a eq_refl), E. Qed.
Definition same_hash (n : nat) (tot : N) (b : list N) (t t' : ctx) : Prop :=
  exists st', t' = mkCtx st' 0 b 0 /\ t = mkCtx st' tot b 0 /\ length st' = n.
Lemma getX_ctx st tot b pos : Ripemd.getX (mkCtx st tot b pos) = Ripemd.getX (mkCtx st 0 b 0).
Proof. reflexivity. Qed.
Ltac lens := repeat match goal with E : upd _ _ _ = Ret ?a |- length ?a = _ => rewrite (upd_length _ _ _ _ E); clear E end; reflexivity.
Ltac follow := repeat (apply bind_step; let E := fresh "E" in first
  [intros [[[[[? ?] ?] ?] ?] [[[[? ?] ?] ?] ?]] E|intros [[[[? ?] ?] ?] [[[? ?] ?] ?]] E|intros ? E]).
Ltac ends := intros ? H; apply ret_inj in H; subst; eexists; (split; [reflexivity|]); eexists; (split; [reflexivity|]); (split; [reflexivity|]); lens.
Lemma local128 st tot b pos : forall t, Ripemd.hash128 (mkCtx st tot b pos) = Ret t ->
  exists t', Ripemd.hash128 (mkCtx st 0 b 0) = Ret t' /\ same_hash (length st) tot b t t'.
Proof. unfold Ripemd.hash128. cbv zeta. cbn [state block total bPos]. rewrite getX_ctx. follow. ends. Qed.
Lemma local160 st tot b pos : forall t, Ripemd.hash160 (mkCtx st tot b pos) = Ret t ->
  exists t', Ripemd.hash160 (mkCtx st 0 b 0) = Ret t' /\ same_hash (length st) tot b t t'.
Proof. unfold Ripemd.hash160. cbv zeta. cbn [state block total bPos]. rewrite getX_ctx. follow. ends. Qed.
Lemma local256 st tot b pos : forall t, Ripemd.hash256 (mkCtx st tot b pos) = Ret t ->
  exists t', Ripemd.hash256 (mkCtx st 0 b 0) = Ret t' /\ same_hash (length st) tot b t t'.
Proof. unfold Ripemd.hash256. cbv zeta. cbn [state block total bPos]. rewrite getX_ctx. follow. ends. Qed.
Lemma local320 st tot b pos : forall t, Ripemd.hash320 (mkCtx st tot b pos) = Ret t ->
  exists t', Ripemd.hash320 (mkCtx st 0 b 0) = Ret t' /\ same_hash (length st) tot b t t'.
Proof. unfold Ripemd.hash320. cbv zeta. cbn [state block total bPos]. rewrite getX_ctx. follow. ends. Qed.
Lemma local_ripe v : hash_local (Ripemd.hash_fn v).
Proof.
  intros st tot b pos t H.
  assert (X : exists t', Ripemd.hash_fn v (mkCtx st 0 b 0) = Ret t' /\ same_hash (length st) tot b t t').
  { destruct v; [apply (local128 _ _ _ _ _ H)|apply (local160 _ _ _ _ _ H)|apply (local256 _ _ _ _ _ H)|apply (local320 _ _ _ _ _ H)]. }
  destruct X as (t' & E & st' & -> & -> & L). exists st'. auto.
Qed.
Lemma init_loop_ctx n : forall i c c' x K st, block c = block c' -> state c = state c' ->
  Whirlpool.init_loop n i c x K st = Whirlpool.init_loop n i c' x K st.
Proof.
  induction n as [|n IH]; intros i c c' x K st Eb Es; [reflexivity|]. cbn [Whirlpool.init_loop]. rewrite Eb, Es.
  destruct (Whirlpool.load (block c') i); cbn [bind]; try reflexivity. destruct (upd x i a); cbn [bind]; try reflexivity.
  destruct (idx (state c') i); cbn [bind]; try reflexivity. destruct (upd K i a1); cbn [bind]; try reflexivity.
  destruct (upd st i (N.lxor a a1)); cbn [bind]; try reflexivity. apply IH; assumption.
Qed.
Lemma final_loop_length n : forall i cs st x r, Whirlpool.final_loop n i cs st x = Ret r -> length r = length cs.
Proof.
  induction n as [|n IH]; intros i cs st x r H; cbn [Whirlpool.final_loop] in H; [congruence|].
  unbind H. unbind H. unbind H. unbind H. apply IH in H. apply upd_length in E2. congruence.
Qed.
Lemma local_whirl : hash_local Whirlpool.hash.
Proof.
  intros st tot b pos t H. unfold Whirlpool.hash in *. cbv zeta in *. cbn [state total block] in *.
  rewrite (init_loop_ctx 8 0 (mkCtx st tot b pos) (mkCtx st 0 b 0)) in H by reflexivity.
  unbind H. rewrite E. destruct x as [[x K] s]. cbn [bind]. unbind H. rewrite E0. cbn [bind]. unbind H. rewrite E1. cbn [bind].
  apply ret_inj in H. subst t. eexists. split; [reflexivity|]. split; [reflexivity|]. apply final_loop_length in E1. exact E1.
Qed.

(** ** Sum *)

Lemma rep_copy w m m' c h x : (w <= 10)%nat -> (forall j, (j < fields)%nat -> m' (shift h j) = m (shift c j)) -> rep w m c x -> rep w m' h x.
Proof.
  intros Hw H (R1 & R2 & R3 & R4). unfold rep. rewrite <- R1, <- R2, <- R3, <- R4. repeat split.
  - apply map_ext_in. intros j Hj. apply in_seq in Hj. apply H. unfold fields. lia.
  - apply H. unfold fields. lia.
  - apply map_ext_in. intros j Hj. apply in_seq in Hj. unfold f_block. rewrite !shift_shift. apply H. unfold fields. lia.
  - apply H. unfold fields. lia.
Qed.
(** The next address for memory of the library. *)
Definition fresh_at (id : nat) (u : bool -> nat) : addr := mkA id true (u true).
Definition apart (a : addr) (n : nat) (c : addr) (k : nat) : Prop := forall j, (j < k)%nat -> within a n (shift c j) = false.
Lemma clone_at w (id : perm) c m u x : (w <= 10)%nat -> may id c -> apart (fresh_at id u) fields c fields -> rep w m c x ->
  safe id (clone c) m u (fun h m' u' => h = fresh_at id u /\ u' = grow u true fields /\ holds w m h x m').
Proof.
  intros Hw M D R. unfold clone. apply safe_then, safe_new'. intros m1 O1. apply safe_then, safe_gets; [exact M|].
  apply safe_then, safe_sets; [exact (self_wr id)|]. intros m2 O2. change (is_over m1 (fresh_at id u) (cells m1 c fields) m2) in O2.
  split; [reflexivity|]. split; [reflexivity|].
  change (mkA id true (u true)) with (fresh_at id u) in *.
  pose proof (over_outside _ _ _ _ O1) as P1. rewrite repeat_length in P1.
  assert (E : cells m1 c fields = cells m c fields) by (apply (cells_outside _ _ _ _ _ _ P1); exact D).
  split.
  - apply (rep_copy w m m2 c); [exact Hw| |exact R]. intros j Hj. rewrite (over_in _ _ _ _ _ O2) by (rewrite cells_length; exact Hj).
    rewrite E, nth_cells by exact Hj. reflexivity.
  - apply (outside_trans _ _ _ m1); [exact P1|]. pose proof (over_outside _ _ _ _ O2) as P2. rewrite cells_length in P2. exact P2.
Qed.

Lemma put_le32s_at w (id : perm) h x o n u cnt : forall i l l' m, (w <= 10)%nat -> can id h -> can id o -> cells m h w = state x -> apart o n h w ->
  cells m o n = l -> Ripemd.out_loop cnt i (state x) l = Ret l' ->
  safe id (put_le32s cnt i h o) m u (fun _ m' u' => u' = u /\ cells m' o n = l' /\ outside o n m m').
Proof.
  induction cnt as [|cnt IH]; intros i l l' m Hw Wh Wo Hs D El H; cbn [Ripemd.out_loop put_le32s] in *.
  - injection H as <-. split; [reflexivity|]. split; [exact El|apply outside_refl].
  - unbind H. assert (Li : length l = n) by (rewrite <- El; apply cells_length). rewrite Li in H.
    destruct (Nat.leb_spec (i * 4 + 4) n) as [L|L]; [|discriminate].
    assert (Ex : (i < w)%nat /\ m (shift h i) = x0).
    { unfold idx in E. destruct (nth_error (state x) i) as [y|] eqn:En; [|discriminate]. apply ret_inj in E. subst y.
      assert (Hi : (i < w)%nat) by (rewrite <- (cells_length m h w), Hs; apply nth_error_Some; congruence).
      split; [exact Hi|]. rewrite <- (nth_cells m h w i 0 Hi), Hs. apply nth_error_nth, En. }
    destruct Ex as [Hi Ex]. apply safe_then, safe_get; [apply can_may; exact Wh|]. rewrite Ex.
    apply safe_then, safe_sets; [exact Wo|]. intros m1 O1. change (is_over m (shift o (i * 4)) (le32 x0) m1) in O1.
    assert (Q1 : outside o n m m1) by (apply (outside_in o n (i * 4) 4); [apply (over_outside _ _ _ _ O1)|exact L]).
    eapply safe_mono; [apply (IH (i + 1)%nat (copy_at l (i * 4) (le32 x0)) l' m1 Hw Wh Wo)|].
    + rewrite (cells_outside _ _ _ _ _ _ Q1 D). exact Hs.
    + exact D.
    + rewrite <- El. apply cells_over_at; [exact O1|exact L].
    + exact H.
    + cbn beta. intros _ m' u' (-> & C & O). split; [reflexivity|]. split; [exact C|]. apply (outside_trans _ _ _ m1); assumption.
Qed.
Lemma put_be64s_at w (id : perm) h x o n u cnt : forall i l l' m, (w <= 10)%nat -> can id h -> can id o -> cells m h w = state x -> apart o n h w ->
  cells m o n = l -> Whirlpool.out_loop cnt i (state x) l = Ret l' ->
  safe id (put_be64s cnt i h o) m u (fun _ m' u' => u' = u /\ cells m' o n = l' /\ outside o n m m').
Proof.
  induction cnt as [|cnt IH]; intros i l l' m Hw Wh Wo Hs D El H; cbn [Whirlpool.out_loop put_be64s] in *.
  - injection H as <-. split; [reflexivity|]. split; [exact El|apply outside_refl].
  - unbind H. assert (Li : length l = n) by (rewrite <- El; apply cells_length). rewrite Li in H.
    destruct (Nat.leb_spec (i * 8 + 8) n) as [L|L]; [|discriminate].
    assert (Ex : (i < w)%nat /\ m (shift h i) = x0).
    { unfold idx in E. destruct (nth_error (state x) i) as [y|] eqn:En; [|discriminate]. apply ret_inj in E. subst y.
      assert (Hi : (i < w)%nat) by (rewrite <- (cells_length m h w), Hs; apply nth_error_Some; congruence).
      split; [exact Hi|]. rewrite <- (nth_cells m h w i 0 Hi), Hs. apply nth_error_nth, En. }
    destruct Ex as [Hi Ex]. apply safe_then, safe_get; [apply can_may; exact Wh|]. rewrite Ex.
    apply safe_then, safe_sets; [exact Wo|]. intros m1 O1. change (is_over m (shift o (i * 8)) (be64 x0) m1) in O1.
    assert (Q1 : outside o n m m1) by (apply (outside_in o n (i * 8) 8); [apply (over_outside _ _ _ _ O1)|exact L]).
    eapply safe_mono; [apply (IH (i + 1)%nat (copy_at l (i * 8) (be64 x0)) l' m1 Hw Wh Wo)|].
    + rewrite (cells_outside _ _ _ _ _ _ Q1 D). exact Hs.
    + exact D.
    + rewrite <- El. apply cells_over_at; [exact O1|exact L].
    + exact H.
    + cbn beta. intros _ m' u' (-> & C & O). split; [reflexivity|]. split; [exact C|]. apply (outside_trans _ _ _ m1); assumption.
Qed.

(** Only memory that the library has just allocated is different. *)
Definition scratched (id k : nat) (m m' : memory) : Prop := forall y, ~ (who y = id /\ lib y = true /\ (k <= num y)%nat) -> m' y = m y.
Lemma scratched_trans id k m1 m2 m3 : scratched id k m1 m2 -> scratched id k m2 m3 -> scratched id k m1 m3.
Proof. intros H1 H2 y Hy. rewrite H2, H1 by exact Hy. reflexivity. Qed.
Lemma outside_scratched id a n m m' k : outside a n m m' -> who a = id -> lib a = true -> (k <= num a)%nat -> scratched id k m m'.
Proof. intros H W L K y Hy. apply H, within_not. intros (A & B & C). apply Hy. rewrite A, B. repeat split; auto; lia. Qed.

Definition appended (id room : nat) (inp : gslice) (xs : list N) (m : memory) (u : bool -> nat) (s : gslice) (m' : memory) (u' : bool -> nat) : Prop :=
  (forall y, lib y = true -> ~ (who y = id /\ (u true <= num y)%nat) -> m' y = m y) /\ (u true <= u' true)%nat /\
  let n := (slen inp + length xs)%nat in
  if Nat.leb n (scap inp) then
    s = mkS (base inp) n (scap inp) /\ u' false = u false
    /\ forall y, lib y = false -> m' y = over m (shift (base inp) (slen inp)) xs y
  else
    let t := mkA id false (u false) in
    s = mkS t n (n + room) /\ u' false = (u false + n + room)%nat
    /\ forall y, lib y = false -> m' y = over m t (cells m (base inp) (slen inp) ++ xs ++ repeat 0 room) y.

Lemma append_at (id : perm) room inp xs m0 u0 m u : scratched id (u0 true) m0 m -> (u0 true <= u true)%nat -> u false = u0 false ->
  may id (base inp) -> lib (base inp) = false -> apart (mkA id false (u0 false)) (slen inp + length xs + room) (base inp) (slen inp) ->
  (xs <> [] -> (slen inp + length xs <= scap inp)%nat -> can id (base inp)) ->
  safe id (append room inp xs) m u (appended id room inp xs m0 u0).
Proof.
  intros Sc Ht Hf Mi Li D Wi. unfold append, appended. cbv zeta.
  assert (Us : forall y, lib y = false -> m y = m0 y) by (intros y Hy; apply Sc; intros (_ & X & _); congruence).
  destruct (Nat.leb_spec (slen inp + length xs) (scap inp)) as [L|L].
  - apply safe_then, safe_sets0; [intros X; exact (Wi X L)|]. intros m' O. cbn [safe]. repeat split; try lia.
    + intros y Hy Hn. rewrite O. unfold over. destruct (within_spec (shift (base inp) (slen inp)) (length xs) y) as [(_ & X & _)|_].
      * cbn [lib shift] in X. congruence.
      * apply Sc. tauto.
    + intros y Hy. rewrite O. unfold over. rewrite (Us y Hy). reflexivity.
  - apply safe_then, safe_new'. rewrite Hf. intros m1 O1. set (t := mkA id false (u0 false)) in *.
    pose proof (over_outside _ _ _ _ O1) as P1. rewrite repeat_length in P1.
    apply safe_then, safe_gets; [exact Mi|]. rewrite (cells_outside _ _ _ _ _ _ P1 D).
    assert (Ec : cells m (base inp) (slen inp) = cells m0 (base inp) (slen inp)) by (apply cells_ext; intros j _; apply Us, Li).
    rewrite Ec. apply safe_then, safe_sets; [exact (self_wr id)|]. intros m2 O2. apply safe_then, safe_sets; [exact (self_wr id)|]. intros m3 O3. cbn [safe].
    change (is_over m1 t (cells m0 (base inp) (slen inp)) m2) in O2. change (is_over m2 (shift t (slen inp)) xs m3) in O3.
    split; [|split; [|split; [reflexivity|split]]].
    + intros y Hy Hn.
      assert (Z : forall a n, lib a = false -> within a n y = false) by (intros a n Ha; apply within_not; intros (_ & X & _); congruence).
      rewrite (over_out _ _ _ _ _ O3), (over_out _ _ _ _ _ O2), (over_out _ _ _ _ _ O1) by (apply Z; reflexivity). apply Sc. tauto.
    + unfold grow. cbn [Bool.eqb]. exact Ht.
    + unfold grow. cbn [Bool.eqb]. lia.
    + intros y Hy. rewrite O3. unfold over.
      destruct (within_spec (shift t (slen inp)) (length xs) y) as [W3|W3].
      * destruct (within_spec t (length (cells m0 (base inp) (slen inp) ++ xs ++ repeat 0 room)) y) as [W|W];
          rewrite !app_length, cells_length, repeat_length in W; cbn [who lib num shift] in *; [|exfalso; apply W; intuition lia].
        rewrite app_nth2 by (rewrite cells_length; lia). rewrite cells_length. rewrite app_nth1 by lia. f_equal. lia.
      * rewrite O2. unfold over. rewrite cells_length.
        destruct (within_spec t (slen inp) y) as [W2|W2].
        -- destruct (within_spec t (length (cells m0 (base inp) (slen inp) ++ xs ++ repeat 0 room)) y) as [W|W];
             rewrite !app_length, cells_length, repeat_length in W; cbn [who lib num shift] in *; [|exfalso; apply W; intuition lia].
           rewrite app_nth1 by (rewrite cells_length; lia). reflexivity.
        -- rewrite O1. unfold over. rewrite repeat_length.
           destruct (within_spec t (slen inp + length xs + room) y) as [W1|W1];
             destruct (within_spec t (length (cells m0 (base inp) (slen inp) ++ xs ++ repeat 0 room)) y) as [W|W];
             rewrite !app_length, cells_length, repeat_length in W; cbn [who lib num shift] in *; try (exfalso; intuition lia).
           ++ rewrite nth_zeros. rewrite app_nth2 by (rewrite cells_length; intuition lia). rewrite cells_length.
              rewrite app_nth2 by intuition lia. rewrite nth_zeros. reflexivity.
           ++ apply Us, Hy.
Qed.

Lemma op_put_len w m0 (id : perm) c u x m j f b (Q : unit -> memory -> (bool -> nat) -> Prop) : (w <= 10)%nat -> can id c -> holds w m0 c x m ->
  upd (block x) (bPos x + j) (u8 (f (total x))) = Ret b ->
  (forall m', holds w m0 c (mkCtx (state x) (total x) b (bPos x)) m' -> Q tt m' u) -> safe id (put_len c j f) m u Q.
Proof.
  intros Hw M Hh E H. assert (Mc : may id c) by (apply can_may; exact M). unfold put_len.
  apply safe_then, (op_get_pos w m0 id c u _ _ _ Mc Hh). apply safe_then, (op_get_len w m0 id c u _ _ _ Mc Hh).
  apply (op_set_block w Hw m0 id c u _ _ _ _ _ _ M Hh E H).
Qed.
(** Objects that are not in memory which [id] has still to allocate. *)
Definition settled (id : nat) (u : bool -> nat) (c : addr) (n : nat) : Prop :=
  forall j, (j < n)%nat -> ~ (who (shift c j) = id /\ lib (shift c j) = true /\ (u true <= num (shift c j))%nat).
Lemma settled_apart id u c n k : settled id u c n -> apart (fresh_at id u) k c n.
Proof. intros H j Hj. apply within_not. intros (A & B & C). apply (H j Hj). cbn [who lib num fresh_at] in *. repeat split; auto; lia. Qed.

Lemma sum_end (id : perm) room inp m u (out : list N) mid h x w n (put : addr -> code unit) : (w <= 10)%nat -> h = fresh_at id u ->
  holds w m h x mid -> length out = n ->
  (forall m1 u1 o, can id o -> cells m1 h w = state x -> apart o n h w -> cells m1 o n = repeat 0 n ->
     safe id (put o) m1 u1 (fun _ m' u' => u' = u1 /\ cells m' o n = out /\ outside o n m1 m')) ->
  may id (base inp) -> lib (base inp) = false -> apart (mkA id false (u false)) (slen inp + length out + room) (base inp) (slen inp) ->
  (out <> [] -> (slen inp + length out <= scap inp)%nat -> can id (base inp)) ->
  safe id (do o <- new true n; put o ;; do xs <- gets o n; append room inp xs) mid (grow u true fields) (appended id room inp out m u).
Proof.
  intros Hw -> [R O] Ln Hput Mi Li D Wi. apply safe_then, safe_new'. rewrite grow_same. intros m1 O1.
  set (o := mkA id true (u true + fields)) in *. pose proof (over_outside _ _ _ _ O1) as P1. rewrite repeat_length in P1.
  assert (A : apart o n (fresh_at id u) w) by (intros j Hj; apply within_not; unfold o, fresh_at, fields; cbn [who lib num shift]; lia).
  eapply safe_seq; [apply (Hput m1 _ o (self_wr id))|].
  - destruct R as (R1 & _). rewrite <- R1. apply (cells_outside _ _ _ _ _ _ P1 A).
  - exact A.
  - pose proof (cells_over_all _ _ _ _ O1) as C. rewrite repeat_length in C. exact C.
  - intros _ m2 u2 (-> & C2 & O2). apply safe_then, safe_gets; [apply can_may; exact (self_wr id)|]. rewrite C2.
    apply append_at; try assumption.
    + apply (scratched_trans _ _ _ m1).
      * apply (scratched_trans _ _ _ mid).
        -- apply (outside_scratched _ _ _ _ _ _ O); try reflexivity. 
        -- apply (outside_scratched _ _ _ _ _ _ P1); try reflexivity. unfold o. cbn [num]. lia.
      * apply (outside_scratched _ _ _ _ _ _ O2); try reflexivity. unfold o. cbn [num]. lia.
    + rewrite grow_same. unfold grow. cbn [Bool.eqb]. lia.
    + unfold grow. cbn [Bool.eqb]. reflexivity.
Qed.

Lemma out_loop_length cnt : forall i st l l', Ripemd.out_loop cnt i st l = Ret l' -> length l' = length l.
Proof.
  induction cnt as [|cnt IH]; intros i st l l' H; cbn [Ripemd.out_loop] in H; [apply ret_inj in H; congruence|]. unbind H.
  destruct (Nat.leb_spec (i * 4 + 4) (length l)); [|discriminate]. apply IH in H. rewrite H. apply copy_at_length. lia.
Qed.
Lemma wout_loop_length cnt : forall i st l l', Whirlpool.out_loop cnt i st l = Ret l' -> length l' = length l.
Proof.
  induction cnt as [|cnt IH]; intros i st l l' H; cbn [Whirlpool.out_loop] in H; [apply ret_inj in H; congruence|]. unbind H.
  destruct (Nat.leb_spec (i * 8 + 8) (length l)); [|discriminate]. apply IH in H. rewrite H. apply copy_at_length. lia.
Qed.

Lemma op_put_length (id : perm) c w m0 h (t : N) (u1 : bool -> nat) y k i f b (Q : unit -> memory -> (bool -> nat) -> Prop) : may id c -> (w <= 10)%nat -> can id h -> holds w m0 h y k ->
  m0 (f_len c) = t -> apart h fields c fields ->
  upd (block y) i (u8 (f (t))) = Ret b ->
  (forall k', holds w m0 h (mkCtx (state y) (total y) b (bPos y)) k' -> Q tt k' u1) -> safe id (put_length h c i f) k u1 Q.
Proof.
  intros Mc Hw Wh Hh Et A E H. unfold put_length. apply safe_then, safe_get; [exact Mc|].
  assert (El : k (f_len c) = t) by (rewrite <- Et; apply (proj2 Hh); apply A; unfold fields; lia).
  rewrite El. apply (op_set_block w Hw m0 id h u1 _ _ _ _ _ _ Wh Hh E H).
Qed.

Section Sums.
Context (id : perm) (room : nat) (c : addr) (inp : gslice) (m : memory) (u : bool -> nat) (x x' : ctx) (out : list N).
Context (Mc : may id c) (Sc : settled id u c fields) (Mi : may id (base inp)) (Li : lib (base inp) = false).
Context (D : apart (mkA id false (u false)) (slen inp + length out + room) (base inp) (slen inp)).
Context (Wi : out <> [] -> (slen inp + length out <= scap inp)%nat -> can id (base inp)).

Lemma SumRipe_at hash sl : hash_local hash -> rep 10 m c x -> Ripemd.Sum hash sl x [] = Ret (x', out) ->
  safe id (SumRipe hash sl room c inp) m u (appended id room inp out m u).
Proof.
  intros HL R E. unfold Ripemd.Sum in E. cbv zeta in E. unbind E. rename x0 into b0, E0 into E0.
  apply bind_ret in E. destruct E as (h1 & E1 & E). unbind E. rename x0 into b1, E2 into Ez.
  unbind E. rename x0 into c0, E2 into C0. unbind E. rename x0 into c1, E2 into C1. unbind E. rename x0 into c2, E2 into C2.
  unbind E. rename x0 into c3, E2 into C3. unbind E. rename x0 into c4, E2 into C4. unbind E. rename x0 into c5, E2 into C5.
  unbind E. rename x0 into c6, E2 into C6. unbind E. rename x0 into c7, E2 into C7.
  unbind E. rename x0 into h2, E2 into Eh. unbind E. rename x0 into o0, E2 into Em. unbind E. rename x0 into o1, E2 into Eo.
  apply ret_inj in E. injection E as _ <-. rewrite make_bytes_nat in Em. apply ret_inj in Em. subst o0.
  assert (W10 : (10 <= 10)%nat) by lia.
  unfold SumRipe. eapply safe_seq; [apply (clone_at 10 id c m u x W10 Mc (settled_apart _ _ _ _ _ Sc) R)|].
  intros h m1 u1 (Eh' & -> & H1). assert (Wh : can id h) by (rewrite Eh'; exact (self_wr id)). assert (Mh : may id h) by (apply can_may; exact Wh).
  apply safe_then, (op_get_pos 10 m id h _ _ _ _ Mh H1).
  apply safe_then, (op_set_block 10 W10 m id h _ _ _ _ _ _ _ Wh H1 E0). intros m2 H2.
  apply safe_then, (op_set_pos 10 W10 m id h _ _ _ _ _ Wh H2). cbn [state total block bPos] in *. intros m3 H3.
  apply safe_then, (op_get_pos 10 m id h _ _ _ _ Mh H3). cbn [bPos].
  apply (safe_seq _ _ _ _ _ (fun _ m' u' => u' = grow u true fields /\ holds 10 m h h1 m')).
  { destruct (Nat.ltb 56 (bPos x + 1)).
    - unbind E1. pose proof (proj1 (holds_block _ _ _ _ _ H3)) as B. cbn [block] in B. rewrite B in E.
      apply safe_then, (op_zero 10 W10 m id h _ _ _ _ _ _ _ Wh H3 E). cbn [state total block bPos]. intros m4 H4.
      apply (op_hash 10 W10 m id h _ hash _ _ _ _ HL Wh H4 E1). intros m5 H5. split; [reflexivity|exact H5].
    - apply ret_inj in E1. subst h1. split; [reflexivity|exact H3]. }
  intros _ m4 u4 (-> & H4).
  apply safe_then, (op_get_pos 10 m id h _ _ _ _ Mh H4).
  apply safe_then, (op_zero 10 W10 m id h _ _ _ _ _ _ _ Wh H4 Ez). intros m5 H5.
  apply safe_then, (op_set_pos 10 W10 m id h _ _ _ _ _ Wh H5). cbn [state total block bPos]. intros m6 H6.
  apply safe_then, (op_put_len 10 m id h _ _ _ _ _ _ _ W10 Wh H6 C0). cbn [state total block bPos]. intros k0 K0.
  apply safe_then, (op_put_len 10 m id h _ _ _ _ _ _ _ W10 Wh K0 C1). cbn [state total block bPos]. intros k1 K1.
  apply safe_then, (op_put_len 10 m id h _ _ _ _ _ _ _ W10 Wh K1 C2). cbn [state total block bPos]. intros k2 K2.
  apply safe_then, (op_put_len 10 m id h _ _ _ _ _ _ _ W10 Wh K2 C3). cbn [state total block bPos]. intros k3 K3.
  apply safe_then, (op_put_len 10 m id h _ _ _ _ _ _ _ W10 Wh K3 C4). cbn [state total block bPos]. intros k4 K4.
  apply safe_then, (op_put_len 10 m id h _ _ _ _ _ _ _ W10 Wh K4 C5). cbn [state total block bPos]. intros k5 K5.
  apply safe_then, (op_put_len 10 m id h _ _ _ _ _ _ _ W10 Wh K5 C6). cbn [state total block bPos]. intros k6 K6.
  apply safe_then, (op_put_len 10 m id h _ _ _ _ _ _ _ W10 Wh K6 C7). cbn [state total block bPos]. intros k7 K7.
  apply safe_then, (op_get_pos 10 m id h _ _ _ _ Mh K7). cbn [bPos].
  apply safe_then, (op_set_pos 10 W10 m id h _ _ _ _ _ Wh K7). cbn [state total block bPos]. intros k8 K8.
  apply safe_then, (op_hash 10 W10 m id h _ hash _ _ _ _ HL Wh K8 Eh). intros k9 K9.
  change ([] ++ o1) with o1 in *.
  pose proof (out_loop_length _ _ _ _ _ Eo) as Lo. rewrite repeat_length in Lo.
  apply (sum_end id room inp m u o1 k9 h h2 10 (sl * 4) (fun o => put_le32s sl 0 h o) W10 Eh' K9 Lo); try assumption.
  intros n1 v1 o Wo Es A Ec. apply (put_le32s_at 10 id h h2 o (sl * 4) v1 sl 0 _ o1 n1 W10 Wh Wo Es A Ec). exact Eo.
Qed.

Lemma SumWhirl_at : rep 8 m c x -> Whirlpool.Sum x [] = Ret (x', out) ->
  safe id (SumWhirl room c inp) m u (appended id room inp out m u).
Proof.
  intros R E. unfold Whirlpool.Sum in E. cbv zeta in E. unbind E. rename x0 into b0, E0 into E0.
  apply bind_ret in E. destruct E as (h1 & E1 & E). unbind E. rename x0 into b1, E2 into Ez.
  unbind E. rename x0 into c0, E2 into C0. unbind E. rename x0 into c1, E2 into C1. unbind E. rename x0 into c2, E2 into C2.
  unbind E. rename x0 into c3, E2 into C3. unbind E. rename x0 into c4, E2 into C4. unbind E. rename x0 into c5, E2 into C5.
  unbind E. rename x0 into c6, E2 into C6. unbind E. rename x0 into c7, E2 into C7. unbind E. rename x0 into c8, E2 into C8.
  unbind E. rename x0 into h2, E2 into Eh. unbind E. rename x0 into o0, E2 into Em. unbind E. rename x0 into o1, E2 into Eo.
  apply ret_inj in E. injection E as _ <-. change 64%Z with (Z.of_nat 64) in Em. rewrite make_bytes_nat in Em. apply ret_inj in Em. subst o0.
  assert (W8 : (8 <= 10)%nat) by lia. pose proof local_whirl as HL.
  unfold SumWhirl. eapply safe_seq; [apply (clone_at 8 id c m u x W8 Mc (settled_apart _ _ _ _ _ Sc) R)|].
  intros h m1 u1 (Eh' & -> & H1). assert (Wh : can id h) by (rewrite Eh'; exact (self_wr id)). assert (Mh : may id h) by (apply can_may; exact Wh).
  assert (A : apart h fields c fields) by (rewrite Eh'; apply settled_apart, Sc).
  assert (Et : m (f_len c) = total x) by apply R.
  apply safe_then, (op_get_pos 8 m id h _ _ _ _ Mh H1).
  apply safe_then, (op_set_block 8 W8 m id h _ _ _ _ _ _ _ Wh H1 E0). intros m2 H2.
  apply safe_then, (op_set_pos 8 W8 m id h _ _ _ _ _ Wh H2). cbn [state total block bPos] in *. intros m3 H3.
  apply safe_then, (op_get_pos 8 m id h _ _ _ _ Mh H3). cbn [bPos].
  apply (safe_seq _ _ _ _ _ (fun _ m' u' => u' = grow u true fields /\ holds 8 m h h1 m')).
  { destruct (Nat.ltb 32 (bPos x + 1)).
    - unbind E1. pose proof (proj1 (holds_block _ _ _ _ _ H3)) as B. cbn [block] in B. rewrite B in E.
      apply safe_then, (op_zero 8 W8 m id h _ _ _ _ _ _ _ Wh H3 E). cbn [state total block bPos]. intros m4 H4.
      apply (op_hash 8 W8 m id h _ _ _ _ _ _ HL Wh H4 E1). intros m5 H5. split; [reflexivity|exact H5].
    - apply ret_inj in E1. subst h1. split; [reflexivity|exact H3]. }
  intros _ m4 u4 (-> & H4).
  apply safe_then, (op_get_pos 8 m id h _ _ _ _ Mh H4).
  apply safe_then, (op_zero 8 W8 m id h _ _ _ _ _ _ _ Wh H4 Ez). intros m5 H5.
  apply safe_then, (op_put_length id c 8 m h (total x) _ _ _ _ _ _ _ Mc W8 Wh H5 Et A C0). cbn [state total block bPos]. intros k0 K0.
  apply safe_then, (op_put_length id c 8 m h (total x) _ _ _ _ _ _ _ Mc W8 Wh K0 Et A C1). cbn [state total block bPos]. intros k1 K1.
  apply safe_then, (op_put_length id c 8 m h (total x) _ _ _ _ _ _ _ Mc W8 Wh K1 Et A C2). cbn [state total block bPos]. intros k2 K2.
  apply safe_then, (op_put_length id c 8 m h (total x) _ _ _ _ _ _ _ Mc W8 Wh K2 Et A C3). cbn [state total block bPos]. intros k3 K3.
  apply safe_then, (op_put_length id c 8 m h (total x) _ _ _ _ _ _ _ Mc W8 Wh K3 Et A C4). cbn [state total block bPos]. intros k4 K4.
  apply safe_then, (op_put_length id c 8 m h (total x) _ _ _ _ _ _ _ Mc W8 Wh K4 Et A C5). cbn [state total block bPos]. intros k5 K5.
  apply safe_then, (op_put_length id c 8 m h (total x) _ _ _ _ _ _ _ Mc W8 Wh K5 Et A C6). cbn [state total block bPos]. intros k6 K6.
  apply safe_then, (op_put_length id c 8 m h (total x) _ _ _ _ _ _ _ Mc W8 Wh K6 Et A C7). cbn [state total block bPos]. intros k7 K7.
  apply safe_then, (op_put_length id c 8 m h (total x) _ _ _ _ _ _ _ Mc W8 Wh K7 Et A C8). cbn [state total block bPos]. intros k8 K8.
  apply safe_then, (op_hash 8 W8 m id h _ _ _ _ _ _ HL Wh K8 Eh). intros k9 K9.
  change ([] ++ o1) with o1 in *.
  pose proof (wout_loop_length _ _ _ _ _ Eo) as Lo. rewrite repeat_length in Lo.
  apply (sum_end id room inp m u o1 k9 h h2 8 64 (fun o => put_be64s 8 0 h o) W8 Eh' K9 Lo); try assumption.
  intros n1 v1 o Wo Es A' Ec. apply (put_be64s_at 8 id h h2 o 64 v1 8 0 _ o1 n1 W8 Wh Wo Es A' Ec). exact Eo.
Qed.
End Sums.

(** ** Reset and New *)

Section Resets.
Context (w : nat) (Hw : (w <= 10)%nat) (m0 : memory) (id : perm) (c : addr) (u : bool -> nat) (M : can id c).

Lemma op_set_state x m i v st (Q : unit -> memory -> (bool -> nat) -> Prop) : holds w m0 c x m -> upd (state x) i v = Ret st ->
  (forall m', holds w m0 c (mkCtx st (total x) (block x) (bPos x)) m' -> Q tt m' u) -> safe id (set (shift c i) v) m u Q.
Proof.
  intros Hh E H. pose proof (upd_copy w Hw _ _ _ _ E) as [-> L]. rewrite (proj2 (holds_block _ _ _ _ _ Hh)) in L.
  pose proof (op_states w Hw m0 id c u x m i [v] Q M Hh L H) as X. cbn [sets] in X. exact X.
Qed.
Lemma reset1_at cnt : forall i x m st, holds w m0 c x m -> Ripemd.reset1_loop cnt i (state x) = Ret st ->
  safe id (reset1_loop cnt i c) m u (fun _ m' u' => u' = u /\ holds w m0 c (mkCtx st (total x) (block x) (bPos x)) m').
Proof.
  induction cnt as [|cnt IH]; intros i x m st Hh E; cbn [Ripemd.reset1_loop reset1_loop] in *.
  - apply ret_inj in E. subst st. split; [reflexivity|]. destruct x. exact Hh.
  - unbind E. unbind E. apply safe_then, (safe_lift _ _ _ _ _ _ E0). apply safe_then, (op_set_state _ _ _ _ _ _ Hh E1). intros m1 H1.
    apply (IH _ _ _ _ H1 E).
Qed.
Lemma reset2_at cnt : forall i n x m st, holds w m0 c x m -> Ripemd.reset2_loop cnt i n (state x) = Ret st ->
  safe id (reset2_loop cnt i n c) m u (fun _ m' u' => u' = u /\ holds w m0 c (mkCtx st (total x) (block x) (bPos x)) m').
Proof.
  induction cnt as [|cnt IH]; intros i n x m st Hh E; cbn [Ripemd.reset2_loop reset2_loop] in *.
  - apply ret_inj in E. subst st. split; [reflexivity|]. destruct x. exact Hh.
  - unbind E. unbind E. unbind E. unbind E.
    apply safe_then, (safe_lift _ _ _ _ _ _ E0). apply safe_then, (op_set_state _ _ _ _ _ _ Hh E1). intros m1 H1.
    apply safe_then, (safe_lift _ _ _ _ _ _ E2). apply safe_then, (op_set_state _ _ _ _ _ _ H1 E3). intros m2 H2.
    apply (IH _ _ _ _ _ H2 E).
Qed.
Lemma ResetRipe_at sl x m x' : holds w m0 c x m -> Ripemd.Reset sl x = Ret x' ->
  safe id (ResetRipe sl c) m u (fun _ m' u' => u' = u /\ holds w m0 c x' m').
Proof.
  intros Hh E. unfold Ripemd.Reset in E. cbv zeta in E. unbind E. apply ret_inj in E. subst x'. unfold ResetRipe.
  apply (safe_seq _ _ _ _ _ (fun _ m' u' => u' = u /\ holds w m0 c (mkCtx x0 (total x) (block x) (bPos x)) m')).
  - destruct (Nat.ltb 5 sl); [apply reset2_at|apply reset1_at]; assumption.
  - intros _ m1 u1 (-> & H1). apply safe_then, (op_set_len w Hw m0 id c u _ _ _ _ M H1). intros m2 H2.
    apply (op_set_pos w Hw m0 id c u _ _ _ _ M H2). intros m3 H3. split; [reflexivity|exact H3].
Qed.
Lemma reset_at cnt : forall i x m st, holds w m0 c x m -> Whirlpool.reset_loop cnt i (state x) = Ret st ->
  safe id (reset_loop cnt i c) m u (fun _ m' u' => u' = u /\ holds w m0 c (mkCtx st (total x) (block x) (bPos x)) m').
Proof.
  induction cnt as [|cnt IH]; intros i x m st Hh E; cbn [Whirlpool.reset_loop reset_loop] in *.
  - apply ret_inj in E. subst st. split; [reflexivity|]. destruct x. exact Hh.
  - unbind E. apply safe_then, (op_set_state _ _ _ _ _ _ Hh E0). intros m1 H1. apply (IH _ _ _ _ H1 E).
Qed.
Lemma ResetWhirl_at x m x' : holds w m0 c x m -> Whirlpool.Reset x = Ret x' ->
  safe id (ResetWhirl c) m u (fun _ m' u' => u' = u /\ holds w m0 c x' m').
Proof.
  intros Hh E. unfold Whirlpool.Reset in E. unbind E. apply ret_inj in E. subst x'. unfold ResetWhirl.
  eapply safe_seq; [apply (reset_at 8 0 x m x0 Hh E0)|].
  intros _ m1 u1 (-> & H1). apply safe_then, (op_set_len w Hw m0 id c u _ _ _ _ M H1). intros m2 H2.
  apply (op_set_pos w Hw m0 id c u _ _ _ _ M H2). intros m3 H3. split; [reflexivity|exact H3].
Qed.
End Resets.

Lemma cells_zero m a n m' b k : is_over m a (repeat 0 n) m' -> (forall j, (j < k)%nat -> within a n (shift b j) = true) -> cells m' b k = repeat 0 k.
Proof.
  intros H D. apply cells_eq; [apply repeat_length|]. intros j Hj. rewrite H. unfold over. rewrite repeat_length, (D j Hj), !nth_zeros. reflexivity.
Qed.
Lemma new_rep w m c m' : (w <= 10)%nat -> is_over m c (repeat 0 fields) m' -> rep w m' c (mkCtx (repeat 0 w) 0 (repeat 0 64) 0).
Proof.
  intros Hw O. assert (I1 : forall j, (j < fields)%nat -> within c fields (shift c j) = true) by (intros j Hj; apply within_iff; cbn [who lib num shift]; repeat split; lia).
  assert (Z : forall j, (j < fields)%nat -> m' (shift c j) = 0) by (intros j Hj; rewrite (over_in _ _ _ _ _ O) by (rewrite repeat_length; exact Hj); apply nth_zeros).
  unfold rep. cbn [state total block bPos]. repeat split.
  - apply (cells_zero _ _ _ _ _ _ O). intros j Hj. apply I1. unfold fields. lia.
  - apply Z. unfold fields. lia.
  - apply (cells_zero _ _ _ _ _ _ O). intros j Hj. unfold f_block. rewrite shift_shift. apply I1. unfold fields. lia.
  - apply Z. unfold fields. lia.
Qed.
