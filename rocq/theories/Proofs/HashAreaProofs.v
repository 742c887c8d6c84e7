(** The hashes access by access once more, as in HashAtomProofs.v, but with what
    may be read and written said address by address: a method reads and writes
    only the fields of its object, the bytes of the slice it is given, and memory
    it allocates. *)
From Verif Require Import Base.Go Base.DigestApi Base.HashApi Base.HashUse Base.Goroutine Base.GoUse.
From Verif Require Import Model.HashBlock Model.HashAtom Proofs.Util Proofs.HeapProofs Proofs.GoroutineProofs Proofs.HashAtomProofs Proofs.AreaProofs.
From Verif Require Model.Ripemd Model.Whirlpool Model.HashMem Proofs.DigestProofs.
Local Open Scope N_scope.

Local Coercion me : area >-> nat.
Definition sees (p : area) (a : addr) (n : nat) : Prop := forall j, (j < n)%nat -> rds p (shift a j).
Definition owns (p : area) (a : addr) (n : nat) : Prop := forall j, (j < n)%nat -> wrs p (shift a j).
(** What is still to be allocated may be written. *)
Definition ample (p : area) (u : bool -> nat) : Prop := forall y, who y = me p -> (u (lib y) <= num y)%nat -> wrs p y.
Lemma owns_sees p a n : owns p a n -> sees p a n.
Proof. intros H j Hj. apply wrs_rds, H, Hj. Qed.
Lemma sees_part p a n i k : sees p a n -> (i + k <= n)%nat -> sees p (shift a i) k.
Proof. intros H L j Hj. rewrite shift_shift. apply H. lia. Qed.
Lemma owns_part p a n i k : owns p a n -> (i + k <= n)%nat -> owns p (shift a i) k.
Proof. intros H L j Hj. rewrite shift_shift. apply H. lia. Qed.
Lemma ample_grow p u l n : ample p u -> ample p (grow u l n).
Proof. intros H y W L. apply H; [exact W|]. unfold grow in L. destruct (Bool.eqb (lib y) l); lia. Qed.
Lemma ample_owns (p : area) u l k n : ample p u -> (u l <= k)%nat -> owns p (mkA p l k) n.
Proof. intros H L j Hj. apply H; cbn [who lib num shift]; [reflexivity|lia]. Qed.
Lemma shift_f_block c i j : shift (f_block c i) j = shift c (11 + i + j).
Proof. unfold f_block. rewrite shift_shift. reflexivity. Qed.

Section Fields.
Context (w : nat) (Hw : (w <= 10)%nat) (m0 : memory) (id : area) (c : addr) (u : bool -> nat).

Lemma op_get_pos x m (Q : nat -> memory -> (bool -> nat) -> Prop) : sees id c fields -> holds w m0 c x m -> Q (bPos x) m u -> stays id (get_pos c) m u Q.
Proof.
  intros M ((_ & _ & _ & R) & _) H. unfold get_pos. apply stays_then, stays_get; [apply M; unfold fields; clear; lia|]. cbn [stays]. rewrite R, Nnat.Nat2N.id. exact H.
Qed.
Lemma op_get_len x m (Q : N -> memory -> (bool -> nat) -> Prop) : sees id c fields -> holds w m0 c x m -> Q (total x) m u -> stays id (get (f_len c)) m u Q.
Proof. intros M ((_ & R & _ & _) & _) H. apply stays_get; [apply M; unfold fields; clear; lia|]. rewrite R. exact H. Qed.
Lemma op_set_pos x m p (Q : unit -> memory -> (bool -> nat) -> Prop) : owns id c fields -> holds w m0 c x m ->
  (forall m', holds w m0 c (mkCtx (state x) (total x) (block x) p) m' -> Q tt m' u) -> stays id (set_pos c p) m u Q.
Proof.
  intros M Hh H. unfold set_pos. apply stays_set; [apply M; unfold fields; lia|]. intros m' O. apply H. split.
  - destruct Hh as ((R1 & R2 & R3 & R4) & _). unfold rep. cbn [state total block bPos]. rewrite <- R1, <- R2, <- R3. repeat split.
    + apply (cells_outside _ _ _ _ _ _ (over_outside _ _ _ _ O)). intros j Hj. out.
    + apply (over_out _ _ _ _ _ O). out.
    + apply (cells_outside _ _ _ _ _ _ (over_outside _ _ _ _ O)). intros j Hj. out.
    + pose proof (over_in _ _ _ _ 0%nat O) as X. cbn [length nth] in X. rewrite shift_0 in X. apply X. lia.
  - apply (over_field w m0 c x m m' _ _ Hh O). cbn [length]. unfold fields. lia.
Qed.
Lemma op_set_len x m v (Q : unit -> memory -> (bool -> nat) -> Prop) : owns id c fields -> holds w m0 c x m ->
  (forall m', holds w m0 c (mkCtx (state x) v (block x) (bPos x)) m' -> Q tt m' u) -> stays id (set (f_len c) v) m u Q.
Proof.
  intros M Hh H. apply stays_set; [apply M; unfold fields; lia|]. intros m' O. apply H. split.
  - destruct Hh as ((R1 & R2 & R3 & R4) & _). unfold rep. cbn [state total block bPos]. rewrite <- R1, <- R3, <- R4. repeat split.
    + apply (cells_outside _ _ _ _ _ _ (over_outside _ _ _ _ O)). intros j Hj. out.
    + pose proof (over_in _ _ _ _ 0%nat O) as X. cbn [length nth] in X. rewrite shift_0 in X. apply X. lia.
    + apply (cells_outside _ _ _ _ _ _ (over_outside _ _ _ _ O)). intros j Hj. out.
    + apply (over_out _ _ _ _ _ O). out.
  - apply (over_field w m0 c x m m' _ _ Hh O). cbn [length]. unfold fields. lia.
Qed.
Lemma op_blocks x m i xs (Q : unit -> memory -> (bool -> nat) -> Prop) : owns id c fields -> holds w m0 c x m -> (i + length xs <= 64)%nat ->
  (forall m', holds w m0 c (mkCtx (state x) (total x) (copy_at (block x) i xs) (bPos x)) m' -> Q tt m' u) -> stays id (sets (f_block c i) xs) m u Q.
Proof.
  intros M Hh L H. apply stays_sets; [intros j Hj; rewrite shift_f_block; apply M; unfold fields; lia|]. intros m' O. change (is_over m (f_block c i) xs m') in O. apply H. split.
  - destruct Hh as ((R1 & R2 & R3 & R4) & _). unfold rep. cbn [state total block bPos]. rewrite <- R1, <- R2, <- R3, <- R4. repeat split.
    + apply (cells_outside _ _ _ _ _ _ (over_outside _ _ _ _ O)). intros j Hj. out.
    + apply (over_out _ _ _ _ _ O). out.
    + apply cells_over_at; [|exact L]. replace (shift (f_block c 0) i) with (f_block c i) by (unfold f_block; rewrite shift_shift; reflexivity). exact O.
    + apply (over_out _ _ _ _ _ O). out.
  - apply (over_field w m0 c x m m' _ _ Hh O). unfold fields. lia.
Qed.
Lemma op_states x m i xs (Q : unit -> memory -> (bool -> nat) -> Prop) : owns id c fields -> holds w m0 c x m -> (i + length xs <= w)%nat ->
  (forall m', holds w m0 c (mkCtx (copy_at (state x) i xs) (total x) (block x) (bPos x)) m' -> Q tt m' u) -> stays id (sets (shift c i) xs) m u Q.
Proof.
  intros M Hh L H. apply stays_sets; [intros j Hj; rewrite shift_shift; apply M; unfold fields; lia|]. intros m' O. change (is_over m (shift c i) xs m') in O. apply H. split.
  - destruct Hh as ((R1 & R2 & R3 & R4) & _). unfold rep. cbn [state total block bPos]. rewrite <- R1, <- R2, <- R3, <- R4. repeat split.
    + apply cells_over_at; [exact O|exact L].
    + apply (over_out _ _ _ _ _ O). out.
    + apply (cells_outside _ _ _ _ _ _ (over_outside _ _ _ _ O)). intros j Hj. out.
    + apply (over_out _ _ _ _ _ O). out.
  - apply (over_field w m0 c x m m' _ _ Hh O). unfold fields. lia.
Qed.

Lemma op_set_block x m i v b (Q : unit -> memory -> (bool -> nat) -> Prop) : owns id c fields -> holds w m0 c x m -> upd (block x) i v = Ret b ->
  (forall m', holds w m0 c (mkCtx (state x) (total x) b (bPos x)) m' -> Q tt m' u) -> stays id (set_block c i v) m u Q.
Proof.
  intros M Hh E H. apply (upd_copy w Hw) in E. destruct E as [-> L]. rewrite (proj1 (holds_block _ _ _ _ _ Hh)) in L.
  unfold set_block. rewrite (proj2 (Nat.ltb_lt _ _)) by lia.
  pose proof (op_blocks x m i [v] Q M Hh L H) as X. cbn [sets] in X. exact X.
Qed.
Lemma op_zero x m i j b (Q : unit -> memory -> (bool -> nat) -> Prop) : owns id c fields -> holds w m0 c x m -> zero_range (block x) i j = Ret b ->
  (forall m', holds w m0 c (mkCtx (state x) (total x) b (bPos x)) m' -> Q tt m' u) -> stays id (zero_block c i j) m u Q.
Proof.
  intros M Hh E H. apply (zero_copy w Hw) in E. destruct E as [-> L]. rewrite (proj1 (holds_block _ _ _ _ _ Hh)) in L.
  unfold zero_block. rewrite (proj2 (Nat.leb_le _ _)), (proj2 (Nat.leb_le _ _)) by lia. cbn [andb].
  apply (op_blocks x m i _ Q M Hh); [rewrite repeat_length; lia|exact H].
Qed.
Lemma op_copy x m i p n b (Q : unit -> memory -> (bool -> nat) -> Prop) : owns id c fields -> sees id p n -> holds w m0 c x m ->
  copy_from (block x) i (cells m p n) = Ret b ->
  (forall m', holds w m0 c (mkCtx (state x) (total x) b (bPos x)) m' -> Q tt m' u) -> stays id (copy_block c i p n) m u Q.
Proof.
  intros M Mp Hh E H. unfold copy_from in E. pose proof (proj1 (holds_block _ _ _ _ _ Hh)) as B. rewrite B in E. unfold copy_block.
  destruct (Nat.leb_spec i 64) as [L|L]; [|discriminate]. injection E as <-.
  apply stays_then, stays_gets; [intros j Hj; apply Mp; lia|]. rewrite <- (cells_firstn m p n) by lia.
  apply (op_blocks x m i _ Q M Hh); [rewrite firstn_length, cells_length; lia|].
  replace (Nat.min (64 - i) n) with (Nat.min (length (block x) - i) (length (cells m p n))) by (rewrite B, cells_length; reflexivity).
  rewrite (copy_min w Hw). exact H.
Qed.

Lemma op_hash hash x m t (Q : unit -> memory -> (bool -> nat) -> Prop) : hash_local hash -> owns id c fields -> holds w m0 c x m -> hash x = Ret t ->
  (forall m', holds w m0 c t m' -> Q tt m' u) -> stays id (hash_at hash w c) m u Q.
Proof.
  intros HL M Hh E H. destruct x as [st tot b pos]. destruct (HL _ _ _ _ _ E) as (st' & E' & -> & L).
  pose proof (holds_block _ _ _ _ _ Hh) as [B1 B2]. cbn [block state] in B1, B2.
  unfold hash_at. apply stays_then, stays_gets; [intros j Hj; rewrite shift_f_block; apply wrs_rds, M; unfold fields; lia|].
  apply stays_then, stays_gets; [intros j Hj; apply wrs_rds, M; unfold fields; lia|].
  pose proof Hh as ((R1 & _ & R3 & _) & _). cbn [state block] in R1, R3. rewrite R1, R3.
  apply stays_then. apply (stays_lift _ _ (mkCtx st' 0 b 0)); [exact E'|]. cbn [state bPos].
  apply stays_then. pose proof (op_states _ _ 0 st' (fun _ m' u' => stays id (set_pos c 0) m' u' Q) M Hh) as X. rewrite shift_0 in X.
  apply X; [lia|]. cbn [state total block bPos]. rewrite copy_all by exact L.
  intros m' Hh'. apply (op_set_pos _ _ _ _ M Hh'). cbn [state total block]. exact H.
Qed.

Lemma write_loop_at hash (HL : hash_local hash) fuel : forall p n space x x' m, owns id c fields -> sees id p n ->
  (forall j, (j < n)%nat -> within c fields (shift p j) = false) -> holds w m0 c x m ->
  Ripemd.write_loop fuel hash x (cells m p n) n space = Ret x' ->
  stays id (write_loop hash w fuel c p n space) m u (fun _ m' u' => u' = u /\ holds w m0 c x' m').
Proof.
  induction fuel as [|fuel IH]; intros p n space x x' m M Mp D Hh E; cbn [Ripemd.write_loop write_loop] in *.
  - destruct (Nat.ltb 0 n); [discriminate|]. injection E as <-. split; [reflexivity|exact Hh].
  - destruct (Nat.ltb 0 n); [|injection E as <-; split; [reflexivity|exact Hh]].
    assert (Mc : sees id c fields) by (apply owns_sees; exact M). destruct (Nat.ltb n space).
    + unbind E. injection E as <-.
      apply stays_then, (op_get_pos _ _ _ Mc Hh). apply stays_then, (op_copy _ _ _ _ _ _ _ M Mp Hh E0). intros m1 H1.
      apply stays_then, (op_get_pos _ _ _ Mc H1). apply (op_set_pos _ _ _ _ M H1). cbn [bPos state total block]. intros m2 H2. split; [reflexivity|exact H2].
    + unbind E. unbind E. unbind E. unbind E.
      unfold slice_of in E0, E3. rewrite cells_length in E0, E3. cbn [Nat.leb andb] in E0.
      destruct (Nat.leb_spec space n) as [L|L]; [|discriminate]. rewrite Nat.leb_refl in E3. cbn [andb] in E3.
      rewrite Nat.sub_0_r in E0. cbn [skipn] in E0. rewrite cells_firstn in E0 by exact L. injection E0 as <-. 
      rewrite cells_skipn, cells_firstn in E3 by lia. injection E3 as <-.
      apply stays_then, (op_get_pos _ _ _ Mc Hh). apply stays_then, (op_copy _ _ _ _ _ _ _ M (fun j Hj => Mp j (Nat.lt_le_trans _ _ _ Hj L)) Hh E1). intros m1 H1.
      apply stays_then, (op_get_pos _ _ _ Mc H1). apply stays_then, (op_set_pos _ _ _ _ M H1). cbn [bPos state total block]. intros m2 H2.
      apply stays_then, (op_hash hash _ _ _ _ HL M H2 E2). intros m3 H3.
      apply (IH _ _ _ x2); try assumption.
      * apply (sees_part _ _ n); [exact Mp|lia].
      * intros j Hj. rewrite shift_shift. apply D. lia.
      * rewrite <- E. f_equal. apply cells_ext. intros j Hj. rewrite shift_shift. destruct Hh as [_ O0], H3 as [_ O3].
        rewrite O3, O0 by (apply D; lia). reflexivity.
Qed.
End Fields.

Lemma Write_at hash w (id : area) c p m u x x' k : hash_local hash -> (w <= 10)%nat -> owns id c fields -> sees id (base p) (slen p) ->
  (forall j, (j < slen p)%nat -> within c fields (shift (base p) j) = false) -> rep w m c x ->
  Ripemd.Write hash x (cells m (base p) (slen p)) = Ret (x', k) ->
  stays id (Write hash w c p) m u (fun r m' u' => r = slen p /\ u' = u /\ rep w m' c x' /\ outside c fields m m').
Proof.
  intros HL Hw M Mp D R E. unfold Ripemd.Write in E. rewrite cells_length in E. unbind E. injection E as -> _.
  assert (Hh : holds w m c x m) by (split; [exact R|apply outside_refl]). assert (Mc : sees id c fields) by (apply owns_sees; exact M).
  unfold Write. cbv zeta. apply stays_then, (op_get_len w m id c u _ _ _ Mc Hh). apply stays_then, (op_set_len w Hw m id c u _ _ _ _ M Hh). intros m1 H1.
  apply stays_then, (op_get_pos w m id c u _ _ _ Mc H1). cbn [bPos] in *.
  eapply stays_seq; [apply (write_loop_at w Hw m id c u hash HL _ _ _ _ _ x' m1 M Mp D H1)|].
  - rewrite <- E0. f_equal. apply cells_ext. intros j Hj. destruct H1 as [_ O]. apply O, D, Hj.
  - intros _ m2 u2 (-> & R2 & O2). repeat split; try apply R2. exact O2.
Qed.

(** ** Sum *)

Lemma clone_at w (id : area) c m u x : (w <= 10)%nat -> ample id u -> sees id c fields -> apart (fresh_at id u) fields c fields -> rep w m c x ->
  stays id (clone c) m u (fun h m' u' => h = fresh_at id u /\ u' = grow u true fields /\ holds w m h x m').
Proof.
  intros Hw Am M D R. unfold clone. apply stays_then, stays_new; [apply (ample_owns id u true); [exact Am|lia]|]. intros m1 O1. apply stays_then, stays_gets; [exact M|].
  apply stays_then, stays_sets; [rewrite cells_length; apply (ample_owns id u true); [exact Am|lia]|]. intros m2 O2. change (is_over m1 (fresh_at id u) (cells m1 c fields) m2) in O2.
  split; [reflexivity|]. split; [reflexivity|].
  change (mkA id true (u true)) with (fresh_at id u) in *.
  pose proof (over_outside _ _ _ _ O1) as P1. rewrite repeat_length in P1.
  assert (E : cells m1 c fields = cells m c fields) by (apply (cells_outside _ _ _ _ _ _ P1); exact D).
  split.
  - apply (rep_copy w m m2 c); [exact Hw| |exact R]. intros j Hj. rewrite (over_in _ _ _ _ _ O2) by (rewrite cells_length; exact Hj).
    rewrite E, nth_cells by exact Hj. reflexivity.
  - apply (outside_trans _ _ _ m1); [exact P1|]. pose proof (over_outside _ _ _ _ O2) as P2. rewrite cells_length in P2. exact P2.
Qed.

Lemma put_le32s_at w (id : area) h x o n u cnt : forall i l l' m, (w <= 10)%nat -> sees id h w -> owns id o n -> cells m h w = state x -> apart o n h w ->
  cells m o n = l -> Ripemd.out_loop cnt i (state x) l = Ret l' ->
  stays id (put_le32s cnt i h o) m u (fun _ m' u' => u' = u /\ cells m' o n = l' /\ outside o n m m').
Proof.
  induction cnt as [|cnt IH]; intros i l l' m Hw Wh Wo Hs D El H; cbn [Ripemd.out_loop put_le32s] in *.
  - injection H as <-. split; [reflexivity|]. split; [exact El|apply outside_refl].
  - unbind H. assert (Li : length l = n) by (rewrite <- El; apply cells_length). rewrite Li in H.
    destruct (Nat.leb_spec (i * 4 + 4) n) as [L|L]; [|discriminate].
    assert (Ex : (i < w)%nat /\ m (shift h i) = x0).
    { unfold idx in E. destruct (nth_error (state x) i) as [y|] eqn:En; [|discriminate]. apply ret_inj in E. subst y.
      assert (Hi : (i < w)%nat) by (rewrite <- (cells_length m h w), Hs; apply nth_error_Some; congruence).
      split; [exact Hi|]. rewrite <- (nth_cells m h w i 0 Hi), Hs. apply nth_error_nth, En. }
    destruct Ex as [Hi Ex]. apply stays_then, stays_get; [apply Wh, Hi|]. rewrite Ex.
    apply stays_then, stays_sets; [apply (owns_part _ _ _ _ _ Wo); change (length (le32 x0)) with 4%nat; lia|]. intros m1 O1. change (is_over m (shift o (i * 4)) (le32 x0) m1) in O1.
    assert (Q1 : outside o n m m1) by (apply (outside_in o n (i * 4) 4); [apply (over_outside _ _ _ _ O1)|exact L]).
    eapply stays_mono; [apply (IH (i + 1)%nat (copy_at l (i * 4) (le32 x0)) l' m1 Hw Wh Wo)|].
    + rewrite (cells_outside _ _ _ _ _ _ Q1 D). exact Hs.
    + exact D.
    + rewrite <- El. apply cells_over_at; [exact O1|exact L].
    + exact H.
    + cbn beta. intros _ m' u' (-> & C & O). split; [reflexivity|]. split; [exact C|]. apply (outside_trans _ _ _ m1); assumption.
Qed.
Lemma put_be64s_at w (id : area) h x o n u cnt : forall i l l' m, (w <= 10)%nat -> sees id h w -> owns id o n -> cells m h w = state x -> apart o n h w ->
  cells m o n = l -> Whirlpool.out_loop cnt i (state x) l = Ret l' ->
  stays id (put_be64s cnt i h o) m u (fun _ m' u' => u' = u /\ cells m' o n = l' /\ outside o n m m').
Proof.
  induction cnt as [|cnt IH]; intros i l l' m Hw Wh Wo Hs D El H; cbn [Whirlpool.out_loop put_be64s] in *.
  - injection H as <-. split; [reflexivity|]. split; [exact El|apply outside_refl].
  - unbind H. assert (Li : length l = n) by (rewrite <- El; apply cells_length). rewrite Li in H.
    destruct (Nat.leb_spec (i * 8 + 8) n) as [L|L]; [|discriminate].
    assert (Ex : (i < w)%nat /\ m (shift h i) = x0).
    { unfold idx in E. destruct (nth_error (state x) i) as [y|] eqn:En; [|discriminate]. apply ret_inj in E. subst y.
      assert (Hi : (i < w)%nat) by (rewrite <- (cells_length m h w), Hs; apply nth_error_Some; congruence).
      split; [exact Hi|]. rewrite <- (nth_cells m h w i 0 Hi), Hs. apply nth_error_nth, En. }
    destruct Ex as [Hi Ex]. apply stays_then, stays_get; [apply Wh, Hi|]. rewrite Ex.
    apply stays_then, stays_sets; [apply (owns_part _ _ _ _ _ Wo); change (length (be64 x0)) with 8%nat; lia|]. intros m1 O1. change (is_over m (shift o (i * 8)) (be64 x0) m1) in O1.
    assert (Q1 : outside o n m m1) by (apply (outside_in o n (i * 8) 8); [apply (over_outside _ _ _ _ O1)|exact L]).
    eapply stays_mono; [apply (IH (i + 1)%nat (copy_at l (i * 8) (be64 x0)) l' m1 Hw Wh Wo)|].
    + rewrite (cells_outside _ _ _ _ _ _ Q1 D). exact Hs.
    + exact D.
    + rewrite <- El. apply cells_over_at; [exact O1|exact L].
    + exact H.
    + cbn beta. intros _ m' u' (-> & C & O). split; [reflexivity|]. split; [exact C|]. apply (outside_trans _ _ _ m1); assumption.
Qed.

(** What appending [n] bytes to [inp] has to reach: the bytes behind its length if
    there is room for them, and else those that are to be copied. *)
Definition reached (p : area) (inp : gslice) (n : nat) : Prop :=
  if Nat.leb (slen inp + n) (scap inp) then owns p (shift (base inp) (slen inp)) n else sees p (base inp) (slen inp).
Lemma append_at (id : area) room inp xs m0 u0 m u : scratched id (u0 true) m0 m -> (u0 true <= u true)%nat -> u false = u0 false ->
  ample id u -> reached id inp (length xs) -> lib (base inp) = false ->
  apart (mkA id false (u0 false)) (slen inp + length xs + room) (base inp) (slen inp) ->
  stays id (append room inp xs) m u (appended id room inp xs m0 u0).
Proof.
  intros Sc Ht Hf Am Re Li D. unfold append, appended. unfold reached in Re. cbv zeta.
  assert (Us : forall y, lib y = false -> m y = m0 y) by (intros y Hy; apply Sc; intros (_ & X & _); congruence).
  destruct (Nat.leb_spec (slen inp + length xs) (scap inp)) as [L|L].
  - apply stays_then, stays_sets; [exact Re|]. intros m' O. cbn [stays]. repeat split; try lia.
    + intros y Hy Hn. rewrite O. unfold over. destruct (within_spec (shift (base inp) (slen inp)) (length xs) y) as [(_ & X & _)|_].
      * cbn [lib shift] in X. congruence.
      * apply Sc. tauto.
    + intros y Hy. rewrite O. unfold over. rewrite (Us y Hy). reflexivity.
  - apply stays_then, stays_new; [apply (ample_owns id u false); [exact Am|lia]|]. rewrite Hf. intros m1 O1. set (t := mkA id false (u0 false)) in *.
    pose proof (over_outside _ _ _ _ O1) as P1. rewrite repeat_length in P1.
    apply stays_then, stays_gets; [exact Re|]. rewrite (cells_outside _ _ _ _ _ _ P1 D).
    assert (Ec : cells m (base inp) (slen inp) = cells m0 (base inp) (slen inp)) by (apply cells_ext; intros j _; apply Us, Li).
    rewrite Ec. assert (Ot : owns id t (slen inp + length xs)) by (apply (ample_owns id u false); [exact Am|lia]).
    apply stays_then, stays_sets; [rewrite cells_length; intros j Hj; apply Ot; lia|]. intros m2 O2.
    apply stays_then, stays_sets; [apply (owns_part _ _ _ _ _ Ot); lia|]. intros m3 O3. cbn [stays].
    change (is_over m1 t (cells m0 (base inp) (slen inp)) m2) in O2. change (is_over m2 (shift t (slen inp)) xs m3) in O3.
    split; [|split; [|split; [reflexivity|split]]].
    + intros y Hy Hn.
      assert (Z : forall a n, lib a = false -> within a n y = false) by (intros a n Ha; apply within_not; intros (_ & X & _); congruence).
      rewrite (over_out _ _ _ _ _ O3), (over_out _ _ _ _ _ O2), (over_out _ _ _ _ _ O1) by (apply Z; reflexivity). apply Sc. tauto.
    + unfold grow. cbn [Bool.eqb]. exact Ht.
    + unfold grow. cbn [Bool.eqb]. lia.
    + intros y Hy. rewrite O3. unfold over.
      destruct (within_spec (shift t (slen inp)) (length xs) y) as [W3|W3].
      * destruct (within_spec t (length (cells m0 (base inp) (slen inp) ++ xs ++ repeat 0 room)) y) as [W|W];
          rewrite !app_length, cells_length, repeat_length in W; cbn [who lib num shift] in *; [|exfalso; apply W; intuition lia].
        rewrite app_nth2 by (rewrite cells_length; lia). rewrite cells_length. rewrite app_nth1 by lia. f_equal. lia.
      * rewrite O2. unfold over. rewrite cells_length.
        destruct (within_spec t (slen inp) y) as [W2|W2].
        -- destruct (within_spec t (length (cells m0 (base inp) (slen inp) ++ xs ++ repeat 0 room)) y) as [W|W];
             rewrite !app_length, cells_length, repeat_length in W; cbn [who lib num shift] in *; [|exfalso; apply W; intuition lia].
           rewrite app_nth1 by (rewrite cells_length; lia). reflexivity.
        -- rewrite O1. unfold over. rewrite repeat_length.
           destruct (within_spec t (slen inp + length xs + room) y) as [W1|W1];
             destruct (within_spec t (length (cells m0 (base inp) (slen inp) ++ xs ++ repeat 0 room)) y) as [W|W];
             rewrite !app_length, cells_length, repeat_length in W; cbn [who lib num shift] in *; try (exfalso; intuition lia).
           ++ rewrite nth_zeros. rewrite app_nth2 by (rewrite cells_length; intuition lia). rewrite cells_length.
              rewrite app_nth2 by intuition lia. rewrite nth_zeros. reflexivity.
           ++ apply Us, Hy.
Qed.

Lemma op_put_len w m0 (id : area) c u x m j f b (Q : unit -> memory -> (bool -> nat) -> Prop) : (w <= 10)%nat -> owns id c fields -> holds w m0 c x m ->
  upd (block x) (bPos x + j) (u8 (f (total x))) = Ret b ->
  (forall m', holds w m0 c (mkCtx (state x) (total x) b (bPos x)) m' -> Q tt m' u) -> stays id (put_len c j f) m u Q.
Proof.
  intros Hw M Hh E H. assert (Mc : sees id c fields) by (apply owns_sees; exact M). unfold put_len.
  apply stays_then, (op_get_pos w m0 id c u _ _ _ Mc Hh). apply stays_then, (op_get_len w m0 id c u _ _ _ Mc Hh).
  apply (op_set_block w Hw m0 id c u _ _ _ _ _ _ M Hh E H).
Qed.
(** Objects that are not in memory which [id] has still to allocate. *)
Lemma sum_end (id : area) room inp m u (out : list N) mid h x w n (put : addr -> code unit) : (w <= 10)%nat -> h = fresh_at id u ->
  holds w m h x mid -> length out = n ->
  ample id u -> (forall m1 u1 o, owns id o n -> cells m1 h w = state x -> apart o n h w -> cells m1 o n = repeat 0 n ->
     stays id (put o) m1 u1 (fun _ m' u' => u' = u1 /\ cells m' o n = out /\ outside o n m1 m')) ->
  reached id inp (length out) -> lib (base inp) = false -> apart (mkA id false (u false)) (slen inp + length out + room) (base inp) (slen inp) ->
  stays id (do o <- new true n; put o ;; do xs <- gets o n; append room inp xs) mid (grow u true fields) (appended id room inp out m u).
Proof.
  intros Hw -> [R O] Ln Am Hput Re Li D.
  assert (Oo : owns id (mkA id true (u true + fields)) n) by (apply (ample_owns id u true); [exact Am|lia]).
  apply stays_then, stays_new; rewrite grow_same; [exact Oo|]. intros m1 O1.
  set (o := mkA id true (u true + fields)) in *. pose proof (over_outside _ _ _ _ O1) as P1. rewrite repeat_length in P1.
  assert (A : apart o n (fresh_at id u) w) by (intros j Hj; apply within_not; unfold o, fresh_at, fields; cbn [who lib num shift]; lia).
  eapply stays_seq; [apply (Hput m1 _ o Oo)|].
  - destruct R as (R1 & _). rewrite <- R1. apply (cells_outside _ _ _ _ _ _ P1 A).
  - exact A.
  - pose proof (cells_over_all _ _ _ _ O1) as C. rewrite repeat_length in C. exact C.
  - intros _ m2 u2 (-> & C2 & O2). apply stays_then, stays_gets; [apply owns_sees; exact Oo|]. rewrite C2.
    apply append_at; try assumption.
    + apply (scratched_trans _ _ _ m1).
      * apply (scratched_trans _ _ _ mid).
        -- apply (outside_scratched _ _ _ _ _ _ O); try reflexivity. 
        -- apply (outside_scratched _ _ _ _ _ _ P1); try reflexivity. unfold o. cbn [num]. lia.
      * apply (outside_scratched _ _ _ _ _ _ O2); try reflexivity. unfold o. cbn [num]. lia.
    + rewrite grow_same. unfold grow. cbn [Bool.eqb]. lia.
    + unfold grow. cbn [Bool.eqb]. reflexivity.
    + apply ample_grow, ample_grow, Am.
Qed.
Lemma op_put_length (id : area) c w m0 h (t : N) (u1 : bool -> nat) y k i f b (Q : unit -> memory -> (bool -> nat) -> Prop) : sees id c fields -> (w <= 10)%nat -> owns id h fields -> holds w m0 h y k ->
  m0 (f_len c) = t -> apart h fields c fields ->
  upd (block y) i (u8 (f (t))) = Ret b ->
  (forall k', holds w m0 h (mkCtx (state y) (total y) b (bPos y)) k' -> Q tt k' u1) -> stays id (put_length h c i f) k u1 Q.
Proof.
  intros Mc Hw Wh Hh Et A E H. unfold put_length. apply stays_then, stays_get; [apply Mc; unfold fields; lia|].
  assert (El : k (f_len c) = t) by (rewrite <- Et; apply (proj2 Hh); apply A; unfold fields; lia).
  rewrite El. apply (op_set_block w Hw m0 id h u1 _ _ _ _ _ _ Wh Hh E H).
Qed.

Section Sums.
Context (id : area) (room : nat) (c : addr) (inp : gslice) (m : memory) (u : bool -> nat) (x x' : ctx) (out : list N).
Context (Am : ample id u) (Mc : sees id c fields) (Sc : settled id u c fields) (Re : reached id inp (length out)) (Li : lib (base inp) = false).
Context (D : apart (mkA id false (u false)) (slen inp + length out + room) (base inp) (slen inp)).

Lemma SumRipe_at hash sl : hash_local hash -> rep 10 m c x -> Ripemd.Sum hash sl x [] = Ret (x', out) ->
  stays id (SumRipe hash sl room c inp) m u (appended id room inp out m u).
Proof.
  intros HL R E. unfold Ripemd.Sum in E. cbv zeta in E. unbind E. rename x0 into b0, E0 into E0.
  apply bind_ret in E. destruct E as (h1 & E1 & E). unbind E. rename x0 into b1, E2 into Ez.
  unbind E. rename x0 into c0, E2 into C0. unbind E. rename x0 into c1, E2 into C1. unbind E. rename x0 into c2, E2 into C2.
  unbind E. rename x0 into c3, E2 into C3. unbind E. rename x0 into c4, E2 into C4. unbind E. rename x0 into c5, E2 into C5.
  unbind E. rename x0 into c6, E2 into C6. unbind E. rename x0 into c7, E2 into C7.
  unbind E. rename x0 into h2, E2 into Eh. unbind E. rename x0 into o0, E2 into Em. unbind E. rename x0 into o1, E2 into Eo.
  apply ret_inj in E. injection E as _ <-. rewrite make_bytes_nat in Em. apply ret_inj in Em. subst o0.
  assert (W10 : (10 <= 10)%nat) by lia.
  unfold SumRipe. eapply stays_seq; [apply (clone_at 10 id c m u x W10 Am Mc (settled_apart _ _ _ _ _ Sc) R)|].
  intros h m1 u1 (Eh' & -> & H1). assert (Wh : owns id h fields) by (rewrite Eh'; apply (ample_owns id u true); [exact Am|lia]).
  assert (Mh : sees id h fields) by (apply owns_sees; exact Wh).
  apply stays_then, (op_get_pos 10 m id h _ _ _ _ Mh H1).
  apply stays_then, (op_set_block 10 W10 m id h _ _ _ _ _ _ _ Wh H1 E0). intros m2 H2.
  apply stays_then, (op_set_pos 10 W10 m id h _ _ _ _ _ Wh H2). cbn [state total block bPos] in *. intros m3 H3.
  apply stays_then, (op_get_pos 10 m id h _ _ _ _ Mh H3). cbn [bPos].
  apply (stays_seq _ _ _ _ _ (fun _ m' u' => u' = grow u true fields /\ holds 10 m h h1 m')).
  { destruct (Nat.ltb 56 (bPos x + 1)).
    - unbind E1. pose proof (proj1 (holds_block _ _ _ _ _ H3)) as B. cbn [block] in B. rewrite B in E.
      apply stays_then, (op_zero 10 W10 m id h _ _ _ _ _ _ _ Wh H3 E). cbn [state total block bPos]. intros m4 H4.
      apply (op_hash 10 W10 m id h _ hash _ _ _ _ HL Wh H4 E1). intros m5 H5. split; [reflexivity|exact H5].
    - apply ret_inj in E1. subst h1. split; [reflexivity|exact H3]. }
  intros _ m4 u4 (-> & H4).
  apply stays_then, (op_get_pos 10 m id h _ _ _ _ Mh H4).
  apply stays_then, (op_zero 10 W10 m id h _ _ _ _ _ _ _ Wh H4 Ez). intros m5 H5.
  apply stays_then, (op_set_pos 10 W10 m id h _ _ _ _ _ Wh H5). cbn [state total block bPos]. intros m6 H6.
  apply stays_then, (op_put_len 10 m id h _ _ _ _ _ _ _ W10 Wh H6 C0). cbn [state total block bPos]. intros k0 K0.
  apply stays_then, (op_put_len 10 m id h _ _ _ _ _ _ _ W10 Wh K0 C1). cbn [state total block bPos]. intros k1 K1.
  apply stays_then, (op_put_len 10 m id h _ _ _ _ _ _ _ W10 Wh K1 C2). cbn [state total block bPos]. intros k2 K2.
  apply stays_then, (op_put_len 10 m id h _ _ _ _ _ _ _ W10 Wh K2 C3). cbn [state total block bPos]. intros k3 K3.
  apply stays_then, (op_put_len 10 m id h _ _ _ _ _ _ _ W10 Wh K3 C4). cbn [state total block bPos]. intros k4 K4.
  apply stays_then, (op_put_len 10 m id h _ _ _ _ _ _ _ W10 Wh K4 C5). cbn [state total block bPos]. intros k5 K5.
  apply stays_then, (op_put_len 10 m id h _ _ _ _ _ _ _ W10 Wh K5 C6). cbn [state total block bPos]. intros k6 K6.
  apply stays_then, (op_put_len 10 m id h _ _ _ _ _ _ _ W10 Wh K6 C7). cbn [state total block bPos]. intros k7 K7.
  apply stays_then, (op_get_pos 10 m id h _ _ _ _ Mh K7). cbn [bPos].
  apply stays_then, (op_set_pos 10 W10 m id h _ _ _ _ _ Wh K7). cbn [state total block bPos]. intros k8 K8.
  apply stays_then, (op_hash 10 W10 m id h _ hash _ _ _ _ HL Wh K8 Eh). intros k9 K9.
  change ([] ++ o1) with o1 in *.
  pose proof (out_loop_length _ _ _ _ _ Eo) as Lo. rewrite repeat_length in Lo.
  apply (sum_end id room inp m u o1 k9 h h2 10 (sl * 4) (fun o => put_le32s sl 0 h o) W10 Eh' K9 Lo); try assumption.
  assert (Mw : sees id h 10) by (intros j Hj; apply Mh; unfold fields; lia).
  intros n1 v1 o Wo Es A Ec. apply (put_le32s_at 10 id h h2 o (sl * 4) v1 sl 0 _ o1 n1 W10 Mw Wo Es A Ec). exact Eo.
Qed.

Lemma SumWhirl_at : rep 8 m c x -> Whirlpool.Sum x [] = Ret (x', out) ->
  stays id (SumWhirl room c inp) m u (appended id room inp out m u).
Proof.
  intros R E. unfold Whirlpool.Sum in E. cbv zeta in E. unbind E. rename x0 into b0, E0 into E0.
  apply bind_ret in E. destruct E as (h1 & E1 & E). unbind E. rename x0 into b1, E2 into Ez.
  unbind E. rename x0 into c0, E2 into C0. unbind E. rename x0 into c1, E2 into C1. unbind E. rename x0 into c2, E2 into C2.
  unbind E. rename x0 into c3, E2 into C3. unbind E. rename x0 into c4, E2 into C4. unbind E. rename x0 into c5, E2 into C5.
  unbind E. rename x0 into c6, E2 into C6. unbind E. rename x0 into c7, E2 into C7. unbind E. rename x0 into c8, E2 into C8.
  unbind E. rename x0 into h2, E2 into Eh. unbind E. rename x0 into o0, E2 into Em. unbind E. rename x0 into o1, E2 into Eo.
  apply ret_inj in E. injection E as _ <-. change 64%Z with (Z.of_nat 64) in Em. rewrite make_bytes_nat in Em. apply ret_inj in Em. subst o0.
  assert (W8 : (8 <= 10)%nat) by lia. pose proof local_whirl as HL.
  unfold SumWhirl. eapply stays_seq; [apply (clone_at 8 id c m u x W8 Am Mc (settled_apart _ _ _ _ _ Sc) R)|].
  intros h m1 u1 (Eh' & -> & H1). assert (Wh : owns id h fields) by (rewrite Eh'; apply (ample_owns id u true); [exact Am|lia]).
  assert (Mh : sees id h fields) by (apply owns_sees; exact Wh).
  assert (A : apart h fields c fields) by (rewrite Eh'; apply settled_apart, Sc).
  assert (Et : m (f_len c) = total x) by apply R.
  apply stays_then, (op_get_pos 8 m id h _ _ _ _ Mh H1).
  apply stays_then, (op_set_block 8 W8 m id h _ _ _ _ _ _ _ Wh H1 E0). intros m2 H2.
  apply stays_then, (op_set_pos 8 W8 m id h _ _ _ _ _ Wh H2). cbn [state total block bPos] in *. intros m3 H3.
  apply stays_then, (op_get_pos 8 m id h _ _ _ _ Mh H3). cbn [bPos].
  apply (stays_seq _ _ _ _ _ (fun _ m' u' => u' = grow u true fields /\ holds 8 m h h1 m')).
  { destruct (Nat.ltb 32 (bPos x + 1)).
    - unbind E1. pose proof (proj1 (holds_block _ _ _ _ _ H3)) as B. cbn [block] in B. rewrite B in E.
      apply stays_then, (op_zero 8 W8 m id h _ _ _ _ _ _ _ Wh H3 E). cbn [state total block bPos]. intros m4 H4.
      apply (op_hash 8 W8 m id h _ _ _ _ _ _ HL Wh H4 E1). intros m5 H5. split; [reflexivity|exact H5].
    - apply ret_inj in E1. subst h1. split; [reflexivity|exact H3]. }
  intros _ m4 u4 (-> & H4).
  apply stays_then, (op_get_pos 8 m id h _ _ _ _ Mh H4).
  apply stays_then, (op_zero 8 W8 m id h _ _ _ _ _ _ _ Wh H4 Ez). intros m5 H5.
  apply stays_then, (op_put_length id c 8 m h (total x) _ _ _ _ _ _ _ Mc W8 Wh H5 Et A C0). cbn [state total block bPos]. intros k0 K0.
  apply stays_then, (op_put_length id c 8 m h (total x) _ _ _ _ _ _ _ Mc W8 Wh K0 Et A C1). cbn [state total block bPos]. intros k1 K1.
  apply stays_then, (op_put_length id c 8 m h (total x) _ _ _ _ _ _ _ Mc W8 Wh K1 Et A C2). cbn [state total block bPos]. intros k2 K2.
  apply stays_then, (op_put_length id c 8 m h (total x) _ _ _ _ _ _ _ Mc W8 Wh K2 Et A C3). cbn [state total block bPos]. intros k3 K3.
  apply stays_then, (op_put_length id c 8 m h (total x) _ _ _ _ _ _ _ Mc W8 Wh K3 Et A C4). cbn [state total block bPos]. intros k4 K4.
  apply stays_then, (op_put_length id c 8 m h (total x) _ _ _ _ _ _ _ Mc W8 Wh K4 Et A C5). cbn [state total block bPos]. intros k5 K5.
  apply stays_then, (op_put_length id c 8 m h (total x) _ _ _ _ _ _ _ Mc W8 Wh K5 Et A C6). cbn [state total block bPos]. intros k6 K6.
  apply stays_then, (op_put_length id c 8 m h (total x) _ _ _ _ _ _ _ Mc W8 Wh K6 Et A C7). cbn [state total block bPos]. intros k7 K7.
  apply stays_then, (op_put_length id c 8 m h (total x) _ _ _ _ _ _ _ Mc W8 Wh K7 Et A C8). cbn [state total block bPos]. intros k8 K8.
  apply stays_then, (op_hash 8 W8 m id h _ _ _ _ _ _ HL Wh K8 Eh). intros k9 K9.
  change ([] ++ o1) with o1 in *.
  pose proof (wout_loop_length _ _ _ _ _ Eo) as Lo. rewrite repeat_length in Lo.
  apply (sum_end id room inp m u o1 k9 h h2 8 64 (fun o => put_be64s 8 0 h o) W8 Eh' K9 Lo); try assumption.
  assert (Mw : sees id h 8) by (intros j Hj; apply Mh; unfold fields; lia).
  intros n1 v1 o Wo Es A' Ec. apply (put_be64s_at 8 id h h2 o 64 v1 8 0 _ o1 n1 W8 Mw Wo Es A' Ec). exact Eo.
Qed.
End Sums.

(** ** Reset and New *)

(** ** Reset *)

Section Resets.
Context (w : nat) (Hw : (w <= 10)%nat) (m0 : memory) (id : area) (c : addr) (u : bool -> nat) (M : owns id c fields).

Lemma op_set_state x m i v st (Q : unit -> memory -> (bool -> nat) -> Prop) : holds w m0 c x m -> upd (state x) i v = Ret st ->
  (forall m', holds w m0 c (mkCtx st (total x) (block x) (bPos x)) m' -> Q tt m' u) -> stays id (set (shift c i) v) m u Q.
Proof.
  intros Hh E H. pose proof (upd_copy w Hw _ _ _ _ E) as [-> L]. rewrite (proj2 (holds_block _ _ _ _ _ Hh)) in L.
  pose proof (op_states w Hw m0 id c u x m i [v] Q M Hh L H) as X. cbn [sets] in X. exact X.
Qed.
Lemma reset1_at cnt : forall i x m st, holds w m0 c x m -> Ripemd.reset1_loop cnt i (state x) = Ret st ->
  stays id (reset1_loop cnt i c) m u (fun _ m' u' => u' = u /\ holds w m0 c (mkCtx st (total x) (block x) (bPos x)) m').
Proof.
  induction cnt as [|cnt IH]; intros i x m st Hh E; cbn [Ripemd.reset1_loop reset1_loop] in *.
  - apply ret_inj in E. subst st. split; [reflexivity|]. destruct x. exact Hh.
  - unbind E. unbind E. apply stays_then, (stays_lift _ _ _ _ _ _ E0). apply stays_then, (op_set_state _ _ _ _ _ _ Hh E1). intros m1 H1.
    apply (IH _ _ _ _ H1 E).
Qed.
Lemma reset2_at cnt : forall i n x m st, holds w m0 c x m -> Ripemd.reset2_loop cnt i n (state x) = Ret st ->
  stays id (reset2_loop cnt i n c) m u (fun _ m' u' => u' = u /\ holds w m0 c (mkCtx st (total x) (block x) (bPos x)) m').
Proof.
  induction cnt as [|cnt IH]; intros i n x m st Hh E; cbn [Ripemd.reset2_loop reset2_loop] in *.
  - apply ret_inj in E. subst st. split; [reflexivity|]. destruct x. exact Hh.
  - unbind E. unbind E. unbind E. unbind E.
    apply stays_then, (stays_lift _ _ _ _ _ _ E0). apply stays_then, (op_set_state _ _ _ _ _ _ Hh E1). intros m1 H1.
    apply stays_then, (stays_lift _ _ _ _ _ _ E2). apply stays_then, (op_set_state _ _ _ _ _ _ H1 E3). intros m2 H2.
    apply (IH _ _ _ _ _ H2 E).
Qed.
Lemma ResetRipe_at sl x m x' : holds w m0 c x m -> Ripemd.Reset sl x = Ret x' ->
  stays id (ResetRipe sl c) m u (fun _ m' u' => u' = u /\ holds w m0 c x' m').
Proof.
  intros Hh E. unfold Ripemd.Reset in E. cbv zeta in E. unbind E. apply ret_inj in E. subst x'. unfold ResetRipe.
  apply (stays_seq _ _ _ _ _ (fun _ m' u' => u' = u /\ holds w m0 c (mkCtx x0 (total x) (block x) (bPos x)) m')).
  - destruct (Nat.ltb 5 sl); [apply reset2_at|apply reset1_at]; assumption.
  - intros _ m1 u1 (-> & H1). apply stays_then, (op_set_len w Hw m0 id c u _ _ _ _ M H1). intros m2 H2.
    apply (op_set_pos w Hw m0 id c u _ _ _ _ M H2). intros m3 H3. split; [reflexivity|exact H3].
Qed.
Lemma reset_at cnt : forall i x m st, holds w m0 c x m -> Whirlpool.reset_loop cnt i (state x) = Ret st ->
  stays id (reset_loop cnt i c) m u (fun _ m' u' => u' = u /\ holds w m0 c (mkCtx st (total x) (block x) (bPos x)) m').
Proof.
  induction cnt as [|cnt IH]; intros i x m st Hh E; cbn [Whirlpool.reset_loop reset_loop] in *.
  - apply ret_inj in E. subst st. split; [reflexivity|]. destruct x. exact Hh.
  - unbind E. apply stays_then, (op_set_state _ _ _ _ _ _ Hh E0). intros m1 H1. apply (IH _ _ _ _ H1 E).
Qed.
Lemma ResetWhirl_at x m x' : holds w m0 c x m -> Whirlpool.Reset x = Ret x' ->
  stays id (ResetWhirl c) m u (fun _ m' u' => u' = u /\ holds w m0 c x' m').
Proof.
  intros Hh E. unfold Whirlpool.Reset in E. unbind E. apply ret_inj in E. subst x'. unfold ResetWhirl.
  eapply stays_seq; [apply (reset_at 8 0 x m x0 Hh E0)|].
  intros _ m1 u1 (-> & H1). apply stays_then, (op_set_len w Hw m0 id c u _ _ _ _ M H1). intros m2 H2.
  apply (op_set_pos w Hw m0 id c u _ _ _ _ M H2). intros m3 H3. split; [reflexivity|exact H3].
Qed.
End Resets.
