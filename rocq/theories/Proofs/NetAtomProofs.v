(** Trees access by access against the model on values. *)
From Verif Require Import Base.Go Base.GoNet Base.NetApi Base.Goroutine Base.GoUse Base.NetGo.
From Verif Require Import Model.NetAtom Proofs.Util Proofs.GoroutineProofs Proofs.HashAtomProofs.
From Verif Require Model.Net.
Local Open Scope N_scope.

(** ** Interfaces in memory *)

Lemma inode_cells_length i : length (inode_cells i) = 4%nat.
Proof. destruct i; reflexivity. Qed.
Lemma inode_of_cells i : inode_of (inode_cells i) = i.
Proof.
  destruct i as [|[w b n]|[w b n]]; unfold inode_cells, pointer, inode_of; cbn [who lib num]; rewrite ?Nnat.Nat2N.id; try reflexivity; destruct b; reflexivity.
Qed.
Lemma get_inode_ok (id : nat) a i m u (Q : inode -> memory -> (bool -> nat) -> Prop) : may id a -> cells m a 4 = inode_cells i -> Q i m u ->
  safe id (get_inode a) m u Q.
Proof. intros M E H. unfold get_inode. apply safe_then, safe_gets; [exact M|]. cbn [safe]. rewrite E, inode_of_cells. exact H. Qed.
Lemma set_inode_ok (id : nat) a i m u (Q : unit -> memory -> (bool -> nat) -> Prop) : who a = id ->
  (forall m', is_over m a (inode_cells i) m' -> Q tt m' u) -> safe id (set_inode a i) m u Q.
Proof. intros W H. unfold set_inode. apply safe_sets; [exact W|exact H]. Qed.

(** ** Nodes *)

(** Interface [i] in memory [m] is the node [n], all cells of which are in [F]. *)
Fixpoint is_node (F : addr -> Prop) (m : memory) (n : Net.node N) (i : inode) : Prop :=
  match n with
  | Net.NNone => i = INone
  | Net.NAll v => exists p, i = IAll p /\ F p /\ m p = v
  | Net.NTree l r => exists p il ir, i = ITree p /\ (forall j, (j < 8)%nat -> F (shift p j))
      /\ cells m p 4 = inode_cells il /\ cells m (shift p 4) 4 = inode_cells ir
      /\ is_node F m l il /\ is_node F m r ir
  end.
Lemma is_node_mono (F F' : addr -> Prop) m m' n : (forall x, F x -> F' x /\ m' x = m x) -> forall i, is_node F m n i -> is_node F' m' n i.
Proof.
  intros H. induction n as [|v|l IHl r IHr]; intros i; cbn [is_node].
  - auto.
  - intros (p & -> & Fp & E). destruct (H p Fp) as [Fp' E']. exists p. split; [reflexivity|]. split; [exact Fp'|congruence].
  - intros (p & il & ir & -> & Fp & E1 & E2 & R1 & R2). exists p, il, ir. split; [reflexivity|]. split; [intros j Hj; apply H, Fp, Hj|]. split; [|split; [|split]].
    + rewrite <- E1. apply cells_ext. intros j Hj. apply H, Fp. lia.
    + rewrite <- E2. apply cells_ext. intros j Hj. rewrite shift_shift. apply H, Fp. lia.
    + apply IHl, R1.
    + apply IHr, R2.
Qed.

(** Levels of forks. *)
Fixpoint levels (n : Net.node N) : nat :=
  match n with
  | Net.NTree l r => S (Nat.max (levels l) (levels r))
  | _ => O
  end.
Lemma add_levels mg pos end_ v mask : forall n, (levels n <= mask)%nat -> (levels (Net.add mg n pos mask end_ v) <= mask)%nat.
Proof.
  induction mask as [|mask IH]; intros n H; destruct n as [|w|l r]; cbn [Net.add]; try exact H.
  - destruct (N.of_nat 0 <=? end_); cbn [levels]; lia.
  - destruct (N.of_nat 0 <=? end_); cbn [levels]; lia.
  - destruct (N.of_nat (S mask) <=? end_); [cbn [levels]; lia|]. destruct (_ =? 1).
    + pose proof (IH Net.NNone (Nat.le_0_l _)) as X. destruct (Net.add mg Net.NNone pos mask end_ v); cbn [levels] in *; lia.
    + pose proof (IH Net.NNone (Nat.le_0_l _)) as X. destruct (Net.add mg Net.NNone pos mask end_ v); cbn [levels] in *; lia.
  - destruct (N.of_nat (S mask) <=? end_); [cbn [levels]; lia|]. cbn [levels] in H. destruct (_ =? 1).
    + pose proof (IH r ltac:(lia)) as X. destruct l, (Net.add mg r pos mask end_ v); cbn [levels] in *; lia.
    + pose proof (IH l ltac:(lia)) as X. destruct (Net.add mg l pos mask end_ v), r; cbn [levels] in *; lia.
Qed.
Lemma root_levels t pos end_ v : (levels (Net.root t) <= 32)%nat -> (levels (Net.root (Net.add_root t pos end_ v)) <= 32)%nat.
Proof. intros H. apply add_levels, H. Qed.
Lemma range_levels e v fuel : forall t s t', Net.range_loop fuel t s e v = Ret t' -> (levels (Net.root t) <= 32)%nat -> (levels (Net.root t') <= 32)%nat.
Proof.
  induction fuel as [|fuel IH]; intros t s t'; cbn [Net.range_loop]; destruct (s <=? e); try discriminate; try (intros E; injection E as <-; auto).
  intros E H. unbind E. unbind E. apply (IH _ _ _ E). apply root_levels, H.
Qed.
Lemma apply_levels fuel t c t' : Net.apply fuel t c = Ret t' -> (levels (Net.root t) <= 32)%nat -> (levels (Net.root t') <= 32)%nat.
Proof.
  destruct c as [ip v|s e v|[n|] v]; cbn [Net.apply]; intros E H.
  - unfold Net.AddIp in E. unbind E. injection E as <-. apply root_levels, H.
  - unfold Net.AddRange in E. unbind E. unbind E. apply (range_levels _ _ _ _ _ _ E H).
  - unfold Net.AddCidr in E. unbind E. injection E as <-. apply root_levels, H.
  - discriminate.
Qed.
Lemma all_levels fuel cs : forall t t', Net.apply_all fuel t cs = Ret t' -> (levels (Net.root t) <= 32)%nat -> (levels (Net.root t') <= 32)%nat.
Proof.
  induction cs as [|c cs IH]; intros t t' E H; cbn [Net.apply_all] in E; [injection E as <-; exact H|]. unbind E.
  apply (IH _ _ E). apply (apply_levels _ _ _ _ E0 H).
Qed.

Section Own.
Context (id : nat).

(** The cells of nodes: allocated inside the library, before or by this
    goroutine, and not in the Trees [ts] of this goroutine. *)
Definition frozen (ts : list addr) (u : bool -> nat) (x : addr) : Prop :=
  lib x = true /\ ((who x = O /\ id <> O) \/ (who x = id /\ (num x < u true)%nat /\ forall t, In t ts -> within t 4 x = false)).
Lemma frozen_may ts u x : frozen ts u x -> may id x.
Proof. intros (_ & [(H & _)|(H & _)]); [right|left]; exact H. Qed.

(** From [m] to [m'] only new memory of the library has changed. *)
Definition new_only (m : memory) (u : bool -> nat) (m' : memory) (u' : bool -> nat) : Prop :=
  (forall x, ~ (who x = id /\ lib x = true /\ (u true <= num x)%nat) -> m' x = m x) /\ (u true <= u' true)%nat /\ u' false = u false.
Lemma new_only_refl m u : new_only m u m u.
Proof. split; [reflexivity|]. split; lia. Qed.
Lemma new_only_trans m u m1 u1 m2 u2 : new_only m u m1 u1 -> new_only m1 u1 m2 u2 -> new_only m u m2 u2.
Proof.
  intros (A1 & A2 & A3) (B1 & B2 & B3). split; [|split; [lia|congruence]]. intros x Hx. rewrite B1, A1; [reflexivity|exact Hx|]. intros H. apply Hx. intuition lia.
Qed.
Lemma frozen_mono ts u u' x : (u true <= u' true)%nat -> frozen ts u x -> frozen ts u' x.
Proof. intros L (H & [K|(K1 & K2 & K3)]); split; auto. right. split; [exact K1|]. split; [lia|exact K3]. Qed.
Lemma node_new ts m u m' u' n i : new_only m u m' u' -> is_node (frozen ts u) m n i -> is_node (frozen ts u') m' n i.
Proof.
  intros (H & L & _). apply is_node_mono. intros x Fx. split; [apply (frozen_mono _ u _ _ L Fx)|]. apply H. intros (W & _ & K).
  destruct Fx as (_ & [(F1 & F2)|(_ & F & _)]); [congruence|lia].
Qed.
(** All Trees of this goroutine have been allocated. *)
Definition structs (ts : list addr) (u : bool -> nat) : Prop := forall t, In t ts -> (num t + 4 <= u true)%nat.
Lemma structs_mono ts u u' : (u true <= u' true)%nat -> structs ts u -> structs ts u'.
Proof. intros L H t Ht. specialize (H t Ht). lia. Qed.
Lemma frozen_new ts u k j : structs ts u -> (j < k)%nat -> frozen ts (grow u true k) (shift (mkA id true (u true)) j).
Proof.
  intros H Hj. split; [reflexivity|]. right. split; [reflexivity|]. cbn [shift num]. split; [rewrite grow_same; lia|].
  intros t Ht. apply within_not. cbn [who lib num shift]. specialize (H t Ht). lia.
Qed.

Lemma new_all_ok ts v m u : structs ts u ->
  safe id (new_all v) m u (fun i m' u' => new_only m u m' u' /\ is_node (frozen ts u') m' (Net.NAll v) i).
Proof.
  intros H. unfold new_all. apply safe_then, safe_new'. cbn [self usual]. intros m1 O1. apply safe_then, safe_set'; [exact eq_refl|]. intros m2 O2. cbn [safe]. split.
  - split; [|split; [rewrite grow_same; lia|reflexivity]]. intros x Hx. rewrite (over_out _ _ _ _ _ O2), (over_out _ _ _ _ _ O1); [reflexivity| |];
      apply within_not; rewrite ?repeat_length; cbn [who lib num length]; intuition lia.
  - cbn [is_node]. eexists. split; [reflexivity|]. split.
    + rewrite <- (shift_0 (mkA id true (u true))). apply frozen_new; [exact H|lia].
    + rewrite <- (shift_0 (mkA id true (u true))), (over_in _ _ _ _ _ O2) by (cbn; lia). reflexivity.
Qed.
Lemma new_tree_ok ts l r il ir m u : structs ts u -> is_node (frozen ts u) m l il -> is_node (frozen ts u) m r ir ->
  safe id (new_tree il ir) m u (fun i m' u' => new_only m u m' u' /\ is_node (frozen ts u') m' (Net.NTree l r) i).
Proof.
  intros H Rl Rr. unfold new_tree. apply safe_then, safe_new'. cbn [self usual]. intros m1 O1. apply safe_then, set_inode_ok; [exact eq_refl|]. intros m2 O2.
  apply safe_then, set_inode_ok; [exact eq_refl|]. intros m3 O3. cbn [safe]. set (p := mkA id true (u true)) in *.
  assert (Nw : new_only m u m3 (grow u true 8)).
  { split; [|split; [rewrite grow_same; lia|reflexivity]]. intros x Hx. rewrite (over_out _ _ _ _ _ O3), (over_out _ _ _ _ _ O2), (over_out _ _ _ _ _ O1); [reflexivity| | |];
      apply within_not; rewrite ?repeat_length, ?inode_cells_length; unfold p; cbn [who lib num length shift]; intuition lia. }
  split; [exact Nw|]. cbn [is_node]. exists p, il, ir. split; [reflexivity|]. split; [intros j Hj; apply frozen_new; assumption|].
  split; [|split; [|split; apply (node_new ts m u m3 _ _ _ Nw); assumption]].
  - rewrite <- (cells_over_all _ _ _ _ O2), inode_cells_length. apply cells_ext. intros j Hj. apply (over_out _ _ _ _ _ O3), within_not.
    cbn [who lib num shift]. lia.
  - pose proof (cells_over_all _ _ _ _ O3) as X. rewrite inode_cells_length in X. exact X.
Qed.
Lemma as_all_ok ts n i m u (Q : option N -> memory -> (bool -> nat) -> Prop) : is_node (frozen ts u) m n i ->
  Q (match n with Net.NAll v => Some v | _ => None end) m u -> safe id (as_all i) m u Q.
Proof.
  intros R H. destruct n as [|v|l r]; cbn [is_node] in R.
  - subst i. exact H.
  - destruct R as (p & -> & Fp & E). cbn [as_all]. apply safe_then, safe_get; [apply (frozen_may _ _ _ Fp)|]. cbn [safe]. rewrite E. exact H.
  - destruct R as (p & il & ir & -> & _). exact H.
Qed.

(** add *)
Lemma add_ok ts mg pos end_ v mask : forall n i m u, structs ts u -> is_node (frozen ts u) m n i ->
  safe id (add mg i pos mask end_ v) m u (fun i' m' u' => new_only m u m' u' /\ is_node (frozen ts u') m' (Net.add mg n pos mask end_ v) i').
Proof.
  induction mask as [|mask IH]; intros n i m u H R.
  - destruct n as [|w|l r]; cbn [is_node] in R.
    + subst i. cbn [add Net.add]. destruct (N.of_nat 0 <=? end_); [apply new_all_ok, H|apply safe_then; cbn [safe]; apply new_all_ok, H].
    + destruct R as (p & -> & Fp & E). cbn [add Net.add safe]. split; [apply new_only_refl|]. cbn [is_node]. eauto.
    + destruct R as (p & il & ir & -> & Fp & E1 & E2 & R1 & R2). cbn [add Net.add]. destruct (N.leb_spec (N.of_nat 0) end_) as [_|X]; [apply new_all_ok, H|lia].
  - assert (Step : forall l r il ir m1 u1, structs ts u1 -> is_node (frozen ts u1) m1 l il -> is_node (frozen ts u1) m1 r ir ->
      safe id (do a <- as_all il; do b <- as_all ir; match a, b with Some a, Some b => new_all (mg a b) | _, _ => new_tree il ir end) m1 u1
        (fun i' m' u' => new_only m1 u1 m' u' /\ is_node (frozen ts u') m' (match l, r with Net.NAll a, Net.NAll b => Net.NAll (mg a b) | _, _ => Net.NTree l r end) i')).
    { intros l r il ir m1 u1 H1 Rl Rr. apply safe_then, (as_all_ok ts l); [exact Rl|]. apply safe_then, (as_all_ok ts r); [exact Rr|].
      destruct l as [|a|l1 l2], r as [|b|r1 r2]; try apply new_all_ok; try apply new_tree_ok; assumption. }
    assert (Down : forall l r il ir m1 u1, structs ts u1 -> is_node (frozen ts u1) m1 l il -> is_node (frozen ts u1) m1 r ir ->
      safe id (do (l, r) <- (if N.land (N.shiftr pos (N.of_nat mask)) 1 =? 1 then do r' <- add mg ir pos mask end_ v; Return (il, r')
                             else do l' <- add mg il pos mask end_ v; Return (l', ir));
               do a <- as_all l; do b <- as_all r; match a, b with Some a, Some b => new_all (mg a b) | _, _ => new_tree l r end) m1 u1
        (fun i' m' u' => new_only m1 u1 m' u' /\ is_node (frozen ts u') m'
          (let (l, r) := if N.land (N.shiftr pos (N.of_nat mask)) 1 =? 1 then (l, Net.add mg r pos mask end_ v) else (Net.add mg l pos mask end_ v, r) in
           match l, r with Net.NAll a, Net.NAll b => Net.NAll (mg a b) | _, _ => Net.NTree l r end) i')).
    { intros l r il ir m1 u1 H1 Rl Rr. destruct (_ =? 1).
      - apply safe_then. eapply safe_seq; [apply (IH r ir m1 u1 H1 Rr)|]. cbn beta. intros ir' m2 u2 (N2 & R2). cbn [safe].
        eapply safe_mono; [apply (Step l (Net.add mg r pos mask end_ v) il ir' m2 u2); [apply (structs_mono _ u1); [apply N2|exact H1]|apply (node_new _ m1 u1); assumption|exact R2]|].
        cbn beta. intros i' m' u' (N3 & R3). split; [apply (new_only_trans _ _ m2 u2); assumption|exact R3].
      - apply safe_then. eapply safe_seq; [apply (IH l il m1 u1 H1 Rl)|]. cbn beta. intros il' m2 u2 (N2 & R2). cbn [safe].
        eapply safe_mono; [apply (Step (Net.add mg l pos mask end_ v) r il' ir m2 u2); [apply (structs_mono _ u1); [apply N2|exact H1]|exact R2|apply (node_new _ m1 u1); assumption]|].
        cbn beta. intros i' m' u' (N3 & R3). split; [apply (new_only_trans _ _ m2 u2); assumption|exact R3]. }
    destruct n as [|w|l r]; cbn [is_node] in R.
    + subst i. cbn [add Net.add]. destruct (N.of_nat (S mask) <=? end_); [apply new_all_ok, H|]. apply safe_then. cbn [safe].
      apply (Down Net.NNone Net.NNone INone INone m u H); reflexivity.
    + destruct R as (p & -> & Fp & E). cbn [add Net.add safe]. split; [apply new_only_refl|]. cbn [is_node]. eauto.
    + destruct R as (p & il & ir & -> & Fp & E1 & E2 & R1 & R2). cbn [add Net.add].
      assert (Mp : may id p) by (rewrite <- (shift_0 p); apply (frozen_may ts u), Fp; lia).
      destruct (N.of_nat (S mask) <=? end_); [apply new_all_ok, H|]. apply safe_then, safe_then, (get_inode_ok _ _ il); [exact Mp|exact E1|].
      apply safe_then, (get_inode_ok _ _ ir); [exact Mp|exact E2|]. cbn [safe].
      apply (Down l r il ir m u H); assumption.
Qed.

(** ** Lists *)

Definition bytes_made (m : memory) (u : bool -> nat) (l : list N) (m' : memory) (u' : bool -> nat) : Prop :=
  is_over m (mkA id false (u false)) l m' /\ u' true = u true /\ u' false = (u false + length l)%nat.
Lemma bytes_made_nil m u : bytes_made m u [] m u.
Proof.
  split; [|split; [reflexivity|cbn [length]; lia]]. intros x. unfold over. destruct (within_spec (mkA id false (u false)) (length (@nil N)) x) as [W|_]; [cbn [length num] in W; lia|reflexivity].
Qed.
Lemma bytes_made_app m u l1 m1 u1 l2 m2 u2 : bytes_made m u l1 m1 u1 -> bytes_made m1 u1 l2 m2 u2 -> bytes_made m u (l1 ++ l2) m2 u2.
Proof.
  intros (A1 & A2 & A3) (B1 & B2 & B3). split; [|split; [congruence|rewrite app_length; lia]]. intros x. rewrite B1. unfold over at 1. rewrite A1. unfold over. rewrite app_length, A3.
  destruct (within_spec (mkA id false (u false + length l1)) (length l2) x) as [W|W], (within_spec (mkA id false (u false)) (length l1 + length l2) x) as [V|V],
    (within_spec (mkA id false (u false)) (length l1) x) as [X|X]; cbn [who lib num] in *; try (exfalso; intuition lia); try reflexivity.
  - rewrite app_nth2 by lia. f_equal. lia.
  - rewrite app_nth1 by lia. reflexivity.
Qed.
Lemma four_bytes_ok l m u : length l = 4%nat ->
  safe id (four_bytes l) m u (fun s m' u' => s = mkS (mkA id false (u false)) 4 4 /\ bytes_made m u l m' u').
Proof.
  intros L. unfold four_bytes. apply safe_then, safe_new'. cbn [self usual]. intros m1 O1. apply safe_then, safe_sets; [exact eq_refl|]. intros m2 O2. cbn [safe].
  split; [reflexivity|]. split; [|split; [reflexivity|rewrite grow_same; lia]]. intros x. rewrite O2. unfold over. rewrite O1. unfold over. rewrite repeat_length, L.
  destruct (within (mkA id false (u false)) 4 x); reflexivity.
Qed.
Lemma be32_length u : length (be32 u) = 4%nat.
Proof. reflexivity. Qed.

(** What each gives, as slices. *)
Fixpoint placed (n : nat) (L : list (N * N * N)) : list (gslice * gslice * N) :=
  match L with
  | [] => []
  | (_, _, v) :: L' => (mkS (mkA id false n) 4 4, mkS (mkA id false (n + 4)) 4 4, v) :: placed (n + 8) L'
  end.
Definition placed_bytes (L : list (N * N * N)) : list N :=
  flat_map (fun x => let '(position, bit, _) := x in Net.Ipv4FromUint position ++ Net.MaskFromByte bit) L.
Lemma placed_app L1 : forall n L2, placed n (L1 ++ L2) = placed n L1 ++ placed (n + 8 * length L1) L2.
Proof.
  induction L1 as [|[[y p] v] L1 IH]; intros n L2; cbn [app placed length]; [f_equal; lia|]. f_equal. rewrite IH. f_equal. f_equal. lia.
Qed.
Lemma placed_bytes_length L : length (placed_bytes L) = (8 * length L)%nat.
Proof.
  unfold placed_bytes. induction L as [|[[y p] v] L IH]; cbn [flat_map length]; [reflexivity|]. rewrite !app_length, IH.
  unfold Net.Ipv4FromUint, Net.MaskFromByte. cbv zeta. rewrite !be32_length. lia.
Qed.
Lemma node_bytes ts m u l m' u' n i : bytes_made m u l m' u' -> is_node (frozen ts u) m n i -> is_node (frozen ts u') m' n i.
Proof.
  intros (H & L & _). apply is_node_mono. intros x Fx. split; [apply (frozen_mono _ u); [lia|exact Fx]|].
  apply (over_out _ _ _ _ _ H), within_not. cbn [lib]. intros (_ & X & _). destruct Fx as (Y & _). congruence.
Qed.
Lemma each_ok ts depth : forall n i position mask m u, (levels n < depth)%nat -> is_node (frozen ts u) m n i ->
  safe id (each depth i position mask) m u (fun r m' u' => r = placed (u false) (Net.each n position mask)
    /\ bytes_made m u (placed_bytes (Net.each n position mask)) m' u').
Proof.
  induction depth as [|depth IH]; intros n i position mask m u H R; [lia|]. destruct n as [|v|l r]; cbn [is_node] in R.
  - subst i. cbn [each Net.each safe]. split; [reflexivity|apply bytes_made_nil].
  - destruct R as (p & -> & Fp & E). cbn [each Net.each]. apply safe_then, safe_get; [apply (frozen_may _ _ _ Fp)|]. rewrite E. apply safe_then. unfold output.
    eapply safe_seq; [apply four_bytes_ok, be32_length|]. cbn beta. intros ip m1 u1 (-> & B1).
    eapply safe_seq; [apply four_bytes_ok, be32_length|]. cbn beta. intros mk m2 u2 (-> & B2). cbn [safe]. split.
    + cbn [placed]. destruct B1 as (_ & _ & B1). rewrite B1. unfold Net.Ipv4FromUint. rewrite be32_length. reflexivity.
    + unfold placed_bytes. cbn [flat_map]. rewrite app_nil_r. apply (bytes_made_app _ _ _ m1 u1); assumption.
  - destruct R as (p & il & ir & -> & Fp & E1 & E2 & R1 & R2). cbn [each Net.each levels] in *.
    assert (Mp : may id p) by (rewrite <- (shift_0 p); apply (frozen_may ts u), Fp; lia).
    apply safe_then, (get_inode_ok _ _ il); [exact Mp|exact E1|]. apply safe_then, (get_inode_ok _ _ ir); [exact Mp|exact E2|].
    eapply safe_seq; [apply (IH l il); [lia|exact R1]|]. cbn beta. intros a m1 u1 (-> & B1).
    eapply safe_seq; [apply (IH r ir); [lia|apply (node_bytes _ _ _ _ _ _ _ _ B1 R2)]|]. cbn beta. intros b m2 u2 (-> & B2). cbn [safe]. split.
    + rewrite placed_app. destruct B1 as (_ & _ & B1). rewrite B1, placed_bytes_length. reflexivity.
    + unfold placed_bytes. rewrite flat_map_app. apply (bytes_made_app _ _ _ m1 u1); assumption.
Qed.

(** ** Trees *)

Definition is_tree (ts : list addr) (u : bool -> nat) (m : memory) (c : addr) (n : Net.node N) : Prop :=
  exists i, cells m c 4 = inode_cells i /\ is_node (frozen ts u) m n i.
(** From [m] to [m'] only new memory of the library and the Tree at [c] have changed. *)
Definition tree_only (c : addr) (m : memory) (u : bool -> nat) (m' : memory) (u' : bool -> nat) : Prop :=
  (forall x, within c 4 x = false -> ~ (who x = id /\ lib x = true /\ (u true <= num x)%nat) -> m' x = m x) /\ (u true <= u' true)%nat /\ u' false = u false.
Lemma tree_only_refl c m u : tree_only c m u m u.
Proof. split; [reflexivity|]. split; lia. Qed.
Lemma tree_only_trans c m u m1 u1 m2 u2 : tree_only c m u m1 u1 -> tree_only c m1 u1 m2 u2 -> tree_only c m u m2 u2.
Proof.
  intros (A1 & A2 & A3) (B1 & B2 & B3). split; [|split; [lia|congruence]]. intros x Wx Hx. rewrite B1, A1; [reflexivity|exact Wx|exact Hx|exact Wx|]. intros H. apply Hx. intuition lia.
Qed.
Lemma node_tree ts c m u m' u' n i : In c ts -> tree_only c m u m' u' -> (who c = id) -> is_node (frozen ts u) m n i -> is_node (frozen ts u') m' n i.
Proof.
  intros Hc (H & L & _) W. apply is_node_mono. intros x Fx. split; [apply (frozen_mono _ u _ _ L Fx)|]. destruct Fx as (_ & [(F1 & F2)|(F1 & F2 & F3)]); apply H.
  - apply within_not. intros (X & _). congruence.
  - intros (X & _). congruence.
  - apply F3, Hc.
  - lia.
Qed.
Lemma add_root_ok ts c mg t pos end_ v m u : structs ts u -> In c ts -> who c = id -> lib c = true -> Net.merge t = mg -> is_tree ts u m c (Net.root t) ->
  safe id (add_root (c, mg) pos end_ v) m u (fun _ m' u' => tree_only c m u m' u' /\ is_tree ts u' m' c (Net.root (Net.add_root t pos end_ v))).
Proof.
  intros H Hc W Lc Em (i & Ei & R). unfold add_root. cbn [fst snd]. apply safe_then, (get_inode_ok _ _ i); [left; exact W|exact Ei|].
  eapply safe_seq; [apply (add_ok ts mg pos end_ v 32 _ i m u H R)|]. cbn beta. intros i' m1 u1 (N1 & R1).
  apply set_inode_ok; [exact W|]. intros m2 O2.
  assert (T : tree_only c m1 u1 m2 u1).
  { split; [|split; lia]. intros x Wx _. apply (over_out _ _ _ _ _ O2). rewrite inode_cells_length. exact Wx. }
  split.
  - apply (tree_only_trans c m u m1 u1); [|exact T]. destruct N1 as (A1 & A2 & A3). split; [|split; assumption]. intros x _. apply A1.
  - exists i'. split; [rewrite <- (inode_cells_length i'); apply (cells_over_all _ _ _ _ O2)|]. cbn [Net.root Net.add_root]. rewrite Em.
    apply (node_tree ts c m1 u1); assumption.
Qed.
Lemma range_ok ts c mg e v : In c ts -> who c = id -> lib c = true -> forall fuel t s m u t', structs ts u -> Net.merge t = mg -> is_tree ts u m c (Net.root t) ->
  Net.range_loop fuel t s e v = Ret t' ->
  safe id (range_loop fuel (c, mg) s e v) m u (fun _ m' u' => tree_only c m u m' u' /\ is_tree ts u' m' c (Net.root t')).
Proof.
  intros Hc W Lc. induction fuel as [|fuel IH]; intros t s m u t' H Em R; cbn [Net.range_loop range_loop]; destruct (s <=? e); try discriminate;
    try (intros E; injection E as <-; split; [apply tree_only_refl|exact R]).
  intros E. unbind E. unbind E. apply safe_then, (safe_lift _ _ x); [exact E0|]. apply safe_then, (safe_lift _ _ x0); [exact E1|].
  eapply safe_seq; [apply (add_root_ok ts c mg t s x0 v m u H Hc W Lc Em R)|]. cbn beta. intros _ m1 u1 (T1 & R1).
  eapply safe_mono; [apply (IH (Net.add_root t s x0 v) _ m1 u1 t' (structs_mono _ u _ ltac:(apply T1) H) Em R1 E)|]. cbn beta. intros _ m2 u2 (T2 & R2).
  split; [apply (tree_only_trans c m u m1 u1); assumption|exact R2].
Qed.
End Own.
