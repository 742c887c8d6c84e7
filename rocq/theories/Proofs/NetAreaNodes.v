(** Trees access by access in an area of memory. The nodes may have been made by
    anybody; once made, a node is never written again. *)
From Verif Require Import Base.Go Base.GoNet Base.NetApi Base.Goroutine Base.GoUse Base.NetGo.
From Verif Require Import Model.NetAtom Proofs.Util Proofs.GoroutineProofs Proofs.HashAtomProofs Proofs.NetAtomProofs Proofs.AreaProofs.
From Verif Require Model.Net.
Local Open Scope N_scope.

Section Nodes.
(** The area of a call, where the new memory of its goroutine begins, and the
    cells [old] of nodes that are finished. *)
Context (zone : area) (lo : bool -> nat) (old : addr -> Prop).
Let id := me zone.
Context (fresh_zone : forall x, who x = me zone -> (lo (lib x) <= num x)%nat -> wrs zone x).
Context (old_read : forall x, old x -> rds zone x).
Context (old_old : forall x, old x -> lib x = true /\ (who x = me zone -> (num x < lo true)%nat)).

(** Cells of nodes. *)
Definition solid (u : bool -> nat) (x : addr) : Prop :=
  old x \/ (lib x = true /\ who x = id /\ (lo true <= num x < u true)%nat).
Lemma solid_may u x : solid u x -> rds zone x.
Proof. intros [H|(A & B & C)]; [apply old_read, H|]. apply wrs_rds, fresh_zone; [exact B|rewrite A; lia]. Qed.
Lemma solid_mono u u' x : (u true <= u' true)%nat -> solid u x -> solid u' x.
Proof. intros L [H|(A & B & C)]; [left; exact H|]. right. split; [exact A|]. split; [exact B|lia]. Qed.

Lemma get_inode_in a i m u (Q : inode -> memory -> (bool -> nat) -> Prop) : (forall j, (j < 4)%nat -> rds zone (shift a j)) -> cells m a 4 = inode_cells i -> Q i m u ->
  stays zone (get_inode a) m u Q.
Proof. intros M E H. unfold get_inode. apply stays_then, stays_gets; [exact M|]. cbn [stays]. rewrite E, inode_of_cells. exact H. Qed.
Lemma set_inode_in a i m u (Q : unit -> memory -> (bool -> nat) -> Prop) : (forall j, (j < 4)%nat -> wrs zone (shift a j)) ->
  (forall m', is_over m a (inode_cells i) m' -> Q tt m' u) -> stays zone (set_inode a i) m u Q.
Proof. intros W H. unfold set_inode. apply stays_sets; [rewrite inode_cells_length; exact W|exact H]. Qed.
Definition ready (u : bool -> nat) : Prop := forall l, (lo l <= u l)%nat.
Lemma new_in l n m u (Q : addr -> memory -> (bool -> nat) -> Prop) : ready u ->
  (forall m', is_over m (mkA id l (u l)) (repeat 0 n) m' -> Q (mkA id l (u l)) m' (grow u l n)) -> stays zone (new l n) m u Q.
Proof. intros L H. apply stays_new; [|exact H]. intros j _. apply fresh_zone; [reflexivity|]. cbn [lib num shift]. specialize (L l). lia. Qed.

Lemma ready_mono u u' : (u true <= u' true)%nat -> u' false = u false -> ready u -> ready u'.
Proof. intros L E R l. destruct l; [specialize (R true); lia|rewrite E; apply R]. Qed.
Lemma ready_bytes m u l m' u' : bytes_made id m u l m' u' -> ready u -> ready u'.
Proof. intros (_ & A & B) R k. destruct k; [rewrite A; apply R|rewrite B; specialize (R false); lia]. Qed.
Lemma node_new_in m u m' u' n i : ready u -> new_only id m u m' u' -> is_node (solid u) m n i -> is_node (solid u') m' n i.
Proof.
  intros Rd (H & L & _). apply is_node_mono. intros x Fx. split; [apply (solid_mono u _ _ L Fx)|]. apply H. intros (W & _ & K). specialize (Rd true).
  destruct Fx as [F|(_ & _ & F)]; [destruct (old_old x F) as [_ G]; specialize (G W); lia|lia].
Qed.
Lemma solid_new u k j : ready u -> (j < k)%nat -> solid (grow u true k) (shift (mkA id true (u true)) j).
Proof.
  intros L Hj. specialize (L true). right. split; [reflexivity|]. split; [reflexivity|]. cbn [shift num]. rewrite grow_same; lia.
Qed.
Lemma fresh_wr u j : ready u -> wrs zone (shift (mkA id true (u true)) j).
Proof. intros L. apply fresh_zone; [reflexivity|]. cbn [num lib shift]. specialize (L true). lia. Qed.

Lemma new_all_in v m u : ready u ->
  stays zone (new_all v) m u (fun i m' u' => new_only id m u m' u' /\ is_node (solid u') m' (Net.NAll v) i).
Proof.
  intros H. unfold new_all. apply stays_then, new_in; [exact H|]. intros m1 O1. apply stays_then, stays_set; [rewrite <- (shift_0 (mkA _ _ _)); apply fresh_wr, H|].
  intros m2 O2. cbn [stays]. split.
  - split; [|split; [rewrite grow_same; lia|reflexivity]]. intros x Hx. rewrite (over_out _ _ _ _ _ O2), (over_out _ _ _ _ _ O1); [reflexivity| |];
      apply within_not; rewrite ?repeat_length; cbn [who lib num length]; intuition lia.
  - cbn [is_node]. eexists. split; [reflexivity|]. split.
    + rewrite <- (shift_0 (mkA id true (u true))). apply solid_new; [exact H|lia].
    + rewrite <- (shift_0 (mkA id true (u true))), (over_in _ _ _ _ _ O2) by (cbn; lia). reflexivity.
Qed.
Lemma new_tree_in l r il ir m u : ready u -> is_node (solid u) m l il -> is_node (solid u) m r ir ->
  stays zone (new_tree il ir) m u (fun i m' u' => new_only id m u m' u' /\ is_node (solid u') m' (Net.NTree l r) i).
Proof.
  intros H Rl Rr. unfold new_tree. apply stays_then, new_in; [exact H|]. intros m1 O1. apply stays_then, set_inode_in; [intros j _; apply fresh_wr, H|]. intros m2 O2.
  apply stays_then, set_inode_in; [intros j _; rewrite shift_shift; apply fresh_wr, H|]. intros m3 O3. cbn [stays]. set (p := mkA id true (u true)) in *.
  assert (Nw : new_only id m u m3 (grow u true 8)).
  { split; [|split; [rewrite grow_same; lia|reflexivity]]. intros x Hx. rewrite (over_out _ _ _ _ _ O3), (over_out _ _ _ _ _ O2), (over_out _ _ _ _ _ O1); [reflexivity| | |];
      apply within_not; rewrite ?repeat_length, ?inode_cells_length; unfold p; cbn [who lib num length shift]; intuition lia. }
  split; [exact Nw|]. cbn [is_node]. exists p, il, ir. split; [reflexivity|]. split; [intros j Hj; apply solid_new; assumption|].
  split; [|split; [|split; apply (node_new_in m u m3 _ _ _ H Nw); assumption]].
  - rewrite <- (cells_over_all _ _ _ _ O2), inode_cells_length. apply cells_ext. intros j Hj. apply (over_out _ _ _ _ _ O3), within_not.
    cbn [who lib num shift]. lia.
  - pose proof (cells_over_all _ _ _ _ O3) as X. rewrite inode_cells_length in X. exact X.
Qed.
Lemma as_all_in n i m u (Q : option N -> memory -> (bool -> nat) -> Prop) : is_node (solid u) m n i ->
  Q (match n with Net.NAll v => Some v | _ => None end) m u -> stays zone (as_all i) m u Q.
Proof.
  intros R H. destruct n as [|v|l r]; cbn [is_node] in R.
  - subst i. exact H.
  - destruct R as (p & -> & Fp & E). cbn [as_all]. apply stays_then, stays_get; [apply (solid_may _ _ Fp)|]. cbn [stays]. rewrite E. exact H.
  - destruct R as (p & il & ir & -> & _). exact H.
Qed.

(** add *)
Lemma add_in mg pos end_ v mask : forall n i m u, ready u -> is_node (solid u) m n i ->
  stays zone (add mg i pos mask end_ v) m u (fun i' m' u' => new_only id m u m' u' /\ is_node (solid u') m' (Net.add mg n pos mask end_ v) i').
Proof.
  induction mask as [|mask IH]; intros n i m u H R.
  - destruct n as [|w|l r]; cbn [is_node] in R.
    + subst i. cbn [add Net.add]. destruct (N.of_nat 0 <=? end_); [apply new_all_in, H|apply stays_then; cbn [stays]; apply new_all_in, H].
    + destruct R as (p & -> & Fp & E). cbn [add Net.add stays]. split; [apply new_only_refl|]. cbn [is_node]. eauto.
    + destruct R as (p & il & ir & -> & Fp & E1 & E2 & R1 & R2). cbn [add Net.add]. destruct (N.leb_spec (N.of_nat 0) end_) as [_|X]; [apply new_all_in, H|lia].
  - assert (Step : forall l r il ir m1 u1, ready u1 -> is_node (solid u1) m1 l il -> is_node (solid u1) m1 r ir ->
      stays zone (do a <- as_all il; do b <- as_all ir; match a, b with Some a, Some b => new_all (mg a b) | _, _ => new_tree il ir end) m1 u1
        (fun i' m' u' => new_only id m1 u1 m' u' /\ is_node (solid u') m' (match l, r with Net.NAll a, Net.NAll b => Net.NAll (mg a b) | _, _ => Net.NTree l r end) i')).
    { intros l r il ir m1 u1 H1 Rl Rr. apply stays_then, (as_all_in l); [exact Rl|]. apply stays_then, (as_all_in r); [exact Rr|].
      destruct l as [|a|l1 l2], r as [|b|r1 r2]; try apply new_all_in; try apply new_tree_in; assumption. }
    assert (Down : forall l r il ir m1 u1, ready u1 -> is_node (solid u1) m1 l il -> is_node (solid u1) m1 r ir ->
      stays zone (do (l, r) <- (if N.land (N.shiftr pos (N.of_nat mask)) 1 =? 1 then do r' <- add mg ir pos mask end_ v; Return (il, r')
                             else do l' <- add mg il pos mask end_ v; Return (l', ir));
               do a <- as_all l; do b <- as_all r; match a, b with Some a, Some b => new_all (mg a b) | _, _ => new_tree l r end) m1 u1
        (fun i' m' u' => new_only id m1 u1 m' u' /\ is_node (solid u') m'
          (let (l, r) := if N.land (N.shiftr pos (N.of_nat mask)) 1 =? 1 then (l, Net.add mg r pos mask end_ v) else (Net.add mg l pos mask end_ v, r) in
           match l, r with Net.NAll a, Net.NAll b => Net.NAll (mg a b) | _, _ => Net.NTree l r end) i')).
    { intros l r il ir m1 u1 H1 Rl Rr. destruct (_ =? 1).
      - apply stays_then. eapply stays_seq; [apply (IH r ir m1 u1 H1 Rr)|]. cbn beta. intros ir' m2 u2 (N2 & R2). cbn [stays].
        eapply stays_mono; [apply (Step l (Net.add mg r pos mask end_ v) il ir' m2 u2); [apply (ready_mono u1); [apply N2|apply N2|exact H1]|apply (node_new_in m1 u1); assumption|exact R2]|].
        cbn beta. intros i' m' u' (N3 & R3). split; [apply (new_only_trans _ _ _ m2 u2); assumption|exact R3].
      - apply stays_then. eapply stays_seq; [apply (IH l il m1 u1 H1 Rl)|]. cbn beta. intros il' m2 u2 (N2 & R2). cbn [stays].
        eapply stays_mono; [apply (Step (Net.add mg l pos mask end_ v) r il' ir m2 u2); [apply (ready_mono u1); [apply N2|apply N2|exact H1]|exact R2|apply (node_new_in m1 u1); assumption]|].
        cbn beta. intros i' m' u' (N3 & R3). split; [apply (new_only_trans _ _ _ m2 u2); assumption|exact R3]. }
    destruct n as [|w|l r]; cbn [is_node] in R.
    + subst i. cbn [add Net.add]. destruct (N.of_nat (S mask) <=? end_); [apply new_all_in, H|]. apply stays_then. cbn [stays].
      apply (Down Net.NNone Net.NNone INone INone m u H); reflexivity.
    + destruct R as (p & -> & Fp & E). cbn [add Net.add stays]. split; [apply new_only_refl|]. cbn [is_node]. eauto.
    + destruct R as (p & il & ir & -> & Fp & E1 & E2 & R1 & R2). cbn [add Net.add].
      destruct (N.of_nat (S mask) <=? end_); [apply new_all_in, H|].
      apply stays_then, stays_then, (get_inode_in _ il); [intros j Hj; apply (solid_may u), Fp; lia|exact E1|].
      apply stays_then, (get_inode_in _ ir); [intros j Hj; rewrite shift_shift; apply (solid_may u), Fp; lia|exact E2|]. cbn [stays].
      apply (Down l r il ir m u H); assumption.
Qed.

(** ** Lists *)

Lemma four_bytes_in l m u : ready u -> length l = 4%nat ->
  stays zone (four_bytes l) m u (fun s m' u' => s = mkS (mkA id false (u false)) 4 4 /\ bytes_made id m u l m' u').
Proof.
  intros Hl L. unfold four_bytes. apply stays_then, new_in; [exact Hl|]. intros m1 O1.
  apply stays_then, stays_sets; [intros j _; apply fresh_zone; [reflexivity|cbn [lib num shift]; specialize (Hl false); lia]|]. intros m2 O2. cbn [stays].
  split; [reflexivity|]. split; [|split; [reflexivity|rewrite grow_same; lia]]. intros x. rewrite O2. unfold over. rewrite O1. unfold over. rewrite repeat_length, L.
  destruct (within (mkA id false (u false)) 4 x); reflexivity.
Qed.
Lemma node_bytes_in m u l m' u' n i : bytes_made id m u l m' u' -> is_node (solid u) m n i -> is_node (solid u') m' n i.
Proof.
  intros (H & L & _). apply is_node_mono. intros x Fx. split; [apply (solid_mono u); [lia|exact Fx]|].
  apply (over_out _ _ _ _ _ H), within_not. cbn [lib]. intros (_ & X & _). destruct Fx as [Y|(Y & _)]; [apply old_old in Y; destruct Y|]; congruence.
Qed.
Lemma each_in depth : forall n i position mask m u, ready u -> (levels n < depth)%nat -> is_node (solid u) m n i ->
  stays zone (each depth i position mask) m u (fun r m' u' => r = placed id (u false) (Net.each n position mask)
    /\ bytes_made id m u (placed_bytes (Net.each n position mask)) m' u').
Proof.
  induction depth as [|depth IH]; intros n i position mask m u Hl H R; [lia|]. destruct n as [|v|l r]; cbn [is_node] in R.
  - subst i. cbn [each Net.each stays]. split; [reflexivity|apply bytes_made_nil].
  - destruct R as (p & -> & Fp & E). cbn [each Net.each]. apply stays_then, stays_get; [apply (solid_may _ _ Fp)|]. rewrite E. apply stays_then. unfold output.
    eapply stays_seq; [apply four_bytes_in, be32_length; exact Hl|]. cbn beta. intros ip m1 u1 (-> & B1).
    eapply stays_seq; [apply four_bytes_in, be32_length; exact (ready_bytes _ _ _ _ _ B1 Hl)|]. cbn beta. intros mk m2 u2 (-> & B2). cbn [stays]. split.
    + cbn [placed]. destruct B1 as (_ & _ & B1). rewrite B1. unfold Net.Ipv4FromUint. rewrite be32_length. reflexivity.
    + unfold placed_bytes. cbn [flat_map]. rewrite app_nil_r. apply (bytes_made_app _ _ _ _ m1 u1); assumption.
  - destruct R as (p & il & ir & -> & Fp & E1 & E2 & R1 & R2). cbn [each Net.each levels] in *.
    apply stays_then, (get_inode_in _ il); [intros j Hj; apply (solid_may u), Fp; lia|exact E1|].
    apply stays_then, (get_inode_in _ ir); [intros j Hj; rewrite shift_shift; apply (solid_may u), Fp; lia|exact E2|].
    eapply stays_seq; [apply (IH l il); [exact Hl|lia|exact R1]|]. cbn beta. intros a m1 u1 (-> & B1).
    eapply stays_seq; [apply (IH r ir); [exact (ready_bytes _ _ _ _ _ B1 Hl)|lia|apply (node_bytes_in _ _ _ _ _ _ _ B1 R2)]|]. cbn beta. intros b m2 u2 (-> & B2). cbn [stays]. split.
    + rewrite placed_app. destruct B1 as (_ & _ & B1). rewrite B1, placed_bytes_length. reflexivity.
    + unfold placed_bytes. rewrite flat_map_app. apply (bytes_made_app _ _ _ _ m1 u1); assumption.
Qed.

(** ** Trees *)

Definition tree_in (Z : addr -> Prop) (m : memory) (c : addr) (n : Net.node N) : Prop :=
  exists i, cells m c 4 = inode_cells i /\ is_node Z m n i.
(** A Tree that may be read; it has no cell in common with a node. *)
Definition loose (c : addr) : Prop := forall j, (j < 4)%nat -> wrs zone (shift c j).
Definition head (c : addr) : Prop :=
  (forall j, (j < 4)%nat -> rds zone (shift c j)) /\ forall u x, solid u x -> within c 4 x = false.
Lemma node_tree_in c m u m' u' n i : ready u -> head c -> tree_only id c m u m' u' -> is_node (solid u) m n i -> is_node (solid u') m' n i.
Proof.
  intros Hl [_ Hc] (H & L & _). apply is_node_mono. intros x Fx. split; [apply (solid_mono u _ _ L Fx)|]. apply H; [apply (Hc u x Fx)|].
  intros (W & _ & K). specialize (Hl true). destruct Fx as [F|(_ & _ & F)]; [destruct (old_old x F) as [_ G]; specialize (G W); lia|lia].
Qed.
Lemma add_root_in c mg t pos end_ v m u : ready u -> loose c -> head c -> Net.merge t = mg -> tree_in (solid u) m c (Net.root t) ->
  stays zone (add_root (c, mg) pos end_ v) m u (fun _ m' u' => tree_only id c m u m' u' /\ tree_in (solid u') m' c (Net.root (Net.add_root t pos end_ v))).
Proof.
  intros H Lc Hc Em (i & Ei & R). unfold add_root. cbn [fst snd]. apply stays_then, (get_inode_in _ i); [intros j Hj; apply Hc, Hj|exact Ei|].
  eapply stays_seq; [apply (add_in mg pos end_ v 32 _ i m u H R)|]. cbn beta. intros i' m1 u1 (N1 & R1).
  apply set_inode_in; [apply Lc|]. intros m2 O2.
  assert (T : tree_only id c m1 u1 m2 u1).
  { split; [|split; lia]. intros x Wx _. apply (over_out _ _ _ _ _ O2). rewrite inode_cells_length. exact Wx. }
  split.
  - apply (tree_only_trans id c m u m1 u1); [|exact T]. destruct N1 as (A1 & A2 & A3). split; [|split; assumption]. intros x _. apply A1.
  - exists i'. split; [rewrite <- (inode_cells_length i'); apply (cells_over_all _ _ _ _ O2)|]. cbn [Net.root Net.add_root]. rewrite Em.
    apply (node_tree_in c m1 u1); try assumption. apply (ready_mono u); [apply N1|apply N1|exact H].
Qed.
Lemma range_in c mg e v : loose c -> head c -> forall fuel t s m u t', ready u -> Net.merge t = mg -> tree_in (solid u) m c (Net.root t) ->
  Net.range_loop fuel t s e v = Ret t' ->
  stays zone (range_loop fuel (c, mg) s e v) m u (fun _ m' u' => tree_only id c m u m' u' /\ tree_in (solid u') m' c (Net.root t')).
Proof.
  intros Lc Hc. induction fuel as [|fuel IH]; intros t s m u t' H Em R; cbn [Net.range_loop range_loop]; destruct (s <=? e); try discriminate;
    try (intros E; injection E as <-; split; [apply tree_only_refl|exact R]).
  intros E. unbind E. unbind E. apply stays_then, (stays_lift _ _ x); [exact E0|]. apply stays_then, (stays_lift _ _ x0); [exact E1|].
  eapply stays_seq; [apply (add_root_in c mg t s x0 v m u H Lc Hc Em R)|]. cbn beta. intros _ m1 u1 (T1 & R1).
  eapply stays_mono; [apply (IH (Net.add_root t s x0 v) _ m1 u1 t' (ready_mono u _ ltac:(apply T1) ltac:(apply T1) H) Em R1 E)|]. cbn beta. intros _ m2 u2 (T2 & R2).
  split; [apply (tree_only_trans id c m u m1 u1); assumption|exact R2].
Qed.
End Nodes.
