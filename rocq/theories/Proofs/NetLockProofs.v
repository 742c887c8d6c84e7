(** Workers that keep the rules of Spec/NetLockSpec.v: every execution is one in
    which the stretches happen at once, in the order in which they began. *)
From Coq Require Import Sorted.
From Verif Require Import Base.Go Base.GoNet Base.NetApi Spec.NetSpec Proofs.NetBasic Proofs.NetProofs Proofs.NetMore Proofs.NetRange.
From Verif Require Import Base.Goroutine Base.GoUse Base.Lock Base.NetGo Base.NetLock Model.NetAtom Model.NetLockAtom Spec.NetLockSpec.
From Verif Require Import Proofs.Util Proofs.BytesProofs Proofs.GoroutineProofs Proofs.HashAtomProofs Proofs.NetAtomProofs Proofs.AreaProofs Proofs.NetLockNodes.
From Verif Require Model.Net Proofs.LockProofs Proofs.NetGoProofs Proofs.NetGoUnique Proofs.NetUseProofs Proofs.ChecksumProofs Proofs.HashUseProofs Proofs.WhirlpoolProofs.
Local Open Scope N_scope.

(** ** What an operation does is determined *)

Lemma gives_fun id w xs w1 r1 w2 r2 : gives id w xs w1 r1 -> gives id w xs w2 r2 -> w2 = w1 /\ r2 = r1.
Proof. intros (-> & ->) (-> & ->). auto. Qed.
Lemma done_fun id w a w1 r1 w2 r2 : done id w a w1 r1 -> done id w a w2 r2 -> w2 = w1 /\ r2 = r1.
Proof.
  assert (Call : forall x, (exists h mg cs c, called w x = Some (h, c) /\ tree_of id w h = Some (mg, cs) /\ w1 = extended id w h mg (cs ++ [c]) /\ r1 = PDone) ->
      (exists h mg cs c, called w x = Some (h, c) /\ tree_of id w h = Some (mg, cs) /\ w2 = extended id w h mg (cs ++ [c]) /\ r2 = PDone) -> w2 = w1 /\ r2 = r1).
  { intros x (h & mg & cs & c & C1 & C2 & -> & ->) (h' & mg' & cs' & c' & D1 & D2 & -> & ->). rewrite C1 in D1. injection D1 as <- <-.
    rewrite C2 in D2. injection D2 as <- <-. auto. }
  destruct a as [n c|x j v|x j|ip|x|b|mk|ip mk ip' mk'|ip mk|ip mk|mg|h|h ip v|h x e v|h ip mk v|h]; cbn [done].
  - intros (-> & ->) (-> & ->). auto.
  - intros (-> & ->) (-> & ->). auto.
  - intros (-> & ->) (-> & ->). auto.
  - intros (-> & u & -> & H1 & H2) (-> & u' & -> & H1' & H2'). split; [reflexivity|]. f_equal.
    destruct (NetGoUnique.addr_or_not (slice_text w ip)) as [[y Y]|Nn]; [rewrite (H1 y Y), (H1' y Y); reflexivity|rewrite (H2 Nn), (H2' Nn); reflexivity].
  - apply gives_fun.
  - apply gives_fun.
  - intros (-> & u & -> & H1 & H2) (-> & u' & -> & H1' & H2'). split; [reflexivity|]. f_equal.
    destruct (NetGoUnique.length_or_not (slice_text w mk)) as [[y Y]|Nn]; [rewrite (H1 y Y), (H1' y Y); reflexivity|rewrite (H2 Nn), (H2' Nn); reflexivity].
  - intros (-> & b & -> & H) (-> & b' & -> & H'). split; [reflexivity|]. f_equal.
    destruct b, b'; try reflexivity; [apply H', H; reflexivity|symmetry; apply H, H'; reflexivity].
  - intros (-> & ->) (-> & ->). auto.
  - intros (l & W & -> & _) (l' & W' & -> & _). apply (gives_fun _ _ _ _ _ _ _ W W').
  - intros (-> & ->) (-> & ->). auto.
  - intros (t & E & -> & ->) (t' & E' & -> & ->). rewrite E in E'. injection E' as <-. auto.
  - apply (Call (GAddIp h ip v)).
  - apply (Call (GAddRange h x e v)).
  - apply (Call (GAddCidr h ip mk v)).
  - intros (mg & cs & B & L & E & H1 & H2 & H3 & -> & ->) (mg' & cs' & B' & L' & E' & H1' & H2' & H3' & -> & ->). rewrite E in E'. injection E' as <- <-.
    rewrite <- (NetGoUnique.history_fun _ _ _ _ H1 _ H1') in H3'.
    assert (L' = L) as -> by (apply NetGoUnique.sorted_fun; [exact H2'|exact H2|]; intros [[y p] z]; rewrite H3, H3'; reflexivity). auto.
Qed.
Lemma comes_fun id g : forall w rs1 w1 rs2 w2, comes_to id w g rs1 w1 -> comes_to id w g rs2 w2 -> rs2 = rs1 /\ w2 = w1.
Proof.
  induction g as [|a k IH]; intros w rs1 w1 rs2 w2; cbn [comes_to].
  - intros (-> & ->) (-> & ->). auto.
  - intros (s & r & rs & E & -> & X) (s' & r' & rs' & E' & -> & X'). destruct (done_fun _ _ _ _ _ _ _ E E') as [-> ->].
    destruct (IH r s rs w1 rs' w2 X X') as [-> ->]. auto.
Qed.

(** ** What belongs to one goroutine *)

Definition stands (Z : addr -> Prop) (m : memory) (t : ptree) (k : known_tree) : Prop :=
  snd t = fst k /\ lib (fst t) = true /\ Forall proper (snd k)
  /\ exists n fuel, Net.apply_all fuel (Net.New (fst k)) (snd k) = Ret n /\ tree_in Z m (fst t) (Net.root n).
Definition stand (Z : addr -> Prop) (m : memory) (os : list ptree) (ks : list known_tree) : Prop :=
  length os = length ks /\ forall i t k, nth_error os i = Some t -> nth_error ks i = Some k -> stands Z m t k.
Definition owns (r : nat) (u : bool -> nat) (os : list ptree) : Prop :=
  (forall i t, nth_error os i = Some t -> who (fst t) = r /\ (num (fst t) + 4 <= u true)%nat)
  /\ forall i j t t', i <> j -> nth_error os i = Some t -> nth_error os j = Some t' ->
     (num (fst t) + 4 <= num (fst t') \/ num (fst t') + 4 <= num (fst t))%nat.
Definition region (Z : addr -> Prop) (r : nat) (m : memory) (u : bool -> nat) (os : list ptree) (w : world) : Prop :=
  (forall x, lib x = false -> who x = r -> m x = bytes w x /\ bytes w x < 256) /\ u false = made_by w r
  /\ stand Z m os (kept w r) /\ owns r u os.
Definition keeps (r : nat) (w w' : world) : Prop :=
  (forall x, who x = r -> bytes w' x = bytes w x) /\ made_by w' r = made_by w r /\ kept w' r = kept w r.
Lemma keeps_refl r w : keeps r w w.
Proof. repeat split. Qed.
Lemma keeps_trans r w w1 w2 : keeps r w w1 -> keeps r w1 w2 -> keeps r w w2.
Proof. intros (A & B & C) (A' & B' & C'). split; [|split; congruence]. intros x Hx. rewrite A', A by exact Hx. reflexivity. Qed.
Lemma is_now_same {A} (f : nat -> A) i x : is_now f i x i = x.
Proof. unfold is_now. rewrite Nat.eqb_refl. reflexivity. Qed.
Lemma is_now_other {A} (f : nat -> A) i x j : j <> i -> is_now f i x j = f j.
Proof. intros H. unfold is_now. rewrite (proj2 (Nat.eqb_neq _ _) H). reflexivity. Qed.

Lemma nth_both {A B} (l : list A) (k : list B) i y : length l = length k -> nth_error k i = Some y -> exists x, nth_error l i = Some x.
Proof.
  intros L E. destruct (nth_error l i) as [x|] eqn:X; [eauto|]. apply nth_error_None in X.
  assert (i < length k)%nat by (apply nth_error_Some; congruence). lia.
Qed.
Lemma stands_mono (Z Z' : addr -> Prop) m m' t k : (forall x, Z x -> Z' x /\ m' x = m x) ->
  (forall j, (j < 4)%nat -> m' (shift (fst t) j) = m (shift (fst t) j)) -> stands Z m t k -> stands Z' m' t k.
Proof.
  intros H C (S1 & S2 & S3 & n & fuel & S4 & i & E & R). split; [exact S1|]. split; [exact S2|]. split; [exact S3|]. exists n, fuel. split; [exact S4|]. exists i. split.
  - rewrite <- E. apply cells_ext, C.
  - apply (is_node_mono _ _ _ _ _ H _ R).
Qed.
Lemma owns_mono r u u' os : (u true <= u' true)%nat -> owns r u os -> owns r u' os.
Proof. intros L [O D]. split; [|exact D]. intros i t Ei. destruct (O i t Ei). split; [assumption|lia]. Qed.
Lemma structs_of r u os : owns r u os -> structs (map fst os) u.
Proof. intros [H _] t Ht. apply in_map_iff in Ht. destruct Ht as (x & <- & Hx). apply In_nth_error in Hx. destruct Hx as [i Hi]. apply (H i x Hi). Qed.

(** What others do, and new bytes and nodes. *)
Lemma region_ext (Z Z' : addr -> Prop) r m m' u u' os w w' : region Z r m u os w -> (forall x, Z x -> Z' x /\ m' x = m x) ->
  (forall x, who x = r -> lib x = true -> (num x < u true)%nat -> ~ Z x -> m' x = m x) -> (u true <= u' true)%nat ->
  (forall t x, In t (map fst os) -> Z x -> within t 4 x = false) ->
  (forall x, lib x = false -> who x = r -> m' x = bytes w' x /\ bytes w' x < 256) -> u' false = made_by w' r -> kept w' r = kept w r ->
  region Z' r m' u' os w'.
Proof.
  intros (R1 & R2 & R3 & R4) Hz E L Hd By Mk K. split; [exact By|]. split; [exact Mk|]. rewrite K. split; [|apply (owns_mono _ u _ _ L R4)].
  split; [apply R3|]. intros i t k Ht Hk. pose proof (proj2 R3 i t k Ht Hk) as S. apply (stands_mono Z Z' m m' t k Hz); [|exact S]. intros j Hj.
  destruct (proj1 R4 i t Ht) as [Wt Nt]. apply E; cbn [who lib num shift]; [exact Wt|apply S|lia|].
  intros Zx. assert (In (fst t) (map fst os)) as It by (apply in_map, (nth_error_In _ _ Ht)). specialize (Hd _ _ It Zx).
  apply within_not in Hd. apply Hd. cbn [who lib num shift]. repeat split; lia.
Qed.
Lemma region_same (Z Z' : addr -> Prop) r m m' u os w w' : region Z r m u os w -> (forall x, Z x -> Z' x /\ m' x = m x) ->
  (forall x, who x = r -> m' x = m x) -> keeps r w w' -> region Z' r m' u os w'.
Proof.
  intros (R1 & R2 & R3 & R4) Hz E (K1 & K2 & K3). split; [intros x Lx Wx; rewrite E, K1 by exact Wx; apply R1; assumption|]. split; [congruence|].
  rewrite K3. split; [|exact R4]. split; [apply R3|]. intros i t k Ht Hk. apply (stands_mono Z Z' m m' t k Hz); [|apply (proj2 R3 i t k Ht Hk)].
  intros j Hj. apply E. cbn [who shift]. apply (proj1 R4 i t Ht).
Qed.
(** A tree changes. *)
Lemma region_tree (Z Z' : addr -> Prop) r m m' u u' os w i c mg cs cs' : region Z r m u os w -> (forall x, Z x -> Z' x /\ m' x = m x) ->
  nth_error os i = Some (c, mg) -> nth_error (kept w r) i = Some (mg, cs) ->
  (forall x, who x = r -> within c 4 x = false -> (lib x = true -> (num x < u true)%nat) -> m' x = m x) ->
  (u true <= u' true)%nat -> u' false = u false -> stands Z' m' (c, mg) (mg, cs') ->
  region Z' r m' u' os (mkWorld (bytes w) (made_by w) (is_now (kept w) r (replaced i (mg, cs') (kept w r)))).
Proof.
  intros (R1 & R2 & R3 & R4) Hz Ei Eh E L Uf S. unfold region. cbn [bytes made_by kept]. rewrite is_now_same.
  destruct (proj1 R4 i _ Ei) as [Wc Nc]. cbn [fst] in *. assert (Lc : lib c = true) by apply S.
  split; [|split; [congruence|split; [|apply (owns_mono _ u _ _ L R4)]]].
  - intros x Lx Wx. rewrite E; [apply R1; assumption|exact Wx| |congruence]. apply within_not. intros (_ & X & _). congruence.
  - split; [rewrite replaced_length; apply R3|]. intros j t k Ht Hk. rewrite nth_replaced in Hk. destruct (Nat.eqb_spec i j) as [<-|D].
    + rewrite Ei in Ht. injection Ht as <-. rewrite Eh in Hk. injection Hk as <-. exact S.
    + apply (stands_mono Z Z' m m' t k Hz); [|apply (proj2 R3 j t k Ht Hk)]. intros b Hb.
      destruct (proj1 R4 j t Ht) as [Wt Nt]. apply E.
      * exact Wt.
      * apply within_not. cbn [who lib num shift]. pose proof (proj2 R4 i j _ _ D Ei Ht) as X. cbn [fst] in X. lia.
      * cbn [num shift]. lia.
Qed.
(** A new tree. *)
Lemma region_new (Z Z' : addr -> Prop) r m m' u os w mg cs n fuel i : region Z r m u os w -> (forall x, Z x -> Z' x /\ m' x = m x) -> Forall proper cs ->
  Net.apply_all fuel (Net.New mg) cs = Ret n -> is_node Z m (Net.root n) i -> is_over m (mkA r true (u true)) (inode_cells i) m' ->
  region Z' r m' (grow u true 4) (os ++ [(mkA r true (u true), mg)]) (mkWorld (bytes w) (made_by w) (is_now (kept w) r (kept w r ++ [(mg, cs)]))).
Proof.
  intros (R1 & R2 & R3 & R4) Hz Pc Ea Rn O. unfold region. cbn [bytes made_by kept]. rewrite is_now_same. set (c := mkA r true (u true)) in *.
  split; [|split; [exact R2|split]].
  - intros x Lx Mx. rewrite (over_out _ _ _ _ _ O); [apply R1; assumption|]. apply within_not. unfold c. cbn [lib]. intros (_ & X & _). congruence.
  - split; [rewrite !app_length; cbn [length]; f_equal; apply R3|]. intros j t k Ht Hk. apply NetGoProofs.nth_snoc in Ht. destruct Ht as [Ht|[-> ->]].
    + assert (Lj : (j < length (kept w r))%nat) by (rewrite <- (proj1 R3); apply nth_error_Some; congruence).
      rewrite nth_error_app1 in Hk by exact Lj.
      apply (stands_mono Z Z' m m' t k Hz); [|apply (proj2 R3 j t k Ht Hk)]. intros b Hb. destruct (proj1 R4 j t Ht) as [Wt Nt].
      apply (over_out _ _ _ _ _ O), within_not. unfold c. cbn [who lib num shift]. lia.
    + rewrite (proj1 R3), nth_error_app2, Nat.sub_diag in Hk by lia. injection Hk as <-.
      split; [reflexivity|]. split; [reflexivity|]. split; [exact Pc|]. exists n, fuel. split; [exact Ea|]. exists i. split.
      * rewrite <- (inode_cells_length i). apply (cells_over_all _ _ _ _ O).
      * apply (is_node_mono _ _ _ _ _ Hz _ Rn).
  - destruct R4 as [R4 D]. split.
    + intros j t Ej. rewrite grow_same. apply NetGoProofs.nth_snoc in Ej. destruct Ej as [Ej|[-> ->]]; [destruct (R4 j t Ej); split; [assumption|lia]|].
      unfold c. cbn [fst who num]. split; [reflexivity|lia].
    + intros j1 j2 t1 t2 Nj E1 E2. apply NetGoProofs.nth_snoc in E1, E2. destruct E1 as [E1|[-> ->]], E2 as [E2|[-> ->]].
      * apply (D j1 j2 t1 t2 Nj E1 E2).
      * destruct (R4 j1 t1 E1). unfold c. cbn [fst num]. lia.
      * destruct (R4 j2 t2 E2). unfold c. cbn [fst num]. lia.
      * contradiction.
Qed.

(** ** One stretch *)

Section Stretch.
(** A goroutine with or without the lock, what is finished when it begins, and the
    shared trees. *)
Context (l : hold) (id : nat) (lim : nat -> nat) (heads : nat -> list addr) (u0 : bool -> nat) (shared : list ptree).
Context (Hid : l <> Without -> id <> O) (Hsh : l <> Without -> heads 0%nat = map fst shared).
Definition more (x : addr) : Prop :=
  l <> Without /\ who x = O /\ (lib x = false \/ exists t, In t (map fst shared) /\ within t 4 x = true).
Notation here := (zone id lim heads (l = Alone) more).
Notation firm := (solid id lim heads).

(** Its Trees: those it had when it began, and new ones. *)
Definition later_heads (mine : list ptree) : Prop :=
  exists new, map fst mine = heads id ++ new /\ Forall (fun t => (lim id <= num t)%nat) new.
(** What the goroutine can see is as the world says. *)
Definition sees (m : memory) (u : bool -> nat) (mine : list ptree) (w : world) : Prop :=
  region (firm (map fst mine) u) id m u mine w /\ (l <> Without -> region (firm (map fst mine) u) 0 m u0 shared w)
  /\ (lim id <= u true)%nat /\ later_heads mine.
Definition trees_at (mine : list ptree) (h : handle) : list ptree := match h with Mine _ => mine | Ours _ => shared end.

Lemma byte_wr x : lib x = false -> open id l (who x) -> wrs here x.
Proof. intros L [W|[E W]]; [apply fresh_zone; [exact W|congruence]|]. right. split; [exact E|]. split; [congruence|]. split; [exact W|left; exact L]. Qed.
Lemma byte_rd x : lib x = false -> visible id l (who x) -> rds here x.
Proof. intros L [W|[E W]]; [apply wrs_rds, fresh_zone; [exact W|congruence]|]. right. right. split; [exact E|]. split; [exact W|left; exact L]. Qed.
Lemma changeable_usable h : changeable l h -> usable l h.
Proof. destruct h; cbn; congruence. Qed.
Lemma sees_ready m u mine w : sees m u mine w -> ready id lim (map fst mine) u.
Proof. intros ((_ & _ & _ & O) & _ & L & _). split; [exact L|apply (structs_of id), O]. Qed.
(** No node in a Tree. *)
Lemma mine_head m u mine w c : sees m u mine w -> In c (map fst mine) -> who c = id -> lib c = true ->
  loose id lim heads (l = Alone) more c /\ head id lim heads (l = Alone) more (map fst mine) c.
Proof.
  intros (_ & _ & L & new & En & Fn) Ic Wc Lc.
  assert (D : In c (heads id) \/ (lim id <= num c)%nat).
  { rewrite En in Ic. apply in_app_or in Ic. destruct Ic as [Ic|Ic]; [left; exact Ic|right; apply (proj1 (Forall_forall _ _) Fn c Ic)]. }
  assert (Lo : loose id lim heads (l = Alone) more c).
  { intros j Hj. left. cbn [who shift]. split; [exact Wc|]. intros (_ & N & H). cbn [who num shift] in *. rewrite Wc in *. destruct D as [D|D]; [|lia].
    specialize (H c D). apply within_not in H. apply H. cbn [who lib num shift]. repeat split; lia. }
  split; [exact Lo|]. split; [intros j Hj; apply wrs_rds, (Lo j Hj)|].
  intros u' x [(Lx & N & H)|(_ & _ & _ & H)]; [|apply H, Ic]. apply within_not. intros (W & _ & X). rewrite W, Wc in *. destruct D as [D|D]; [|lia].
  specialize (H c D). apply within_not in H. apply H. intuition congruence.
Qed.
Lemma shared_cell c j : l <> Without -> In c (map fst shared) -> who c = O -> lib c = true -> (j < 4)%nat -> more (shift c j).
Proof. intros E Ic Wc Lc Hj. split; [exact E|]. split; [exact Wc|]. right. exists c. split; [exact Ic|]. apply within_iff. cbn [who lib num shift]. repeat split; lia. Qed.
Lemma shared_head (mine : list ptree) c : l <> Without -> In c (map fst shared) -> who c = O -> lib c = true -> head id lim heads (l = Alone) more (map fst mine) c.
Proof.
  intros E Ic Wc Lc. split.
  - intros j Hj. right. right. apply shared_cell; assumption.
  - intros u x [(Lx & N & H)|(_ & W & _)].
    + apply within_not. intros (W & X). rewrite W, Wc, (Hsh E) in H. specialize (H c Ic). apply within_not in H. apply H. intuition congruence.
    + apply within_not. intros (X & _). apply (Hid E). congruence.
Qed.
(** The trees it may use. *)
Lemma tree_there m u mine w h k : sees m u mine w -> usable l h -> tree_of id w h = Some k ->
  exists t, (match h with Mine i => idx mine i | Ours i => idx shared i end) = Ret t /\ nth_error (trees_at mine h) (place h) = Some t
    /\ stands (firm (map fst mine) u) m t k /\ head id lim heads (l = Alone) more (map fst mine) (fst t)
    /\ (changeable l h -> loose id lim heads (l = Alone) more (fst t)).
Proof.
  intros Sv Op E. pose proof Sv as ((R1 & R2 & R3 & R4) & Rs & _). unfold tree_of in E. destruct h as [i|i]; cbn [maker place trees_at usable] in *.
  - destruct (nth_both mine _ _ _ (proj1 R3) E) as [t Et]. exists t. split; [apply HashUseProofs.idx_obj, Et|]. split; [exact Et|].
    pose proof (proj2 R3 i t k Et E) as S. split; [exact S|].
    destruct (mine_head m u mine w (fst t)) as [M1 M2]; [exact Sv|apply in_map, (nth_error_In _ _ Et)|apply (proj1 R4 i t Et)|apply S|]. auto.
  - destruct (Rs Op) as (Q1 & Q2 & Q3 & Q4).
    destruct (nth_both shared _ _ _ (proj1 Q3) E) as [t Et]. exists t. split; [apply HashUseProofs.idx_obj, Et|]. split; [exact Et|].
    pose proof (proj2 Q3 i t k Et E) as S. split; [exact S|].
    split; [apply shared_head; [exact Op|apply in_map, (nth_error_In _ _ Et)|apply (proj1 Q4 i t Et)|apply S]|].
    cbn [changeable]. intros Al j Hj. right. split; [exact Al|]. apply shared_cell; [exact Op|apply in_map, (nth_error_In _ _ Et)|apply (proj1 Q4 i t Et)|apply S|exact Hj].
Qed.
(** Trees are no nodes. *)
Lemma mine_apart m u mine w t x : sees m u mine w -> In t (map fst mine) -> firm (map fst mine) u x -> within t 4 x = false.
Proof.
  intros Sv It. pose proof Sv as ((_ & _ & R3 & R4) & _). apply in_map_iff in It. destruct It as (p & <- & Ip). pose proof Ip as Ip'.
  apply In_nth_error in Ip. destruct Ip as [i Ei]. destruct (nth_error (kept w id) i) as [k|] eqn:Ek.
  - apply (mine_head m u mine w); [exact Sv|apply in_map; exact Ip'|apply (proj1 R4 i p Ei)|apply (proj2 R3 i p k Ei Ek)].
  - apply nth_error_None in Ek. pose proof (proj1 (nth_error_Some mine i)) as X. rewrite (proj1 R3) in X. specialize (X ltac:(intros Y; pose proof (eq_trans (eq_sym Ei) Y) as Z; discriminate Z)). lia.
Qed.
Lemma shared_apart m u mine w t x : sees m u mine w -> l <> Without -> In t (map fst shared) -> firm (map fst mine) u x -> within t 4 x = false.
Proof.
  intros Sv El It. pose proof Sv as (_ & Rs & _). destruct (Rs El) as (_ & _ & R3 & R4). apply in_map_iff in It. destruct It as (p & <- & Ip). pose proof Ip as Ip'.
  apply In_nth_error in Ip. destruct Ip as [i Ei]. destruct (nth_error (kept w 0%nat) i) as [k|] eqn:Ek.
  - apply (shared_head mine); [exact El|apply in_map; exact Ip'|apply (proj1 R4 i p Ei)|apply (proj2 R3 i p k Ei Ek)].
  - apply nth_error_None in Ek. pose proof (proj1 (nth_error_Some shared i)) as X. rewrite (proj1 R3) in X. specialize (X ltac:(intros Y; pose proof (eq_trans (eq_sym Ei) Y) as Z; discriminate Z)). lia.
Qed.
(** Bytes change or are made. *)
Lemma sees_bytes m u mine w m' u' w' : sees m u mine w -> (forall y, lib y = true -> m' y = m y) -> u' true = u true ->
  (forall x, lib x = false -> visible id l (who x) -> m' x = bytes w' x /\ bytes w' x < 256) -> u' false = made_by w' id ->
  (l <> Without -> made_by w' 0%nat = made_by w 0%nat) -> kept w' = kept w -> sees m' u' mine w'.
Proof.
  intros Sv K U By Mk Mo Kp. pose proof Sv as (R & Rs & L & Lh).
  assert (Fz : forall x, firm (map fst mine) u x -> firm (map fst mine) u' x /\ m' x = m x).
  { intros x Hx. split; [apply (solid_mono _ _ _ _ u); [lia|exact Hx]|]. apply K. destruct Hx as [(Y & _)|(Y & _)]; exact Y. }
  split; [|split; [|split; [lia|exact Lh]]].
  - apply (region_ext _ _ _ _ _ _ _ _ _ _ R Fz); [intros x _ Lx _ _; apply K, Lx|lia|intros t x; apply (mine_apart _ _ _ _ _ _ Sv)| |exact Mk|rewrite Kp; reflexivity].
    intros x Lx Wx. apply By; [exact Lx|left; exact Wx].
  - intros El. pose proof (Rs El) as R0. apply (region_ext _ _ _ _ _ _ u0 _ _ _ R0 Fz); [intros x _ Lx _ _; apply K, Lx|lia| | | |rewrite Kp; reflexivity].
    + intros t x. apply (shared_apart _ _ _ _ _ _ Sv El).
    + intros x Lx Wx. apply By; [exact Lx|right; split; assumption].
    + rewrite (Mo El). apply R0.
Qed.
(** A tree changes. *)
Lemma sees_tree m u mine w h c mg cs m' u' cs' : sees m u mine w -> usable l h -> tree_of id w h = Some (mg, cs) -> nth_error (trees_at mine h) (place h) = Some (c, mg) ->
  head id lim heads (l = Alone) more (map fst mine) c -> tree_only id c m u m' u' -> stands (firm (map fst mine) u') m' (c, mg) (mg, cs') -> sees m' u' mine (extended id w h mg cs').
Proof.
  intros Sv Us E Et [_ Hc] (O & Le & Uf) S. pose proof Sv as (R & Rs & L & Lh). assert (Lc : lib c = true) by apply S.
  assert (Fz : forall x, firm (map fst mine) u x -> firm (map fst mine) u' x /\ m' x = m x).
  { intros x Hx. split; [apply (solid_mono _ _ _ _ u _ _ Le Hx)|]. apply O; [apply (Hc u x Hx)|]. intros (W & _ & K).
    destruct Hx as [(_ & F & _)|(_ & _ & F & _)]; [rewrite W in F; lia|lia]. }
  destruct h as [i|i]; unfold tree_of, extended in *; cbn [maker place trees_at usable] in *.
  - assert (Wc : who c = id) by apply (proj1 (proj2 (proj2 (proj2 R))) i _ Et). split; [|split; [|split; [lia|exact Lh]]].
    + apply (region_tree _ _ _ _ _ u u' _ _ i c mg cs cs' R Fz Et E); try assumption. intros x Wx Nx Kx. apply O; [exact Nx|]. intros (_ & X & Y). specialize (Kx X). lia.
    + intros El. apply (region_same _ _ _ m m' u0 _ w _ (Rs El) Fz).
      * intros x Wx. apply O; [apply within_not; intros (X & _); apply (Hid El); congruence|]. intros (X & _). apply (Hid El). congruence.
      * repeat split. cbn [kept]. rewrite is_now_other; [reflexivity|]. specialize (Hid El). congruence.
  - assert (Wc : who c = 0%nat) by apply (proj1 (proj2 (proj2 (proj2 (Rs Us)))) i _ Et). split; [|split; [|split; [lia|exact Lh]]].
    + pose proof R as (R1 & R2 & R3 & R4). apply (region_ext _ _ _ _ _ _ u' _ _ _ R Fz).
      * intros x Wx Lx Nx _. apply O; [apply within_not; intros (X & _); apply (Hid Us); congruence|lia].
      * exact Le.
      * intros t x. apply (mine_apart _ _ _ _ _ _ Sv).
      * intros x Lx Wx. cbn [bytes]. rewrite O; [apply R1; assumption|apply within_not; intros (_ & X & _); congruence|]. intros (_ & X & _). congruence.
      * cbn [made_by]. congruence.
      * cbn [kept]. rewrite is_now_other; [reflexivity|]. apply (Hid Us).
    + intros El. apply (region_tree _ _ _ _ _ u0 u0 _ _ i c mg cs cs' (Rs El) Fz Et E); try assumption; try lia; try reflexivity. intros x Wx Nx _. apply O; [exact Nx|].
      intros (X & _). apply (Hid El). congruence.
Qed.
Lemma solid_snoc ts u u' c x : (num c = u true)%nat -> (lim id <= u true)%nat -> who c = id -> (u true <= u' true)%nat -> firm ts u x -> firm (ts ++ [c]) u' x.
Proof.
  intros Ec Ll Wc L [H|(A & B & C & D)]; [left; exact H|]. right. split; [exact A|]. split; [exact B|]. split; [lia|]. intros t Ht.
  apply in_app_or in Ht. destruct Ht as [Ht|[<-|[]]]; [apply D, Ht|]. apply within_not. lia.
Qed.
(** A new tree. *)
Lemma sees_new m u mine w mg cs n fuel i m' : sees m u mine w -> Forall proper cs -> Net.apply_all fuel (Net.New mg) cs = Ret n ->
  is_node (firm (map fst mine) u) m (Net.root n) i -> is_over m (mkA id true (u true)) (inode_cells i) m' ->
  sees m' (grow u true 4) (mine ++ [(mkA id true (u true), mg)]) (planted id w (mg, cs)).
Proof.
  intros Sv Pc Ea Rn O. pose proof Sv as (R & Rs & L & new & En & Fn). unfold sees. rewrite map_app. cbn [map fst].
  assert (Fz : forall x, firm (map fst mine) u x -> firm (map fst mine ++ [mkA id true (u true)]) (grow u true 4) x /\ m' x = m x).
  { intros x Hx. split; [apply (solid_snoc _ u); [reflexivity|exact L|reflexivity|rewrite grow_same; lia|exact Hx]|]. apply (over_out _ _ _ _ _ O), within_not. cbn [who lib num].
    intros (X & _ & K). destruct Hx as [(_ & F & _)|(_ & _ & F & _)]; [rewrite X in F|]; lia. }
  split; [|split; [|split]].
  - apply (region_new _ _ _ _ _ _ _ _ _ _ n fuel i R Fz Pc Ea Rn O).
  - intros El. apply (region_same _ _ _ m m' u0 _ w _ (Rs El) Fz).
    + intros x Wx. apply (over_out _ _ _ _ _ O), within_not. cbn [who]. intros (X & _). apply (Hid El). congruence.
    + repeat split. cbn [kept planted]. rewrite is_now_other; [reflexivity|]. specialize (Hid El). congruence.
  - rewrite grow_same. lia.
  - exists (new ++ [mkA id true (u true)]). split; [rewrite app_assoc, <- En, map_app; reflexivity|]. apply Forall_app. split; [exact Fn|]. repeat constructor. exact L.
Qed.

(** ** Every operation *)

Lemma sees_byte m u mine w x : sees m u mine w -> lib x = false -> visible id l (who x) -> m x = bytes w x /\ bytes w x < 256.
Proof. intros (R & Rs & _) Lx [Wx|[El Wx]]; [apply R|apply (Rs El)]; assumption. Qed.
Lemma text_cells m u mine w s : sees m u mine w -> slice_visible id l w s -> cells m (base s) (slen s) = slice_text w s /\ bytes_ok (slice_text w s).
Proof.
  intros Sv (_ & Ls & Os & _). split.
  - apply map_ext. intros j. apply (sees_byte _ _ _ _ (shift (base s) j) Sv Ls Os).
  - apply Forall_forall. intros x Hx. apply in_map_iff in Hx. destruct Hx as (j & <- & _). apply (sees_byte _ _ _ _ (shift (base s) j) Sv Ls Os).
Qed.
Lemma slice_rd w s j : slice_visible id l w s -> rds here (shift (base s) j).
Proof. intros (_ & Ls & Os & _). apply byte_rd; [exact Ls|exact Os]. Qed.
Lemma read_bytes m u mine w s (Q : list N -> memory -> (bool -> nat) -> Prop) : sees m u mine w -> slice_visible id l w s -> Q (slice_text w s) m u -> stays here (bytes_at s) m u Q.
Proof.
  intros Sv Hs H. destruct (text_cells _ _ _ _ _ Sv Hs) as (E & _). unfold bytes_at. apply stays_gets; [|rewrite E; exact H].
  intros j _. apply (slice_rd w), Hs.
Qed.
Lemma over_bytes m u mine w a xs x : sees m u mine w -> bytes_ok xs -> lib x = false -> visible id l (who x) ->
  over m a xs x = NetGoSpec.overwrite (bytes w) a xs x /\ NetGoSpec.overwrite (bytes w) a xs x < 256.
Proof.
  intros Sv B Lx Ox. unfold over, NetGoSpec.overwrite. destruct (within_spec a (length xs) x) as [(_ & _ & W)|_].
  - split; [reflexivity|]. apply (proj1 (Forall_forall _ _) B). apply nth_In. lia.
  - apply (sees_byte _ _ _ _ _ Sv Lx Ox).
Qed.
Lemma sees_made m u mine w xs m' u' : sees m u mine w -> bytes_ok xs -> bytes_made id m u xs m' u' -> sees m' u' mine (enlarged id w xs).
Proof.
  intros Sv B (O & U1 & U2). pose proof Sv as ((_ & I2 & _) & _). rewrite I2 in *. apply (sees_bytes m u mine w _ _ _ Sv).
  - intros y Ly. apply (over_out _ _ _ _ _ O), within_not. cbn [lib]. intros (_ & X & _). congruence.
  - exact U1.
  - intros x Lx Mx. rewrite O. apply (over_bytes _ _ _ _ _ _ _ Sv B Lx Mx).
  - cbn [made_by enlarged]. rewrite is_now_same. exact U2.
  - intros El. cbn [made_by enlarged]. apply is_now_other. specialize (Hid El). congruence.
  - reflexivity.
Qed.
Lemma stands_more (Z Z' : addr -> Prop) m m' c mg cs x n fuel f n' : stands Z m (c, mg) (mg, cs) -> Net.apply_all fuel (Net.New mg) cs = Ret n ->
  proper x -> Net.apply f n x = Ret n' -> tree_in Z' m' c (Net.root n') -> stands Z' m' (c, mg) (mg, cs ++ [x]).
Proof.
  intros (S1 & S2 & S3 & _) Ea Px En R. cbn [fst snd] in *. split; [reflexivity|]. split; [exact S2|]. cbn [fst snd]. split; [apply Forall_app; split; [exact S3|repeat constructor; exact Px]|].
  exists n', (Nat.max fuel f). split; [|exact R]. rewrite NetUseProofs.apply_all_app. rewrite (apply_all_mono cs fuel (Nat.max fuel f) _ n) by (exact Ea || lia). cbn [bind].
  assert (F : Net.apply_all f n [x] = Ret n') by (cbn [Net.apply_all]; rewrite En; reflexivity).
  apply (apply_all_mono _ f (Nat.max fuel f)) in F; [exact F|lia].
Qed.

(** A call that changes a tree. *)
Lemma call_in m u mine w a h x (code_of : ptree -> code unit) : sees m u mine w -> may_do id l w a -> called w a = Some (h, x) ->
  do_nact shared mine a = (do t <- NetAtom.tree_at shared mine h; code_of t ;; Return (mine, PDone)) ->
  (done id w a = fun w' r => exists h mg cs c, called w a = Some (h, c) /\ tree_of id w h = Some (mg, cs) /\ w' = extended id w h mg (cs ++ [c]) /\ r = PDone) ->
  (forall c mg n, loose id lim heads (l = Alone) more c -> head id lim heads (l = Alone) more (map fst mine) c -> Net.merge n = mg -> tree_in (firm (map fst mine) u) m c (Net.root n) ->
     proper x -> exists f n', Net.apply f n x = Ret n' /\
     stays here (code_of (c, mg)) m u (fun _ m' u' => tree_only id c m u m' u' /\ tree_in (firm (map fst mine) u') m' c (Net.root n'))) ->
  stays here (do_nact shared mine a) m u (fun r m' u' => exists w', done id w a w' (snd r) /\ sees m' u' (fst r) w').
Proof.
  intros Sv (_ & Al & _) Ec -> Ee H. destruct (Al _ _ Ec) as (Px & Cs & Ex). pose proof (changeable_usable h Cs) as Us. destruct (tree_of id w h) as [[mg cs]|] eqn:Eh; [|contradiction].
  destruct (tree_there m u mine w h (mg, cs) Sv Us Eh) as ([c mg'] & Et & Em & S & Hd & Lo). specialize (Lo Cs). pose proof S as (S1 & S2 & S3 & n & fuel & S4 & S5). cbn [fst snd] in *. subst mg'.
  apply stays_then. unfold NetAtom.tree_at. apply (stays_lift _ _ _ _ _ _ Et). cbv beta.
  pose proof (NetGoProofs.merge_kept _ _ _ _ S4) as Mk. cbn [Net.New Net.merge] in Mk.
  destruct (H c mg n Lo Hd Mk S5 Px) as (f & n' & En & Sf).
  eapply stays_seq; [exact Sf|]. cbn beta. intros _ m' u' (T & R). cbn [stays fst snd].
  exists (extended id w h mg (cs ++ [x])). split.
  - rewrite Ee. exists h, mg, cs, x. auto.
  - apply (sees_tree m u mine w h c mg cs m' u' _ Sv Us Eh Em Hd T). apply (stands_more _ _ m m' c mg cs x n fuel f n' S S4 Px En R).
Qed.

Lemma act_in m u mine w a : sees m u mine w -> may_do id l w a ->
  stays here (do_nact shared mine a) m u (fun r m' u' => exists w', done id w a w' (snd r) /\ sees m' u' (fst r) w').
Proof.
  intros Sv Al. pose proof Al as (Hg & Hc & Hl). pose proof Sv as ((I1 & I2 & I3 & I4) & Rs & Hlim & _).
  pose proof (sees_ready _ _ _ _ Sv) as Rd.
  destruct a as [n c|s j v|s j|ip|x|b|mk|ip mk ip' mk'|ip mk|ip mk|mg|h|h ip v|h s e v|h ip mk v|h]; cbn [NetGoSpec.given called] in Hg, Hc.
  - (* GMake *)
    cbn [do_nact done] in *. apply stays_then, new_in; [exact Hlim|]. intros m' O. cbn [stays fst snd]. exists (enlarged id w (repeat 0 c)).
    split; [split; [reflexivity|rewrite I2; reflexivity]|].
    apply (sees_made m u mine w _ _ _ Sv (NetGoProofs.zeros_ok c)). split; [exact O|]. split; [reflexivity|]. rewrite grow_same, repeat_length. reflexivity.
  - (* GStore *)
    cbn [do_nact done] in *. destruct Hl as (Hj & Hv & Ho). rewrite (proj2 (Nat.ltb_lt _ _) Hj). apply NetGoProofs.forall_one in Hg. destruct Hg as [Hs _].
    apply stays_then, stays_set; [apply byte_wr; [apply Hs|exact Ho]|]. intros m' O. cbn [stays fst snd].
    exists (changed w (shift (base s) j) [v]). split; [split; reflexivity|]. pose proof Hs as (_ & Ls & _).
    apply (sees_bytes m u mine w _ _ _ Sv); try reflexivity.
    + intros y Ly. apply (over_out _ _ _ _ _ O), within_not. cbn [lib shift]. intros (_ & X & _). congruence.
    + intros x Lx Mx. rewrite O. apply (over_bytes _ _ _ _ _ _ _ Sv); [|exact Lx|exact Mx]. constructor; [exact Hv|constructor].
    + exact I2.
  - (* GLoad *)
    cbn [do_nact done] in *. apply NetGoProofs.forall_one in Hg. destruct Hg as [Hs _]. unfold load_at. rewrite (proj2 (Nat.ltb_lt _ _) Hl).
    apply stays_then, stays_get; [apply (slice_rd w), Hs|]. cbn [stays fst snd]. exists w. split; [|exact Sv]. split; [reflexivity|]. f_equal.
    apply (sees_byte _ _ _ _ _ Sv); apply Hs.
  - (* GToUint *)
    cbn [do_nact done] in *. apply NetGoProofs.forall_one in Hg. destruct Hg as [Hs _]. destruct (text_cells _ _ _ _ _ Sv Hs) as (_ & B).
    apply stays_then, (read_bytes _ _ mine w); [exact Sv|exact Hs|]. destruct (ToUint_total _ B) as (x & _ & Ex).
    apply stays_then, (stays_lift _ _ x); [exact Ex|]. cbn [stays fst snd]. exists w. split; [|exact Sv]. split; [reflexivity|]. exists x. split; [reflexivity|]. split.
    + intros y Hy. rewrite (ToUint_addr _ _ Hy) in Ex. congruence.
    + intros Hn. rewrite (ToUint_other _ B Hn) in Ex. congruence.
  - (* GFromUint *)
    cbn [do_nact done] in *. apply stays_then. eapply stays_mono; [apply four_bytes_in, be32_length; exact Hlim|]. cbn beta. intros s m' u' (-> & B). cbn [stays fst snd].
    unfold Net.Ipv4FromUint in B. rewrite I2. exists (enlarged id w (be32 x)). split.
    + rewrite <- be32_addr by exact Hl. split; reflexivity.
    + apply (sees_made m u mine w (be32 x) _ _ Sv (NetGoProofs.be32_ok x) B).
  - (* GMaskFrom *)
    cbn [do_nact done] in *. apply stays_then. eapply stays_mono; [apply four_bytes_in, be32_length; exact Hlim|]. cbn beta. intros s m' u' (-> & B). cbn [stays fst snd].
    rewrite I2. exists (enlarged id w (Net.MaskFromByte b)). split.
    + destruct (N.leb_spec b 32) as [L|L].
      * rewrite <- MaskFromByte_small by exact L. split; reflexivity.
      * rewrite <- (MaskFromByte_big b) by (split; assumption). split; reflexivity.
    + apply (sees_made m u mine w (Net.MaskFromByte b) _ _ Sv (NetGoProofs.be32_ok _) B).
  - (* GMaskTo *)
    cbn [do_nact done] in *. apply NetGoProofs.forall_one in Hg. destruct Hg as [Hs _]. destruct (text_cells _ _ _ _ _ Sv Hs) as (_ & B).
    apply stays_then, (read_bytes _ _ mine w); [exact Sv|exact Hs|]. cbn [stays fst snd]. exists w. split; [|exact Sv]. split; [reflexivity|].
    eexists. split; [reflexivity|]. split.
    + intros n Hn. apply MaskToByte_length; assumption.
    + intros Hn. apply MaskToByte_other; assumption.
  - (* GEqual *)
    cbn [do_nact done] in *. apply NetGoProofs.forall_one in Hg. destruct Hg as [H1 Hg]. apply NetGoProofs.forall_one in Hg. destruct Hg as [H2 Hg].
    apply NetGoProofs.forall_one in Hg. destruct Hg as [H3 Hg]. apply NetGoProofs.forall_one in Hg. destruct Hg as [H4 _].
    apply stays_then, (read_bytes _ _ mine w); [exact Sv|exact H1|]. apply stays_then, (read_bytes _ _ mine w); [exact Sv|exact H2|].
    apply stays_then, (read_bytes _ _ mine w); [exact Sv|exact H3|]. apply stays_then, (read_bytes _ _ mine w); [exact Sv|exact H4|].
    destruct (text_cells _ _ _ _ _ Sv H1) as (_ & B1). destruct (text_cells _ _ _ _ _ Sv H3) as (_ & B3).
    destruct (NetGoProofs.CidrEqual_any (mkNet (slice_text w ip) (slice_text w mk)) (mkNet (slice_text w ip') (slice_text w mk')) B1 B3) as (r & Er & Hr).
    apply stays_then, (stays_lift _ _ r); [exact Er|]. cbn [stays fst snd]. exists w. split; [|exact Sv]. split; [reflexivity|]. exists r. split; [reflexivity|exact Hr].
  - (* GFirst *)
    cbn [do_nact done stays fst snd]. exists w. auto.
  - (* GLast *)
    cbn [do_nact done] in *. apply NetGoProofs.forall_one in Hg. destruct Hg as [H1 Hg]. apply NetGoProofs.forall_one in Hg. destruct Hg as [H2 _]. destruct Hl as [L1 L2].
    destruct (text_cells _ _ _ _ _ Sv H1) as (E1 & B1). destruct (text_cells _ _ _ _ _ Sv H2) as (E2 & B2).
    set (f := fun j => N.lor (nth j (slice_text w ip) 0) (not8 (nth j (slice_text w mk) 0))).
    set (ret := mkA id false (u false)).
    assert (Cell : forall s, slice_visible id l w s -> forall m1, (forall x, within ret 4 x = false -> m1 x = m x) -> forall j, (j < slen s)%nat -> m1 (shift (base s) j) = nth j (slice_text w s) 0).
    { intros s Hs m1 K j Hj. destruct (text_cells _ _ _ _ _ Sv Hs) as (E & _). rewrite <- E, nth_cells by exact Hj. apply K, within_not. unfold ret. cbn [who lib num shift].
      destruct Hs as (Ls & _ & Os & Ns). specialize (Ns j ltac:(lia)). rewrite I2. intros (Y & _ & Z). rewrite Y in Ns. lia. }
    assert (Byte : forall j m1 (Q : unit -> memory -> (bool -> nat) -> Prop) u1, (j < 4)%nat -> (forall x, within ret 4 x = false -> m1 x = m x) ->
      (forall m2, is_over m1 (shift ret j) [f j] m2 -> Q tt m2 u1) -> stays here (last_byte ip mk ret j) m1 u1 Q).
    { intros j m1 Q u1 Hj K H. unfold last_byte, load_at. rewrite !(proj2 (Nat.ltb_lt _ _)) by lia.
      apply stays_then, stays_get; [apply (slice_rd w), H1|]. apply stays_then, stays_get; [apply (slice_rd w), H2|].
      apply stays_set; [apply fresh_zone; [reflexivity|discriminate]|]. intros m2 O2. apply H.
      unfold f. rewrite <- (Cell ip H1 m1 K j), <- (Cell mk H2 m1 K j) by lia. exact O2. }
    assert (Keep : forall j m1 m2 x, (j < 4)%nat -> is_over m1 (shift ret j) [f j] m2 -> within ret 4 x = false -> m2 x = m1 x).
    { intros j m1 m2 x Hj O Hx. apply (over_out _ _ _ _ _ O). apply within_not. apply within_not in Hx. cbn [who lib num shift length] in *. intuition lia. }
    apply stays_then. unfold LastIpv4. apply stays_then, new_in; [exact Hlim|]. fold ret. intros m0 O0.
    assert (K0 : forall x, within ret 4 x = false -> m0 x = m x) by (intros x Hx; apply (over_out _ _ _ _ _ O0); exact Hx).
    apply stays_then, (Byte 0%nat); [lia|exact K0|]. intros m1 O1.
    assert (K1 : forall x, within ret 4 x = false -> m1 x = m x) by (intros x Hx; rewrite (Keep 0%nat _ _ _ ltac:(lia) O1 Hx); apply K0, Hx).
    apply stays_then, (Byte 1%nat); [lia|exact K1|]. intros m2 O2.
    assert (K2 : forall x, within ret 4 x = false -> m2 x = m x) by (intros x Hx; rewrite (Keep 1%nat _ _ _ ltac:(lia) O2 Hx); apply K1, Hx).
    apply stays_then, (Byte 2%nat); [lia|exact K2|]. intros m3 O3.
    assert (K3 : forall x, within ret 4 x = false -> m3 x = m x) by (intros x Hx; rewrite (Keep 2%nat _ _ _ ltac:(lia) O3 Hx); apply K2, Hx).
    apply stays_then, (Byte 3%nat); [lia|exact K3|]. intros m4 O4.
    assert (K4 : forall x, within ret 4 x = false -> m4 x = m x) by (intros x Hx; rewrite (Keep 3%nat _ _ _ ltac:(lia) O4 Hx); apply K3, Hx).
    cbn [stays fst snd]. set (xs := map f [0; 1; 2; 3]%nat).
    assert (Bl : bytes_ok xs).
    { apply Forall_forall. intros x Hx. apply in_map_iff in Hx. destruct Hx as (j & <- & _). unfold f. apply NetUseProofs.lor_not8; apply WhirlpoolProofs.nth_byte; assumption. }
    assert (Bm : bytes_made id m u xs m4 (grow u false 4)).
    { split; [|split; [reflexivity|rewrite grow_same; reflexivity]]. fold ret. intros x. unfold over. change (length xs) with 4%nat. destruct (within ret 4 x) eqn:Wx; [|apply K4, Wx].
      rewrite (in_shift _ _ _ Wx) at 1. apply within_iff in Wx. destruct Wx as (_ & _ & Wx).
      assert (In_ : forall j m m', is_over m (shift ret j) [f j] m' -> m' (shift ret j) = f j) by (intros j a a' O; rewrite <- (shift_0 (shift ret j)); apply (over_in _ _ _ _ 0%nat O); cbn; lia).
      assert (Out : forall j i m m', i <> j -> is_over m (shift ret j) [f j] m' -> m' (shift ret i) = m (shift ret i)).
      { intros j i a a' D O. apply (over_out _ _ _ _ _ O), within_not. cbn [who lib num shift length]. lia. }
      assert (Cs : (num x - num ret = 0 \/ num x - num ret = 1 \/ num x - num ret = 2 \/ num x - num ret = 3)%nat) by lia.
      destruct Cs as [-> | [-> | [-> | ->]]]; unfold xs; cbn [map nth].
      - rewrite (Out 3%nat _ m3), (Out 2%nat _ m2), (Out 1%nat _ m1), (In_ 0%nat m0) by (assumption || lia). reflexivity.
      - rewrite (Out 3%nat _ m3), (Out 2%nat _ m2), (In_ 1%nat m1) by (assumption || lia). reflexivity.
      - rewrite (Out 3%nat _ m3), (In_ 2%nat m2) by (assumption || lia). reflexivity.
      - apply (In_ 3%nat m3), O4. }
    exists (enlarged id w xs). split.
    + exists xs. split; [|split].
      * unfold ret. rewrite I2. split; reflexivity.
      * apply map_ext. intros j. unfold f. f_equal. apply ChecksumProofs.not8_small. apply (WhirlpoolProofs.nth_byte _ j B2).
      * intros x p H4 Hcd. pose proof (last_exact _ _ _ Hcd) as X. unfold net_text in X. cbn [IP] in X.
        assert (Ll : length (slice_text w ip) = 4%nat) by (unfold slice_text; rewrite map_length, seq_length; exact H4).
        rewrite Ll in X. change (4 =? 4)%nat with true in X. cbv iota in X.
        assert (Lm : (4 <= length (slice_text w mk))%nat) by (unfold slice_text; rewrite map_length, seq_length; exact L2).
        unfold xs, f. destruct (slice_text w ip) as [|i0 [|i1 [|i2 [|i3 [|? ?]]]]]; try discriminate Ll.
        destruct (slice_text w mk) as [|k0 [|k1 [|k2 [|k3 lm]]]]; cbn [length] in Lm; try lia.
        unfold Net.LastIpv4, idx in X. cbn [IP Mask nth_error bind] in X. unfold NetSpec.addr in *. cbn [map nth]. congruence.
    + apply (sees_made m u mine w xs _ _ Sv Bl Bm).
  - (* GTree *)
    cbn [do_nact done]. apply stays_then. unfold New. apply stays_then, new_in; [exact Hlim|]. intros m1 O1. apply stays_then, set_inode_in; [intros j _; apply fresh_wr, Hlim|]. intros m2 O2. cbn [stays fst snd].
    exists (planted id w (mg, [])). split; [auto|].
    apply (sees_new m u mine w mg [] (Net.New mg) 0 INone m2 Sv); [constructor|reflexivity|reflexivity|]. intros x. rewrite O2. unfold over. rewrite O1. unfold over.
    rewrite repeat_length, inode_cells_length. destruct (within (mkA id true (u true)) 4 x); reflexivity.
  - (* GCopy *)
    cbn [do_nact done] in *. destruct Hl as (Us & Ex). destruct (tree_of id w h) as [[mg cs]|] eqn:Eh; [|contradiction]. destruct (tree_there m u mine w h _ Sv Us Eh) as ([c mg'] & Et & _ & S & Hd & _).
    pose proof S as (S1 & S2 & S3 & n & fuel & S4 & i & Ei & R). cbn [fst snd] in *. subst mg'.
    apply stays_then. unfold NetAtom.tree_at. apply (stays_lift _ _ _ _ _ _ Et). apply stays_then. unfold Copy. cbn [fst snd].
    apply stays_then, (get_inode_in _ _ _ _ _ _ i); [intros j Hj; apply Hd, Hj|exact Ei|]. apply stays_then, new_in; [exact Hlim|]. intros m1 O1.
    apply stays_then, set_inode_in; [intros j _; apply fresh_wr, Hlim|]. intros m2 O2. cbn [stays fst snd].
    exists (planted id w (mg, cs)). split; [exists (mg, cs); auto|].
    apply (sees_new m u mine w mg cs n fuel i m2 Sv S3 S4 R). intros x. rewrite O2. unfold over. rewrite O1. unfold over.
    rewrite repeat_length, inode_cells_length. destruct (within (mkA id true (u true)) 4 x); reflexivity.
  - (* GAddIp *)
    apply (call_in m u mine w _ h (CAddIp (slice_text w ip) v) (fun t => AddIp t ip v) Sv Al eq_refl eq_refl eq_refl).
    intros c mg n Lo Hd Em R (x & Hx). apply NetGoProofs.forall_one in Hg. destruct Hg as [Hs _].
    exists 0%nat. eexists. split; [cbn [Net.apply]; unfold Net.AddIp; rewrite (ToUint_addr _ _ Hx); reflexivity|].
    unfold AddIp. apply stays_then, (read_bytes _ _ mine w); [exact Sv|exact Hs|]. apply stays_then, (stays_lift _ _ x); [apply ToUint_addr, Hx|].
    apply add_root_in; assumption.
  - (* GAddRange *)
    apply (call_in m u mine w _ h (CAddRange (slice_text w s) (slice_text w e) v) (fun t => AddRange t s e v) Sv Al eq_refl eq_refl eq_refl).
    intros c mg n Lo Hd Em R (x & y & Hx & Hy & Ly). apply NetGoProofs.forall_one in Hg. destruct Hg as [Hs Hg]. apply NetGoProofs.forall_one in Hg. destruct Hg as [He _].
    pose proof (range_loop_ok y v Ly (N.to_nat (y + 1 - x)) (N.to_nat (y + 1 - x)) n x (le_n _) (le_n _)) as Rl.
    exists (N.to_nat (y + 1 - x)). eexists. split; [cbn [Net.apply]; unfold Net.AddRange; rewrite (ToUint_addr _ _ Hx), (ToUint_addr _ _ Hy); cbn [bind]; exact Rl|].
    unfold AddRange. apply stays_then, (read_bytes _ _ mine w); [exact Sv|exact Hs|]. apply stays_then, (stays_lift _ _ x); [apply ToUint_addr, Hx|].
    apply stays_then, (read_bytes _ _ mine w); [exact Sv|exact He|]. apply stays_then, (stays_lift _ _ y); [apply ToUint_addr, Hy|].
    apply (range_in id lim heads (l = Alone) more _ c mg y v Lo Hd _ n); assumption.
  - (* GAddCidr *)
    apply (call_in m u mine w _ h (CAddCidr (Some (net_text w ip mk)) v) (fun t => AddCidr t ip mk v) Sv Al eq_refl eq_refl eq_refl).
    intros c mg n Lo Hd Em R (x & p & Hx). apply NetGoProofs.forall_one in Hg. destruct Hg as [Hs Hg]. apply NetGoProofs.forall_one in Hg. destruct Hg as [He _].
    pose proof (proj1 Hx) as Hi. cbn [IP net_text] in Hi.
    exists 0%nat. eexists. split; [cbn [Net.apply Net.AddCidr IP Mask net_text]; rewrite (ToUint_addr _ _ Hi); reflexivity|].
    unfold AddCidr. apply stays_then, (read_bytes _ _ mine w); [exact Sv|exact Hs|]. apply stays_then, (stays_lift _ _ x); [apply ToUint_addr, Hi|].
    apply stays_then, (read_bytes _ _ mine w); [exact Sv|exact He|]. apply add_root_in; assumption.
  - (* GList *)
    cbn [do_nact done] in *. destruct Hl as (Us & Ex). destruct (tree_of id w h) as [[mg cs]|] eqn:Eh; [|contradiction]. destruct (tree_there m u mine w h _ Sv Us Eh) as ([c mg'] & Et & _ & S & Hd & _).
    pose proof S as (S1 & S2 & S3 & n & fuel & S4 & i & Ei & R). cbn [fst snd] in *. subst mg'.
    apply stays_then. unfold NetAtom.tree_at. apply (stays_lift _ _ _ _ _ _ Et). apply stays_then. unfold ListCidr. cbn [fst snd].
    apply stays_then, (get_inode_in _ _ _ _ _ _ i); [intros j Hj; apply Hd, Hj|exact Ei|].
    assert (Lv : (levels (Net.root n) < 33)%nat) by (pose proof (all_levels _ _ _ _ S4 (Nat.le_0_l _)); lia).
    eapply stays_mono; [apply (each_in id lim heads (l = Alone) more (map fst mine) 33 (Net.root n) i 0 31 m u Hlim Lv R)|].
    cbn beta. intros xs m' u' (-> & B). cbn [stays fst snd].
    destruct (NetUseProofs.tree_list mg cs fuel n S3 S4) as (Bk & L & Hh & HL & HS & HI).
    destruct (NetGoProofs.listing id L (Net.each (Net.root n) 0 31) HL) as (P1 & P2 & P3).
    exists (enlarged id w (NetGoSpec.entry_bytes L)). split.
    + exists mg, cs, Bk, L. split; [first [exact Eh|reflexivity]|]. split; [exact Hh|]. split; [exact HS|]. split; [exact HI|]. split; [reflexivity|rewrite P3, I2; reflexivity].
    + rewrite <- P1. apply (sees_made m u mine w _ _ _ Sv); [apply NetGoProofs.placed_bytes_ok|exact B].
Qed.

Lemma stretch_in g : forall m u mine w, sees m u mine w -> in_order id l w g ->
  stays here (nbehave shared mine g) m u (fun r m' u' => exists w', comes_to id w g (fst r) w' /\ sees m' u' (snd r) w').
Proof.
  induction g as [|a k IH]; intros m u mine w Sv Pf; cbn [in_order nbehave comes_to] in *.
  - cbn [stays fst snd]. exists w. auto.
  - destruct Pf as [Al Pf]. eapply stays_seq; [apply (act_in m u mine w a Sv Al)|]. cbn beta. intros [mine' r] m' u' (w1 & Ee & Sv1). cbn [fst snd] in *.
    eapply stays_seq; [apply (IH r m' u' mine' w1 Sv1 (Pf _ _ Ee))|]. cbn beta. intros [rs mine''] m'' u'' (w2 & E2 & Sv2). cbn [stays fst snd] in *.
    exists w2. split; [|exact Sv2]. exists w1, r, rs. auto.
Qed.

(** To others it changes nothing. *)
Lemma act_keeps w a w' rp r : may_do id l w a -> done id w a w' rp -> ~ open id l r -> keeps r w w'.
Proof.
  intros Al Dn Nr.
  assert (Ch : forall b xs x, who x = r -> open id l (who b) -> NetGoSpec.overwrite (bytes w) b xs x = bytes w x).
  { intros b xs x Wx Ob. unfold NetGoSpec.overwrite. destruct (within_spec b (length xs) x) as [(W & _)|_]; [|reflexivity]. congruence. }
  assert (Ne : r <> id) by (intros ->; apply Nr; left; reflexivity).
  assert (Em : forall h, changeable l h -> maker id h <> r).
  { intros [i|i] Us E; cbn [maker changeable] in *; [congruence|]. apply Nr. right. auto. }
  assert (En : forall xs, keeps r w (enlarged id w xs)).
  { intros xs. split; [|split; [|reflexivity]]; cbn [enlarged bytes made_by]; [|apply is_now_other, Ne]. intros x Wx. apply Ch; [exact Wx|left; reflexivity]. }
  assert (Pl : forall t, keeps r w (planted id w t)) by (intros t; repeat split; cbn [planted kept]; apply is_now_other, Ne).
  assert (Ca : (exists h mg cs c, called w a = Some (h, c) /\ tree_of id w h = Some (mg, cs) /\ w' = extended id w h mg (cs ++ [c]) /\ rp = PDone) -> keeps r w w').
  { intros (h & mg & cs & c & C1 & _ & -> & _). destruct Al as (_ & Al & _). destruct (Al _ _ C1) as (_ & Us & _). repeat split. cbn [extended kept].
    apply is_now_other. intros E. apply (Em h Us). congruence. }
  destruct a as [n c|s j v|s j|ip|x|b|mk|ip mk ip' mk'|ip mk|ip mk|mg|h|h ip v|h s e v|h ip mk v|h]; cbn [done] in Dn; try (apply Ca, Dn);
    try (destruct Dn as [-> _]; first [apply keeps_refl|apply En|apply Pl]).
  - destruct Dn as [-> _]. repeat split. intros x Wx. cbn [changed bytes]. apply Ch; [exact Wx|]. apply Al.
  - destruct Dn as (xs & [-> _] & _). apply En.
  - destruct Dn as (t & _ & -> & _). apply Pl.
  - destruct Dn as (mg & cs & B & L & _ & _ & _ & _ & -> & _). apply En.
Qed.
Lemma stretch_keeps g r : ~ open id l r -> forall w rs w', in_order id l w g -> comes_to id w g rs w' -> keeps r w w'.
Proof.
  intros Nr. induction g as [|a k IH]; intros w rs w' Pr; cbn [in_order comes_to] in *; [intros [_ ->]; apply keeps_refl|]. destruct Pr as [Al Pr].
  intros (w1 & rp & rs' & Dn & -> & C). apply (keeps_trans _ _ w1); [apply (act_keeps w a w1 rp r Al Dn Nr)|]. apply (IH rp w1 rs' w' (Pr _ _ Dn) C).
Qed.
End Stretch.

(** ** Goroutines with a lock *)

Lemma settled_dec lim heads x : settled lim heads x \/ ~ settled lim heads x.
Proof.
  unfold settled. destruct (lib x) eqn:E; [|right; intros [X _]; discriminate]. destruct (Nat.lt_ge_cases (num x) (lim (who x))) as [L|L]; [|right; lia].
  induction (heads (who x)) as [|t ts IH]; [left; repeat split; [exact L|intros t []]|]. destruct (within t 4 x) eqn:W.
  - right. intros (_ & _ & H). rewrite (H t) in W by (left; reflexivity). discriminate.
  - destruct IH as [(_ & _ & H)|N]; [left|right].
    + repeat split; [exact L|]. intros t' [<-|Ht]; [exact W|apply H, Ht].
    + intros (_ & _ & H). apply N. repeat split; [exact L|]. intros t' Ht. apply H. right. exact Ht.
Qed.
Lemma in_head lim heads x : lib x = true -> (num x < lim (who x))%nat -> ~ settled lim heads x -> exists t, In t (heads (who x)) /\ within t 4 x = true.
Proof.
  intros Lx Nx Ns. assert (D : (exists t, In t (heads (who x)) /\ within t 4 x = true) \/ forall t, In t (heads (who x)) -> within t 4 x = false).
  { induction (heads (who x)) as [|t ts IH]; [right; intros t []|]. destruct (within t 4 x) eqn:W; [left; exists t; split; [left; reflexivity|exact W]|].
    destruct IH as [(t' & I' & W')|H]; [left; exists t'; split; [right; exact I'|exact W']|right; intros t' [<-|Ht]; [exact W|apply H, Ht]]. }
  destruct D as [D|D]; [exact D|]. destruct Ns. repeat split; assumption.
Qed.
Lemma settled_grows (lim : nat -> nat) (heads : nat -> list addr) i n new x : (lim i <= n)%nat -> Forall (fun t => (lim i <= num t)%nat) new -> settled lim heads x ->
  settled (is_now lim i n) (is_now heads i (heads i ++ new)) x.
Proof.
  intros L F (A & B & C). split; [exact A|]. destruct (Nat.eq_dec (who x) i) as [<-|D].
  - rewrite !is_now_same. split; [lia|]. intros t Ht. apply in_app_or in Ht. destruct Ht as [Ht|Ht]; [apply C, Ht|].
    pose proof (proj1 (Forall_forall _ _) F t Ht). cbn beta in *. apply within_not. lia.
  - rewrite !is_now_other by exact D. split; assumption.
Qed.

Section System.
Context (u0 : bool -> nat) (shared : list ptree) (st : NetGoSpec.local) (ws : list nworker) (Or : orderly st ws).
Notation result := (list nreply * list ptree)%type.

(** Goroutine number [i] and a worker whose stretches happen when they begin. What
    was finished when the stretch began is so for ever. *)
Definition tracks (lim : nat -> nat) (heads : nat -> list addr) (i : nat) (m : memory) (t : runner result) (w : world) (q : nworker * list (list nreply)) : Prop :=
  match at_stage t with
  | Between tk => snd q = map fst (got t) /\ exists mine, tk = nlabour shared mine (fst q) /\ region (settled lim heads) (S i) m (taken t) mine w
      /\ lim (S i) = taken t true /\ heads (S i) = map fst mine
  | Inside l c k => exists rs lim' heads', snd q = map fst (got t) ++ [rs] /\ (forall r, fst r = rs -> k r = nlabour shared (snd r) (fst q))
      /\ (forall x, settled lim' heads' x -> settled lim heads x) /\ (lim' (S i) = lim (S i) /\ heads' (S i) = heads (S i)) /\ (lim' 0%nat = u0 true /\ heads' 0%nat = map fst shared)
      /\ stays (zone (S i) lim' heads' (l = Alone) (more l shared)) c m (taken t) (fun r m' u' => fst r = rs /\ sees l (S i) lim' heads' u0 shared m' u' (snd r) w)
  end.
Definition follows_at (lim : nat -> nat) (heads : nat -> list addr) (y : locking result) (p : shop) : Prop :=
  let '(m, ts) := y in
  length ts = length (snd p) /\ (forall i t q, nth_error ts i = Some t -> nth_error (snd p) i = Some q -> tracks lim heads i m t (fst p) q)
  /\ LockProofs.together ts /\ (unlocked ts -> region (settled lim heads) 0 m u0 shared (fst p)) /\ lim 0%nat = u0 true /\ heads 0%nat = map fst shared.
Definition follows (y : locking result) (p : shop) : Prop := exists lim heads, follows_at lim heads y p.

(** What a stretch can see matters to it, nothing else. *)
Lemma sees_alike l i lim heads m m' u mine w : (l <> Without -> lim 0%nat = u0 true /\ heads 0%nat = map fst shared) -> sees l (S i) lim heads u0 shared m u mine w ->
  alike_in (zone (S i) lim heads (l = Alone) (more l shared)) m m' -> sees l (S i) lim heads u0 shared m' u mine w.
Proof.
  intros H0 Sv A. pose proof Sv as (R & Rs & L). split; [|split; [|exact L]].
  - apply (region_same _ _ _ m m' u mine w w R); [|intros x Wx; apply A|apply keeps_refl].
    + intros x Zx. split; [exact Zx|]. apply A, (solid_may _ _ _ _ _ _ _ _ Zx).
    + destruct (settled_dec lim heads x) as [D|D]; [left; exact D|right; left; split; assumption].
  - intros El. pose proof (Rs El) as R0. pose proof R0 as (B0 & M0 & _). destruct (H0 El) as [H1 H2].
    apply (region_ext _ _ _ m m' u0 u0 shared w w R0); try reflexivity; try lia; try exact M0.
    + intros x Zx. split; [exact Zx|]. apply A, (solid_may _ _ _ _ _ _ _ _ Zx).
    + intros x Wx Lx Nx Nz. apply A. right. right. split; [exact El|]. split; [exact Wx|]. right. destruct (in_head lim heads x Lx) as (t & It & Wt).
      * rewrite Wx, H1. exact Nx.
      * intros X. apply Nz. left. exact X.
      * exists t. rewrite Wx, H2 in It. auto.
    + intros t x. apply (shared_apart l (S i) lim heads u0 shared ltac:(intros _ X; discriminate X) ltac:(intros _; exact H2) m u mine w t x Sv El).
    + intros x Lx Wx. rewrite (A x); [apply B0; assumption|]. right. right. split; [exact El|]. split; [exact Wx|left; exact Lx].
Qed.
Lemma tracks_ext lim heads j m m' t w w' q : tracks lim heads j m t w q -> (forall x, settled lim heads x -> m' x = m x) -> (forall x, who x = S j -> m' x = m x) -> keeps (S j) w w' ->
  (forall l c k, at_stage t = Inside l c k -> l <> Without -> (forall x, who x = O -> m' x = m x) /\ keeps 0 w w') -> tracks lim heads j m' t w' q.
Proof.
  unfold tracks. intros T Es E K L. destruct (at_stage t) as [tk|l c k].
  - destruct T as (T1 & mine & T2 & T3 & T4). split; [exact T1|]. exists mine. split; [exact T2|]. split; [|exact T4].
    apply (region_same _ _ _ m m' _ mine w w' T3); [|exact E|exact K]. intros x Zx. split; [exact Zx|apply Es, Zx].
  - destruct T as (rs & lim' & heads' & T1 & T2 & T3 & T4 & T5 & T6). exists rs, lim', heads'. do 5 (split; [assumption|]).
    pose proof (L l c k eq_refl) as L'.
    eapply stays_mono; [apply (stays_ext _ c _) with (m := m); [| |exact T6]|].
    + cbn beta. intros r m1 m2 u A [Er Sv]. split; [exact Er|]. apply (sees_alike l j lim' heads' m1 m2 u _ w (fun _ => T5) Sv A).
    + intros x [Hx|[[Hx _]|(Hl & Hx & _)]]; [apply Es, T3, Hx|apply E, Hx|]. apply (L' Hl). exact Hx.
    + cbn beta. intros r m1 u [Er (R & Rs & Lh)]. split; [exact Er|]. split; [|split; [|exact Lh]].
      * apply (region_same _ _ _ m1 m1 u _ w w' R); [auto|reflexivity|exact K].
      * intros El. apply (region_same _ _ _ m1 m1 u0 _ w w' (Rs El)); [auto|reflexivity|apply (L' El)].
Qed.
Lemma tracks_grow lim heads i n new j m t w q : i <> j -> (lim (S i) <= n)%nat -> Forall (fun t => (lim (S i) <= num t)%nat) new ->
  tracks lim heads j m t w q -> tracks (is_now lim (S i) n) (is_now heads (S i) (heads (S i) ++ new)) j m t w q.
Proof.
  intros D L F T. assert (D' : S j <> S i) by congruence. unfold tracks in *. destruct (at_stage t) as [tk|l c k].
  - destruct T as (T1 & mine & T2 & T3 & T4). split; [exact T1|]. exists mine. split; [exact T2|]. rewrite !is_now_other by exact D'. split; [|exact T4].
    apply (region_same _ _ _ m m _ mine w w T3); [|reflexivity|apply keeps_refl]. intros x Zx. split; [|reflexivity]. apply settled_grows; assumption.
  - destruct T as (rs & lim' & heads' & T1 & T2 & T3 & T4 & T5 & T6). exists rs, lim', heads'. rewrite !is_now_other by exact D'. do 2 (split; [assumption|]).
    split; [|split; [exact T4|split; [exact T5|exact T6]]]. intros x Zx. apply settled_grows; [exact L|exact F|apply T3, Zx].
Qed.
(** What is finished is written by nobody. *)
Lemma unsettled lim heads i lim' heads' l x : lim' (S i) = lim (S i) /\ heads' (S i) = heads (S i) -> heads 0%nat = map fst shared ->
  wrs (zone (S i) lim' heads' (l = Alone) (more l shared)) x -> ~ settled lim heads x.
Proof.
  intros [E1 E2] E0 [[W N]|(_ & _ & W & [X|(t & It & Wt)])] (A & B & C).
  - apply N. split; [exact A|]. rewrite W in *. rewrite E1, E2. split; assumption.
  - congruence.
  - rewrite W, E0 in C. rewrite (C t It) in Wt. discriminate.
Qed.

(** One step. *)
Lemma follows_step y p y' : turns (opening st ws) p -> follows y p -> steps y y' ->
  exists p', (p' = p \/ turn p p') /\ follows y' p'.
Proof.
  intros T (lim & heads & F) [i M]. destruct p as [w ps]. destruct M as [m ts t l c k Ht Et Hl|m ts t l c k m' t' Ht Et Ha|m ts t l x k Ht Et];
    destruct F as (Len & Tr & Hd & R0 & L0 & H0); cbn [fst snd] in *;
    (assert (Hq : exists q, nth_error ps i = Some q)
       by (destruct (nth_error ps i) as [q|] eqn:Eq; [eauto|]; apply nth_error_None in Eq; assert (i < length ts)%nat by (apply nth_error_Some; congruence); lia));
    destruct Hq as [q Hq]; pose proof (Tr i t q Ht Hq) as Ti; unfold tracks in Ti; rewrite Et in Ti.
  - (* a stretch begins: the worker takes its turn *)
    destruct Ti as (Sq & mine & El & Ri & Li & Hi). destruct q as [[|l' g kk] said]; cbn [fst snd nlabour] in *; [discriminate|]. injection El as <- -> ->.
    pose proof (Or w ps T i l g kk said Hq) as Pr.
    assert (Ul : l <> Without -> unlocked ts).
    { intros E j tj c k Hj Ej. apply (Hl j tj Alone c k Hj Ej). destruct l; cbn; auto. }
    assert (Sv : sees l (S i) lim heads u0 shared m (taken t) mine w).
    { split; [|split; [|split; [lia|exists []; rewrite app_nil_r, Hi; split; [reflexivity|constructor]]]].
      - apply (region_same _ _ _ m m _ mine w w Ri); [|reflexivity|apply keeps_refl]. intros x Zx. split; [left; exact Zx|reflexivity].
      - intros E. apply (region_same _ _ _ m m _ shared w w (R0 (Ul E))); [|reflexivity|apply keeps_refl]. intros x Zx. split; [left; exact Zx|reflexivity]. }
    pose proof (stretch_in l (S i) lim heads u0 shared ltac:(intros _ X; discriminate X) (fun _ => H0) g m (taken t) mine w Sv Pr) as St.
    destruct (stays_alone _ _ _ _ _ St) as (r0 & m0 & u1 & _ & (w' & C0 & _) & _). set (rs := fst r0) in *.
    exists (w', replaced i (kk rs, said ++ [rs]) ps).
    split; [right; apply (Turn w ps i l g kk said rs w' Hq C0)|].
    assert (K0 : l <> Alone -> keeps 0 w w').
    { intros E. apply (stretch_keeps l (S i) g 0) with (rs := rs); [|exact Pr|exact C0]. intros [X|[X _]]; [discriminate|congruence]. }
    exists lim, heads. unfold follows_at. cbn [fst snd]. split; [rewrite !replaced_length; exact Len|]. split; [|split; [|split; [|split; assumption]]].
    + intros j tj q Hj Hqj. rewrite nth_replaced in Hj. rewrite nth_replaced in Hqj. destruct (Nat.eqb_spec i j) as [<-|N].
      * rewrite Ht in Hj. rewrite Hq in Hqj. injection Hj as <-. injection Hqj as <-. unfold tracks. cbn [at_stage taken got fst snd].
        exists rs, lim, heads. split; [rewrite Sq; reflexivity|]. split; [intros r ->; reflexivity|]. split; [auto|]. split; [auto|]. split; [auto|].
        eapply stays_mono; [exact St|]. cbn beta. intros r m1 u2 (w1 & C1 & Sv1). destruct (comes_fun _ _ _ _ _ _ _ C0 C1) as [-> ->]. split; [reflexivity|exact Sv1].
      * apply (tracks_ext lim heads j m m tj w); [apply (Tr j tj q Hj Hqj)|reflexivity|reflexivity| |].
        -- apply (stretch_keeps l (S i) g (S j)) with (rs := rs); [|exact Pr|exact C0]. intros [X|[_ X]]; [injection X as X; congruence|discriminate].
        -- intros lj c k Ej Nj. split; [reflexivity|]. apply K0. intros ->. apply Nj, LockProofs.alone_excludes, (Hl j tj lj c k Hj Ej).
    + apply (LockProofs.together_replaced ts i t); [exact Hd|exact Ht|]. intros l' c' k' E j tj lj cj kj _ Hj Ej. injection E as <- _ _. apply (Hl j tj lj cj kj Hj Ej).
    + intros U. destruct l; [destruct (LockProofs.unlocked_not _ _ _ _ _ _ _ Ht U)| |];
        (apply (region_same (settled lim heads) _ 0 m m u0 shared w); [|auto|reflexivity|apply K0; discriminate]);
        apply R0; (apply (LockProofs.unlocked_replaced _ _ _ _ _ _ U Ht); rewrite Et; discriminate).
  - (* a memory access *)
    destruct Ti as (rs & lim' & heads' & Sq & Kk & Sub & Eq & E0 & Sf). exists (w, ps). split; [left; reflexivity|].
    destruct (stays_advance (zone (S i) lim' heads' (l = Alone) (more l shared)) c m (taken t) _ m' t' Sf Ha) as [Sf' O].
    assert (O0 : l <> Alone -> forall x, who x = 0%nat -> m' x = m x).
    { intros E x Hx. apply O. intros [[X _]|(X & _)]; congruence. }
    assert (Os : forall x, settled lim heads x -> m' x = m x).
    { intros x Hx. apply O. intros X. apply (unsettled lim heads i lim' heads' l x Eq H0 X Hx). }
    exists lim, heads. unfold follows_at. cbn [fst snd]. split; [rewrite !replaced_length; exact Len|]. split; [|split; [|split; [|split; assumption]]].
    + intros j tj qj Hj Hqj. rewrite nth_replaced in Hj. destruct (Nat.eqb_spec i j) as [<-|N].
      * rewrite Ht in Hj. rewrite Hq in Hqj. injection Hj as <-. injection Hqj as <-. unfold tracks. cbn [at_stage taken got].
        exists rs, lim', heads'. do 5 (split; [assumption|]). exact Sf'.
      * apply (tracks_ext lim heads j m m' tj w); [apply (Tr j tj qj Hj Hqj)|exact Os| |apply keeps_refl|].
        -- intros x Hx. apply O. intros [[X _]|(_ & _ & X & _)]; congruence.
        -- intros lj c' k' Ej Nj. split; [|apply keeps_refl]. apply O0. intros ->. apply Nj, LockProofs.alone_excludes, (Hd i j t tj Alone c k lj c' k' N Ht Et Hj Ej).
    + apply (LockProofs.together_replaced ts i t); [exact Hd|exact Ht|]. intros l' c' k' E j tj lj cj kj N Hj Ej. injection E as <- _ _.
      apply (Hd i j t tj l c k lj cj kj (not_eq_sym N) Ht Et Hj Ej).
    + intros U. destruct l; [destruct (LockProofs.unlocked_not _ _ _ _ _ _ _ Ht U)| |];
        (apply (region_same (settled lim heads) _ 0 m m' u0 shared w); [|intros x Zx; split; [exact Zx|apply Os, Zx]|apply O0; discriminate|apply keeps_refl]);
        apply R0; (apply (LockProofs.unlocked_replaced _ _ _ _ _ _ U Ht); rewrite Et; discriminate).
  - (* a stretch ends *)
    destruct Ti as (rs & lim' & heads' & Sq & Kk & Sub & [Eq1 Eq2] & E0 & Sf). cbn [stays] in Sf. destruct Sf as [Er (Ri & Rs & Ll & new & En & Fn)]. exists (w, ps). split; [left; reflexivity|].
    rewrite Eq1 in Ll, Fn. rewrite Eq2 in En. exists (is_now lim (S i) (taken t true)), (is_now heads (S i) (heads (S i) ++ new)).
    assert (Gr : forall y, solid (S i) lim' heads' (map fst (snd x)) (taken t) y -> settled (is_now lim (S i) (taken t true)) (is_now heads (S i) (heads (S i) ++ new)) y).
    { intros y [Y|(Y1 & Y2 & Y3 & Y4)]; [apply settled_grows; [exact Ll|exact Fn|apply Sub, Y]|]. split; [exact Y1|]. rewrite Y2, !is_now_same, <- En. split; [lia|exact Y4]. }
    unfold follows_at. cbn [fst snd]. split; [rewrite !replaced_length; exact Len|]. split; [|split; [|split; [|rewrite !is_now_other by discriminate; split; assumption]]].
    + intros j tj qj Hj Hqj. rewrite nth_replaced in Hj. destruct (Nat.eqb_spec i j) as [<-|N]; [|apply tracks_grow; try assumption; apply (Tr j tj qj Hj Hqj)].
      rewrite Ht in Hj. rewrite Hq in Hqj. injection Hj as <-. injection Hqj as <-. unfold tracks. cbn [at_stage taken got].
      split; [rewrite map_app; cbn [map]; rewrite Er; exact Sq|]. exists (snd x). split; [apply Kk, Er|]. rewrite !is_now_same. split; [|split; [reflexivity|symmetry; exact En]].
      apply (region_same _ _ _ m m _ (snd x) w w Ri); [|reflexivity|apply keeps_refl]. intros y Zy. split; [apply Gr, Zy|reflexivity].
    + apply (LockProofs.together_replaced ts i t); [exact Hd|exact Ht|]. discriminate.
    + assert (Up : forall Z, region Z 0 m u0 shared w -> (forall y, Z y -> settled (is_now lim (S i) (taken t true)) (is_now heads (S i) (heads (S i) ++ new)) y) ->
        region (settled (is_now lim (S i) (taken t true)) (is_now heads (S i) (heads (S i) ++ new))) 0 m u0 shared w).
      { intros Z R H. apply (region_same _ _ _ m m _ shared w w R); [|reflexivity|apply keeps_refl]. intros y Zy. split; [apply H, Zy|reflexivity]. }
      intros U. destruct l; [apply (Up _ (Rs ltac:(discriminate)) Gr)| |];
        (apply (Up (settled lim heads)); [apply R0, (LockProofs.unlocked_replaced _ _ _ _ _ _ U Ht); rewrite Et; discriminate|]);
        intros y Zy; apply settled_grows; assumption.
Qed.
Lemma turns_trans p p1 p2 : turns p p1 -> turns p1 p2 -> turns p p2.
Proof. intros A B. revert A. induction B as [|p1 p2 p3 _ IH T]; intros A; [exact A|]. apply (A_turn _ p2); [apply IH, A|exact T]. Qed.
Lemma follows_leads y y' : leads y y' -> forall p, turns (opening st ws) p -> follows y p -> exists p', turns p p' /\ follows y' p'.
Proof.
  induction 1 as [y|y y1 y2 _ IH M]; intros p T F; [exists p; split; [constructor|exact F]|].
  destruct (IH p T F) as (p1 & T1 & F1). destruct (follows_step y1 p1 y2 (turns_trans _ _ _ T T1) F1 M) as (p2 & [->|T2] & F2); [exists p1; auto|].
  exists p2. split; [|exact F2]. apply (A_turn _ p1); assumption.
Qed.

(** ** What follows *)

Lemma follows_worker lim heads y p i t : follows_at lim heads y p -> nth_error (snd y) i = Some t -> exists q, nth_error (snd p) i = Some q /\ tracks lim heads i (fst y) t (fst p) q.
Proof.
  destruct y as [m ts]. intros (Len & Tr & _) Ht. cbn [fst snd] in *. destruct (nth_error (snd p) i) as [q|] eqn:Eq.
  - exists q. split; [reflexivity|]. apply (Tr i t q Ht Eq).
  - apply nth_error_None in Eq. assert (i < length ts)%nat by (apply nth_error_Some; congruence). lia.
Qed.
Lemma follows_no_conflict y p : follows y p -> ~ conflict y.
Proof.
  intros (lim & heads & F) (i & j & ti & tj & li & ci & ki & lj & cj & kj & a & N & Hi & Ei & Hj & Ej & Wi & X).
  destruct (follows_worker _ _ _ _ _ _ F Hi) as (qi & _ & Ti). destruct (follows_worker _ _ _ _ _ _ F Hj) as (qj & _ & Tj).
  unfold tracks in Ti, Tj. rewrite Ei in Ti. rewrite Ej in Tj.
  destruct Ti as (rsi & lim1 & heads1 & _ & _ & Sub1 & Eq1 & _ & S1), Tj as (rsj & lim2 & heads2 & _ & _ & Sub2 & Eq2 & _ & S2).
  assert (Oi : wrs (zone (S i) lim1 heads1 (li = Alone) (more li shared)) a) by (apply (stays_writes _ _ _ _ _ _ _ S1 eq_refl Wi)).
  assert (Oj : rds (zone (S j) lim2 heads2 (lj = Alone) (more lj shared)) a).
  { destruct X as [X|X]; [apply (stays_reads _ _ _ _ _ _ _ S2 X)|apply wrs_rds, (stays_writes _ _ _ _ _ _ _ S2 eq_refl X)]. }
  destruct y as [m ts]. destruct F as (_ & _ & Hd & _ & _ & H0). cbn [snd] in *.
  destruct Oj as [Oj|[[Oj _]|(Nj & Oj & _)]]; [apply (unsettled lim heads i lim1 heads1 li a Eq1 H0 Oi), Sub2, Oj| |]; destruct Oi as [[Oi _]|(-> & _ & Oi & _)]; try congruence.
  apply Nj, LockProofs.alone_excludes, (Hd i j ti tj Alone ci ki lj cj kj N Hi Ei Hj Ej).
Qed.
Lemma follows_no_crash y p i t l c k : follows y p -> nth_error (snd y) i = Some t -> at_stage t = Inside l c k -> c <> Crash.
Proof.
  intros (lim & heads & F) Ht Et. destruct (follows_worker _ _ _ _ _ _ F Ht) as (q & _ & T). unfold tracks in T. rewrite Et in T. destruct T as (rs & lim' & heads' & _ & _ & _ & _ & _ & Sf).
  intros ->. exact Sf.
Qed.
Lemma inside_goes y p i t l c k : follows y p -> nth_error (snd y) i = Some t -> at_stage t = Inside l c k -> exists y', goes i y y'.
Proof.
  intros F Ht Et. pose proof (follows_no_crash y p i t l c k F Ht Et) as NC. destruct y as [m ts]. cbn [snd] in *.
  destruct (advance (S i) m (mkT c (taken t))) as [[m' t']|] eqn:Ea; [eexists; eapply Accesses; eassumption|].
  unfold advance in Ea. destruct c as [x| |a f|a v f|b n f]; cbn [todo] in Ea; try discriminate; [eexists; eapply Finishes; eassumption|contradiction].
Qed.
Lemma follows_goes_on y p : follows y p -> unhindered y.
Proof.
  intros F i t Ht. destruct (at_stage t) as [[|l c k]|l c k] eqn:Et; [left; reflexivity| |right; left; apply (inside_goes y p i t l c k F Ht Et)].
  right. destruct (LockProofs.search (fun tj : runner result => exists lj cj kj, at_stage tj = Inside lj cj kj /\ excludes l lj)) with (l := snd y) as [(j & tj & Hj & lj & cj & kj & Ej & X)|No].
  - intros tj. destruct (at_stage tj) as [tk|lj cj kj]; [right; intros (lj & cj & kj & X & _); discriminate X|].
    assert (D : excludes l lj \/ ~ excludes l lj) by (destruct l, lj; cbn; auto).
    destruct D as [D|D]; [left; exists lj, cj, kj; auto|right; intros (l' & c' & k' & E & X); injection E as <- _ _; contradiction].
  - right. exists l, c, k, j, tj, lj, cj, kj. repeat (split; [auto|]). apply (inside_goes y p j tj lj cj kj F Hj Ej).
  - left. destruct y as [m ts]. cbn [snd] in *. eexists. eapply Begins; [exact Ht|exact Et|]. intros j tj lj cj kj Hj Ej X. apply (No j tj Hj). exists lj, cj, kj. auto.
Qed.
End System.

(** At the start. *)
Lemma follows_opened ts m u st ws : NetGoProofs.Inv 0 [] [] m u st ts -> (forall a, who a <> 0%nat -> m a = 0) ->
  follows u ts (nopened ts m ws) (opening st ws).
Proof.
  intros (I1 & I2 & I3 & I4 & _) Z. exists (fun i => if Nat.eqb i 0 then u true else O), (fun i => if Nat.eqb i 0 then map fst ts else []).
  unfold follows_at, nopened, opening. cbn [fst snd Nat.eqb]. split; [rewrite !map_length; reflexivity|]. split; [|split; [|split; [|split; reflexivity]]].
  - intros i t q Ht Hq. rewrite nth_error_map in Ht. rewrite nth_error_map in Hq. destruct (nth_error ws i) as [w|]; [|discriminate]. injection Ht as <-. injection Hq as <-.
    unfold tracks. cbn [at_stage got taken fst snd map]. split; [reflexivity|]. exists []. split; [reflexivity|]. split; [|split; reflexivity].
    split; [|split; [reflexivity|split]].
    + intros x _ Wx. cbn [bytes NetGoSpec.text NetGoSpec.found]. rewrite Wx. cbn [Nat.eqb]. rewrite (Z x) by congruence. split; reflexivity.
    + split; [reflexivity|]. intros j k c E. destruct j; discriminate E.
    + split; [intros j k E; destruct j; discriminate E|]. intros j j' k c _ E. destruct j; discriminate E.
  - intros i j ti tj li ci ki lj cj kj _ Ht Et _ _. rewrite nth_error_map in Ht. destruct (nth_error ws i); [|discriminate]. injection Ht as <-. discriminate Et.
  - intros _. split; [|split; [exact I2|split; [|exact I4]]].
    + intros x Lx Wx. cbn [bytes NetGoSpec.text NetGoSpec.found]. rewrite Wx. cbn [Nat.eqb]. apply I1; [exact Lx|left; exact Wx].
    + destruct I3 as [L H]. split; [exact L|]. intros j t k Ht Hk. destruct (H j t k Ht Hk) as (S1 & S2 & S3 & n & fuel & S4 & x & Ex & R).
      split; [exact S1|]. split; [exact S2|]. split; [exact S3|]. exists n, fuel. split; [exact S4|]. exists x. split; [exact Ex|].
      refine (is_node_mono _ _ _ _ _ _ _ R). intros y (Ly & [(_ & X)|(Wy & Ny & Hy)]); [contradiction|]. split; [|reflexivity].
      split; [exact Ly|]. rewrite Wy. cbn [Nat.eqb]. split; assumption.
Qed.

(** The first goroutine goes on when nobody holds the lock. *)
Lemma follows_after ts u m rs p g : unlocked rs -> follows u ts (m, rs) p -> in_order 0 Without (fst p) g ->
  exists rp ts' m' u' w', alone 0 (nbehave [] ts g) m u = Some ((rp, ts'), m', u') /\ comes_to 0 (fst p) g rp w'
    /\ forall a, lib a = false -> who a = O -> m' a = bytes w' a.
Proof.
  intros U (lim & heads & _ & _ & _ & R & L0 & H0) Pr. specialize (R U).
  assert (Sv : sees Without 0 lim heads u [] m u ts (fst p)).
  { split; [|split; [contradiction|split; [lia|exists []; rewrite app_nil_r, H0; split; [reflexivity|constructor]]]].
    apply (region_same _ _ _ m m _ ts _ _ R); [|reflexivity|apply keeps_refl]. intros x Zx. split; [left; exact Zx|reflexivity]. }
  destruct (stays_alone _ _ _ _ _ (stretch_in Without 0 lim heads u [] ltac:(contradiction) ltac:(contradiction) g m u ts (fst p) Sv Pr)) as ([rp ts'] & m' & u' & E & (w' & C & Sv') & _).
  cbn [fst snd] in *. exists rp, ts', m', u', w'. split; [exact E|]. split; [exact C|]. intros a La Wa. destruct Sv' as ((B & _) & _). apply B; assumption.
Qed.
