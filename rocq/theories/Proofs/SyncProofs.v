(** Calls of goroutines that synchronise well happen at once: each when it
    returns. Until then it works on what it alters, and on new memory, which
    nobody else looks at. *)
From Coq Require Import Sorted.
From Verif Require Import Base.Go Base.GoNet Base.NetApi Spec.NetSpec Proofs.NetBasic Proofs.NetProofs Proofs.NetMore Proofs.NetRange.
From Verif Require Import Base.HashUse Base.Goroutine Base.Sync Spec.HashUseSpec Spec.SyncSpec Model.HashAtom Model.SyncAtom.
From Verif Require Import Proofs.Util Proofs.BytesProofs Proofs.GoroutineProofs Proofs.HashAtomProofs Proofs.GoUseProofs Proofs.AreaProofs Proofs.HashAreaProofs Proofs.HashAreaUse.
From Verif Require Model.Net Model.NetAtom Model.Hex Model.HexAtom Proofs.HexProofs Proofs.CodegenProofs Proofs.HexAtomProofs Proofs.LibUseProofs Proofs.HexAreaProofs Proofs.ChecksumProofs Proofs.NetAtomProofs Proofs.NetAreaNodes Proofs.NetGoProofs Proofs.NetUseProofs Proofs.NetLockProofs.
Local Open Scope N_scope.

(** ** What a call may reach *)

(** How many cells a hash or a Tree takes. *)
Definition osize (o : item) : nat := match o with AHash k _ => size_of k | ATree _ _ => 4 end.
(** Cells that are finished: the nodes of trees are there. *)
Definition settled (b : nat -> bool -> nat) (w : world) (x : addr) : Prop :=
  lib x = true /\ (num x < b (who x) true)%nat /\ forall h o, objects w h = Some o -> within h (osize o) x = false.
Definition tree_stands (Z : addr -> Prop) (m : memory) (a : addr) (mg : N -> N -> N) (cs : list (tree_call N)) : Prop :=
  Forall NetSpec.proper cs /\ exists n fuel, Net.apply_all fuel (Net.New mg) cs = Ret n /\ NetAreaNodes.tree_in Z m a (Net.root n).
Definition stands_in (Z : addr -> Prop) (m : memory) (a : addr) (o : item) : Prop :=
  match o with AHash k ws => stands k m a ws | ATree mg cs => tree_stands Z m a mg cs end.
Definition content_ok (o : item) : Prop := match o with AHash _ ws => Forall bytes_ok ws | ATree _ _ => True end.

Definition new_of (i : nat) (u : bool -> nat) (x : addr) : Prop := who x = i /\ (u (lib x) <= num x)%nat.
Definition cell_of (w : world) (h x : addr) : Prop := exists o, objects w h = Some o /\ within h (osize o) x = true.
Definition covered (w : world) (P : thing -> Prop) (x : addr) : Prop :=
  (lib x = true /\ exists h, P (TheObject h) /\ cell_of w h x) \/ (lib x = false /\ P (TheByte x)).
Definition walks (c : ask) : bool :=
  match c with Copy_tree _ | Add_ip _ _ _ | Add_range _ _ _ _ | Add_cidr _ _ _ _ | List_tree _ => true | _ => false end.
Definition wr_of (i : nat) (b : nat -> bool -> nat) (w : world) (c : ask) (x : addr) : Prop := new_of i (b i) x \/ covered w (alters w c) x.
Definition rd_of (i : nat) (b : nat -> bool -> nat) (w : world) (c : ask) (x : addr) : Prop :=
  wr_of i b w c x \/ covered w (looks w c) x \/ (walks c = true /\ settled b w x).
Definition area_of (i : nat) (b : nat -> bool -> nat) (w : world) (c : ask) : area := mkArea i (rd_of i b w c) (wr_of i b w c) (fun _ H => or_introl H).
(** Nodes, where [u] is how far the call has got. *)
Definition nodes_by (i : nat) (b : nat -> bool -> nat) (w : world) (u : bool -> nat) (x : addr) : Prop :=
  settled b w x \/ (lib x = true /\ who x = i /\ (b i true <= num x < u true)%nat).

(** What holds when it has returned. *)
Definition result_of (i : nat) (b : nat -> bool -> nat) (w : world) (c : ask) (r : got) (m' : memory) (u' : bool -> nat) : Prop :=
  let u := b i in
  match c with
  | New_hash k => r = GotHash (mkH k (fresh_at i u)) /\ u' = grow u true (size_of k) /\ stands k m' (fresh_at i u) []
  | Write_to h p => r = GotCount (slen p) /\ u' = u
      /\ forall ws, objects w (hptr h) = Some (AHash (hkind h) ws) -> stands (hkind h) m' (hptr h) (ws ++ [slice_text w p])
  | Sum_of h inp room =>
      (u true <= u' true)%nat /\
      let d := digest_at w (hptr h) in let n := (slen inp + length d)%nat in
      if fits w (hptr h) inp then
        r = GotSlice (mkS (base inp) n (scap inp)) /\ u' false = u false /\ cells m' (shift (base inp) (slen inp)) (length d) = d
      else
        r = GotSlice (mkS (mkA i false (u false)) n (n + room)) /\ u' false = (u false + (n + room))%nat
        /\ cells m' (mkA i false (u false)) (n + room) = slice_text w inp ++ d ++ repeat 0 room
  | Reset_of h => r = GotNothing /\ u' = u /\ stands (hkind h) m' (hptr h) []
  | Make_bytes n c => r = GotSlice (mkS (mkA i false (u false)) n c) /\ u' = grow u false c /\ cells m' (mkA i false (u false)) c = repeat 0 c
  | Store_byte s j v => r = GotNothing /\ u' = u /\ m' (shift (base s) j) = v
  | Load_byte s j => r = GotByte (bytes w (shift (base s) j)) /\ u' = u
  | New_tree mg => r = GotTree (mkTr (fresh_at i u) mg) /\ u' = grow u true 4 /\ tree_stands (settled b w) m' (fresh_at i u) mg []
  | Copy_tree t => r = GotTree (mkTr (fresh_at i u) (tmerge t)) /\ u' = grow u true 4
      /\ forall cs, objects w (tptr t) = Some (ATree (tmerge t) cs) -> tree_stands (settled b w) m' (fresh_at i u) (tmerge t) cs
  | Add_ip _ _ _ | Add_range _ _ _ _ | Add_cidr _ _ _ _ =>
      match called w c with
      | Some (t, x) => r = GotNothing /\ (u true <= u' true)%nat /\ u' false = u false
          /\ forall cs, objects w (tptr t) = Some (ATree (tmerge t) cs) -> tree_stands (nodes_by i b w u') m' (tptr t) (tmerge t) (cs ++ [x])
      | None => False
      end
  | List_tree t => exists cs B L, objects w (tptr t) = Some (ATree (tmerge t) cs)
      /\ NetSpec.history (tmerge t) NetSpec.no_blocks cs B
      /\ StronglySorted (fun x y => let '(y1, p, _) := x in let '(y2, _, _) := y in y1 + NetSpec.size p <= y2) L
      /\ (forall y p z, In (y, p, z) L <-> B y p = Some z)
      /\ r = GotList (NetGoSpec.entries i (u false) L) /\ u' true = u true /\ u' false = (u false + length (NetGoSpec.entry_bytes L))%nat
      /\ cells m' (mkA i false (u false)) (length (NetGoSpec.entry_bytes L)) = NetGoSpec.entry_bytes L
      /\ bytes_ok (NetGoSpec.entry_bytes L)
  | Ip_to _ | Mask_to _ | Nets_equal _ _ _ _ | First_of _ _ => answer w c r /\ u' = u
  | Text_of _ _ => answer w c r /\ (u true <= u' true)%nat /\ u' false = u false
  | Bytes_of _ fast t => r = read_reply fast t (mkS (mkA i false (u false)) (length t / 2) (length t / 2))
      /\ u' true = u true /\ u' false = (u false + length (read_bytes t))%nat /\ cells m' (mkA i false (u false)) (length (read_bytes t)) = read_bytes t
      /\ bytes_ok (read_bytes t)
  | Ip_from _ | Mask_from _ | Last_of _ _ => exists xs, makes w c xs /\ bytes_ok xs /\ r = GotSlice (mkS (mkA i false (u false)) (length xs) (length xs))
      /\ u' true = u true /\ u' false = (u false + length xs)%nat /\ cells m' (mkA i false (u false)) (length xs) = xs
  | Zero_bytes _ | Xor_bytes _ _ => exists a xs, overwrites w c = Some (a, xs, r) /\ u' = u /\ cells m' a (length xs) = xs
  end.

Lemma in_slice_within s i n x : in_slice s i n (TheByte x) <-> within (shift (base s) i) n x = true.
Proof.
  split.
  - intros (j & Hj & E). injection E as ->. apply within_iff. cbn [who lib num shift]. repeat split; lia.
  - intros H. pose proof (in_shift _ _ _ H) as E. rewrite shift_shift in E. apply within_iff in H. cbn [num shift] in *.
    exists (i + (num x - (num (base s) + i)))%nat. split; [lia|]. f_equal. exact E.
Qed.
Lemma in_slice_hash s i n h : ~ in_slice s i n (TheObject h).
Proof. intros (j & _ & E). discriminate. Qed.
Lemma wider {A} (p q : area) (c : code A) : me p = me q -> (forall x, rds p x -> rds q x) -> (forall x, wrs p x -> wrs q x) ->
  forall m u Q, stays p c m u Q -> stays q c m u Q.
Proof.
  intros Em Hr Hw. induction c as [x| |a k IH|a v k IH|l n k IH]; cbn [stays]; intros m u Q St; try assumption.
  - split; [apply Hr, St|apply IH, St].
  - split; [apply Hw, St|apply IH, St].
  - rewrite <- Em. split; [intros j Hj; apply Hw, St, Hj|apply IH, St].
Qed.
Lemma size_pos o : (1 <= osize o)%nat.
Proof. apply Nat.leb_le. destruct o as [k|mg cs]; [destruct k|]; reflexivity. Qed.
Lemma tree_stands_mono (Z Z' : addr -> Prop) m m' a mg cs : (forall x, Z x -> Z' x /\ m' x = m x) -> (forall j, (j < 4)%nat -> m' (shift a j) = m (shift a j)) ->
  tree_stands Z m a mg cs -> tree_stands Z' m' a mg cs.
Proof.
  intros Hz Ha (P & n & fuel & E & i & Ei & R). split; [exact P|]. exists n, fuel. split; [exact E|]. exists i. split.
  - rewrite <- Ei. apply cells_ext. exact Ha.
  - apply (NetAtomProofs.is_node_mono Z Z' m m'); [exact Hz|exact R].
Qed.
Lemma stands_in_mono (Z Z' : addr -> Prop) m m' a o : (forall x, Z x -> Z' x /\ m' x = m x) -> (forall j, (j < osize o)%nat -> m' (shift a j) = m (shift a j)) ->
  stands_in Z m a o -> stands_in Z' m' a o.
Proof. intros Hz Ha. destruct o as [k ws|mg cs]; [apply stands_same; exact Ha|apply tree_stands_mono; assumption]. Qed.

(** What is looked at or altered is there. *)
Lemma things_there w c t : proper w c -> looks w c t \/ alters w c t ->
  match t with TheObject h => objects w h <> None | TheByte x => lib x = false /\ (num x < made_by w (who x))%nat end.
Proof.
  assert (Sl : forall s i n t, slice_there w s -> (i + n <= scap s)%nat -> in_slice s i n t ->
    match t with TheObject h => objects w h <> None | TheByte x => lib x = false /\ (num x < made_by w (who x))%nat end).
  { intros s i n t0 (_ & Ls & Hs) L (j & Hj & ->). cbn [lib who num shift]. split; [exact Ls|]. apply Hs. lia. }
  intros P H. destruct c as [k|h p|h inp room|h|n c|s j v|s j|mg|t0|t0 ip v|t0 a e v|t0 ip mk v|t0|ux|sx|mb|sm|a1 b1 a2 b2|a1 b1|a1 b1|fx sx0|tn fs tx|zs|xd xo]; cbn [proper looks alters] in *.
  - destruct H as [[]|[]].
  - destruct P as (Sp & ws & E & _). destruct H as [H| ->]; [|congruence]. apply (Sl p 0%nat (slen p)); [exact Sp|apply Sp|exact H].
  - destruct P as (Sp & ws & E). destruct H as [[-> |[_ H]]|[F H]]; [congruence| |].
    + apply (Sl inp 0%nat (slen inp)); [exact Sp|apply Sp|exact H].
    + apply (Sl inp (slen inp) (length (digest_at w (hptr h)))); [exact Sp|apply Nat.leb_le, F|exact H].
  - destruct P as (ws & E). destruct H as [[]| ->]. congruence.
  - destruct H as [[]|[]].
  - destruct P as (Sp & Hj & _). destruct H as [[]| ->]. destruct Sp as (L & Ls & Hs). cbn [lib who num shift]. split; [exact Ls|]. apply Hs. lia.
  - destruct P as (Sp & Hj). destruct H as [-> |[]]. destruct Sp as (L & Ls & Hs). cbn [lib who num shift]. split; [exact Ls|]. apply Hs. lia.
  - destruct H as [[]|[]].
  - destruct P as (cs & E). destruct H as [-> |[]]. congruence.
  - destruct P as (Sp & (cs & E) & _). destruct H as [H| ->]; [|congruence]. apply (Sl ip 0%nat (slen ip)); [exact Sp|apply Sp|exact H].
  - destruct P as (Sp & Se & (cs & E) & _). destruct H as [[H|H]| ->]; [| |congruence]; [apply (Sl a 0%nat (slen a))|apply (Sl e 0%nat (slen e))]; try assumption; [apply Sp|apply Se].
  - destruct P as (Sp & Se & (cs & E) & _). destruct H as [[H|H]| ->]; [| |congruence]; [apply (Sl ip 0%nat (slen ip))|apply (Sl mk 0%nat (slen mk))]; try assumption; [apply Sp|apply Se].
  - destruct P as (cs & E). destruct H as [-> |[]]. congruence.
  - destruct H as [[]|[]].
  - destruct H as [H|[]]. apply (Sl sx 0%nat (slen sx)); [exact P|apply P|exact H].
  - destruct H as [[]|[]].
  - destruct H as [H|[]]. apply (Sl sm 0%nat (slen sm)); [exact P|apply P|exact H].
  - destruct P as (S1 & S2 & S3 & S4). destruct H as [[H|[H|[H|H]]]|[]]; [apply (Sl a1 0%nat (slen a1))|apply (Sl b1 0%nat (slen b1))|apply (Sl a2 0%nat (slen a2))|apply (Sl b2 0%nat (slen b2))];
      try assumption; [apply S1|apply S2|apply S3|apply S4].
  - destruct H as [[]|[]].
  - destruct P as (S1 & S2 & L1 & L2). destruct H as [[H|H]|[]]; [apply (Sl a1 0%nat 4%nat)|apply (Sl b1 0%nat 4%nat)]; try assumption; [destruct S1|destruct S2]; lia.
  - destruct P as (Sp & _). destruct H as [H|[]]. apply (Sl sx0 0%nat (slen sx0)); [exact Sp|apply Sp|exact H].
  - destruct H as [[]|[]].
  - destruct H as [[]|H]. apply (Sl zs 0%nat (slen zs)); [exact P|apply P|exact H].
  - destruct P as (S1 & S2 & _). destruct S1 as (L1 & S1), S2 as (L2 & S2). cbv zeta in H.
    destruct H as [[H|H]|H]; [apply (Sl xd _ _ _ (conj L1 S1)) in H|apply (Sl xo _ _ _ (conj L2 S2)) in H|apply (Sl xd _ _ _ (conj L1 S1)) in H]; try exact H; lia.
Qed.

(** ** A call on a tree on its own *)

Definition prepared (b : nat -> bool -> nat) (w : world) (c : ask) (m : memory) : Prop :=
  proper w c
  /\ (forall h o, objects w h = Some o -> lib h = true /\ (num h + osize o <= b (who h) true)%nat /\ content_ok o)
  /\ (forall x, looks w c (TheByte x) \/ alters w c (TheByte x) -> m x = bytes w x)
  /\ (forall h o, looks w c (TheObject h) \/ alters w c (TheObject h) -> objects w h = Some o -> stands_in (settled b w) m h o).

Section Trees.
Context (i : nat) (b : nat -> bool -> nat) (w : world) (c : ask) (m : memory) (Pr : prepared b w c m).
Let p := area_of i b w c.
Lemma new_wr x : who x = me p -> (b i (lib x) <= num x)%nat -> wrs p x.
Proof. intros Wx L. left. split; [exact Wx|exact L]. Qed.
Lemma nodes_rd x : walks c = true -> settled b w x -> rds p x.
Proof. intros Wc Zx. right. right. split; [exact Wc|exact Zx]. Qed.
Lemma nodes_old x : settled b w x -> lib x = true /\ (who x = me p -> (num x < b i true)%nat).
Proof. intros (Lx & Nx & _). split; [exact Lx|]. intros Wx. change (me p) with i in Wx. rewrite Wx in Nx. exact Nx. Qed.
Lemma at_once : NetAreaNodes.ready (b i) (b i).
Proof. intros l. apply Nat.le_refl. Qed.
Lemma read_slice s (Q : list N -> memory -> (bool -> nat) -> Prop) : slice_there w s -> (forall j, (j < slen s)%nat -> looks w c (TheByte (shift (base s) j))) ->
  Q (slice_text w s) m (b i) -> stays p (NetAtom.bytes_at s) m (b i) Q.
Proof.
  intros Ss Ls H. unfold NetAtom.bytes_at. apply stays_gets.
  - intros j Hj. right. left. right. split; [apply Ss|apply Ls, Hj].
  - replace (cells m (base s) (slen s)) with (slice_text w s); [exact H|]. apply map_ext_in. intros j Hj. apply in_seq in Hj. symmetry. apply (proj1 (proj2 (proj2 Pr))). left. apply Ls. lia.
Qed.
Lemma tree_facts t cs : looks w c (TheObject (tptr t)) \/ alters w c (TheObject (tptr t)) -> objects w (tptr t) = Some (ATree (tmerge t) cs) ->
  Forall NetSpec.proper cs /\ NetAreaNodes.head p (b i) (settled b w) (tptr t)
  /\ exists n fuel, Net.apply_all fuel (Net.New (tmerge t)) cs = Ret n /\ Net.merge n = tmerge t /\ NetAreaNodes.tree_in (settled b w) m (tptr t) (Net.root n).
Proof.
  intros H E. destruct Pr as (_ & R4 & _ & R8). destruct (R8 _ _ H E) as (P1 & n & fuel & Ea & T). destruct (R4 _ _ E) as (Lt & Nt & _). cbn [osize] in Nt.
  split; [exact P1|]. split.
  - split.
    + intros j Hj. assert (Cv : cell_of w (tptr t) (shift (tptr t) j)).
      { exists (ATree (tmerge t) cs). split; [exact E|]. apply within_iff. cbn [who lib num shift osize]. repeat split; lia. }
      destruct H as [H|H]; [right; left|left; right]; left; (split; [exact Lt|exists (tptr t); split; [exact H|exact Cv]]).
    + intros u x [(_ & _ & Zx)|(Lx & Wx & Nx & _)]; [apply (Zx _ _ E)|]. apply within_not. intros (X & _ & Y). change (me p) with i in Wx. rewrite <- X, Wx in Nt. lia.
  - exists n, fuel. split; [exact Ea|]. split; [apply (NetGoProofs.merge_kept _ _ _ _ Ea)|exact T].
Qed.
Lemma add_alone t x cs (cd : code unit) : alters w c (TheObject (tptr t)) -> objects w (tptr t) = Some (ATree (tmerge t) cs) -> NetSpec.proper x ->
  (forall n, Net.merge n = tmerge t -> NetAreaNodes.tree_in (nodes_by i b w (b i)) m (tptr t) (Net.root n) ->
     NetAreaNodes.loose p (tptr t) -> NetAreaNodes.head p (b i) (settled b w) (tptr t) ->
     exists f n', Net.apply f n x = Ret n' /\ stays p cd m (b i) (fun _ m' u' => NetAtomProofs.tree_only i (tptr t) m (b i) m' u'
       /\ NetAreaNodes.tree_in (nodes_by i b w u') m' (tptr t) (Net.root n'))) ->
  stays p (cd ;; Return GotNothing) m (b i) (fun r m' u' => r = GotNothing /\ (b i true <= u' true)%nat /\ u' false = b i false
    /\ forall cs, objects w (tptr t) = Some (ATree (tmerge t) cs) -> tree_stands (nodes_by i b w u') m' (tptr t) (tmerge t) (cs ++ [x])).
Proof.
  intros A E Px H. destruct (tree_facts t cs (or_intror A) E) as (P1 & Hd & n & fuel & Ea & Mk & T).
  assert (Lo : NetAreaNodes.loose p (tptr t)).
  { intros j Hj. right. left. split; [apply (proj1 (proj2 Pr) _ _ E)|]. exists (tptr t). split; [exact A|]. exists (ATree (tmerge t) cs). split; [exact E|].
    apply within_iff. cbn [who lib num shift osize]. repeat split; lia. }
  destruct (H n Mk) as (f & n' & En & St); [|exact Lo|exact Hd|].
  - destruct T as (nd & E1 & E2). exists nd. split; [exact E1|]. apply (NetAtomProofs.is_node_mono (settled b w) _ m m); [|exact E2]. intros y Zy. split; [left; exact Zy|reflexivity].
  - apply stays_then. eapply stays_mono; [exact St|]. cbn beta. intros _ m' u' ((_ & T1 & T2) & T3). cbn [stays]. split; [reflexivity|]. split; [exact T1|]. split; [exact T2|].
    intros cs' E'. rewrite E in E'. injection E' as <-. split; [apply Forall_app; split; [exact P1|repeat constructor; exact Px]|].
    exists n', (Nat.max fuel f). split; [|exact T3]. rewrite NetUseProofs.apply_all_app. rewrite (apply_all_mono cs fuel (Nat.max fuel f) _ n) by (exact Ea || lia). cbn [bind].
    assert (F : Net.apply_all f n [x] = Ret n') by (cbn [Net.apply_all]; rewrite En; reflexivity).
    apply (apply_all_mono _ f (Nat.max fuel f)) in F; [exact F|lia].
Qed.
End Trees.

Lemma new_tree_alone i b w mg m : prepared b w (New_tree mg) m -> stays (area_of i b w (New_tree mg)) (do_ask (New_tree mg)) m (b i) (result_of i b w (New_tree mg)).
Proof.
  intros Pr. cbn [do_ask result_of]. cbv zeta. apply stays_then. unfold NetAtom.New.
  apply stays_then, (NetAreaNodes.new_in _ (b i) (new_wr i b w (New_tree mg))); [apply at_once|]. intros m1 O1.
  apply stays_then, NetAreaNodes.set_inode_in; [intros j _; apply (NetAreaNodes.fresh_wr _ (b i) (new_wr i b w (New_tree mg))), at_once|]. intros m2 O2. cbn [stays tree_as fst snd].
  split; [reflexivity|]. split; [reflexivity|]. split; [constructor|]. exists (Net.New mg), 0%nat. split; [reflexivity|]. exists NetAtom.INone. split; [|reflexivity].
  apply (cells_over_all _ _ _ _ O2).
Qed.
Lemma copy_alone i b w t m : prepared b w (Copy_tree t) m -> stays (area_of i b w (Copy_tree t)) (do_ask (Copy_tree t)) m (b i) (result_of i b w (Copy_tree t)).
Proof.
  intros Pr. pose proof Pr as ((cs & E) & _). destruct (tree_facts i b w (Copy_tree t) m Pr t cs (or_introl eq_refl) E) as (P1 & Hd & n & fuel & Ea & Mk & nd & Ei & Nd).
  cbn [do_ask result_of]. cbv zeta. apply stays_then. unfold NetAtom.Copy. cbn [tree_of fst snd].
  apply stays_then, (NetAreaNodes.get_inode_in _ _ nd); [intros j Hj; apply Hd, Hj|exact Ei|].
  apply stays_then, (NetAreaNodes.new_in _ (b i) (new_wr i b w (Copy_tree t))); [apply at_once|]. intros m1 O1.
  apply stays_then, NetAreaNodes.set_inode_in; [intros j _; apply (NetAreaNodes.fresh_wr _ (b i) (new_wr i b w (Copy_tree t))), at_once|]. intros m2 O2. cbn [stays tree_as fst snd].
  split; [reflexivity|]. split; [reflexivity|]. intros cs' E'. rewrite E in E'. injection E' as <-. split; [exact P1|]. exists n, fuel. split; [exact Ea|]. exists nd. split.
  - rewrite <- (NetAtomProofs.inode_cells_length nd). apply (cells_over_all _ _ _ _ O2).
  - apply (NetAtomProofs.is_node_mono (settled b w) (settled b w) m m2); [|exact Nd]. intros x Zx. split; [exact Zx|].
    destruct (nodes_old i b w (Copy_tree t) x Zx) as [Lx Nx]. rewrite (over_out _ _ _ _ _ O2), (over_out _ _ _ _ _ O1); [reflexivity| |];
      apply within_not; cbn [who lib num]; intros (X & _ & Y); specialize (Nx X); lia.
Qed.
Lemma list_alone i b w t m : prepared b w (List_tree t) m -> stays (area_of i b w (List_tree t)) (do_ask (List_tree t)) m (b i) (result_of i b w (List_tree t)).
Proof.
  intros Pr. pose proof Pr as ((cs & E) & _). destruct (tree_facts i b w (List_tree t) m Pr t cs (or_introl eq_refl) E) as (P1 & Hd & n & fuel & Ea & Mk & nd & Ei & Nd).
  cbn [do_ask result_of]. cbv zeta. apply stays_then. unfold NetAtom.ListCidr. cbn [tree_of fst snd].
  apply stays_then, (NetAreaNodes.get_inode_in _ _ nd); [intros j Hj; apply Hd, Hj|exact Ei|].
  assert (Lv : (NetAtomProofs.levels (Net.root n) < 33)%nat) by (pose proof (NetAtomProofs.all_levels _ _ _ _ Ea (Nat.le_0_l _)); lia).
  assert (Nd' : NetAtomProofs.is_node (nodes_by i b w (b i)) m (Net.root n) nd).
  { apply (NetAtomProofs.is_node_mono (settled b w) _ m m); [|exact Nd]. intros y Zy. split; [left; exact Zy|reflexivity]. }
  eapply stays_mono; [apply (NetAreaNodes.each_in _ (b i) (settled b w) (new_wr i b w (List_tree t)) (fun x => nodes_rd i b w (List_tree t) x eq_refl) (nodes_old i b w (List_tree t))
    33 (Net.root n) nd 0 31 m (b i) (at_once i b) Lv Nd')|].
  cbn beta. intros xs m' u' (-> & B1 & B2 & B3). cbn [stays].
  destruct (NetUseProofs.tree_list (tmerge t) cs fuel n P1 Ea) as (Bk & L & Hh & HL & HS & HI).
  destruct (NetGoProofs.listing i L (Net.each (Net.root n) 0 31) HL) as (P2 & P3 & P4).
  exists cs, Bk, L. split; [exact E|]. split; [exact Hh|]. split; [exact HS|]. split; [exact HI|]. change (me (area_of i b w (List_tree t))) with i in *. rewrite <- P2.
  split; [rewrite P4; reflexivity|]. split; [exact B2|]. split; [exact B3|]. split; [apply (cells_over_all _ _ _ _ B1)|apply NetGoProofs.placed_bytes_ok].
Qed.
Lemma add_ip_alone i b w t ip v m : prepared b w (Add_ip t ip v) m -> stays (area_of i b w (Add_ip t ip v)) (do_ask (Add_ip t ip v)) m (b i) (result_of i b w (Add_ip t ip v)).
Proof.
  intros Pr. pose proof Pr as ((Sp & (cs & E) & Px) & _). cbn [do_ask result_of called]. cbv zeta.
  apply (add_alone i b w (Add_ip t ip v) m Pr t (CAddIp (slice_text w ip) v) cs); [reflexivity|exact E|exact Px|]. destruct Px as (x & Hx).
  intros n Mk T Lo Hd. exists 0%nat. eexists. split; [cbn [Net.apply]; unfold Net.AddIp; rewrite (ToUint_addr _ _ Hx); reflexivity|].
  unfold NetAtom.AddIp. apply stays_then, (read_slice i b w _ m Pr); [exact Sp|intros j Hj; exists j; split; [lia|reflexivity]|]. apply stays_then, (stays_lift _ _ x); [apply ToUint_addr, Hx|].
  apply (NetAreaNodes.add_root_in _ (b i) (settled b w) (new_wr i b w _) (fun y => nodes_rd i b w (Add_ip t ip v) y eq_refl) (nodes_old i b w _)); try assumption. apply at_once.
Qed.
Lemma add_range_alone i b w t s e v m : prepared b w (Add_range t s e v) m ->
  stays (area_of i b w (Add_range t s e v)) (do_ask (Add_range t s e v)) m (b i) (result_of i b w (Add_range t s e v)).
Proof.
  intros Pr. pose proof Pr as ((Sp & Se & (cs & E) & Px) & _). cbn [do_ask result_of called]. cbv zeta.
  apply (add_alone i b w (Add_range t s e v) m Pr t (CAddRange (slice_text w s) (slice_text w e) v) cs); [reflexivity|exact E|exact Px|]. destruct Px as (x & y & Hx & Hy & Ly).
  intros n Mk T Lo Hd. pose proof (range_loop_ok y v Ly (N.to_nat (y + 1 - x)) (N.to_nat (y + 1 - x)) n x (le_n _) (le_n _)) as Rl.
  exists (N.to_nat (y + 1 - x)). eexists. split; [cbn [Net.apply]; unfold Net.AddRange; rewrite (ToUint_addr _ _ Hx), (ToUint_addr _ _ Hy); cbn [bind]; exact Rl|].
  unfold NetAtom.AddRange. apply stays_then, (read_slice i b w _ m Pr); [exact Sp|intros j Hj; left; exists j; split; [lia|reflexivity]|]. apply stays_then, (stays_lift _ _ x); [apply ToUint_addr, Hx|].
  apply stays_then, (read_slice i b w _ m Pr); [exact Se|intros j Hj; right; exists j; split; [lia|reflexivity]|]. apply stays_then, (stays_lift _ _ y); [apply ToUint_addr, Hy|].
  apply (NetAreaNodes.range_in _ (b i) (settled b w) (new_wr i b w _) (fun z => nodes_rd i b w (Add_range t s e v) z eq_refl) (nodes_old i b w _)) with (t := n); try assumption. apply at_once.
Qed.
Lemma add_cidr_alone i b w t ip mk v m : prepared b w (Add_cidr t ip mk v) m ->
  stays (area_of i b w (Add_cidr t ip mk v)) (do_ask (Add_cidr t ip mk v)) m (b i) (result_of i b w (Add_cidr t ip mk v)).
Proof.
  intros Pr. pose proof Pr as ((Sp & Se & (cs & E) & Px) & _). cbn [do_ask result_of called]. cbv zeta.
  apply (add_alone i b w (Add_cidr t ip mk v) m Pr t (CAddCidr (Some (mkNet (slice_text w ip) (slice_text w mk))) v) cs); [reflexivity|exact E|exact Px|]. destruct Px as (x & q & Hx).
  pose proof (proj1 Hx) as Hi. cbn [IP] in Hi.
  intros n Mk T Lo Hd. exists 0%nat. eexists. split; [cbn [Net.apply Net.AddCidr IP Mask]; rewrite (ToUint_addr _ _ Hi); reflexivity|].
  unfold NetAtom.AddCidr. apply stays_then, (read_slice i b w _ m Pr); [exact Sp|intros j Hj; left; exists j; split; [lia|reflexivity]|]. apply stays_then, (stays_lift _ _ x); [apply ToUint_addr, Hi|].
  apply stays_then, (read_slice i b w _ m Pr); [exact Se|intros j Hj; right; exists j; split; [lia|reflexivity]|].
  apply (NetAreaNodes.add_root_in _ (b i) (settled b w) (new_wr i b w _) (fun y => nodes_rd i b w (Add_cidr t ip mk v) y eq_refl) (nodes_old i b w _)); try assumption. apply at_once.
Qed.

(** ** Calls on addresses on their own *)

Lemma text_bytes_ok w s : (forall x, bytes w x < 256) -> bytes_ok (slice_text w s).
Proof. intros R6. apply Forall_forall. intros x Hx. apply in_map_iff in Hx. destruct Hx as (j & <- & _). apply R6. Qed.
Definition fresh_bytes (i : nat) (b : nat -> bool -> nat) (w : world) (c : ask) (r : got) (m' : memory) (u' : bool -> nat) : Prop :=
  exists xs, makes w c xs /\ bytes_ok xs /\ r = GotSlice (mkS (mkA i false (b i false)) (length xs) (length xs))
    /\ u' true = b i true /\ u' false = (b i false + length xs)%nat /\ cells m' (mkA i false (b i false)) (length xs) = xs.
Lemma four_bytes_alone i b w c m l : length l = 4%nat -> makes w c l -> bytes_ok l ->
  stays (area_of i b w c) (do s <- NetAtom.four_bytes l; Return (GotSlice s)) m (b i) (fresh_bytes i b w c).
Proof.
  intros L M B. apply stays_then. eapply stays_mono; [apply (NetAreaNodes.four_bytes_in _ (b i) (new_wr i b w c)); [apply at_once|exact L]|]. cbn beta.
  intros s m' u' (-> & B1 & B2 & B3). cbn [stays]. exists l. split; [exact M|]. split; [exact B|]. rewrite L in *. split; [reflexivity|]. split; [exact B2|]. split; [exact B3|].
  rewrite <- L. apply (cells_over_all _ _ _ _ B1).
Qed.
Lemma last_alone i b w ip mk m : prepared b w (Last_of ip mk) m -> (forall j, made_by w j = b j false) -> (forall x, bytes w x < 256) ->
  stays (area_of i b w (Last_of ip mk)) (do_ask (Last_of ip mk)) m (b i) (fresh_bytes i b w (Last_of ip mk)).
Proof.
  intros Pr R3 R6. pose proof Pr as ((S1 & S2 & L1 & L2) & _ & R7 & _). cbn [do_ask].
  set (f := fun j => N.lor (bytes w (shift (base ip) j)) (not8 (bytes w (shift (base mk) j)))).
  set (ret := mkA i false (b i false)). set (here := area_of i b w (Last_of ip mk)).
  assert (Cell : forall s, slice_there w s -> (4 <= slen s)%nat -> (forall j, (j < 4)%nat -> looks w (Last_of ip mk) (TheByte (shift (base s) j))) ->
    forall m1, (forall x, within ret 4 x = false -> m1 x = m x) -> forall j, (j < 4)%nat -> m1 (shift (base s) j) = bytes w (shift (base s) j)).
  { intros s (Hc & Ls & Hs) L4 Lk m1 K j Hj. rewrite K, R7; [reflexivity|left; apply Lk, Hj|]. apply within_not. unfold ret. cbn [who lib num shift].
    specialize (Hs j ltac:(lia)). rewrite R3 in Hs. intros (Y & _ & Z). rewrite Y in Hs. lia. }
  assert (K1 : forall j, (j < 4)%nat -> looks w (Last_of ip mk) (TheByte (shift (base ip) j))) by (intros j Hj; left; exists j; split; [lia|reflexivity]).
  assert (K2 : forall j, (j < 4)%nat -> looks w (Last_of ip mk) (TheByte (shift (base mk) j))) by (intros j Hj; right; exists j; split; [lia|reflexivity]).
  assert (Byte : forall j m1 (Q : unit -> memory -> (bool -> nat) -> Prop) u1, (j < 4)%nat -> (forall x, within ret 4 x = false -> m1 x = m x) ->
    (forall m2, is_over m1 (shift ret j) [f j] m2 -> Q tt m2 u1) -> stays here (NetAtom.last_byte ip mk ret j) m1 u1 Q).
  { intros j m1 Q u1 Hj K H. unfold NetAtom.last_byte, NetAtom.load_at. rewrite !(proj2 (Nat.ltb_lt _ _)) by lia.
    apply stays_then, stays_get; [right; left; right; split; [apply S1|apply K1, Hj]|]. apply stays_then, stays_get; [right; left; right; split; [apply S2|apply K2, Hj]|].
    apply stays_set; [left; split; [reflexivity|cbn [lib num shift ret]; lia]|]. intros m2 O2. apply H.
    unfold f. rewrite <- (Cell ip S1 L1 K1 m1 K j Hj), <- (Cell mk S2 L2 K2 m1 K j Hj). exact O2. }
  assert (Keep : forall j m1 m2 x, (j < 4)%nat -> is_over m1 (shift ret j) [f j] m2 -> within ret 4 x = false -> m2 x = m1 x).
  { intros j m1 m2 x Hj O Hx. apply (over_out _ _ _ _ _ O). apply within_not. apply within_not in Hx. cbn [who lib num shift length] in *. intuition lia. }
  apply stays_then. unfold NetAtom.LastIpv4. apply stays_then, (NetAreaNodes.new_in _ (b i) (new_wr i b w _)); [apply at_once|]. change (mkA (me _) false (b i false)) with ret. intros m0 O0.
  assert (Q0 : forall x, within ret 4 x = false -> m0 x = m x) by (intros x Hx; apply (over_out _ _ _ _ _ O0); exact Hx).
  apply stays_then, (Byte 0%nat); [lia|exact Q0|]. intros m1 O1.
  assert (Q1 : forall x, within ret 4 x = false -> m1 x = m x) by (intros x Hx; rewrite (Keep 0%nat _ _ _ ltac:(lia) O1 Hx); apply Q0, Hx).
  apply stays_then, (Byte 1%nat); [lia|exact Q1|]. intros m2 O2.
  assert (Q2 : forall x, within ret 4 x = false -> m2 x = m x) by (intros x Hx; rewrite (Keep 1%nat _ _ _ ltac:(lia) O2 Hx); apply Q1, Hx).
  apply stays_then, (Byte 2%nat); [lia|exact Q2|]. intros m3 O3.
  assert (Q3 : forall x, within ret 4 x = false -> m3 x = m x) by (intros x Hx; rewrite (Keep 2%nat _ _ _ ltac:(lia) O3 Hx); apply Q2, Hx).
  apply stays_then, (Byte 3%nat); [lia|exact Q3|]. intros m4 O4. cbn [stays].
  assert (In_ : forall j m m', is_over m (shift ret j) [f j] m' -> m' (shift ret j) = f j) by (intros j a a' O; rewrite <- (shift_0 (shift ret j)); apply (over_in _ _ _ _ 0%nat O); cbn; lia).
  assert (Out : forall j i m m', i <> j -> is_over m (shift ret j) [f j] m' -> m' (shift ret i) = m (shift ret i)).
  { intros j i0 a a' D O. apply (over_out _ _ _ _ _ O), within_not. cbn [who lib num shift length]. lia. }
  exists (map f [0; 1; 2; 3]%nat). change (length (map f [0; 1; 2; 3]%nat)) with 4%nat. split.
  { cbn [makes]. apply map_ext. intros j. unfold f. f_equal. apply ChecksumProofs.not8_small, R6. }
  split. { apply Forall_forall. intros x Hx. apply in_map_iff in Hx. destruct Hx as (j & <- & _). unfold f. apply NetUseProofs.lor_not8; apply R6. }
  split; [reflexivity|]. split; [reflexivity|]. split; [rewrite grow_same; reflexivity|]. fold ret. unfold cells. cbn [seq map].
  rewrite (In_ 3%nat m3) by assumption.
  rewrite (Out 3%nat 0%nat m3), (Out 2%nat 0%nat m2), (Out 1%nat 0%nat m1), (In_ 0%nat m0) by (assumption || lia).
  rewrite (Out 3%nat 1%nat m3), (Out 2%nat 1%nat m2), (In_ 1%nat m1) by (assumption || lia).
  rewrite (Out 3%nat 2%nat m3), (In_ 2%nat m2) by (assumption || lia). reflexivity.
Qed.
Lemma ip_to_alone i b w ip m : prepared b w (Ip_to ip) m -> (forall x, bytes w x < 256) ->
  stays (area_of i b w (Ip_to ip)) (do_ask (Ip_to ip)) m (b i) (fun r _ u' => answer w (Ip_to ip) r /\ u' = b i).
Proof.
  intros Pr R6. pose proof Pr as (Sp & _). cbn [do_ask]. pose proof (text_bytes_ok w ip R6) as B. destruct (ToUint_total _ B) as (x & _ & Ex).
  apply stays_then, (read_slice i b w _ m Pr); [exact Sp|intros j Hj; exists j; split; [lia|reflexivity]|]. apply stays_then, (stays_lift _ _ x); [exact Ex|]. cbn [stays].
  split; [|reflexivity]. exists x. split; [reflexivity|]. split.
  - intros y Hy. rewrite (ToUint_addr _ _ Hy) in Ex. congruence.
  - intros Hn. rewrite (ToUint_other _ B Hn) in Ex. congruence.
Qed.
Lemma mask_to_alone i b w mk m : prepared b w (Mask_to mk) m -> (forall x, bytes w x < 256) ->
  stays (area_of i b w (Mask_to mk)) (do_ask (Mask_to mk)) m (b i) (fun r _ u' => answer w (Mask_to mk) r /\ u' = b i).
Proof.
  intros Pr R6. pose proof Pr as (Sp & _). cbn [do_ask]. pose proof (text_bytes_ok w mk R6) as B.
  apply stays_then, (read_slice i b w _ m Pr); [exact Sp|intros j Hj; exists j; split; [lia|reflexivity]|]. cbn [stays]. split; [|reflexivity].
  eexists. split; [reflexivity|]. split.
  - intros n Hn. apply MaskToByte_length; assumption.
  - intros Hn. apply MaskToByte_other; assumption.
Qed.
Lemma equal_alone i b w ip mk ip' mk' m : prepared b w (Nets_equal ip mk ip' mk') m -> (forall x, bytes w x < 256) ->
  stays (area_of i b w (Nets_equal ip mk ip' mk')) (do_ask (Nets_equal ip mk ip' mk')) m (b i) (fun r _ u' => answer w (Nets_equal ip mk ip' mk') r /\ u' = b i).
Proof.
  intros Pr R6. pose proof Pr as ((S1 & S2 & S3 & S4) & _). cbn [do_ask].
  apply stays_then, (read_slice i b w _ m Pr); [exact S1|intros j Hj; left; exists j; split; [lia|reflexivity]|].
  apply stays_then, (read_slice i b w _ m Pr); [exact S2|intros j Hj; right; left; exists j; split; [lia|reflexivity]|].
  apply stays_then, (read_slice i b w _ m Pr); [exact S3|intros j Hj; right; right; left; exists j; split; [lia|reflexivity]|].
  apply stays_then, (read_slice i b w _ m Pr); [exact S4|intros j Hj; right; right; right; exists j; split; [lia|reflexivity]|].
  destruct (NetGoProofs.CidrEqual_any (mkNet (slice_text w ip) (slice_text w mk)) (mkNet (slice_text w ip') (slice_text w mk')) (text_bytes_ok w ip R6) (text_bytes_ok w ip' R6)) as (r & Er & Hr).
  apply stays_then, (stays_lift _ _ r); [exact Er|]. cbn [stays]. split; [|reflexivity]. exists r. split; [reflexivity|exact Hr].
Qed.

(** ** Calls of hex and codegen on their own *)

Lemma text_alone i b w f s m : prepared b w (Text_of f s) m -> (forall x, bytes w x < 256) ->
  stays (area_of i b w (Text_of f s)) (do_ask (Text_of f s)) m (b i) (result_of i b w (Text_of f s)).
Proof.
  intros ((Sp & Wr) & _ & R7 & _) R6. set (p := area_of i b w (Text_of f s)).
  assert (Lk : forall j, (j < slen s)%nat -> looks w (Text_of f s) (TheByte (shift (base s) j))) by (intros j Hj; exists j; split; [lia|reflexivity]).
  assert (Am : ample p (b i)) by (intros y Wy Ly; left; split; assumption).
  assert (Sr : HexAreaProofs.source_in p s m (slice_text w s)).
  { split; [intros j Hj; right; left; right; split; [apply Sp|apply Lk, Hj]|]. split; [apply Sp|]. apply map_ext_in. intros j Hj. apply in_seq in Hj. apply R7. left. apply Lk. lia. }
  pose proof (text_bytes_ok w s R6) as B. pose proof (HexAreaProofs.source_length_in _ _ _ _ Sr) as L.
  assert (En : forall cd t, stays p cd m (b i) (fun x m' u' => x = t /\ HexAtomProofs.quiet (me p) m (b i) m' u') -> t = text_as f (slice_text w s) ->
    stays p (do x <- cd; Return (GotText x)) m (b i) (result_of i b w (Text_of f s))).
  { intros cd t St ->. apply stays_then. eapply stays_mono; [exact St|]. cbn beta. intros x m' u' (-> & _ & L1 & L2). cbn [stays result_of answer]. repeat split; assumption. }
  cbn [do_ask]. destruct f as [| |k|k]; cbn [writable text_as] in *.
  - eapply En; [apply (HexAreaProofs.FromBytes_in _ _ _ _ _ _ Am Sr (HexProofs.fromBytes_correct _ B))|reflexivity].
  - rewrite <- L in Wr. eapply En; [apply (HexAreaProofs.BytesToString_in _ _ _ _ _ _ Am Sr (CodegenProofs.BytesToString_text _ B Wr))|reflexivity].
  - destruct Wr as (Hl & Hk & Hn & Hm). pose proof (LibUseProofs.nonempty _ _ L Hn) as Ne. rewrite <- L in Hl, Hm.
    eapply En; [apply (HexAreaProofs.BytesToStringSep_in _ _ _ _ _ _ _ Am Sr (CodegenProofs.StringSep_text _ _ B Hl Hk Ne Hm))|]. rewrite CodegenProofs.strings_text by (try exact Ne; lia). reflexivity.
  - destruct Wr as (Hl & Hk & Hn & Hm). pose proof (LibUseProofs.nonempty _ _ L Hn) as Ne. rewrite <- L in Hl, Hm.
    eapply En; [apply (HexAreaProofs.BytesToHexSep_in _ _ _ _ _ _ _ Am Sr (CodegenProofs.HexSep_text _ _ B Hl Hk Ne Hm))|]. rewrite CodegenProofs.list_text by (try exact Ne; lia). reflexivity.
Qed.
Lemma read_bytes_length t : length (read_bytes t) = (length t / 2)%nat.
Proof.
  unfold read_bytes. rewrite LibUseProofs.read_pairs_eq, app_length, repeat_length, <- Nat.div2_div. pose proof (HexAtomProofs.pairs_short t). lia.
Qed.
Lemma read_alone i b w tiny fast t m : bytes_ok t ->
  stays (area_of i b w (Bytes_of tiny fast t)) (do_ask (Bytes_of tiny fast t)) m (b i) (result_of i b w (Bytes_of tiny fast t)).
Proof.
  intros B. set (p := area_of i b w (Bytes_of tiny fast t)). assert (Am : ample p (b i)) by (intros y Wy Ly; left; split; assumption).
  assert (Mp : forall m' u', HexAtomProofs.made_pairs (me p) t m (b i) m' u' -> u' true = b i true /\ u' false = (b i false + length (read_bytes t))%nat
    /\ cells m' (mkA i false (b i false)) (length (read_bytes t)) = read_bytes t /\ bytes_ok (read_bytes t)).
  { intros m' u' (O & ->). split; [reflexivity|]. split; [rewrite read_bytes_length, <- Nat.div2_div; apply grow_same|].
    assert (E : read_bytes t = HexProofs.pairs t ++ repeat 0 (Nat.div2 (length t) - length (HexProofs.pairs t))) by (unfold read_bytes; rewrite LibUseProofs.read_pairs_eq, Nat.div2_div; reflexivity).
    rewrite <- E in O. split; [apply (cells_over_all _ _ _ _ O)|].
    rewrite E. apply bytes_ok_app. split; [apply LibUseProofs.pairs_bytes, B|]. apply Forall_forall. intros y Hy. apply repeat_spec in Hy. subst y. reflexivity. }
  cbn [do_ask]. cbv zeta. destruct fast; apply stays_then.
  - eapply stays_mono; [apply (HexAreaProofs.ToBytesFast_in _ p t m (b i) Am B)|]. cbn beta. intros r m' u' (M & ->). cbn [stays result_of]. split; [|apply Mp, M].
    unfold read_reply, HexProofs.toBytes_fun. change 0%Z with (Z.of_nat 0). rewrite LibUseProofs.first_bad_eq. destruct (HexProofs.find_invalid t 0) as [[x j]|]; [reflexivity|].
    destruct (Nat.even (length t)); cbn [fst snd]; [|reflexivity]. rewrite <- Nat.div2_div. reflexivity.
  - eapply stays_mono; [apply (HexAreaProofs.ToBytes_in _ p t m (b i) Am B)|]. cbn beta. intros r m' u' (M & ->). cbn [stays result_of]. split; [|apply Mp, M].
    unfold read_reply, HexProofs.toBytes_fun. change 0%Z with (Z.of_nat 0). rewrite LibUseProofs.first_bad_eq. destruct (HexProofs.find_invalid t 0) as [[x j]|]; [reflexivity|].
    destruct (Nat.even (length t)); cbn [fst snd]; [|reflexivity]. rewrite <- Nat.div2_div. reflexivity.
Qed.

(** ** Calls of package bytes on their own *)

Lemma over_byte m a xs m' x : is_over m a xs m' -> ~ (who x = who a /\ lib x = lib a /\ (num a <= num x < num a + length xs)%nat) -> m' x = m x.
Proof. intros O N. rewrite O. unfold over. destruct (within_spec a (length xs) x) as [W|_]; [contradiction|reflexivity]. Qed.
Lemma zero_in p a0 fuel : forall k n m u, (n <= fuel)%nat -> owns p (shift a0 k) n -> (forall j, (j < k)%nat -> m (shift a0 j) = 0) ->
  stays p (zero_loop fuel (shift a0 k) n) m u (fun _ m' u' => u' = u /\ forall j, (j < k + n)%nat -> m' (shift a0 j) = 0).
Proof.
  assert (St : forall k l m m', (forall j, (j < k)%nat -> m (shift a0 j) = 0) -> is_over m (shift a0 k) (repeat 0 l) m' -> forall j, (j < k + l)%nat -> m' (shift a0 j) = 0).
  { intros k l m m' H O j Hj. destruct (Nat.ltb_spec j k) as [L|L].
    - rewrite (over_byte _ _ _ _ _ O); [apply H, L|]. cbn [who lib num shift]. lia.
    - replace (shift a0 j) with (shift (shift a0 k) (j - k)) by (rewrite shift_shift; f_equal; lia). rewrite (over_in _ _ _ _ _ O) by (rewrite repeat_length; lia). apply nth_repeat. }
  assert (Fr : forall n, (n <= 8)%nat -> firstn n (repeat 0 8) = repeat 0 n) by (intros n L; do 9 (destruct n as [|n]; [reflexivity|]); lia).
  induction fuel as [|fuel IH]; intros k n m u Hf Ow H; cbn [zero_loop]; destruct (Nat.ltb_spec 8 n) as [L|L].
  - lia.
  - rewrite Fr by lia. apply stays_sets; [intros j Hj; apply Ow; rewrite repeat_length in Hj; exact Hj|]. intros m' O. split; [reflexivity|apply (St k n m m' H O)].
  - apply stays_then, stays_sets; [intros j Hj; apply Ow; rewrite repeat_length in Hj; lia|]. intros m' O. rewrite shift_shift.
    eapply stays_mono; [apply (IH (k + 8)%nat (n - 8)%nat m' u)|].
    + lia.
    + intros j Hj. rewrite <- shift_shift, shift_shift. apply Ow. lia.
    + apply (St k 8%nat m m' H O).
    + cbn beta. intros _ m2 u2 (-> & X). split; [reflexivity|]. intros j Hj. apply X. lia.
  - rewrite Fr by lia. apply stays_sets; [intros j Hj; apply Ow; rewrite repeat_length in Hj; exact Hj|]. intros m' O. split; [reflexivity|apply (St k n m m' H O)].
Qed.
Lemma xor_in p d o n m0 : owns p d n -> sees p o n -> (forall i j, (i < j)%nat -> (j < n)%nat -> shift o j <> shift d i) ->
  forall k i m u, (i + k = n)%nat -> (forall j, (j < i)%nat -> m (shift d j) = N.lxor (m0 (shift d j)) (m0 (shift o j))) ->
  (forall j, (i <= j < n)%nat -> m (shift d j) = m0 (shift d j) /\ m (shift o j) = m0 (shift o j)) ->
  stays p (xor_loop k i d o) m u (fun _ m' u' => u' = u /\ forall j, (j < n)%nat -> m' (shift d j) = N.lxor (m0 (shift d j)) (m0 (shift o j))).
Proof.
  intros Ow Se Ap. induction k as [|k IH]; intros i m u Hk H1 H2; cbn [xor_loop].
  - cbn [stays]. split; [reflexivity|]. intros j Hj. apply H1. lia.
  - destruct (H2 i ltac:(lia)) as (E1 & E2). apply stays_then, stays_get; [apply wrs_rds, Ow; lia|]. apply stays_then, stays_get; [apply Se; lia|].
    apply stays_then, stays_set; [apply Ow; lia|]. intros m' O. rewrite E1, E2 in O.
    assert (Same : forall x, x <> shift d i -> m' x = m x).
    { intros x D. apply (over_byte _ _ _ _ _ O). cbn [length]. intros (X & Y & Z). apply D. destruct x as [xw xl xn], d as [dw dl dn]. unfold shift in *. cbn [who lib num] in *. subst xw xl. f_equal. lia. }
    assert (Inj : forall j, j <> i -> shift d j <> shift d i) by (intros j D X; apply (f_equal num) in X; cbn [num shift] in X; lia).
    apply IH; [lia| |].
    + intros j Hj. destruct (Nat.eq_dec j i) as [->|D].
      * rewrite <- (shift_0 (shift d i)) at 1. rewrite (over_in _ _ _ _ _ O) by (cbn; lia). reflexivity.
      * rewrite Same by (apply Inj, D). apply H1. lia.
    + intros j Hj. rewrite Same by (apply Inj; lia). rewrite Same by (apply Ap; lia). apply H2. lia.
Qed.

(** ** A call on its own *)

Section Alone.
Context (i : nat) (b : nat -> bool -> nat) (w : world) (c : ask) (m : memory).
Context (P : proper w c).
Context (R3 : forall j, made_by w j = b j false).
Context (R4 : forall h o, objects w h = Some o -> lib h = true /\ (num h + osize o <= b (who h) true)%nat /\ content_ok o).
Context (R6 : forall x, bytes w x < 256).
Context (R7 : forall x, looks w c (TheByte x) \/ alters w c (TheByte x) -> m x = bytes w x).
Context (R8 : forall h o, looks w c (TheObject h) \/ alters w c (TheObject h) -> objects w h = Some o -> stands_in (settled b w) m h o).
Let p := area_of i b w c.

Lemma area_ample : ample p (b i).
Proof. intros y W L. left. split; assumption. Qed.
Lemma area_hash_owns h o : alters w c (TheObject h) -> objects w h = Some o -> owns p h (osize o).
Proof.
  intros A E j Hj. right. left. split; [cbn [lib shift]; apply (R4 _ _ E)|]. exists h. split; [exact A|]. exists o. split; [exact E|].
  apply within_iff. cbn [who lib num shift]. repeat split; lia.
Qed.
Lemma area_hash_sees h o : looks w c (TheObject h) -> objects w h = Some o -> sees p h (osize o).
Proof.
  intros A E j Hj. right. left. left. split; [cbn [lib shift]; apply (R4 _ _ E)|]. exists h. split; [exact A|]. exists o. split; [exact E|].
  apply within_iff. cbn [who lib num shift]. repeat split; lia.
Qed.
Lemma text_bytes s : bytes_ok (slice_text w s).
Proof. apply Forall_forall. intros x Hx. apply in_map_iff in Hx. destruct Hx as (j & <- & _). apply R6. Qed.
Lemma text_cells s : (forall j, (j < slen s)%nat -> m (shift (base s) j) = bytes w (shift (base s) j)) -> cells m (base s) (slen s) = slice_text w s.
Proof. intros H. apply map_ext_in. intros j Hj. apply in_seq in Hj. apply H. lia. Qed.
Lemma cells_bytes m' a xs : lib a = false -> (forall y, lib y = false -> m' y = over m a xs y) -> cells m' a (length xs) = xs.
Proof.
  intros La H. apply cells_eq; [reflexivity|]. intros j Hj. rewrite H by exact La. unfold over.
  replace (within a (length xs) (shift a j)) with true by (symmetry; apply within_iff; cbn [who lib num shift]; repeat split; lia).
  cbn [num shift]. f_equal. lia.
Qed.

Lemma call_alone : stays p (do_ask c) m (b i) (result_of i b w c).
Proof.
  pose proof area_ample as Am. pose proof area_hash_owns as Ho. pose proof area_hash_sees as Hs.
  assert (Nb : forall s, (forall j, (j < slen s)%nat -> rds p (shift (base s) j)) -> sees p (base s) (slen s)) by (intros s H; exact H).
  unfold p in *. destruct c as [k|h q|h inp room|h|n cp|s j v|s j|mg|t|t ip v|t a e v|t ip mk v|t|ux|sx|mb|sm|a1 b1 a2 b2|a1 b1|a1 b1|fx sx0|tn fs tx|zs|xd xo]; cbn [proper do_ask result_of] in *; cbv zeta.
  - apply stays_then. eapply stays_mono; [apply (new_at (area_of i b w (New_hash k)) k m (b i) Am)|]. cbn beta.
    intros h m' u' (-> & -> & O & St). cbn [stays]. repeat split. exact St.
  - destruct P as (Sq & ws & E & Ct). destruct (R4 _ _ E) as (Lh & Nh & Fb); cbn [osize content_ok] in Nh, Fb.
    assert (Et : cells m (base q) (slen q) = slice_text w q).
    { apply text_cells. intros j Hj. apply R7. left. exists j. split; [lia|reflexivity]. }
    apply stays_then. eapply stays_mono; [apply (write_at (area_of i b w (Write_to h q)) (hkind h) (hptr h) q m (b i) ws)|].
    + apply (R8 _ _ (or_intror eq_refl) E).
    + apply (Ho _ _ eq_refl E).
    + exact Lh.
    + intros j Hj. right. left. right. split; [apply Sq|]. exists j. split; [lia|reflexivity].
    + apply Sq.
    + rewrite Et. apply text_bytes.
    + rewrite Et. exact Ct.
    + cbn beta. intros n m' u' (-> & -> & O & St). cbn [stays]. split; [reflexivity|]. split; [reflexivity|].
      intros ws' E'. rewrite E in E'. injection E' as <-. rewrite <- Et. exact St.
  - destruct P as (Sp & ws & E). destruct (R4 _ _ E) as (Lh & Nh & Fb); cbn [osize content_ok] in Nh, Fb.
    assert (Ed : digest_at w (hptr h) = digest_of (hkind h) ws) by (unfold digest_at; rewrite E; reflexivity).
    apply stays_then. eapply stays_mono; [apply (sum_at (area_of i b w (Sum_of h inp room)) (hkind h) (hptr h) inp room m (b i) ws)|].
    + apply (R8 _ _ (or_introl (or_introl eq_refl)) E).
    + exact Am.
    + apply (Hs _ _ (or_introl eq_refl) E).
    + intros j Hj. cbn [who lib num shift]. intros (X & _ & Y). change (me (area_of i b w (Sum_of h inp room))) with i in X. rewrite X in Nh. lia.
    + unfold reached. rewrite <- Ed. change (Nat.leb _ _) with (fits w (hptr h) inp). destruct (fits w (hptr h) inp) eqn:F.
      * intros j Hj. right. right. split; [apply Sp|]. split; [exact F|]. rewrite shift_shift. exists (slen inp + j)%nat. split; [lia|reflexivity].
      * intros j Hj. right. left. right. split; [apply Sp|]. right. split; [exact F|]. exists j. split; [lia|reflexivity].
    + apply Sp.
    + intros j Hj. apply within_not. cbn [who lib num shift]. intros (X & _ & Y). change (me (area_of i b w (Sum_of h inp room))) with i in X.
      destruct Sp as (L & _ & Sp). specialize (Sp j ltac:(lia)). rewrite X, R3 in Sp. lia.
    + cbn beta. intros s m' u' (_ & A2 & A3). cbn [stays]. cbv zeta in A3. split; [exact A2|]. cbv zeta. rewrite <- Ed in A3. change (Nat.leb _ _) with (fits w (hptr h) inp) in A3.
      destruct (fits w (hptr h) inp) eqn:F.
      * destruct A3 as (-> & A3 & A4). split; [reflexivity|]. split; [exact A3|]. apply cells_bytes; [apply Sp|exact A4].
      * destruct A3 as (-> & A3 & A4). split; [reflexivity|]. split; [rewrite A3; lia|].
        assert (Et : cells m (base inp) (slen inp) = slice_text w inp).
        { apply text_cells. intros j Hj. apply R7. left. right. split; [exact F|]. exists j. split; [lia|reflexivity]. }
        rewrite Et in A4. change (me (area_of i b w (Sum_of h inp room))) with i in A4.
        rewrite <- (cells_bytes m' (mkA i false (b i false)) _ eq_refl A4) at 1. f_equal.
        unfold slice_text. rewrite !app_length, map_length, seq_length, repeat_length. lia.
  - destruct P as (ws & E). destruct (R4 _ _ E) as (Lh & Nh & Fb); cbn [osize content_ok] in Nh, Fb. apply stays_then.
    eapply stays_mono; [apply (reset_at (area_of i b w (Reset_of h)) (hkind h) (hptr h) m (b i))|].
    + apply (ready_stands _ _ _ ws). apply (R8 _ _ (or_intror eq_refl) E).
    + apply (Ho _ _ eq_refl E).
    + cbn beta. intros _ m' u' (-> & O & St). cbn [stays]. repeat split. exact St.
  - apply stays_then, stays_new; [apply (ample_owns (area_of i b w (Make_bytes n cp)) (b i) false); [exact Am|lia]|].
    intros m' O. cbn [stays]. split; [reflexivity|]. split; [reflexivity|].
    change (me (area_of i b w (Make_bytes n cp))) with i in O. pose proof (cells_over_all _ _ _ _ O) as X. rewrite repeat_length in X. exact X.
  - destruct P as (Sp & Hj & Hv). rewrite (proj2 (Nat.ltb_lt _ _) Hj). apply stays_then, stays_set; [right; right; split; [apply Sp|reflexivity]|].
    intros m' O. cbn [stays]. split; [reflexivity|]. split; [reflexivity|]. rewrite <- (shift_0 (shift _ _)), (over_in _ _ _ _ _ O) by (cbn; lia). reflexivity.
  - destruct P as (Sp & Hj). rewrite (proj2 (Nat.ltb_lt _ _) Hj). apply stays_then, stays_get; [right; left; right; split; [apply Sp|reflexivity]|].
    cbn [stays]. split; [|reflexivity]. f_equal. apply R7. left. reflexivity.
  - apply new_tree_alone. exact (conj P (conj R4 (conj R7 R8))).
  - apply copy_alone. exact (conj P (conj R4 (conj R7 R8))).
  - apply add_ip_alone. exact (conj P (conj R4 (conj R7 R8))).
  - apply add_range_alone. exact (conj P (conj R4 (conj R7 R8))).
  - apply add_cidr_alone. exact (conj P (conj R4 (conj R7 R8))).
  - apply list_alone. exact (conj P (conj R4 (conj R7 R8))).
  - apply (four_bytes_alone i b w (Ip_from ux)); [apply NetAtomProofs.be32_length|cbn [makes]; apply be32_addr, P|apply NetGoProofs.be32_ok].
  - apply ip_to_alone; [exact (conj P (conj R4 (conj R7 R8)))|exact R6].
  - apply (four_bytes_alone i b w (Mask_from mb)); [apply NetAtomProofs.be32_length| |apply NetGoProofs.be32_ok]. cbn [makes]. destruct (N.leb_spec mb 32) as [L|L];
      [apply MaskFromByte_small, L|apply MaskFromByte_big; split; assumption].
  - apply mask_to_alone; [exact (conj P (conj R4 (conj R7 R8)))|exact R6].
  - apply equal_alone; [exact (conj P (conj R4 (conj R7 R8)))|exact R6].
  - cbn [stays answer]. split; reflexivity.
  - apply last_alone; [exact (conj P (conj R4 (conj R7 R8)))|exact R3|exact R6].
  - apply text_alone; [exact (conj P (conj R4 (conj R7 R8)))|exact R6].
  - apply read_alone, P.
  - apply stays_then. rewrite <- (shift_0 (base zs)) at 1. eapply stays_mono; [apply (zero_in _ (base zs) (slen zs) 0 (slen zs) m (b i))|].
    + lia.
    + intros j Hj. right. right. rewrite shift_0. split; [apply P|]. exists j. split; [lia|reflexivity].
    + intros j Hj. lia.
    + cbn beta. intros _ m' u' (-> & X). cbn [stays]. do 2 eexists. split; [reflexivity|]. split; [reflexivity|]. rewrite repeat_length. apply cells_eq; [apply repeat_length|].
      intros j Hj. rewrite nth_repeat. apply X. exact Hj.
  - destruct P as (S1 & S2 & Ap). set (n := Nat.min (slen xd) (slen xo)) in *.
    replace (if Nat.ltb (slen xo) (slen xd) then slen xo else slen xd) with n by (unfold n; destruct (Nat.ltb_spec (slen xo) (slen xd)); lia).
    assert (Md : forall j, (j < n)%nat -> m (shift (base xd) j) = bytes w (shift (base xd) j)) by (intros j Hj; apply R7; left; left; exists j; split; [lia|reflexivity]).
    assert (Mo : forall j, (j < n)%nat -> m (shift (base xo) j) = bytes w (shift (base xo) j)) by (intros j Hj; apply R7; left; right; exists j; split; [lia|reflexivity]).
    apply stays_then. eapply stays_mono; [apply (xor_in _ (base xd) (base xo) n m) with (i := 0%nat) (u := b i)|].
    + intros j Hj. right. right. split; [apply S1|]. exists j. split; [lia|reflexivity].
    + intros j Hj. right. left. right. split; [apply S2|]. right. exists j. split; [lia|reflexivity].
    + intros x y L1 L2. apply Ap; unfold n in *; lia.
    + lia.
    + intros j Hj. lia.
    + intros j Hj. split; reflexivity.
    + cbn beta. intros _ m' u' (-> & X). cbn [stays]. do 2 eexists. split; [reflexivity|]. split; [reflexivity|]. fold n. rewrite map_length, seq_length.
      apply cells_eq; [rewrite map_length, seq_length; reflexivity|]. intros j Hj. rewrite X by exact Hj. rewrite Md, Mo by exact Hj. symmetry.
      rewrite (nth_indep _ 0 (N.lxor (bytes w (shift (base xd) 0)) (bytes w (shift (base xo) 0)))) by (rewrite map_length, seq_length; exact Hj).
      rewrite (map_nth (fun j => N.lxor (bytes w (shift (base xd) j)) (bytes w (shift (base xo) j)))), seq_nth by exact Hj. reflexivity.
Qed.
End Alone.

(** It does not matter what happens elsewhere. *)
Lemma nodes_new i b w u x : nodes_by i b w u x -> settled b w x \/ new_of i (b i) x.
Proof. intros [H|(Lx & Wx & Nx)]; [left; exact H|right]. split; [exact Wx|]. rewrite Lx. lia. Qed.
Lemma result_local i b w c r m m' v : proper w c -> (forall h o, objects w h = Some o -> lib h = true) ->
  alike_in (area_of i b w c) m m' -> result_of i b w c r m v -> result_of i b w c r m' v.
Proof.
  intros P R4 A H. unfold alike_in in A. cbn [area_of rds] in A.
  assert (An : forall l n, (b i l <= n)%nat -> m' (mkA i l n) = m (mkA i l n)) by (intros l n L; apply A; left; left; split; [reflexivity|exact L]).
  assert (Ah : forall h o j, looks w c (TheObject h) \/ alters w c (TheObject h) -> objects w h = Some o -> (j < osize o)%nat -> m' (shift h j) = m (shift h j)).
  { intros h o j [L|L] E Hj; apply A; [right; left|left; right]; left; (split; [apply (R4 _ _ E)|exists h; split; [exact L|exists o; split; [exact E|]]]);
      apply within_iff; cbn [who lib num shift]; repeat split; lia. }
  assert (Ac : forall n, (forall j, (j < n)%nat -> m' (shift (mkA i false (b i false)) j) = m (shift (mkA i false (b i false)) j))).
  { intros n j _. apply An, Nat.le_add_r. }
  assert (Az : walks c = true -> forall x, settled b w x -> settled b w x /\ m' x = m x).
  { intros Wc x Zx. split; [exact Zx|]. apply A. right. right. split; [exact Wc|exact Zx]. }
  assert (Ad : walks c = true -> (forall t x, called w c = Some (t, x) -> alters w c (TheObject (tptr t))) ->
    match called w c with
    | Some (t, x) => r = GotNothing /\ (b i true <= v true)%nat /\ v false = b i false
        /\ forall cs, objects w (tptr t) = Some (ATree (tmerge t) cs) -> tree_stands (nodes_by i b w v) m (tptr t) (tmerge t) (cs ++ [x])
    | None => False
    end -> match called w c with
    | Some (t, x) => r = GotNothing /\ (b i true <= v true)%nat /\ v false = b i false
        /\ forall cs, objects w (tptr t) = Some (ATree (tmerge t) cs) -> tree_stands (nodes_by i b w v) m' (tptr t) (tmerge t) (cs ++ [x])
    | None => False
    end).
  { intros Wc Al X. destruct (called w c) as [[t x]|] eqn:Ec; [|exact X]. destruct X as (E & G1 & G2 & T). split; [exact E|]. split; [exact G1|]. split; [exact G2|].
    intros cs Et. apply (tree_stands_mono (nodes_by i b w v) _ m); [| |apply T, Et].
    - intros y Zy. split; [exact Zy|]. destruct (nodes_new _ _ _ _ _ Zy) as [Sy|Sy]; [apply (Az Wc y Sy)|]. apply A. left. left. exact Sy.
    - intros j Hj. apply (Ah _ _ j (or_intror (Al t x eq_refl)) Et Hj). }
  assert (Af : fresh_bytes i b w c r m v -> fresh_bytes i b w c r m' v).
  { intros (xs & H1 & H2 & H3 & H4 & H5 & H6). exists xs. repeat (split; [assumption|]). rewrite <- H6 at 2. apply cells_ext, Ac. }
  destruct c as [k|h q|h inp room|h|n cp|s j x|s j|mg|t|t ip x|t a e x|t ip mk x|t|ux|sx|mb|sm|a1 b1 a2 b2|a1 b1|a1 b1|fx sx0|tn fs tx|zs|xd xo]; cbn [proper result_of walks] in *; cbv zeta in *.
  - destruct H as (E & G & St). split; [exact E|]. split; [exact G|]. apply (stands_same k m); [|exact St]. intros j Hj. apply An, Nat.le_add_r.
  - destruct H as (E & G & St). split; [exact E|]. split; [exact G|]. intros ws Ew. apply (stands_same _ m); [|apply St, Ew].
    intros j Hj. apply (Ah _ _ j (or_intror eq_refl) Ew Hj).
  - destruct H as (G & H). split; [exact G|]. cbv zeta in *. destruct (fits w (hptr h) inp) eqn:F.
    + destruct H as (E & G' & C). split; [exact E|]. split; [exact G'|]. rewrite <- C at 2. apply cells_ext. intros j Hj. apply A. left. right. right.
      split; [apply P|]. split; [exact F|]. rewrite shift_shift. exists (slen inp + j)%nat. split; [lia|reflexivity].
    + destruct H as (E & G' & C). split; [exact E|]. split; [exact G'|]. rewrite <- C. apply cells_ext, Ac.
  - destruct H as (E & G & St). split; [exact E|]. split; [exact G|]. destruct P as (ws & Ew). apply (stands_same _ m); [|exact St].
    intros j Hj. apply (Ah _ _ j (or_intror eq_refl) Ew Hj).
  - destruct H as (E & G & C). split; [exact E|]. split; [exact G|]. rewrite <- C. apply cells_ext, Ac.
  - destruct H as (E & G & C). split; [exact E|]. split; [exact G|]. rewrite <- C. apply A. left. right. right. split; [apply P|reflexivity].
  - exact H.
  - destruct H as (E & G & _ & n & fuel & Ea & nd & Ei & Nd). split; [exact E|]. split; [exact G|]. split; [constructor|]. cbn [Net.apply_all] in Ea. injection Ea as <-.
    exists (Net.New mg), fuel. split; [reflexivity|]. exists nd. split; [rewrite <- Ei; apply cells_ext; intros j Hj; apply An, Nat.le_add_r|exact Nd].
  - destruct H as (E & G & T). split; [exact E|]. split; [exact G|]. intros cs Et. apply (tree_stands_mono (settled b w) _ m); [exact (Az eq_refl)| |apply T, Et].
    intros j Hj. apply An, Nat.le_add_r.
  - apply (Ad eq_refl); [|exact H]. intros t0 x0 X. injection X as <- _. reflexivity.
  - apply (Ad eq_refl); [|exact H]. intros t0 x0 X. injection X as <- _. reflexivity.
  - apply (Ad eq_refl); [|exact H]. intros t0 x0 X. injection X as <- _. reflexivity.
  - destruct H as (cs & B & L & H1 & H2 & H3 & H4 & H5 & H6 & H7 & H8 & H9). exists cs, B, L. repeat (split; [assumption|]). split; [|exact H9]. rewrite <- H8 at 2. apply cells_ext, Ac.
  - apply Af, H.
  - exact H.
  - apply Af, H.
  - exact H.
  - exact H.
  - exact H.
  - apply Af, H.
  - exact H.
  - destruct H as (H1 & H2 & H3 & H4 & H5). repeat (split; [assumption|]). split; [|exact H5]. rewrite <- H4 at 2. apply cells_ext, Ac.
  - destruct H as (a & xs & E & G & C). exists a, xs. split; [exact E|]. split; [exact G|]. rewrite <- C at 2. injection E as <- <- _. apply cells_ext. intros j Hj. apply A. left. right. right.
    split; [apply P|]. exists j. rewrite repeat_length in Hj. split; [lia|reflexivity].
  - destruct H as (a & xs & E & G & C). exists a, xs. split; [exact E|]. split; [exact G|]. rewrite <- C at 2. injection E as <- <- _. apply cells_ext. intros j Hj. apply A. left. right. right.
    split; [apply P|]. exists j. rewrite map_length, seq_length in Hj. split; [lia|reflexivity].
Qed.

(** ** What a call changes *)

Lemma does_frame i w c w' r : does i w c w' r ->
  (forall h, ~ alters w c (TheObject h) -> objects w h <> None -> objects w' h = objects w h)
  /\ (forall x, lib x = false -> ~ alters w c (TheByte x) -> (num x < made_by w (who x))%nat -> bytes w' x = bytes w x)
  /\ (forall j, j <> i -> made_by w' j = made_by w j).
Proof.
  assert (Ad : forall xs, (forall x, lib x = false -> (num x < made_by w (who x))%nat -> bytes (add_bytes i w xs) x = bytes w x)
    /\ forall j, j <> i -> made_by (add_bytes i w xs) j = made_by w j).
  { intros xs. split.
    - intros x _ L. cbn [add_bytes bytes]. unfold overwritten. destruct (within_spec (mkA i false (made_by w i)) (length xs) x) as [(X & _ & Y)|_]; [|reflexivity].
      cbn [who num] in *. rewrite X in L. lia.
    - intros j D. cbn [add_bytes made_by]. destruct (Nat.eqb_spec j i); [contradiction|reflexivity]. }
  intros D. destruct D; cbn [alters set_object set_bytes objects bytes made_by].
  - repeat split. intros x _ Nx. destruct (same_spec x h); [congruence|reflexivity].
  - repeat split. intros x Nx _. destruct (same_spec x (hptr h)) as [-> |]; [destruct Nx; reflexivity|reflexivity].
  - repeat split. intros x _ Nx _. unfold overwritten. destruct (within _ _ x) eqn:E; [|reflexivity]. destruct Nx. split; [assumption|]. apply in_slice_within, E.
  - split; [reflexivity|]. split; [intros x Lx _; apply Ad, Lx|apply Ad].
  - repeat split. intros x Nx _. destruct (same_spec x (hptr h)) as [-> |]; [destruct Nx; reflexivity|reflexivity].
  - split; [reflexivity|]. split; [intros x Lx _; apply Ad, Lx|apply Ad].
  - repeat split. intros x _ Nx _. unfold overwritten. destruct (within (shift (base s) j) (length [v]) x) eqn:E; [|reflexivity]. destruct Nx. f_equal. rewrite (in_shift _ _ _ E).
    apply within_iff in E. cbn [length num shift] in *. replace (num x - (num (base s) + j))%nat with 0%nat by lia. apply shift_0.
  - repeat split.
  - repeat split. intros x _ Nx. destruct (same_spec x a); [congruence|reflexivity].
  - repeat split. intros x _ Nx. destruct (same_spec x a); [congruence|reflexivity].
  - repeat split. intros y Nx _. destruct (same_spec y (tptr t)) as [-> |]; [|reflexivity]. destruct Nx. destruct c; try discriminate H; injection H as <- _; reflexivity.
  - split; [reflexivity|]. split; [intros y Ly _; apply Ad, Ly|apply Ad].
  - repeat split.
  - split; [reflexivity|]. split; [intros y Ly _; apply Ad, Ly|apply Ad].
  - split; [reflexivity|]. split; [intros y Ly _; apply Ad, Ly|apply Ad].
  - repeat split. intros x _ Nx _. unfold overwritten. destruct (within a (length xs) x) eqn:W; [|reflexivity]. destruct Nx.
    destruct c; try discriminate H; injection H as <- <- _; rewrite <- (shift_0 (base _)) in W; apply in_slice_within in W; rewrite ?repeat_length, ?map_length, ?seq_length in W; exact W.
Qed.

(** A call does not notice what is changed elsewhere. *)
Definition agree (w w' : world) (c : ask) : Prop :=
  (forall h, looks w c (TheObject h) \/ alters w c (TheObject h) -> objects w' h = objects w h)
  /\ forall x, looks w c (TheByte x) -> bytes w' x = bytes w x.
Lemma agree_footprint w w' c : agree w w' c -> (forall t, looks w' c t <-> looks w c t) /\ (forall t, alters w' c t <-> alters w c t).
Proof.
  intros (H & _). destruct c as [k|h q|h inp room|h|n cp|s j x|s j|mg|t|t ip x|t a e x|t ip mk x|t|ux|sx|mb|sm|a1 b1 a2 b2|a1 b1|a1 b1|fx sx0|tn fs tx|zs|xd xo]; cbn [looks alters]; try (split; intros; reflexivity).
  assert (E : objects w' (hptr h) = objects w (hptr h)) by (apply H; left; left; reflexivity). unfold fits, digest_at. rewrite E. split; intros; reflexivity.
Qed.
Lemma agree_result i b b' w w' c r m v : agree w w' c -> b' i = b i -> (forall x, settled b w x -> settled b' w' x) ->
  result_of i b w c r m v -> result_of i b' w' c r m v.
Proof.
  intros (H & B) Eb Z.
  assert (Sl : forall s, (forall j, (j < slen s)%nat -> looks w c (TheByte (shift (base s) j))) -> slice_text w' s = slice_text w s).
  { intros s Hs. apply map_ext_in. intros j Hj. apply in_seq in Hj. apply B, Hs. lia. }
  assert (Tm : forall a mg cs, tree_stands (settled b w) m a mg cs -> tree_stands (settled b' w') m a mg cs).
  { intros a mg cs. apply tree_stands_mono; [|reflexivity]. intros x Zx. split; [apply Z, Zx|reflexivity]. }
  assert (Tn : forall a mg cs, tree_stands (nodes_by i b w v) m a mg cs -> tree_stands (nodes_by i b' w' v) m a mg cs).
  { intros a mg cs. apply tree_stands_mono; [|reflexivity]. intros x [Zx|Zx]; (split; [|reflexivity]); [left; apply Z, Zx|right; rewrite Eb; exact Zx]. }
  assert (Ad : called w' c = called w c -> (forall t x, called w c = Some (t, x) -> alters w c (TheObject (tptr t))) ->
    match called w c with
    | Some (t, x) => r = GotNothing /\ (b i true <= v true)%nat /\ v false = b i false
        /\ forall cs, objects w (tptr t) = Some (ATree (tmerge t) cs) -> tree_stands (nodes_by i b w v) m (tptr t) (tmerge t) (cs ++ [x])
    | None => False
    end -> match called w' c with
    | Some (t, x) => r = GotNothing /\ (b i true <= v true)%nat /\ v false = b i false
        /\ forall cs, objects w' (tptr t) = Some (ATree (tmerge t) cs) -> tree_stands (nodes_by i b' w' v) m (tptr t) (tmerge t) (cs ++ [x])
    | None => False
    end).
  { intros -> Al X. destruct (called w c) as [[t x]|] eqn:Ec; [|exact X]. destruct X as (E & G1 & G2 & T). split; [exact E|]. split; [exact G1|]. split; [exact G2|].
    intros cs Et. rewrite H in Et by (right; apply (Al t x eq_refl)). apply Tn, T, Et. }
  destruct c as [k|h q|h inp room|h|n cp|s j x|s j|mg|t|t ip x|t a e x|t ip mk x|t|ux|sx|mb|sm|a1 b1 a2 b2|a1 b1|a1 b1|fx sx0|tn fs tx|zs|xd xo]; cbn [result_of]; cbv zeta; rewrite ?Eb; try (intros X; exact X).
  - intros (E & G & St). split; [exact E|]. split; [exact G|]. intros ws Ew. rewrite (H (hptr h)) in Ew by (right; reflexivity).
    rewrite Sl; [apply St, Ew|]. intros j Hj. exists j. split; [lia|reflexivity].
  - assert (E : objects w' (hptr h) = objects w (hptr h)) by (apply H; left; left; reflexivity).
    assert (Ed : digest_at w' (hptr h) = digest_at w (hptr h)) by (unfold digest_at; rewrite E; reflexivity).
    assert (Ef : fits w' (hptr h) inp = fits w (hptr h) inp) by (unfold fits; rewrite Ed; reflexivity).
    rewrite Ef, Ed. intros (G & X). split; [exact G|]. destruct (fits w (hptr h) inp) eqn:F; [exact X|].
    rewrite Sl; [exact X|]. intros j Hj. right. split; [exact F|]. exists j. split; [lia|reflexivity].
  - intros (-> & G). split; [|exact G]. rewrite B; reflexivity.
  - intros (E & G & T). split; [exact E|]. split; [exact G|]. apply Tm, T.
  - intros (E & G & T). split; [exact E|]. split; [exact G|]. intros cs Et. rewrite H in Et by (left; reflexivity). apply Tm, T, Et.
  - apply Ad; [|intros t0 x0 X; injection X as <- _; reflexivity]. cbn [called]. rewrite (Sl ip); [reflexivity|]. intros j Hj. exists j. split; [lia|reflexivity].
  - apply Ad; [|intros t0 x0 X; injection X as <- _; reflexivity]. cbn [called]. rewrite (Sl a), (Sl e); [reflexivity| |]; intros j Hj; [right|left]; exists j; (split; [lia|reflexivity]).
  - apply Ad; [|intros t0 x0 X; injection X as <- _; reflexivity]. cbn [called]. rewrite (Sl ip), (Sl mk); [reflexivity| |]; intros j Hj; [right|left]; exists j; (split; [lia|reflexivity]).
  - intros (cs & X). exists cs. rewrite H by (left; reflexivity). exact X.
  - cbn [answer]. rewrite (Sl sx); [intros X; exact X|]. intros j Hj. exists j. split; [lia|reflexivity].
  - cbn [answer]. rewrite (Sl sm); [intros X; exact X|]. intros j Hj. exists j. split; [lia|reflexivity].
  - cbn [answer]. rewrite (Sl a1), (Sl b1), (Sl a2), (Sl b2); [intros X; exact X| | | |]; intros j Hj; [right; right; right|right; right; left|right; left|left]; exists j; (split; [lia|reflexivity]).
  - intros (xs & E & X). exists xs. split; [|exact X]. rewrite E. cbn [makes]. apply map_ext_in. intros j Hj.
    assert (Lj : (j < 4)%nat) by (cbn in Hj; lia). rewrite !B; [reflexivity|right|left]; exists j; (split; [lia|reflexivity]).
  - cbn [answer]. rewrite (Sl sx0); [intros X; exact X|]. intros j Hj. exists j. split; [lia|reflexivity].
  - intros (a & xs & E & X). exists a, xs. split; [|exact X]. rewrite <- E. cbn [overwrites]. do 3 f_equal. apply map_ext_in. intros j Hj. apply in_seq in Hj.
    rewrite !B; [reflexivity|right|left]; exists j; (split; [lia|reflexivity]).
Qed.
Lemma agree_stays i b b' w w' c (k : code got) m v : agree w w' c -> b' i = b i -> (forall x, settled b w x -> settled b' w' x) ->
  stays (area_of i b w c) k m v (result_of i b w c) -> stays (area_of i b' w' c) k m v (result_of i b' w' c).
Proof.
  intros A Eb Z St. destruct (agree_footprint _ _ _ A) as [F1 F2]. destruct A as [A1 A2].
  assert (Cv : forall P P' : thing -> Prop, (forall t, P' t <-> P t) -> (forall h, P (TheObject h) -> objects w' h = objects w h) -> forall x, covered w P x -> covered w' P' x).
  { intros P P' E T x [(Lx & h & Ph & o & Eh & W)|(Lx & Px)]; [left|right].
    - split; [exact Lx|]. exists h. split; [apply E, Ph|]. exists o. split; [rewrite T; assumption|exact W].
    - split; [exact Lx|]. apply E, Px. }
  assert (Wr : forall x, wr_of i b w c x -> wr_of i b' w' c x).
  { intros x [X|X]; [left; rewrite Eb; exact X|right; apply (Cv _ _ F2); [intros h Ph; apply A1; right; exact Ph|exact X]]. }
  apply (wider (area_of i b w c)); try reflexivity.
  - intros x [X|[X|(X & Y)]]; [left; apply Wr, X|right; left; apply (Cv _ _ F1); [intros h Ph; apply A1; left; exact Ph|exact X]|right; right; split; [exact X|apply Z, Y]].
  - exact Wr.
  - eapply stays_mono; [exact St|]. intros r m' v'. apply agree_result; [split; assumption|exact Eb|exact Z].
Qed.
Lemma does_agree i w c w' r c' : does i w c w' r -> ~ clash w c c' -> proper w c' -> agree w w' c'.
Proof.
  intros D Nc P. destruct (does_frame _ _ _ _ _ D) as (F1 & F2 & _). split.
  - intros h H. apply F1; [|apply (things_there w c' (TheObject h) P H)]. intros A. apply Nc. exists (TheObject h). split; assumption.
  - intros x H. destruct (things_there w c' (TheByte x) P (or_introl H)) as [Lx Nx]. apply F2; [exact Lx| |exact Nx].
    intros A. apply Nc. exists (TheByte x). split; [exact A|left; exact H].
Qed.

(** ** A call returns *)

Section Returns.
Context (i : nat) (b : nat -> bool -> nat) (w : world) (c : ask) (m : memory).
Context (P : proper w c).
Context (R3 : forall j, made_by w j = b j false).
Context (R4 : forall h o, objects w h = Some o -> lib h = true /\ (num h + osize o <= b (who h) true)%nat /\ content_ok o).
Context (R6 : forall x, bytes w x < 256).

Definition hash_after (w' : world) (u : bool -> nat) : Prop := forall h o, objects w' h = Some o ->
  (objects w h = Some o /\ ~ alters w c (TheObject h))
  \/ (alters w c (TheObject h) /\ (exists o0, objects w h = Some o0 /\ osize o0 = osize o) /\ stands_in (nodes_by i b w u) m h o /\ content_ok o
      /\ forall h', objects w' h' <> None -> objects w h' <> None)
  \/ (h = fresh_at i (b i) /\ stands_in (settled b w) m h o /\ content_ok o /\ (num h + osize o <= u true)%nat).
Definition byte_after (w' : world) : Prop := forall x, lib x = false -> (num x < made_by w' (who x))%nat ->
  (~ alters w c (TheByte x) /\ (num x < made_by w (who x))%nat /\ bytes w' x = bytes w x) \/ m x = bytes w' x.

Lemma overwritten_ok a xs : bytes_ok xs -> forall x, overwritten (bytes w) a xs x < 256.
Proof.
  intros B x. unfold overwritten. destruct (within_spec a (length xs) x) as [(_ & _ & W)|_]; [|apply R6].
  apply (proj1 (Forall_forall _ _) B). apply nth_In. lia.
Qed.
Lemma overwritten_cells a xs x : cells m a (length xs) = xs -> within a (length xs) x = true -> m x = overwritten (bytes w) a xs x.
Proof.
  intros C W. unfold overwritten. rewrite W. rewrite <- C at 1. rewrite (in_shift _ _ _ W) at 1. apply within_iff in W. rewrite nth_cells by lia. reflexivity.
Qed.
Lemma hashes_kept w' u : objects w' = objects w -> (forall h, ~ alters w c (TheObject h)) -> hash_after w' u.
Proof. intros E A h o H. rewrite E in H. left. split; [exact H|apply A]. Qed.
Lemma hash_altered h o0 o u : (forall h', alters w c (TheObject h') <-> h' = h) -> objects w h = Some o0 -> osize o0 = osize o -> stands_in (nodes_by i b w u) m h o -> content_ok o ->
  hash_after (set_object w h o) u.
Proof.
  intros A E L St Ok h' o' E'. cbn [set_object objects] in E'. destruct (same_spec h' h) as [-> |D].
  - injection E' as <-. right. left. split; [apply A; reflexivity|]. split; [exists o0; split; assumption|]. split; [exact St|]. split; [exact Ok|].
    intros h' X. cbn [set_object objects] in X. destruct (same_spec h' h) as [E1|]; [rewrite E1; congruence|exact X].
  - left. split; [exact E'|]. intros X. apply D, A, X.
Qed.
Lemma hash_made o u : (forall h, ~ alters w c (TheObject h)) -> stands_in (settled b w) m (fresh_at i (b i)) o -> content_ok o -> (b i true + osize o <= u true)%nat ->
  hash_after (set_object w (fresh_at i (b i)) o) u.
Proof.
  intros A St Ok L h' o' E'. cbn [set_object objects] in E'. destruct (same_spec h' (fresh_at i (b i))) as [-> |D].
  - injection E' as <-. right. right. repeat split; assumption.
  - left. split; [exact E'|apply A].
Qed.
Lemma fresh_free : objects w (fresh_at i (b i)) = None.
Proof.
  destruct (objects w (fresh_at i (b i))) as [o|] eqn:E; [|reflexivity]. destruct (R4 _ _ E) as (_ & L & _). pose proof (size_pos o). cbn [num who fresh_at] in L. lia.
Qed.
Lemma bytes_kept w' : bytes w' = bytes w -> made_by w' = made_by w -> (forall x, ~ alters w c (TheByte x)) -> byte_after w'.
Proof. intros E M A x _ L. rewrite M in L. left. split; [apply A|]. split; [exact L|rewrite E; reflexivity]. Qed.
Lemma bytes_added xs : (forall x, ~ alters w c (TheByte x)) -> cells m (mkA i false (b i false)) (length xs) = xs -> byte_after (add_bytes i w xs).
Proof.
  intros A C x Lx L. cbn [add_bytes bytes made_by] in *. rewrite (R3 i) in L |- *. destruct (within (mkA i false (b i false)) (length xs) x) eqn:W.
  - right. apply overwritten_cells; assumption.
  - left. split; [apply A|]. split.
    + destruct (Nat.eqb_spec (who x) i) as [E|]; [|exact L]. apply within_not in W. cbn [who lib num] in W. rewrite E, R3. apply Nat.lt_nge. intros X. apply W. repeat split; try assumption; lia.
    + unfold overwritten. rewrite W. reflexivity.
Qed.
Lemma digest_at_ok h : bytes_ok (digest_at w h).
Proof. unfold digest_at. destruct (objects w h) as [[k ws|mg cs]|] eqn:E; try constructor. apply digest_bytes. apply (R4 _ _ E). Qed.

Lemma returns r u : result_of i b w c r m u ->
  exists w', does i w c w' r /\ (forall l, (b i l <= u l)%nat) /\ made_by w' i = u false /\ hash_after w' u /\ byte_after w' /\ forall x, bytes w' x < 256.
Proof.
  intros H. assert (Z : forall n, bytes_ok (repeat 0 n)) by (intros n; apply Forall_forall; intros y Hy; apply repeat_spec in Hy; subst y; reflexivity).
  assert (Tx : forall s, bytes_ok (slice_text w s)) by (intros s; apply Forall_forall; intros x Hx; apply in_map_iff in Hx; destruct Hx as (j & <- & _); apply R6).
  pose proof hashes_kept as Hk. pose proof bytes_kept as Bk. pose proof bytes_added as Ba. pose proof hash_altered as Ha. pose proof hash_made as Hm. pose proof fresh_free as Ff.
  assert (Ad : forall t x, called w c = Some (t, x) -> tree_there w t -> (forall h', alters w c (TheObject h') <-> h' = tptr t) -> (forall y, ~ alters w c (TheByte y)) ->
    r = GotNothing /\ (b i true <= u true)%nat /\ u false = b i false
      /\ (forall cs, objects w (tptr t) = Some (ATree (tmerge t) cs) -> tree_stands (nodes_by i b w u) m (tptr t) (tmerge t) (cs ++ [x])) ->
    exists w', does i w c w' r /\ (forall l, (b i l <= u l)%nat) /\ made_by w' i = u false /\ hash_after w' u /\ byte_after w' /\ forall x, bytes w' x < 256).
  { intros t x Ec (cs & E) A A' (-> & G1 & G2 & T). eexists. split; [apply (Does_add i w c t x cs Ec E)|]. split; [intros [|]; lia|]. split; [cbn [set_object made_by]; rewrite G2; apply R3|].
    split; [|split; [apply Bk; try reflexivity; exact A'|exact R6]]. apply (Ha _ _ _ _ A E); [reflexivity|apply (T cs E)|exact Logic.I]. }
  assert (Aa : (forall t, ~ alters w c t) -> answer w c r /\ u = b i ->
    exists w', does i w c w' r /\ (forall l, (b i l <= u l)%nat) /\ made_by w' i = u false /\ hash_after w' u /\ byte_after w' /\ forall x, bytes w' x < 256).
  { intros A (H1 & ->). exists w. split; [apply Does_answer, H1|]. split; [lia|]. split; [apply R3|]. split; [apply Hk; [reflexivity|intros h'; apply A]|].
    split; [apply Bk; try reflexivity; intros x; apply A|exact R6]. }
  assert (Af : (forall t, ~ alters w c t) -> fresh_bytes i b w c r m u ->
    exists w', does i w c w' r /\ (forall l, (b i l <= u l)%nat) /\ made_by w' i = u false /\ hash_after w' u /\ byte_after w' /\ forall x, bytes w' x < 256).
  { intros A (xs & H1 & H2 & -> & H4 & H5 & H6). exists (add_bytes i w xs). split; [rewrite <- R3; apply Does_bytes, H1|]. split; [intros [|]; lia|].
    split; [cbn [add_bytes made_by]; rewrite Nat.eqb_refl, H5, R3; reflexivity|]. split; [apply Hk; [reflexivity|intros h'; apply A]|].
    split; [apply Ba; [intros x; apply A|exact H6]|apply overwritten_ok, H2]. }
  unfold hash_after, byte_after in *.
  destruct c as [k|h q|h inp room|h|n cp|s j v|s j|mg|t|t ip v|t a e v|t ip mk v|t|ux|sx|mb|sm|a1 b1 a2 b2|a1 b1|a1 b1|fx sx0|tn fs tx|zs|xd xo]; cbn [proper result_of] in *; cbv zeta in *.
  - destruct H as (-> & -> & St). eexists. split; [constructor; exact Ff|]. split; [intros l; unfold grow; destruct (Bool.eqb l true); lia|].
    split; [cbn [set_object made_by]; unfold grow; cbn [Bool.eqb]; apply R3|]. split; [|split; [apply Bk; try reflexivity; intros x []|exact R6]].
    apply Hm; [intros h []|exact St|constructor|rewrite grow_same; cbn [osize]; lia].
  - destruct H as (-> & -> & St). destruct P as (Sq & ws & E & Ct). specialize (St ws E).
    eexists. split; [apply (Does_write i w h q ws E)|]. split; [lia|]. split; [apply R3|].
    split; [|split; [apply Bk; try reflexivity; intros x X; discriminate X|exact R6]].
    apply (Ha (hptr h) _ _ _ ltac:(intros h'; split; [intros X; injection X as X; exact X|intros ->; reflexivity]) E); [reflexivity|exact St|]. cbn [content_ok]. apply Forall_app. split; [apply (R4 _ _ E)|].
    constructor; [apply Tx|constructor].
  - destruct H as (G & H). destruct (fits w (hptr h) inp) eqn:F.
    + destruct H as (-> & G' & C). eexists. split; [apply Does_sum_here; exact F|]. split; [intros [|]; lia|]. split; [cbn [set_bytes made_by]; rewrite G'; apply R3|].
      split; [|split; [|apply overwritten_ok, digest_at_ok]].
      * apply Hk; [reflexivity|]. intros h' [_ (j & _ & X)]. discriminate X.
      * intros x Lx L. cbn [set_bytes bytes made_by alters] in *. destruct (within (shift (base inp) (slen inp)) (length (digest_at w (hptr h))) x) eqn:W.
        -- right. apply overwritten_cells; assumption.
        -- left. split; [intros [_ X]; apply in_slice_within in X; congruence|]. split; [exact L|]. unfold overwritten. rewrite W. reflexivity.
    + destruct H as (-> & G' & C). rewrite <- R3. eexists. split; [apply Does_sum_new; exact F|]. split; [intros [|]; lia|].
      assert (Ll : length (slice_text w inp ++ digest_at w (hptr h) ++ repeat 0 room) = (slen inp + length (digest_at w (hptr h)) + room)%nat)
        by (unfold slice_text; rewrite !app_length, map_length, seq_length, repeat_length; lia).
      split; [cbn [add_bytes made_by]; rewrite Nat.eqb_refl, Ll, G', R3; reflexivity|].
      split; [apply Hk; [reflexivity|intros h' [X _]; congruence]|]. split.
      * apply Ba; [intros x [X _]; cbn in X; congruence|]. rewrite Ll. exact C.
      * apply overwritten_ok. apply bytes_ok_app. split; [apply Tx|]. apply bytes_ok_app. split; [apply digest_at_ok|apply Z].
  - destruct H as (-> & -> & St). destruct P as (ws & E). eexists. split; [constructor|]. split; [lia|]. split; [apply R3|].
    split; [|split; [apply Bk; try reflexivity; intros x X; discriminate X|exact R6]].
    apply (Ha (hptr h) _ _ _ ltac:(intros h'; split; [intros X; injection X as X; exact X|intros ->; reflexivity]) E); [reflexivity|exact St|constructor].
  - destruct H as (-> & -> & C). rewrite <- R3. eexists. split; [constructor|]. split; [intros l; unfold grow; destruct (Bool.eqb l false); lia|].
    split; [cbn [add_bytes made_by]; rewrite Nat.eqb_refl, repeat_length, grow_same, R3; reflexivity|].
    split; [apply Hk; [reflexivity|intros h' []]|]. split; [apply Ba; [intros x []|rewrite repeat_length; exact C]|apply overwritten_ok, Z].
  - destruct H as (-> & -> & C). destruct P as (Sp & Hj & Hv). eexists. split; [constructor|]. split; [lia|]. split; [apply R3|]. split; [apply Hk; [reflexivity|intros h' X; discriminate X]|].
    split; [|apply overwritten_ok; constructor; [exact Hv|constructor]].
    intros x Lx L. cbn [set_bytes bytes made_by alters] in *. destruct (within (shift (base s) j) (length [v]) x) eqn:W.
    + right. apply overwritten_cells; [|exact W]. cbn [length]. unfold cells. cbn [seq map]. rewrite shift_0, C. reflexivity.
    + left. split; [|split; [exact L|unfold overwritten; rewrite W; reflexivity]]. intros X. injection X as ->. apply within_not in W. apply W. cbn [length who lib num shift]. repeat split; lia.
  - destruct H as (-> & ->). exists w. split; [constructor|]. split; [lia|]. split; [apply R3|]. split; [apply Hk; [reflexivity|intros h' []]|]. split; [apply Bk; try reflexivity; intros x []|exact R6].
  - destruct H as (-> & -> & St). eexists. split; [constructor; exact Ff|]. split; [intros l; unfold grow; destruct (Bool.eqb l true); lia|].
    split; [cbn [set_object made_by]; unfold grow; cbn [Bool.eqb]; apply R3|]. split; [|split; [apply Bk; try reflexivity; intros x []|exact R6]].
    apply Hm; [intros h []|exact St|exact Logic.I|rewrite grow_same; cbn [osize]; lia].
  - destruct H as (-> & -> & St). destruct P as (cs & E). eexists. split; [apply (Does_copy i w t cs _ E Ff)|]. split; [intros l; unfold grow; destruct (Bool.eqb l true); lia|].
    split; [cbn [set_object made_by]; unfold grow; cbn [Bool.eqb]; apply R3|]. split; [|split; [apply Bk; try reflexivity; intros x []|exact R6]].
    apply Hm; [intros h []|apply (St cs E)|exact Logic.I|rewrite grow_same; cbn [osize]; lia].
  - apply (Ad t _ eq_refl); [apply P| | |exact H]; [intros h'; split; [intros X; injection X as X; exact X|intros ->; reflexivity]|intros y X; discriminate X].
  - apply (Ad t _ eq_refl); [apply P| | |exact H]; [intros h'; split; [intros X; injection X as X; exact X|intros ->; reflexivity]|intros y X; discriminate X].
  - apply (Ad t _ eq_refl); [apply P| | |exact H]; [intros h'; split; [intros X; injection X as X; exact X|intros ->; reflexivity]|intros y X; discriminate X].
  - destruct H as (cs & B & L & H1 & H2 & H3 & H4 & -> & H6 & H7 & H8 & H9). rewrite <- R3. eexists. split; [apply (Does_list i w t cs B L H1 H2 H3 H4)|]. split; [intros [|]; lia|].
    split; [cbn [add_bytes made_by]; rewrite Nat.eqb_refl, H7, R3; reflexivity|].
    split; [apply Hk; [reflexivity|intros h' []]|]. split; [apply Ba; [intros x []|exact H8]|apply overwritten_ok, H9].
  - apply (Af (fun _ X => X) H).
  - apply (Aa (fun _ X => X) H).
  - apply (Af (fun _ X => X) H).
  - apply (Aa (fun _ X => X) H).
  - apply (Aa (fun _ X => X) H).
  - apply (Aa (fun _ X => X) H).
  - apply (Af (fun _ X => X) H).
  - destruct H as (H1 & H2 & H3). exists w. split; [apply Does_answer, H1|]. split; [intros [|]; lia|]. split; [rewrite H3; apply R3|]. split; [apply Hk; [reflexivity|intros h' []]|].
    split; [apply Bk; try reflexivity; intros x []|exact R6].
  - destruct H as (-> & H2 & H3 & H4 & H5). rewrite <- R3. eexists. split; [apply Does_read|]. split; [intros [|]; lia|].
    split; [cbn [add_bytes made_by]; rewrite Nat.eqb_refl, H3, R3; reflexivity|]. split; [apply Hk; [reflexivity|intros h' []]|].
    split; [apply Ba; [intros x []|exact H4]|apply overwritten_ok, H5].
  - destruct H as (a & xs & E & -> & C). exists (set_bytes w a xs). split; [apply Does_overwrite, E|]. split; [lia|]. split; [apply R3|].
    split; [apply Hk; [reflexivity|intros h' (j & _ & X); discriminate X]|]. injection E as <- <- _. split; [|apply overwritten_ok, Z].
    intros x Lx L. cbn [set_bytes bytes made_by alters] in *. destruct (within (base zs) (length (repeat 0 (slen zs))) x) eqn:W; [right; apply overwritten_cells; assumption|left].
    split; [|split; [exact L|unfold overwritten; rewrite W; reflexivity]]. intros X. apply in_slice_within in X. rewrite shift_0 in X. rewrite repeat_length in W. congruence.
  - destruct H as (a & xs & E & -> & C). exists (set_bytes w a xs). split; [apply Does_overwrite, E|]. split; [lia|]. split; [apply R3|].
    split; [apply Hk; [reflexivity|intros h' (j & _ & X); discriminate X]|]. injection E as <- <- _. split.
    + intros x Lx L. cbn [set_bytes bytes made_by alters] in *. match type of C with cells m _ (length ?l) = _ => destruct (within (base xd) (length l) x) eqn:W end;
        [right; apply overwritten_cells; assumption|left].
      split; [|split; [exact L|unfold overwritten; rewrite W; reflexivity]]. intros X. apply in_slice_within in X. rewrite shift_0 in X. rewrite map_length, seq_length in W. congruence.
    + apply overwritten_ok. apply Forall_forall. intros y Hy. apply in_map_iff in Hy as (j & <- & _). apply ChecksumProofs.lxor_byte; apply R6.
Qed.
End Returns.

(** ** All of them *)

Section Together.
Context {G : Type}.
Notation worker := (worker G).
Notation prog := (prog G).

Definition busy (ws : list worker) (gs : list prog) (w : world) (t : thing) : Prop :=
  exists i code k u c, nth_error ws i = Some (mkW (Inside c code k) u) /\ nth_error gs i = Some (Call c k) /\ alters w c t.
Record rel (m : memory) (ws : list worker) (w : world) (gs : list prog) (b : nat -> bool -> nat) : Prop := mkRel {
  rl_len : length ws = length gs;
  rl_at : forall i v, nth_error ws i = Some v -> exists g, nth_error gs i = Some g /\
    match stands_at v with
    | Between g' => g = g' /\ b i = taken v
    | Inside c code k => g = Call c k /\ stays (area_of i b w c) code m (taken v) (result_of i b w c)
    end;
  rl_made : forall i, made_by w i = b i false;
  rl_hash : forall h o, objects w h = Some o -> lib h = true /\ (num h + osize o <= b (who h) true)%nat /\ content_ok o;
  rl_apart : forall h o h' o', h <> h' -> objects w h = Some o -> objects w h' = Some o' -> who h = who h' ->
    (num h + osize o <= num h' \/ num h' + osize o' <= num h)%nat;
  rl_byte : forall x, bytes w x < 256;
  rl_bytes : forall x, lib x = false -> (num x < made_by w (who x))%nat -> ~ busy ws gs w (TheByte x) -> m x = bytes w x;
  rl_hashes : forall h o, objects w h = Some o -> ~ busy ws gs w (TheObject h) -> stands_in (settled b w) m h o }.

Lemma rel_inside m ws w gs b i c code k u : rel m ws w gs b -> nth_error ws i = Some (mkW (Inside c code k) u) ->
  nth_error gs i = Some (Call c k) /\ stays (area_of i b w c) code m u (result_of i b w c).
Proof. intros R E. destruct (rl_at _ _ _ _ _ R i _ E) as (g & Eg & -> & St). split; assumption. Qed.

(** What one writes nobody else reads. *)
Lemma areas_apart m ws w gs b i j c c' x : rel m ws w gs b -> i <> j -> proper w c -> proper w c' -> ~ clash w c c' ->
  wr_of i b w c x -> rd_of j b w c' x -> False.
Proof.
  intros R D P P' Nc W Rd.
  assert (Old : forall n q y, proper w q -> new_of n (b n) y -> ~ covered w (looks w q) y /\ ~ covered w (alters w q) y).
  { intros n q y Pq (Wy & Ny).
    assert (Hh : forall Z : thing -> Prop, (forall x, Z (TheByte x) -> (num x < made_by w (who x))%nat) -> ~ covered w Z y).
    { intros Z HZ [(Ly & h & _ & o & E & In)|(Ly & Zy)].
      - destruct (rl_hash _ _ _ _ _ R _ _ E) as (_ & L & _). apply within_iff in In. destruct In as (I1 & _ & I2). rewrite Ly in Ny. rewrite <- I1, Wy in L. lia.
      - specialize (HZ y Zy). rewrite (rl_made _ _ _ _ _ R), Wy in HZ. rewrite Ly in Ny. lia. }
    split; apply Hh; intros z Hz; apply (things_there w q (TheByte z) Pq); [left|right]; exact Hz. }
  assert (Both : forall Z : thing -> Prop, (forall t, Z t -> looks w c' t \/ alters w c' t) -> covered w (alters w c) x -> covered w Z x -> False).
  { intros Z HZ [(Lx & h & Ah & o & E & In)|(Lx & Ax)] [(Lx' & h' & Ah' & o' & E' & In')|(Lx' & Ax')]; try congruence.
    - assert (h = h').
      { destruct (same_spec h h') as [X|X]; [exact X|]. apply within_iff in In, In'. destruct In as (I1 & I2 & I3), In' as (J1 & J2 & J3).
        destruct (rl_apart _ _ _ _ _ R h o h' o' X E E'); [congruence|lia|lia]. }
      subst h'. apply Nc. exists (TheObject h). split; [exact Ah|apply HZ, Ah'].
    - apply Nc. exists (TheByte x). split; [exact Ax|apply HZ, Ax']. }
  destruct W as [W|W], Rd as [[Rd|Rd]|[Rd|(_ & Rd)]].
  - destruct W as [W _], Rd as [Rd _]. congruence.
  - apply (proj2 (Old i c' x P' W) Rd).
  - apply (proj1 (Old i c' x P' W) Rd).
  - destruct W as [W1 W2], Rd as (L & Rd & _). rewrite W1 in Rd. rewrite L in W2. lia.
  - apply (proj2 (Old j c x P Rd) W).
  - apply (Both (alters w c')); auto.
  - apply (Both (looks w c')); auto.
  - destruct W as [(_ & h & _ & o & E & In)|(L & _)], Rd as (L' & _ & Rd); [|congruence]. rewrite (Rd _ _ E) in In. discriminate In.
Qed.

Section Step.
Context (m : memory) (s : G) (ws : list worker) (w : world) (gs : list prog) (b : nat -> bool -> nat).
Context (R : rel m ws w gs b) (F : fair (w, s, gs)).

Lemma at_replaced {A} (l : list A) i x j y : nth_error (replaced i x l) j = Some y -> (j = i /\ y = x) \/ (j <> i /\ nth_error l j = Some y).
Proof.
  rewrite nth_replaced. destruct (Nat.eqb_spec i j) as [<- |D]; [|intros H; right; split; [congruence|exact H]].
  destruct (nth_error l i); [|discriminate]. intros H. injection H as <-. left. split; reflexivity.
Qed.
Lemma at_replaced_same {A} (l : list A) i x y : nth_error l i = Some y -> nth_error (replaced i x l) i = Some x.
Proof. intros H. rewrite nth_replaced, Nat.eqb_refl, H. reflexivity. Qed.
Lemma at_replaced_other {A} (l : list A) i x j : j <> i -> nth_error (replaced i x l) j = nth_error l j.
Proof. intros D. rewrite nth_replaced. destruct (Nat.eqb_spec i j) as [<- |_]; [contradiction|reflexivity]. Qed.

Lemma enters i c k u : nth_error ws i = Some (mkW (Between (Call c k)) u) ->
  rel m (replaced i (mkW (Inside c (do_ask c) k) u) ws) w gs b.
Proof.
  intros E. destruct (rl_at _ _ _ _ _ R i _ E) as (g & Eg & -> & Eb). cbn [stands_at taken] in *.
  assert (Pc : proper w c) by (apply (proj1 F i c k Eg)).
  assert (Idle : forall t, looks w c t \/ alters w c t -> ~ busy ws gs w t).
  { intros t Ht (j & code & k' & u' & c' & Ej & Egj & At). assert (j <> i) by (intros ->; congruence).
    apply (proj2 F j i c' c k' k); try assumption. exists t. split; assumption. }
  assert (Bz : forall t, busy ws gs w t -> busy (replaced i (mkW (Inside c (do_ask c) k) u) ws) gs w t).
  { intros t (j & code & k' & u' & c' & Ej & Egj & At). exists j, code, k', u', c'. split; [|split; assumption].
    rewrite at_replaced_other; [exact Ej|intros ->; congruence]. }
  split; try apply R.
  - rewrite replaced_length. apply R.
  - intros j v Ej. apply at_replaced in Ej. destruct Ej as [[-> ->]|[D Ej]]; [|apply R, Ej].
    exists (Call c k). split; [exact Eg|]. cbn [stands_at taken]. split; [reflexivity|]. rewrite <- Eb.
    apply call_alone; try assumption; try apply R.
    + intros x Hx. destruct (things_there w c (TheByte x) Pc Hx) as [Lx Nx]. apply (rl_bytes _ _ _ _ _ R x Lx Nx), Idle, Hx.
    + intros h o Hh Eh. apply (rl_hashes _ _ _ _ _ R h o Eh), Idle, Hh.
  - intros x Lx Nx Nb. apply (rl_bytes _ _ _ _ _ R x Lx Nx). intros X. apply Nb, Bz, X.
  - intros h o Eh Nb. apply (rl_hashes _ _ _ _ _ R h o Eh). intros X. apply Nb, Bz, X.
Qed.

Lemma accesses i c code k u m' code' u' : nth_error ws i = Some (mkW (Inside c code k) u) -> advance i m (mkT code u) = Some (m', mkT code' u') ->
  rel m' (replaced i (mkW (Inside c code' k) u') ws) w gs b.
Proof.
  intros E Ad. destruct (rel_inside _ _ _ _ _ _ _ _ _ _ R E) as (Eg & St). pose proof (proj1 F i c k Eg) as Pc.
  destruct (stays_advance (area_of i b w c) code m u _ m' (mkT code' u') St Ad) as [St' Out]. cbn [todo used] in St'.
  assert (Bz : forall t, busy ws gs w t -> busy (replaced i (mkW (Inside c code' k) u') ws) gs w t).
  { intros t (j & cd & k' & v' & c' & Ej & Egj & At). destruct (Nat.eq_dec j i) as [-> |D].
    - rewrite Eg in Egj. injection Egj as <- <-. exists i, code', k, u', c. split; [apply (at_replaced_same _ _ _ _ E)|split; assumption].
    - exists j, cd, k', v', c'. split; [rewrite at_replaced_other by exact D; exact Ej|split; assumption]. }
  assert (Bi : forall t, alters w c t -> busy (replaced i (mkW (Inside c code' k) u') ws) gs w t).
  { intros t Ht. exists i, code', k, u', c. split; [apply (at_replaced_same _ _ _ _ E)|split; assumption]. }
  split; try apply R.
  - rewrite replaced_length. apply R.
  - intros j v Ej. apply at_replaced in Ej. destruct Ej as [[-> ->]|[D Ej]].
    + exists (Call c k). split; [exact Eg|]. cbn [stands_at taken]. split; [reflexivity|exact St'].
    + destruct (rl_at _ _ _ _ _ R j v Ej) as (g & Egj & H). exists g. split; [exact Egj|]. destruct (stands_at v) as [g'|c' cd k']; [exact H|].
      destruct H as (-> & Sj). split; [reflexivity|]. pose proof (proj1 F j c' k' Egj) as Pc'.
      apply (stays_ext _ _ _) with (m := m); [| |exact Sj].
      * intros r n n' v0 Al H. apply (result_local _ _ _ _ _ n); try assumption. intros h o Eh. apply (rl_hash _ _ _ _ _ R _ _ Eh).
      * intros x Hx. apply Out. intros Wx. apply (areas_apart m ws w gs b i j c c' x R); try assumption; [congruence|]. apply (proj2 F i j c c' k k'); try assumption. congruence.
  - intros x Lx Nx Nb. rewrite <- (rl_bytes _ _ _ _ _ R x Lx Nx); [|intros X; apply Nb, Bz, X]. apply Out. intros [[Wx Ux]|[(X & _)|(_ & X)]].
    + rewrite (rl_made _ _ _ _ _ R), Wx in Nx. rewrite Lx in Ux. lia.
    + congruence.
    + apply Nb, Bi, X.
  - intros h o Eh Nb. destruct (rl_hash _ _ _ _ _ R _ _ Eh) as (Lh & Nh & _). apply (stands_in_mono (settled b w) _ m); [| |apply (rl_hashes _ _ _ _ _ R h o Eh); intros X; apply Nb, Bz, X].
    + intros x Zx. split; [exact Zx|]. destruct Zx as (Lx & Nx & Ox). apply Out. intros [[Wx Ux]|[(_ & h' & _ & o' & Eh' & In)|(X & _)]].
      * rewrite Wx in Nx. rewrite Lx in Ux. lia.
      * rewrite (Ox _ _ Eh') in In. discriminate In.
      * congruence.
    + intros j Hj. apply Out. intros [[Wx Ux]|[(_ & h' & Ah & o' & Eh' & In)|(X & _)]].
      * cbn [who lib num shift] in *. rewrite Lh in Ux. rewrite Wx in Nh. lia.
      * assert (h = h').
        { destruct (same_spec h h') as [X|X]; [exact X|]. apply within_iff in In. cbn [who lib num shift] in In. destruct In as (I1 & I2 & I3).
          destruct (rl_apart _ _ _ _ _ R h o h' o' X Eh Eh' I1); lia. }
        subst h'. apply Nb, Bi, Ah.
      * cbn [lib shift] in X. congruence.
Qed.

Lemma leaves i c r k u : nth_error ws i = Some (mkW (Inside c (Return r) k) u) ->
  exists w', nth_error gs i = Some (Call c k) /\ does i w c w' r
    /\ rel m (replaced i (mkW (Between (k r)) u) ws) w' (replaced i (k r) gs) (fun j => if Nat.eqb j i then u else b j).
Proof.
  intros E. destruct (rel_inside _ _ _ _ _ _ _ _ _ _ R E) as (Eg & Post). cbn [stays] in Post. pose proof (proj1 F i c k Eg) as Pc.
  destruct (returns i b w c m Pc (rl_made _ _ _ _ _ R) (rl_hash _ _ _ _ _ R) (rl_byte _ _ _ _ _ R) r u Post) as (w' & D & Ub & Mi & Ha & Ba & B6).
  exists w'. split; [exact Eg|]. split; [exact D|].
  destruct (does_frame _ _ _ _ _ D) as (Fh & Fb & Fm).
  assert (Ag : forall j c' k', j <> i -> nth_error gs j = Some (Call c' k') -> agree w w' c').
  { intros j c' k' Dj Ej. apply (does_agree i w c w' r); [exact D| |apply (proj1 F j c' k' Ej)]. apply (proj2 F i j c c' k k'); try assumption. congruence. }
  set (ws1 := replaced i (mkW (Between (k r)) u) ws). set (gs1 := replaced i (k r) gs).
  assert (Bz : forall t, ~ alters w c t -> busy ws gs w t -> busy ws1 gs1 w' t).
  { intros t Na (j & cd & k' & v' & c' & Ej & Egj & At). destruct (Nat.eq_dec j i) as [-> |Dj].
    - rewrite Eg in Egj. injection Egj as <- <-. contradiction.
    - exists j, cd, k', v', c'. unfold ws1, gs1. rewrite !at_replaced_other by exact Dj. split; [exact Ej|]. split; [exact Egj|].
      apply (proj2 (agree_footprint _ _ _ (Ag j c' k' Dj Egj))), At. }
  assert (Um : forall n l, (b n l <= (if Nat.eqb n i then u else b n) l)%nat) by (intros n l; destruct (Nat.eqb_spec n i) as [-> |]; [apply Ub|lia]).
  set (b' := fun j => if Nat.eqb j i then u else b j) in *.
  assert (Cases : forall h o, objects w' h = Some o -> (exists o0, objects w h = Some o0 /\ osize o0 = osize o) \/ h = fresh_at i (b i)).
  { intros h o Eh. destruct (Ha h o Eh) as [(Eh0 & _)|[(_ & X & _)|(X & _)]]; [left; exists o; split; [exact Eh0|reflexivity]|left; exact X|right; exact X]. }
  assert (Zs : forall x, settled b w x -> settled b' w' x).
  { intros x (Lx & Nx & Ox). split; [exact Lx|]. split; [specialize (Um (who x) true); unfold b'; lia|]. intros h o Eh. destruct (Cases h o Eh) as [(o0 & E0 & <-)| ->]; [apply (Ox _ _ E0)|].
    apply within_not. cbn [who lib num fresh_at]. intros (X & _ & Y). rewrite X in Nx. lia. }
  assert (Zn : (forall h', objects w' h' <> None -> objects w h' <> None) -> forall x, nodes_by i b w u x -> settled b' w' x).
  { intros Old x [Zx|(Lx & Wx & Nx)]; [apply Zs, Zx|]. split; [exact Lx|]. split; [unfold b'; rewrite Wx, Nat.eqb_refl; lia|]. intros h o Eh.
    destruct (objects w h) as [o1|] eqn:E1; [|destruct (Old h); congruence]. destruct (rl_hash _ _ _ _ _ R _ _ E1) as (_ & L1 & _).
    assert (osize o = osize o1) as ->.
    { destruct (Cases h o Eh) as [(o0 & E0 & X)| ->]; [congruence|]. pose proof (size_pos o1). cbn [who num fresh_at] in L1. lia. }
    apply within_not. intros (X & _ & Y). rewrite <- X, Wx in L1. lia. }
  split.
  - unfold ws1, gs1. rewrite !replaced_length. apply R.
  - intros j v Ej. apply at_replaced in Ej. destruct Ej as [[-> ->]|[Dj Ej]].
    + exists (k r). split; [apply (at_replaced_same _ _ _ _ Eg)|]. cbn [stands_at taken]. split; [reflexivity|]. unfold b'. rewrite Nat.eqb_refl. reflexivity.
    + destruct (rl_at _ _ _ _ _ R j v Ej) as (g & Egj & H). exists g. split; [unfold gs1; rewrite at_replaced_other by exact Dj; exact Egj|].
      assert (Ebj : b' j = b j) by (unfold b'; destruct (Nat.eqb_spec j i); [contradiction|reflexivity]).
      destruct (stands_at v) as [g'|c' cd k']; [rewrite Ebj; exact H|]. destruct H as (-> & Sj). split; [reflexivity|].
      apply (agree_stays _ b _ w); [apply (Ag j c' k' Dj Egj)| |exact Zs|exact Sj]. exact Ebj.
  - intros j. unfold b'. destruct (Nat.eqb_spec j i) as [-> |Dj]; [exact Mi|]. rewrite (Fm j Dj). apply R.
  - intros h o Eh. destruct (Ha h o Eh) as [(Eh0 & _)|[(_ & (o0 & Eh0 & Eo) & _ & Ok & _)|(-> & _ & Ok & L)]].
    + destruct (rl_hash _ _ _ _ _ R _ _ Eh0) as (A1 & A2 & A3). split; [exact A1|]. split; [|exact A3]. specialize (Um (who h) true). unfold b'. lia.
    + destruct (rl_hash _ _ _ _ _ R _ _ Eh0) as (A1 & A2 & _). split; [exact A1|]. split; [|exact Ok]. specialize (Um (who h) true). unfold b'. lia.
    + split; [reflexivity|]. split; [|exact Ok]. unfold b'. cbn [who fresh_at]. rewrite Nat.eqb_refl. exact L.
  - intros h o h' o' Dh Eh Eh' Wh. destruct (Cases _ _ Eh) as [(o0 & E0 & <-)| ->], (Cases _ _ Eh') as [(o0' & E0' & <-)| ->].
    + apply (rl_apart _ _ _ _ _ R h o0 h' o0' Dh E0 E0' Wh).
    + left. destruct (rl_hash _ _ _ _ _ R _ _ E0) as (_ & L & _). rewrite Wh in L. exact L.
    + right. destruct (rl_hash _ _ _ _ _ R _ _ E0') as (_ & L & _). rewrite <- Wh in L. exact L.
    + contradiction.
  - exact B6.
  - intros x Lx Nx Nb. destruct (Ba x Lx Nx) as [(Na & N0 & ->)|X]; [|exact X]. apply (rl_bytes _ _ _ _ _ R x Lx N0). intros X. apply Nb, Bz; assumption.
  - intros h o Eh Nb. destruct (Ha h o Eh) as [(Eh0 & Na)|[(_ & _ & St & _ & Old)|(_ & St & _)]].
    + apply (stands_in_mono (settled b w) _ m m); [intros x Zx; split; [apply Zs, Zx|reflexivity]|reflexivity|]. apply (rl_hashes _ _ _ _ _ R h o Eh0). intros X. apply Nb, Bz; assumption.
    + apply (stands_in_mono (nodes_by i b w u) _ m m); [intros x Zx; split; [apply (Zn Old), Zx|reflexivity]|reflexivity|exact St].
    + apply (stands_in_mono (settled b w) _ m m); [intros x Zx; split; [apply Zs, Zx|reflexivity]|reflexivity|exact St].
Qed.

Lemma synchronises i f u g : nth_error ws i = Some (mkW (Between (Sync f)) u) ->
  nth_error gs i = Some (Sync f) /\ rel m (replaced i (mkW (Between g) u) ws) w (replaced i g gs) b.
Proof.
  intros E. destruct (rl_at _ _ _ _ _ R i _ E) as (g0 & Eg & -> & Eb). cbn [stands_at taken] in *. split; [exact Eg|].
  assert (Bz : forall t, busy ws gs w t -> busy (replaced i (mkW (Between g) u) ws) (replaced i g gs) w t).
  { intros t (j & cd & k' & v' & c' & Ej & Egj & At). assert (Dj : j <> i) by (intros ->; congruence). exists j, cd, k', v', c'.
    rewrite !at_replaced_other by exact Dj. split; [exact Ej|split; assumption]. }
  split; try apply R.
  - rewrite !replaced_length. apply R.
  - intros j v Ej. apply at_replaced in Ej. destruct Ej as [[-> ->]|[Dj Ej]].
    + exists g. split; [apply (at_replaced_same _ _ _ _ Eg)|]. cbn [stands_at taken]. split; [reflexivity|exact Eb].
    + rewrite at_replaced_other by exact Dj. apply R, Ej.
  - intros x Lx Nx Nb. apply (rl_bytes _ _ _ _ _ R x Lx Nx). intros X. apply Nb, Bz, X.
  - intros h o Eh Nb. apply (rl_hashes _ _ _ _ _ R h o Eh). intros X. apply Nb, Bz, X.
Qed.

Lemma no_race : ~ races (m, s, ws).
Proof.
  intros (i & j & c & cd & k & u & c' & cd' & k' & u' & a & D & Ei & Ej & W & A). destruct (rel_inside _ _ _ _ _ _ _ _ _ _ R Ei) as (Eg & St).
  destruct (rel_inside _ _ _ _ _ _ _ _ _ _ R Ej) as (Eg' & St').
  apply (areas_apart m ws w gs b i j c c' a R D (proj1 F i c k Eg) (proj1 F j c' k' Eg') (proj2 F i j c c' k k' D Eg Eg')).
  - apply (stays_writes (area_of i b w c) _ _ _ _ _ _ St eq_refl W).
  - destruct A as [A|A]; [apply (stays_reads (area_of j b w c') _ _ _ _ _ _ St' A)|]. left. apply (stays_writes (area_of j b w c') _ _ _ _ _ _ St' eq_refl A).
Qed.
Lemma no_panic : ~ panics (m, s, ws).
Proof. intros (i & c & k & u & Ei). destruct (rel_inside _ _ _ _ _ _ _ _ _ _ R Ei) as (_ & []). Qed.
End Step.

Lemma started_rel s gs : rel (fst (fst (started (G:=G) s gs))) (snd (started s gs)) nothing_yet gs (fun _ => none).
Proof.
  unfold started. cbn [fst snd]. split; cbn [nothing_yet made_by objects bytes].
  - apply map_length.
  - intros i v E. rewrite nth_error_map in E. destruct (nth_error gs i) as [g|]; [|discriminate]. injection E as <-. exists g. cbn. auto.
  - reflexivity.
  - discriminate.
  - discriminate.
  - reflexivity.
  - intros; lia.
  - discriminate.
Qed.

Lemma follows s0 gs0 : well_synchronised s0 gs0 -> forall m s ws, leads do_ask (started s0 gs0) (m, s, ws) ->
  exists w gs b, turns (nothing_yet, s0, gs0) (w, s, gs) /\ rel m ws w gs b.
Proof.
  intros Wf. assert (X : forall p q, leads do_ask p q -> p = started s0 gs0 -> exists w gs b, turns (nothing_yet, s0, gs0) (w, snd (fst q), gs) /\ rel (fst (fst q)) (snd q) w gs b).
  { intros p q L. induction L as [p|p p1 p2 L IH Mv]; intros ->.
    - exists nothing_yet, gs0, (fun _ => none). split; [constructor|apply started_rel].
    - destruct (IH eq_refl) as (w & gs & b & T & R). clear IH. destruct Mv as [m s ws i c k u E|m s ws i c p k u m' p' u' E Ad|m s ws i c r k u E|m s ws i f u n s' g E Ef]; cbn [fst snd] in *.
      + exists w, gs, b. split; [exact T|]. apply (enters m s); [exact R|apply Wf, T|exact E].
      + exists w, gs, b. split; [exact T|]. apply (accesses m s ws w gs b R (Wf _ T) i c p k u m' p' u' E Ad).
      + destruct (leaves m s ws w gs b R (Wf _ T) i c r k u E) as (w' & Eg & D & R'). eexists w', _, _. split; [|exact R'].
        apply (A_turn _ _ _ T). apply (Calls _ _ _ _ _ _ _ _ Eg D).
      + destruct (synchronises m ws w gs b R i f u g E) as (Eg & R'). exists w, (replaced i g gs), b. split; [|exact R'].
        apply (A_turn _ _ _ T). apply (Agrees _ _ _ _ _ _ _ _ Eg Ef). }
  intros m s ws L. destruct (X _ _ L eq_refl) as (w & gs & b & T & R). cbn [fst snd] in *. exists w, gs, b. split; assumption.
Qed.

(** A call can be finished. *)
Lemma replaced_replaced {A} (l : list A) i x y : replaced i y (replaced i x l) = replaced i y l.
Proof. revert i. induction l as [|a l IH]; intros [|i]; cbn [replaced]; f_equal; try reflexivity. apply IH. Qed.
Lemma leads_trans (p q r : group G) : leads do_ask p q -> leads do_ask q r -> leads do_ask p r.
Proof. intros H H'. induction H' as [|x y z _ IH St]; [exact H|]. apply (Goes_on _ _ _ _ _ (IH H) St). Qed.
Lemma finishes (p : area) s q k Q code : forall m u ws, stays p code m u Q -> nth_error ws (me p) = Some (mkW (Inside q code k) u) ->
  exists m' r u', leads (G:=G) do_ask (m, s, ws) (m', s, replaced (me p) (mkW (Between (k r)) u') ws).
Proof.
  induction code as [r| |a c IH|a v c IH|l n c IH]; cbn [stays]; intros m u ws St E.
  - exists m, r, u. eapply Goes_on; [apply Stays|]. eapply Leaves, E.
  - contradiction.
  - destruct St as [_ St]. destruct (IH (m a) m u (replaced (me p) (mkW (Inside q (c (m a)) k) u) ws) St (at_replaced_same _ _ _ _ E)) as (m' & r & u' & L).
    exists m', r, u'. rewrite replaced_replaced in L. eapply leads_trans; [|exact L]. eapply Goes_on; [apply Stays|]. eapply Accesses; [exact E|reflexivity].
  - destruct St as [_ St]. destruct (IH _ u (replaced (me p) (mkW (Inside q c k) u) ws) St (at_replaced_same _ _ _ _ E)) as (m' & r & u' & L).
    exists m', r, u'. rewrite replaced_replaced in L. eapply leads_trans; [|exact L]. eapply Goes_on; [apply Stays|]. eapply Accesses; [exact E|reflexivity].
  - destruct St as [_ St]. destruct (IH _ _ _ (replaced (me p) (mkW (Inside q (c (mkA (me p) l (u l))) k) (grow u l n)) ws) St (at_replaced_same _ _ _ _ E)) as (m' & r & u' & L).
    exists m', r, u'. rewrite replaced_replaced in L. eapply leads_trans; [|exact L]. eapply Goes_on; [apply Stays|]. eapply Accesses; [exact E|reflexivity].
Qed.
End Together.
