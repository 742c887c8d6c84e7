(** A goroutine that uses package net according to the rules of
    Spec/NetGoSpec.v stays within its own memory and gets right replies. *)
From Coq Require Import Sorted.
From Verif Require Import Base.Go Base.GoNet Base.NetApi Spec.NetSpec Proofs.NetBasic Proofs.NetProofs Proofs.NetMore Proofs.NetRange.
From Verif Require Import Base.Goroutine Base.GoUse Base.NetGo.
From Verif Require Import Model.NetAtom Spec.NetGoSpec Proofs.Util Proofs.BytesProofs Proofs.GoroutineProofs Proofs.HashAtomProofs Proofs.NetAtomProofs.
From Verif Require Model.Net Proofs.NetUseProofs Proofs.ChecksumProofs Proofs.HashUseProofs Proofs.WhirlpoolProofs.
Local Open Scope N_scope.

Lemma zeros_ok n : bytes_ok (repeat 0 n).
Proof. apply Forall_forall. intros y Hy. apply repeat_spec in Hy. subst y. reflexivity. Qed.
Lemma be32_ok u : bytes_ok (be32 u).
Proof. unfold be32. repeat constructor; apply u8_lt. Qed.

Lemma nth_snoc {A} (l : list A) x i y : nth_error (l ++ [x]) i = Some y -> nth_error l i = Some y \/ i = length l /\ y = x.
Proof.
  destruct (Nat.lt_ge_cases i (length l)) as [L|L]; [rewrite nth_error_app1 by exact L; auto|]. rewrite nth_error_app2 by exact L.
  destruct (i - length l)%nat as [|[|]] eqn:E; cbn [nth_error]; try discriminate. intros H. injection H as <-. right. split; [lia|reflexivity].
Qed.

(** CidrEqual for all arguments. *)
Lemma CidrEqual_any a b : bytes_ok (IP a) -> bytes_ok (IP b) ->
  exists r, Net.CidrEqual (Some a) (Some b) = Ret r
    /\ (r = true <-> Mask a = Mask b /\ forall x, is_addr (IP a) x <-> is_addr (IP b) x).
Proof.
  intros Ba Bb. cbn [Net.CidrEqual]. unfold bytes_same.
  destruct (list_eq_dec N.eq_dec (Mask a) (Mask b)) as [E|E]; cbn [negb].
  2:{ eexists. split; [reflexivity|]. split; [discriminate|]. intros [? _]. contradiction. }
  eexists. split; [reflexivity|].
  assert (No : forall ip, To4 ip = None -> forall x, ~ is_addr ip x) by (intros ip Hn x Hx; rewrite (To4_addr _ _ Hx) in Hn; discriminate).
  destruct (To4 (IP a)) as [x|] eqn:Ea, (To4 (IP b)) as [y|] eqn:Eb.
  - destruct (addr_of_To4 _ _ Ba Ea) as (u & U & ->), (addr_of_To4 _ _ Bb Eb) as (v & V & ->).
    destruct (list_eq_dec N.eq_dec (NetSpec.addr u) (NetSpec.addr v)) as [F|F].
    + split; [intros _|reflexivity]. split; [exact E|]. apply addr_inj in F; [|apply U|apply V]. subst v.
      intros z. split; intros Z; [apply (ToUint_addr) in Z; rewrite (ToUint_addr _ _ U) in Z|apply (ToUint_addr) in Z; rewrite (ToUint_addr _ _ V) in Z]; injection Z as <-; assumption.
    + split; [discriminate|]. intros [_ H]. apply H in U. apply To4_addr in U. exfalso. apply F. congruence.
  - destruct (addr_of_To4 _ _ Ba Ea) as (u & U & ->). split; [discriminate|]. intros [_ H]. apply H in U. destruct (No _ Eb _ U).
  - destruct (addr_of_To4 _ _ Bb Eb) as (u & U & ->). split; [discriminate|]. intros [_ H]. apply H in U. destruct (No _ Ea _ U).
  - split; [intros _|reflexivity]. split; [exact E|]. intros z. split; intros Z; [destruct (No _ Ea _ Z)|destruct (No _ Eb _ Z)].
Qed.

Section Goroutine.
Context (id : nat) (shared : list ptree) (ours : list known_tree) (before : nat).
Context (Main : id = O -> shared = [] /\ before = O).

(** ** What is in memory *)

Definition stands (ts : list addr) (u : bool -> nat) (m : memory) (t : ptree) (k : known_tree) : Prop :=
  snd t = fst k /\ lib (fst t) = true /\ Forall proper (snd k)
  /\ exists n fuel, Net.apply_all fuel (Net.New (fst k)) (snd k) = Ret n /\ is_tree id ts u m (fst t) (Net.root n).
Definition stand (ts : list addr) (u : bool -> nat) (m : memory) (os : list ptree) (ks : list known_tree) : Prop :=
  length os = length ks /\ forall i t k, nth_error os i = Some t -> nth_error ks i = Some k -> stands ts u m t k.
Definition owns (u : bool -> nat) (os : list ptree) : Prop :=
  (forall i t, nth_error os i = Some t -> who (fst t) = id /\ (num (fst t) + 4 <= u true)%nat)
  /\ forall i j t t', i <> j -> nth_error os i = Some t -> nth_error os j = Some t' ->
     (num (fst t) + 4 <= num (fst t') \/ num (fst t') + 4 <= num (fst t))%nat.
Definition Inv (m : memory) (u : bool -> nat) (st : local) (mine : list ptree) : Prop :=
  (forall x, lib x = false -> may id x -> m x = text st x /\ text st x < 256) /\ u false = made st
  /\ stand (map fst mine) u m mine (trees st) /\ owns u mine
  /\ stand (map fst mine) u m shared ours /\ forall i t, nth_error shared i = Some t -> who (fst t) = O.

Lemma nth_both {A B} (l : list A) (k : list B) i y : length l = length k -> nth_error k i = Some y -> exists x, nth_error l i = Some x.
Proof.
  intros L E. destruct (nth_error l i) as [x|] eqn:X; [eauto|]. apply nth_error_None in X.
  assert (i < length k)%nat by (apply nth_error_Some; congruence). lia.
Qed.
Lemma stands_mono ts u m ts' u' m' t k : (forall x, frozen id ts u x -> frozen id ts' u' x /\ m' x = m x) ->
  (forall j, (j < 4)%nat -> m' (shift (fst t) j) = m (shift (fst t) j)) -> stands ts u m t k -> stands ts' u' m' t k.
Proof.
  intros H C (S1 & S2 & S3 & n & fuel & S4 & i & E & R). split; [exact S1|]. split; [exact S2|]. split; [exact S3|]. exists n, fuel. split; [exact S4|]. exists i. split.
  - rewrite <- E. apply cells_ext, C.
  - apply (is_node_mono _ _ _ _ _ H _ R).
Qed.
Lemma structs_of u mine : owns u mine -> structs (map fst mine) u.
Proof. intros [H _] t Ht. apply in_map_iff in Ht. destruct Ht as (x & <- & Hx). apply In_nth_error in Hx. destruct Hx as [i Hi]. apply (H i x Hi). Qed.
Lemma not_main i t : nth_error shared i = Some t -> id <> O.
Proof. intros H E. destruct (Main E) as [X _]. rewrite X in H. destruct i; discriminate H. Qed.

(** Bytes change or are made, trees stay. *)
Lemma Inv_bytes m u st mine m' u' st' : Inv m u st mine ->
  (forall y, lib y = true -> m' y = m y) -> u' true = u true ->
  (forall x, lib x = false -> may id x -> m' x = text st' x /\ text st' x < 256) -> u' false = made st' -> trees st' = trees st ->
  Inv m' u' st' mine.
Proof.
  intros (I1 & I2 & I3 & I4 & I5 & I6) K U T E Et. unfold Inv. rewrite Et.
  assert (Fz : forall x, frozen id (map fst mine) u x -> frozen id (map fst mine) u' x /\ m' x = m x).
  { intros x Hx. split; [apply (frozen_mono _ _ u); [lia|exact Hx]|apply K, Hx]. }
  split; [exact T|]. split; [exact E|]. split; [|split; [|split; [|exact I6]]].
  - destruct I3 as [L H]. split; [exact L|]. intros i t k Ht Hk. pose proof (H i t k Ht Hk) as S. apply (stands_mono _ _ _ _ _ _ _ _ Fz); [|exact S].
    intros j _. apply K. cbn [lib shift]. apply S.
  - destruct I4 as [I4 D]. split; [|exact D]. intros i t Ei. destruct (I4 i t Ei). split; [assumption|lia].
  - destruct I5 as [L H]. split; [exact L|]. intros i t k Ht Hk. pose proof (H i t k Ht Hk) as S. apply (stands_mono _ _ _ _ _ _ _ _ Fz); [|exact S].
    intros j _. apply K. cbn [lib shift]. apply S.
Qed.

(** A tree of its own changes. *)
Lemma Inv_tree m u st mine i c mg cs m' u' cs' : Inv m u st mine -> nth_error mine i = Some (c, mg) -> nth_error (trees st) i = Some (mg, cs) ->
  tree_only id c m u m' u' -> stands (map fst mine) u' m' (c, mg) (mg, cs') ->
  Inv m' u' (mkLocal (text st) (made st) (replaced i (mg, cs') (trees st))) mine.
Proof.
  intros (I1 & I2 & I3 & I4 & I5 & I6) Ei Eh (O & Le & Uf) S. unfold Inv. cbn [text made trees].
  destruct (proj1 I4 i _ Ei) as [Wc Nc]. cbn [fst] in *. assert (Lc : lib c = true) by apply S.
  assert (Fz : forall x, frozen id (map fst mine) u x -> frozen id (map fst mine) u' x /\ m' x = m x).
  { intros x Hx. split; [apply (frozen_mono _ _ u); [exact Le|exact Hx]|]. destruct Hx as (_ & [(F1 & F2)|(F1 & F2 & F3)]); apply O.
    - apply within_not. intros (X & _). congruence.
    - intros (X & _). congruence.
    - apply F3. apply in_map_iff. exists (c, mg). split; [reflexivity|]. apply (nth_error_In _ _ Ei).
    - lia. }
  split; [|split; [congruence|split; [|split; [|split; [|exact I6]]]]].
  - intros x Lx Mx. rewrite O; [apply I1; assumption| |].
    + apply within_not. intros (_ & X & _). congruence.
    + intros (_ & X & _). congruence.
  - split; [rewrite replaced_length; apply I3|]. intros j t k Ht Hk. rewrite nth_replaced in Hk. destruct (Nat.eqb_spec i j) as [<-|D].
    + rewrite Ei in Ht. injection Ht as <-. rewrite Eh in Hk. injection Hk as <-. exact S.
    + apply (stands_mono (map fst mine) u m); [exact Fz| |apply (proj2 I3 j t k Ht Hk)]. intros b Hb.
      destruct (proj1 I4 j t Ht) as [Wt Nt]. apply O.
      * apply within_not. cbn [who lib num shift]. pose proof (proj2 I4 i j _ _ D Ei Ht) as X. cbn [fst] in X. lia.
      * cbn [who lib num shift]. lia.
  - destruct I4 as [I4 D]. split; [|exact D]. intros j t Ej. destruct (I4 j t Ej). split; [assumption|lia].
  - destruct I5 as [L H]. split; [exact L|]. intros j t k Ht Hk. apply (stands_mono (map fst mine) u m); [exact Fz| |apply (H j t k Ht Hk)]. intros b Hb.
    pose proof (I6 j t Ht) as W. pose proof (not_main j t Ht) as Nz. apply O; [apply within_not|]; cbn [who lib num shift]; intros (X & _); congruence.
Qed.

(** A new tree. *)
Lemma frozen_snoc ts u u' c x : (num c = u true)%nat -> (u true <= u' true)%nat -> frozen id ts u x -> frozen id (ts ++ [c]) u' x.
Proof.
  intros Ec L (H & [K|(K1 & K2 & K3)]); (split; [exact H|]); [left; exact K|]. right. split; [exact K1|]. split; [lia|]. intros t Ht.
  apply in_app_or in Ht. destruct Ht as [Ht|[<-|[]]]; [apply K3, Ht|]. apply within_not. lia.
Qed.
Lemma Inv_new m u st mine mg cs n fuel i m' : Inv m u st mine -> Forall proper cs -> Net.apply_all fuel (Net.New mg) cs = Ret n ->
  is_node (frozen id (map fst mine) u) m (Net.root n) i -> is_over m (mkA id true (u true)) (inode_cells i) m' ->
  Inv m' (grow u true 4) (mkLocal (text st) (made st) (trees st ++ [(mg, cs)])) (mine ++ [(mkA id true (u true), mg)]).
Proof.
  intros (I1 & I2 & I3 & I4 & I5 & I6) Pc Ea R O. unfold Inv. cbn [text made trees]. rewrite map_app. cbn [map fst].
  set (c := mkA id true (u true)) in *.
  assert (Fz : forall x, frozen id (map fst mine) u x -> frozen id (map fst mine ++ [c]) (grow u true 4) x /\ m' x = m x).
  { intros x Hx. split; [apply (frozen_snoc _ u); [reflexivity|rewrite grow_same; lia|exact Hx]|]. apply (over_out _ _ _ _ _ O), within_not. unfold c. cbn [who lib num].
    destruct Hx as (_ & [(F1 & F2)|(F1 & F2 & F3)]); [intros (X & _); congruence|lia]. }
  split; [|split; [|split; [|split; [|split; [|exact I6]]]]].
  - intros x Lx Mx. rewrite (over_out _ _ _ _ _ O); [apply I1; assumption|]. apply within_not. unfold c. cbn [lib]. intros (_ & X & _). congruence.
  - exact I2.
  - split; [rewrite !app_length; cbn [length]; f_equal; apply I3|]. intros j t k Ht Hk. apply nth_snoc in Ht. destruct Ht as [Ht|[-> ->]].
    + assert (Lj : (j < length (trees st))%nat) by (rewrite <- (proj1 I3); apply nth_error_Some; congruence).
      rewrite nth_error_app1 in Hk by exact Lj.
      apply (stands_mono (map fst mine) u m); [exact Fz| |apply (proj2 I3 j t k Ht Hk)]. intros b Hb. destruct (proj1 I4 j t Ht) as [Wt Nt].
      apply (over_out _ _ _ _ _ O), within_not. unfold c. cbn [who lib num shift]. lia.
    + rewrite (proj1 I3), nth_error_app2, Nat.sub_diag in Hk by lia. injection Hk as <-.
      split; [reflexivity|]. split; [reflexivity|]. split; [exact Pc|]. exists n, fuel. split; [exact Ea|]. exists i. split.
      * rewrite <- (inode_cells_length i). apply (cells_over_all _ _ _ _ O).
      * apply (is_node_mono _ _ _ _ _ Fz _ R).
  - destruct I4 as [I4 D]. split.
    + intros j t Ej. rewrite grow_same. apply nth_snoc in Ej. destruct Ej as [Ej|[-> ->]]; [destruct (I4 j t Ej); split; [assumption|lia]|].
      unfold c. cbn [fst who num]. split; [reflexivity|lia].
    + intros j1 j2 t1 t2 Nj E1 E2. apply nth_snoc in E1, E2. destruct E1 as [E1|[-> ->]], E2 as [E2|[-> ->]].
      * apply (D j1 j2 t1 t2 Nj E1 E2).
      * destruct (I4 j1 t1 E1). unfold c. cbn [fst num]. lia.
      * destruct (I4 j2 t2 E2). unfold c. cbn [fst num]. lia.
      * contradiction.
  - destruct I5 as [L H]. split; [exact L|]. intros j t k Ht Hk. apply (stands_mono (map fst mine) u m); [exact Fz| |apply (H j t k Ht Hk)]. intros b Hb.
    pose proof (I6 j t Ht) as W. pose proof (not_main j t Ht) as Nz. apply (over_out _ _ _ _ _ O), within_not. unfold c. cbn [who lib num shift]. intros (X & _). congruence.
Qed.

Lemma bytes_cells m u st mine s : Inv m u st mine -> slice_ok id before st s -> cells m (base s) (slen s) = bytes_of st s /\ bytes_ok (bytes_of st s) /\ may id (base s).
Proof.
  intros (I1 & _) (_ & Ls & Ms & _). split; [|split; [|exact Ms]].
  - apply map_ext. intros j. apply I1; [exact Ls|exact Ms].
  - apply Forall_forall. intros x Hx. apply in_map_iff in Hx. destruct Hx as (j & <- & _). apply I1; [exact Ls|exact Ms].
Qed.
Lemma read_bytes m u st mine s (Q : list N -> memory -> (bool -> nat) -> Prop) : Inv m u st mine -> slice_ok id before st s -> Q (bytes_of st s) m u -> safe id (bytes_at s) m u Q.
Proof. intros Iv Hs H. destruct (bytes_cells _ _ _ _ _ Iv Hs) as (E & _ & M). unfold bytes_at. apply safe_gets; [exact M|]. rewrite E. exact H. Qed.
Lemma over_text m u st mine a xs x : Inv m u st mine -> bytes_ok xs -> lib x = false -> may id x ->
  over m a xs x = overwrite (text st) a xs x /\ overwrite (text st) a xs x < 256.
Proof.
  intros (I1 & _) B Lx Mx. unfold over, overwrite. destruct (within_spec a (length xs) x) as [(_ & _ & W)|_].
  - split; [reflexivity|]. apply (proj1 (Forall_forall _ _) B). apply nth_In. lia.
  - apply I1; assumption.
Qed.
(** New bytes. *)
Definition with_bytes (st : local) (a : addr) (l : list N) (more : nat) : local := mkLocal (overwrite (text st) a l) (made st + more) (trees st).
Lemma with_bytes_ok st a l more : writes_text st a l more (with_bytes st a l more).
Proof. split; [reflexivity|]. split; reflexivity. Qed.
Lemma Inv_made m u st mine l m' u' : Inv m u st mine -> bytes_ok l -> bytes_made id m u l m' u' ->
  Inv m' u' (with_bytes st (mkA id false (made st)) l (length l)) mine.
Proof.
  intros Iv B (O & U1 & U2). pose proof Iv as (I1 & I2 & _). rewrite I2 in *. apply (Inv_bytes m u st mine _ _ _ Iv).
  - intros y Ly. apply (over_out _ _ _ _ _ O), within_not. cbn [lib]. intros (_ & X & _). congruence.
  - exact U1.
  - intros x Lx Mx. rewrite O. apply (over_text _ _ _ _ _ _ _ Iv B Lx Mx).
  - exact U2.
  - reflexivity.
Qed.

(** ** Calls on a tree *)

Lemma tree_of m u st mine h k : Inv m u st mine -> Spec.NetGoSpec.tree_at ours st h = Some k ->
  exists t, (match h with Mine i => idx mine i | Ours i => idx shared i end) = Ret t /\ stands (map fst mine) u m t k /\ may id (fst t)
    /\ match h with Mine i => nth_error mine i = Some t | Ours i => nth_error shared i = Some t end.
Proof.
  intros (I1 & I2 & I3 & I4 & I5 & I6) E. destruct h as [i|i]; cbn [Spec.NetGoSpec.tree_at] in E.
  - destruct (nth_both mine _ _ _ (proj1 I3) E) as [t Et]. exists t. split; [apply HashUseProofs.idx_obj, Et|]. split; [apply (proj2 I3 i t k Et E)|].
    split; [left; apply (proj1 I4 i t Et)|exact Et].
  - destruct (nth_both shared _ _ _ (proj1 I5) E) as [t Et]. exists t. split; [apply HashUseProofs.idx_obj, Et|]. split; [apply (proj2 I5 i t k Et E)|].
    split; [right; apply (I6 i t Et)|exact Et].
Qed.
Lemma stands_more ts u m u' m' c mg cs x n fuel f n' : stands ts u m (c, mg) (mg, cs) -> Net.apply_all fuel (Net.New mg) cs = Ret n ->
  proper x -> Net.apply f n x = Ret n' -> is_tree id ts u' m' c (Net.root n') -> stands ts u' m' (c, mg) (mg, cs ++ [x]).
Proof.
  intros (S1 & S2 & S3 & _) Ea Px En R. cbn [fst snd] in *. split; [reflexivity|]. split; [exact S2|]. cbn [fst snd]. split; [apply Forall_app; split; [exact S3|repeat constructor; exact Px]|].
  exists n', (Nat.max fuel f). split; [|exact R]. rewrite NetUseProofs.apply_all_app. rewrite (apply_all_mono cs fuel (Nat.max fuel f) _ n) by (exact Ea || lia). cbn [bind].
  assert (F : Net.apply_all f n [x] = Ret n') by (cbn [Net.apply_all]; rewrite En; reflexivity).
  apply (apply_all_mono _ f (Nat.max fuel f)) in F; [exact F|lia].
Qed.
Lemma merge_kept fuel cs : forall (t t' : Net.tree N), Net.apply_all fuel t cs = Ret t' -> Net.merge t' = Net.merge t.
Proof.
  assert (R : forall f e v s (t t' : Net.tree N), Net.range_loop f t s e v = Ret t' -> Net.merge t' = Net.merge t).
  { induction f as [|f IH]; intros e v s t t'; cbn [Net.range_loop]; destruct (s <=? e); try discriminate; try (intros E; injection E as <-; reflexivity).
    intros E. unbind E. unbind E. apply IH in E. exact E. }
  induction cs as [|c cs IH]; intros t t' E; cbn [Net.apply_all] in E; [injection E as <-; reflexivity|]. unbind E. rewrite (IH _ _ E).
  destruct c as [ip v|s e v|[n|] v]; cbn [Net.apply] in E0.
  - unfold Net.AddIp in E0. unbind E0. injection E0 as <-. reflexivity.
  - unfold Net.AddRange in E0. unbind E0. unbind E0. apply (R _ _ _ _ _ _ E0).
  - unfold Net.AddCidr in E0. unbind E0. injection E0 as <-. reflexivity.
  - discriminate.
Qed.

(** A call that changes the tree [i] of its own. *)
Lemma call_ok m u st mine a h x (code_of : ptree -> code unit) : Inv m u st mine -> allowed id ours before st a -> called st a = Some (h, x) ->
  do_nact shared mine a = (do t <- NetAtom.tree_at shared mine h; code_of t ;; Return (mine, PDone)) ->
  (effect id ours st a = fun st' r => exists i mg cs c, called st a = Some (Mine i, c) /\ nth_error (trees st) i = Some (mg, cs)
      /\ r = PDone /\ st' = mkLocal (text st) (made st) (replaced i (mg, cs ++ [c]) (trees st))) ->
  (forall c mg n, In c (map fst mine) -> who c = id -> lib c = true -> Net.merge n = mg -> is_tree id (map fst mine) u m c (Net.root n) ->
     proper x -> exists f n', Net.apply f n x = Ret n' /\
     safe id (code_of (c, mg)) m u (fun _ m' u' => tree_only id c m u m' u' /\ is_tree id (map fst mine) u' m' c (Net.root n'))) ->
  safe id (do_nact shared mine a) m u (fun r m' u' => exists st', effect id ours st a st' (snd r) /\ Inv m' u' st' (fst r)).
Proof.
  intros Iv (_ & Al & _) Ec -> Ee H. destruct (Al _ _ Ec) as (Px & i & [mg cs] & -> & Ei).
  destruct (tree_of m u st mine (Mine i) (mg, cs) Iv Ei) as ([c mg'] & Et & S & _ & Em). pose proof S as (S1 & S2 & S3 & n & fuel & S4 & S5). cbn [fst snd] in *. subst mg'.
  apply safe_then. unfold NetAtom.tree_at. apply (safe_lift _ _ _ _ _ _ Et). cbv beta.
  pose proof Iv as (_ & _ & _ & I4 & _). destruct (proj1 I4 i _ Em) as [Wc _]. cbn [fst] in Wc.
  assert (Hc : In c (map fst mine)) by (apply in_map_iff; exists (c, mg); split; [reflexivity|apply (nth_error_In _ _ Em)]).
  pose proof (merge_kept _ _ _ _ S4) as Mk. cbn [Net.New Net.merge] in Mk.
  destruct (H c mg n Hc Wc S2 Mk S5 Px) as (f & n' & En & Sf).
  eapply safe_seq; [exact Sf|]. cbn beta. intros _ m' u' (T & R). cbn [safe fst snd].
  exists (mkLocal (text st) (made st) (replaced i (mg, cs ++ [x]) (trees st))). split.
  - rewrite Ee. exists i, mg, cs, x. auto.
  - apply (Inv_tree m u st mine i c mg cs m' u' _ Iv Em Ei T). apply (stands_more _ u m u' m' c mg cs x n fuel f n'); assumption.
Qed.

(** ** Every operation *)

Lemma forall_one {A} (P : A -> Prop) x l : Forall P (x :: l) -> P x /\ Forall P l.
Proof. intros H. inversion H; auto. Qed.

Lemma listing L : forall n, map (fun x : N * N * N => let '(position, bit, value) := x in (mkNet (Net.Ipv4FromUint position) (Net.MaskFromByte bit), value)) n
    = map (fun x => let '(y, p, z) := x in (net_of y p, z)) L ->
  placed_bytes n = entry_bytes L /\ length n = length L /\ forall k, placed id k n = entries id k L.
Proof.
  induction L as [|[[y p] z] L IH]; intros [|[[position bit] value] n] E; try discriminate E; [repeat split|].
  cbn [map] in E. pose proof (f_equal (@tl _) E) as E4. pose proof (f_equal (@hd_error _) E) as E0. cbn [tl hd_error] in E4, E0. clear E.
  assert (E1 : Net.Ipv4FromUint position = NetSpec.addr y) by (apply (f_equal (fun o => match o with Some (k, _) => IP k | None => [] end)) in E0; exact E0).
  assert (E2 : Net.MaskFromByte bit = NetSpec.addr (2 ^ 32 - size p)) by (apply (f_equal (fun o => match o with Some (k, _) => Mask k | None => [] end)) in E0; exact E0).
  assert (E3 : value = z) by congruence. destruct (IH n E4) as (H1 & H2 & H3). split; [|split].
  - unfold placed_bytes, entry_bytes in *. cbn [flat_map]. rewrite H1, E1, E2. reflexivity.
  - cbn [length]. congruence.
  - intros k. cbn [placed entries]. rewrite H3, E3. reflexivity.
Qed.
Lemma placed_bytes_ok n : bytes_ok (placed_bytes n).
Proof.
  induction n as [|[[position bit] value] n IH]; [constructor|]. unfold placed_bytes in *. cbn [flat_map]. apply bytes_ok_app. split; [|exact IH].
  apply bytes_ok_app. split; apply be32_ok.
Qed.

Lemma act_ok m u st mine a : Inv m u st mine -> allowed id ours before st a ->
  safe id (do_nact shared mine a) m u (fun r m' u' => exists st', effect id ours st a st' (snd r) /\ Inv m' u' st' (fst r)).
Proof.
  intros Iv Al. pose proof Al as (Hg & Hc & Hl). pose proof Iv as (I1 & I2 & I3 & I4 & I5 & I6).
  pose proof (structs_of _ _ I4) as Sts.
  destruct a as [n c|s j v|s j|ip|x|b|mk|ip mk ip' mk'|ip mk|ip mk|mg|h|h ip v|h s e v|h ip mk v|h]; cbn [given called] in Hg, Hc.
  - (* GMake *)
    cbn [do_nact effect] in *. apply safe_then, safe_new'. intros m' O. cbn [safe fst snd]. rewrite I2 in *.
    exists (with_bytes st (mkA id false (made st)) (repeat 0 c) c). split; [split; [reflexivity|apply with_bytes_ok]|].
    rewrite <- (repeat_length 0 c) at 3. apply (Inv_made m u st mine _ _ _ Iv (zeros_ok c)). rewrite <- I2 in *. split; [exact O|]. split; [reflexivity|]. rewrite grow_same, repeat_length. reflexivity.
  - (* GStore *)
    cbn [do_nact effect] in *. destruct Hl as (Hj & Ho & Hv). rewrite (proj2 (Nat.ltb_lt _ _) Hj). destruct Ho as (Lo & Wo & No).
    apply safe_then, safe_set'; [exact Wo|]. intros m' O. cbn [safe fst snd].
    exists (with_bytes st (shift (base s) j) [v] 0). split; [split; [reflexivity|apply with_bytes_ok]|].
    apply (Inv_bytes m u st mine _ _ _ Iv); cbn [with_bytes text made trees]; try reflexivity; try lia.
    + intros y Ly. apply (over_out _ _ _ _ _ O), within_not. intros (_ & X & _). congruence.
    + intros x Lx Mx. rewrite O. apply (over_text _ _ _ _ _ _ _ Iv); [|exact Lx|exact Mx]. constructor; [exact Hv|constructor].
  - (* GLoad *)
    cbn [do_nact effect] in *. apply forall_one in Hg. destruct Hg as [(_ & Ls & Ms & _) _]. unfold load_at. rewrite (proj2 (Nat.ltb_lt _ _) Hl).
    apply safe_then, safe_get; [exact Ms|]. cbn [safe fst snd]. exists st. split; [|exact Iv]. split; [|reflexivity]. f_equal. apply I1; [exact Ls|exact Ms].
  - (* GToUint *)
    cbn [do_nact effect] in *. apply forall_one in Hg. destruct Hg as [Hs _]. destruct (bytes_cells _ _ _ _ _ Iv Hs) as (_ & B & _).
    apply safe_then, (read_bytes _ _ st mine); [exact Iv|exact Hs|]. destruct (ToUint_total _ B) as (x & _ & Ex).
    apply safe_then, (safe_lift _ _ x); [exact Ex|]. cbn [safe fst snd]. exists st. split; [|exact Iv]. split; [reflexivity|]. exists x. split; [reflexivity|]. split.
    + intros y Hy. rewrite (ToUint_addr _ _ Hy) in Ex. congruence.
    + intros Hn. rewrite (ToUint_other _ B Hn) in Ex. congruence.
  - (* GFromUint *)
    cbn [do_nact effect] in *. apply safe_then. eapply safe_mono; [apply four_bytes_ok, be32_length|]. cbn beta. intros s m' u' (-> & B). cbn [safe fst snd].
    unfold Net.Ipv4FromUint in B. rewrite I2. exists (with_bytes st (mkA id false (made st)) (be32 x) 4). split.
    + rewrite <- be32_addr by exact Hl. split; [reflexivity|apply with_bytes_ok].
    + apply (Inv_made m u st mine (be32 x) _ _ Iv (be32_ok x) B).
  - (* GMaskFrom *)
    cbn [do_nact effect] in *. apply safe_then. eapply safe_mono; [apply four_bytes_ok, be32_length|]. cbn beta. intros s m' u' (-> & B). cbn [safe fst snd].
    rewrite I2. exists (with_bytes st (mkA id false (made st)) (Net.MaskFromByte b) 4). split.
    + destruct (N.leb_spec b 32) as [L|L].
      * rewrite <- MaskFromByte_small by exact L. split; [reflexivity|apply with_bytes_ok].
      * rewrite <- (MaskFromByte_big b) by (split; assumption). split; [reflexivity|apply with_bytes_ok].
    + apply (Inv_made m u st mine (Net.MaskFromByte b) _ _ Iv (be32_ok _) B).
  - (* GMaskTo *)
    cbn [do_nact effect] in *. apply forall_one in Hg. destruct Hg as [Hs _]. destruct (bytes_cells _ _ _ _ _ Iv Hs) as (_ & B & _).
    apply safe_then, (read_bytes _ _ st mine); [exact Iv|exact Hs|]. cbn [safe fst snd]. exists st. split; [|exact Iv]. split; [reflexivity|].
    eexists. split; [reflexivity|]. split.
    + intros n Hn. apply MaskToByte_length; assumption.
    + intros Hn. apply MaskToByte_other; assumption.
  - (* GEqual *)
    cbn [do_nact effect] in *. apply forall_one in Hg. destruct Hg as [H1 Hg]. apply forall_one in Hg. destruct Hg as [H2 Hg].
    apply forall_one in Hg. destruct Hg as [H3 Hg]. apply forall_one in Hg. destruct Hg as [H4 _].
    apply safe_then, (read_bytes _ _ st mine); [exact Iv|exact H1|]. apply safe_then, (read_bytes _ _ st mine); [exact Iv|exact H2|].
    apply safe_then, (read_bytes _ _ st mine); [exact Iv|exact H3|]. apply safe_then, (read_bytes _ _ st mine); [exact Iv|exact H4|].
    destruct (bytes_cells _ _ _ _ _ Iv H1) as (_ & B1 & _). destruct (bytes_cells _ _ _ _ _ Iv H3) as (_ & B3 & _).
    destruct (CidrEqual_any (mkNet (bytes_of st ip) (bytes_of st mk)) (mkNet (bytes_of st ip') (bytes_of st mk')) B1 B3) as (r & Er & Hr).
    apply safe_then, (safe_lift _ _ r); [exact Er|]. cbn [safe fst snd]. exists st. split; [|exact Iv]. split; [reflexivity|]. exists r. split; [reflexivity|exact Hr].
  - (* GFirst *)
    cbn [do_nact effect safe fst snd]. exists st. auto.
  - (* GLast *)
    cbn [do_nact effect] in *. apply forall_one in Hg. destruct Hg as [H1 Hg]. apply forall_one in Hg. destruct Hg as [H2 _]. destruct Hl as [L1 L2].
    destruct (bytes_cells _ _ _ _ _ Iv H1) as (E1 & B1 & M1). destruct (bytes_cells _ _ _ _ _ Iv H2) as (E2 & B2 & M2).
    set (f := fun j => N.lor (nth j (bytes_of st ip) 0) (not8 (nth j (bytes_of st mk) 0))).
    set (ret := mkA id false (u false)).
    assert (Cell : forall s, slice_ok id before st s -> forall m1, (forall x, within ret 4 x = false -> m1 x = m x) -> forall j, (j < slen s)%nat -> m1 (shift (base s) j) = nth j (bytes_of st s) 0).
    { intros s Hs m1 K j Hj. destruct (bytes_cells _ _ _ _ _ Iv Hs) as (E & _ & _). rewrite <- E, nth_cells by exact Hj. apply K, within_not. unfold ret. cbn [who lib num].
      destruct Hs as (Ls & _ & _ & Rs). destruct (Rs j ltac:(lia)) as [(_ & _ & X)|(X1 & X2 & X3)]; [lia|]. intros (Y & _). rewrite X2 in Y. destruct (Main (eq_sym Y)) as [_ Z]. lia. }
    assert (Byte : forall j m1 (Q : unit -> memory -> (bool -> nat) -> Prop) u1, (j < 4)%nat -> (forall x, within ret 4 x = false -> m1 x = m x) ->
      (forall m2, is_over m1 (shift ret j) [f j] m2 -> Q tt m2 u1) -> safe id (last_byte ip mk ret j) m1 u1 Q).
    { intros j m1 Q u1 Hj K H. unfold last_byte, load_at. rewrite !(proj2 (Nat.ltb_lt _ _)) by lia.
      apply safe_then, safe_get; [exact M1|]. apply safe_then, safe_get; [exact M2|]. apply safe_set'; [exact eq_refl|]. intros m2 O2. apply H.
      unfold f. rewrite <- (Cell ip H1 m1 K j), <- (Cell mk H2 m1 K j) by lia. exact O2. }
    assert (Keep : forall j m1 m2 x, (j < 4)%nat -> is_over m1 (shift ret j) [f j] m2 -> within ret 4 x = false -> m2 x = m1 x).
    { intros j m1 m2 x Hj O Hx. apply (over_out _ _ _ _ _ O). apply within_not. apply within_not in Hx. cbn [who lib num shift length] in *. intuition lia. }
    apply safe_then. unfold LastIpv4. apply safe_then, safe_new'. fold ret. intros m0 O0.
    assert (K0 : forall x, within ret 4 x = false -> m0 x = m x) by (intros x Hx; apply (over_out _ _ _ _ _ O0); exact Hx).
    apply safe_then, (Byte 0%nat); [lia|exact K0|]. intros m1 O1. 
    assert (K1 : forall x, within ret 4 x = false -> m1 x = m x) by (intros x Hx; rewrite (Keep 0%nat _ _ _ ltac:(lia) O1 Hx); apply K0, Hx).
    apply safe_then, (Byte 1%nat); [lia|exact K1|]. intros m2 O2.
    assert (K2 : forall x, within ret 4 x = false -> m2 x = m x) by (intros x Hx; rewrite (Keep 1%nat _ _ _ ltac:(lia) O2 Hx); apply K1, Hx).
    apply safe_then, (Byte 2%nat); [lia|exact K2|]. intros m3 O3.
    assert (K3 : forall x, within ret 4 x = false -> m3 x = m x) by (intros x Hx; rewrite (Keep 2%nat _ _ _ ltac:(lia) O3 Hx); apply K2, Hx).
    apply safe_then, (Byte 3%nat); [lia|exact K3|]. intros m4 O4.
    assert (K4 : forall x, within ret 4 x = false -> m4 x = m x) by (intros x Hx; rewrite (Keep 3%nat _ _ _ ltac:(lia) O4 Hx); apply K3, Hx).
    cbn [safe fst snd]. set (l := map f [0; 1; 2; 3]%nat).
    assert (Bl : bytes_ok l).
    { apply Forall_forall. intros x Hx. apply in_map_iff in Hx. destruct Hx as (j & <- & _). unfold f. apply NetUseProofs.lor_not8; apply WhirlpoolProofs.nth_byte; assumption. }
    assert (Bm : bytes_made id m u l m4 (grow u false 4)).
    { split; [|split; [reflexivity|rewrite grow_same; reflexivity]]. fold ret. intros x. unfold over. change (length l) with 4%nat. destruct (within ret 4 x) eqn:Wx; [|apply K4, Wx].
      rewrite (in_shift _ _ _ Wx) at 1. apply within_iff in Wx. destruct Wx as (_ & _ & Wx).
      assert (In_ : forall j m m', is_over m (shift ret j) [f j] m' -> m' (shift ret j) = f j) by (intros j a a' O; rewrite <- (shift_0 (shift ret j)); apply (over_in _ _ _ _ 0%nat O); cbn; lia).
      assert (Out : forall j i m m', i <> j -> is_over m (shift ret j) [f j] m' -> m' (shift ret i) = m (shift ret i)).
      { intros j i a a' D O. apply (over_out _ _ _ _ _ O), within_not. cbn [who lib num shift length]. lia. }
      assert (Cs : (num x - num ret = 0 \/ num x - num ret = 1 \/ num x - num ret = 2 \/ num x - num ret = 3)%nat) by lia.
      destruct Cs as [-> | [-> | [-> | ->]]]; unfold l; cbn [map nth].
      - rewrite (Out 3%nat _ m3), (Out 2%nat _ m2), (Out 1%nat _ m1), (In_ 0%nat m0) by (assumption || lia). reflexivity.
      - rewrite (Out 3%nat _ m3), (Out 2%nat _ m2), (In_ 1%nat m1) by (assumption || lia). reflexivity.
      - rewrite (Out 3%nat _ m3), (In_ 2%nat m2) by (assumption || lia). reflexivity.
      - apply (In_ 3%nat m3), O4. }
    exists (with_bytes st (mkA id false (made st)) l 4). split.
    + exists l. split; [|split].
      * unfold ret. rewrite I2. split; [reflexivity|apply with_bytes_ok].
      * apply map_ext. intros j. unfold f. f_equal. apply ChecksumProofs.not8_small. apply (WhirlpoolProofs.nth_byte _ j B2).
      * intros x p H4 Hcd. pose proof (last_exact _ _ _ Hcd) as X. unfold net_at in X. cbn [IP] in X.
        assert (Ll : length (bytes_of st ip) = 4%nat) by (unfold bytes_of; rewrite map_length, seq_length; exact H4).
        rewrite Ll in X. change (4 =? 4)%nat with true in X. cbv iota in X.
        assert (Lm : (4 <= length (bytes_of st mk))%nat) by (unfold bytes_of; rewrite map_length, seq_length; exact L2).
        unfold l, f. destruct (bytes_of st ip) as [|i0 [|i1 [|i2 [|i3 [|? ?]]]]]; try discriminate Ll.
        destruct (bytes_of st mk) as [|k0 [|k1 [|k2 [|k3 lm]]]]; cbn [length] in Lm; try lia.
        unfold Net.LastIpv4, idx in X. cbn [IP Mask nth_error bind] in X. unfold NetSpec.addr in *. cbn [map nth]. congruence.
    + apply (Inv_made m u st mine l _ _ Iv Bl Bm).
  - (* GTree *)
    cbn [do_nact effect]. apply safe_then. unfold New. apply safe_then, safe_new'. cbn [self usual]. intros m1 O1. apply safe_then, set_inode_ok; [exact eq_refl|]. intros m2 O2. cbn [safe fst snd].
    exists (mkLocal (text st) (made st) (trees st ++ [(mg, [])])). split; [auto|].
    apply (Inv_new m u st mine mg [] (Net.New mg) 0 INone m2 Iv); [constructor|reflexivity|reflexivity|]. intros x. rewrite O2. unfold over. rewrite O1. unfold over.
    rewrite repeat_length, inode_cells_length. destruct (within (mkA id true (u true)) 4 x); reflexivity.
  - (* GCopy *)
    cbn [do_nact effect] in *. destruct Hl as ([mg cs] & Eh). destruct (tree_of m u st mine h _ Iv Eh) as ([c mg'] & Et & S & Mc & _).
    pose proof S as (S1 & S2 & S3 & n & fuel & S4 & i & Ei & R). cbn [fst snd] in *. subst mg'.
    apply safe_then. unfold NetAtom.tree_at. apply (safe_lift _ _ _ _ _ _ Et). apply safe_then. unfold Copy. cbn [fst snd].
    apply safe_then, (get_inode_ok _ _ i); [exact Mc|exact Ei|]. apply safe_then, safe_new'. cbn [self usual]. intros m1 O1. apply safe_then, set_inode_ok; [exact eq_refl|]. intros m2 O2. cbn [safe fst snd].
    exists (mkLocal (text st) (made st) (trees st ++ [(mg, cs)])). split; [exists (mg, cs); auto|].
    apply (Inv_new m u st mine mg cs n fuel i m2 Iv S3 S4 R). intros x. rewrite O2. unfold over. rewrite O1. unfold over.
    rewrite repeat_length, inode_cells_length. destruct (within (mkA id true (u true)) 4 x); reflexivity.
  - (* GAddIp *)
    apply (call_ok m u st mine _ h (CAddIp (bytes_of st ip) v) (fun t => AddIp t ip v) Iv Al eq_refl eq_refl eq_refl).
    intros c mg n Hc' Wc Lc Em R (x & Hx). apply forall_one in Hg. destruct Hg as [Hs _].
    exists 0%nat. eexists. split; [cbn [Net.apply]; unfold Net.AddIp; rewrite (ToUint_addr _ _ Hx); reflexivity|].
    unfold AddIp. apply safe_then, (read_bytes _ _ st mine); [exact Iv|exact Hs|]. apply safe_then, (safe_lift _ _ x); [apply ToUint_addr, Hx|].
    apply add_root_ok; assumption.
  - (* GAddRange *)
    apply (call_ok m u st mine _ h (CAddRange (bytes_of st s) (bytes_of st e) v) (fun t => AddRange t s e v) Iv Al eq_refl eq_refl eq_refl).
    intros c mg n Hc' Wc Lc Em R (x & y & Hx & Hy & Ly). apply forall_one in Hg. destruct Hg as [Hs Hg]. apply forall_one in Hg. destruct Hg as [He _].
    pose proof (range_loop_ok y v Ly (N.to_nat (y + 1 - x)) (N.to_nat (y + 1 - x)) n x (le_n _) (le_n _)) as Rl.
    exists (N.to_nat (y + 1 - x)). eexists. split; [cbn [Net.apply]; unfold Net.AddRange; rewrite (ToUint_addr _ _ Hx), (ToUint_addr _ _ Hy); cbn [bind]; exact Rl|].
    unfold AddRange. apply safe_then, (read_bytes _ _ st mine); [exact Iv|exact Hs|]. apply safe_then, (safe_lift _ _ x); [apply ToUint_addr, Hx|].
    apply safe_then, (read_bytes _ _ st mine); [exact Iv|exact He|]. apply safe_then, (safe_lift _ _ y); [apply ToUint_addr, Hy|].
    apply (range_ok id _ c mg y v Hc' Wc Lc _ n); assumption.
  - (* GAddCidr *)
    apply (call_ok m u st mine _ h (CAddCidr (Some (net_at st ip mk)) v) (fun t => AddCidr t ip mk v) Iv Al eq_refl eq_refl eq_refl).
    intros c mg n Hc' Wc Lc Em R (x & p & Hx). apply forall_one in Hg. destruct Hg as [Hs Hg]. apply forall_one in Hg. destruct Hg as [He _].
    pose proof (proj1 Hx) as Hi. cbn [IP net_at] in Hi.
    exists 0%nat. eexists. split; [cbn [Net.apply Net.AddCidr IP Mask net_at]; rewrite (ToUint_addr _ _ Hi); reflexivity|].
    unfold AddCidr. apply safe_then, (read_bytes _ _ st mine); [exact Iv|exact Hs|]. apply safe_then, (safe_lift _ _ x); [apply ToUint_addr, Hi|].
    apply safe_then, (read_bytes _ _ st mine); [exact Iv|exact He|]. apply add_root_ok; assumption.
  - (* GList *)
    cbn [do_nact effect] in *. destruct Hl as ([mg cs] & Eh). destruct (tree_of m u st mine h _ Iv Eh) as ([c mg'] & Et & S & Mc & _).
    pose proof S as (S1 & S2 & S3 & n & fuel & S4 & i & Ei & R). cbn [fst snd] in *. subst mg'.
    apply safe_then. unfold NetAtom.tree_at. apply (safe_lift _ _ _ _ _ _ Et). apply safe_then. unfold ListCidr. cbn [fst snd].
    apply safe_then, (get_inode_ok _ _ i); [exact Mc|exact Ei|].
    assert (Lv : (levels (Net.root n) < 33)%nat) by (pose proof (all_levels _ _ _ _ S4 (Nat.le_0_l _)); lia).
    eapply safe_mono; [apply (each_ok id (map fst mine) 33 (Net.root n) i 0 31 m u Lv R)|].
    + cbn beta. intros l m' u' (-> & B). cbn [safe fst snd].
      destruct (NetUseProofs.tree_list mg cs fuel n S3 S4) as (Bk & L & Hh & HL & HS & HI).
      destruct (listing L (Net.each (Net.root n) 0 31) HL) as (P1 & P2 & P3).
      exists (with_bytes st (mkA id false (made st)) (entry_bytes L) (8 * length L)). split.
      * exists mg, cs, Bk, L. split; [exact Eh|]. split; [exact Hh|]. split; [exact HS|]. split; [exact HI|]. split; [rewrite P3, I2; reflexivity|apply with_bytes_ok].
      * rewrite <- P2, <- placed_bytes_length, <- P1. apply (Inv_made m u st mine _ _ _ Iv); [apply placed_bytes_ok|exact B].
Qed.

Lemma behave_ok g : forall m u st mine, Inv m u st mine -> plays_fair id ours before st g ->
  safe id (nbehave shared mine g) m u (fun r m' u' => exists st', expects id ours st g (fst r) st' /\ Inv m' u' st' (snd r)).
Proof.
  induction g as [|a k IH]; intros m u st mine Iv Pf; cbn [plays_fair nbehave expects] in *.
  - cbn [safe fst snd]. exists st. auto.
  - destruct Pf as [Al Pf]. eapply safe_seq; [apply (act_ok m u st mine a Iv Al)|]. cbn beta. intros [mine' r] m' u' (st1 & Ee & Iv1). cbn [fst snd] in *.
    eapply safe_seq; [apply (IH r m' u' st1 mine' Iv1 (Pf _ _ Ee))|]. cbn beta. intros [rs mine''] m'' u'' (st2 & E2 & Iv2). cbn [safe fst snd] in *.
    exists st2. split; [|exact Iv2]. exists st1, r, rs. auto.
Qed.
End Goroutine.

(** ** Programs: a goroutine that starts others and waits *)

Lemma start_Inv : Inv 0 [] [] (fun _ => 0) none start [].
Proof.
  unfold Inv. cbn [start text made trees map]. split; [intros; split; reflexivity|]. split; [reflexivity|].
  split; [split; [reflexivity|intros [|i] t k E; discriminate E]|]. split; [split; [intros [|i] t E; discriminate E|intros [|i] j t t' _ E; discriminate E]|].
  split; [split; [reflexivity|intros [|i] t k E; discriminate E]|]. intros [|i] t E; discriminate E.
Qed.
Lemma found_Inv i ts m u st : Inv 0 [] [] m u st ts -> (forall a, who a <> 0%nat -> m a = 0) ->
  Inv (S i) ts (trees st) m none (found st) [].
Proof.
  intros (I1 & I2 & I3 & I4 & I5 & I6) Z. unfold Inv, found. cbn [text made trees map]. split; [|split; [reflexivity|split; [|split; [|split]]]].
  - intros x Lx Mx. destruct (Nat.eqb_spec (who x) 0) as [E|E]; [apply I1; [exact Lx|left; exact E]|]. rewrite (Z x E). split; reflexivity.
  - split; [reflexivity|]. intros [|j] t k E; discriminate E.
  - split; [intros [|j] t E; discriminate E|]. intros [|j] j' t t' _ E; discriminate E.
  - destruct I3 as [L H]. split; [exact L|]. intros j t k Ht Hk. destruct (H j t k Ht Hk) as (S1 & S2 & S3 & n & fuel & S4 & x & Ex & R).
    split; [exact S1|]. split; [exact S2|]. split; [exact S3|]. exists n, fuel. split; [exact S4|]. exists x. split; [exact Ex|].
    apply (is_node_mono _ _ _ _ _ (fun y Fy => conj (conj (proj1 Fy) (or_introl (conj (match proj2 Fy with or_introl H => proj1 H | or_intror H => proj1 H end) (Nat.neq_succ_0 i)))) eq_refl) _ R).
  - intros j t E. apply (proj1 I4 j t E).
Qed.

Section Program.
Context (st0 : local) (gs : list ngoroutine).
Definition ends_well (i : nat) (r : list nreply * list ptree) (m : memory) : Prop :=
  exists g st, nth_error gs i = Some g /\ expects (S i) (trees st0) (found st0) g (fst r) st
    /\ forall x, lib x = false -> may (S i) x -> m x = text st x.
Lemma ends_well_local i : concerns (S i) (ends_well i).
Proof.
  intros r m m' A (g & st & E & H & T). exists g, st. split; [exact E|]. split; [exact H|]. intros x Lx Mx. rewrite (A x Mx). apply (T x Lx Mx).
Qed.
Lemma started_fine ts m u : (forall i g, nth_error gs i = Some g -> plays_fair (S i) (trees st0) (made st0) (found st0) g) ->
  Inv 0 [] [] m u st0 ts -> (forall a, who a <> 0%nat -> m a = 0) ->
  fine ends_well (m, map (fun g => mkT (nbehave ts [] g) none) gs).
Proof.
  intros Pf Iv Z i t Ht. cbn [fst snd] in *. rewrite nth_error_map in Ht. destruct (nth_error gs i) as [g|] eqn:Eg; [|discriminate].
  cbn [option_map] in Ht. injection Ht as <-. cbn [todo used].
  assert (Mn : S i = 0%nat -> ts = [] /\ made st0 = 0%nat) by discriminate.
  eapply safe_mono; [apply (behave_ok (S i) ts (trees st0) (made st0) Mn g _ _ _ _ (found_Inv i ts m u st0 Iv Z) (Pf i g Eg))|].
  cbn beta. intros [rs mine] m' u' (st' & Er & (I1 & _)). cbn [fst snd] in *. exists g, st'. split; [exact Eg|]. split; [exact Er|]. intros x Lx Mx. apply I1; assumption.
Qed.
End Program.
Lemma main_ok g0 : plays_fair 0 [] 0 start g0 ->
  exists rs ts m u st0, alone 0 (nbehave [] [] g0) (fun _ => 0) none = Some ((rs, ts), m, u)
    /\ expects 0 [] start g0 rs st0 /\ Inv 0 [] [] m u st0 ts /\ forall a, who a <> 0%nat -> m a = 0.
Proof.
  intros Pf. destruct (safe_alone _ _ _ _ _ (behave_ok 0 [] [] 0 (fun _ => conj eq_refl eq_refl) g0 _ _ _ _ start_Inv Pf)) as ([rs ts] & m & u & E & (st0 & Er & Iv) & F).
  cbn [fst snd] in *. exists rs, ts, m, u, st0. auto.
Qed.
(** A goroutine alone, started by the first. *)
Lemma alone_ok i g st0 ts m u : plays_fair (S i) (trees st0) (made st0) (found st0) g ->
  Inv 0 [] [] m u st0 ts -> (forall a, who a <> 0%nat -> m a = 0) ->
  exists rs mine m1 u1 st, alone (S i) (nbehave ts [] g) m none = Some ((rs, mine), m1, u1)
    /\ expects (S i) (trees st0) (found st0) g rs st /\ forall a, lib a = false -> who a = S i -> m1 a = text st a.
Proof.
  intros Pf Iv Z. assert (Mn : S i = 0%nat -> ts = [] /\ made st0 = 0%nat) by discriminate.
  destruct (safe_alone _ _ _ _ _ (behave_ok (S i) ts (trees st0) (made st0) Mn g _ _ _ _ (found_Inv i ts m u st0 Iv Z) Pf)) as ([rs mine] & m1 & u1 & E & (st & Ex & I1 & _) & _).
  cbn [fst snd] in *. exists rs, mine, m1, u1, st. split; [exact E|]. split; [exact Ex|]. intros a La Wa. apply I1; [exact La|left; exact Wa].
Qed.
