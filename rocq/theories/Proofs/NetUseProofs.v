(** Every operation of a program on package net keeps the promises of
    Spec/NetUseSpec.v, FirstIpv4 apart. *)
From Coq Require Import Sorted.
From Verif Require Import Base.Go Base.GoNet Base.Mem Base.Heap Base.NetApi Base.NetUse.
From Verif Require Import Model.NetMem Spec.NetSpec Spec.NetUseSpec.
From Verif Require Import Proofs.Util Proofs.BytesProofs Proofs.HeapProofs Proofs.NetBasic Proofs.NetProofs Proofs.NetMore.
From Verif Require Model.Net Proofs.ChecksumProofs Proofs.HashUseProofs Proofs.WhirlpoolProofs.
Local Open Scope N_scope.

Lemma bytes_in_contents m s : bytes_in m s = contents m s.
Proof. apply (HashUseProofs.bytes_in_contents m s). Qed.

Lemma bind_Ret {A B} (x : A) (k : A -> outcome B) : bind (Ret x) k = k x.
Proof. reflexivity. Qed.

(** ** New slices *)

Definition made (h h' : heap) (s : bslice) (l : list N) : Prop :=
  at_ s = brk h /\ blen s = 4%nat /\ bcap s = 4%nat /\ brk h' = (brk h + 4)%nat /\ contents (cells h') s = l
  /\ keeps (brk h) 4 (cells h) (cells h') /\ mem_ok (cells h').

Ltac pick := repeat match goal with |- context [Nat.eqb ?x ?y] => destruct (Nat.eqb_spec x y); try lia end.

Lemma put_made h u : mem_ok (cells h) ->
  exists m, be_put32 (cells (fst (alloc h 4))) (snd (alloc h 4)) u = Ret m
    /\ made h (mkHeap m (brk h + 4)) (mkB (brk h) 4 4) (be32 u).
Proof.
  intros Hm. unfold alloc. cbn [fst snd cells]. unfold be_put32. rewrite load_ok by (cbn [len]; lia). rewrite bind_Ret. cbv beta.
  do 3 (rewrite store_ok by (cbn [len]; lia); rewrite bind_Ret; cbv beta). rewrite store_ok by (cbn [len]; lia). cbn [off].
  eexists. split; [reflexivity|]. unfold made. cbn [at_ blen bcap brk cells]. repeat split.
  - unfold contents. cbn [at_ blen]. apply read_eq; [reflexivity|]. intros i Hi. unfold set.
    do 4 (destruct i as [|i]; [pick; reflexivity|]). lia.
  - intros x Hx. unfold set, zeroed. pick. bcase; [lia|reflexivity].
  - repeat (apply set_ok; [|apply u8_lt]). apply zeroed_ok, Hm.
Qed.
Lemma FromUint_made h u : mem_ok (cells h) -> exists h' s, Ipv4FromUint h u = Ret (h', s) /\ made h h' s (Net.Ipv4FromUint u).
Proof.
  intros Hm. destruct (put_made h u Hm) as (m & E & M). eexists _, _. split; [|exact M].
  unfold Ipv4FromUint. change (alloc h 4) with (fst (alloc h 4), snd (alloc h 4)). cbv iota. rewrite E. reflexivity.
Qed.
Lemma MaskFrom_made h b : mem_ok (cells h) -> exists h' s, MaskFromByte h b = Ret (h', s) /\ made h h' s (Net.MaskFromByte b).
Proof.
  intros Hm. destruct (put_made h (shl32 0xffffffff (sub8 32 b)) Hm) as (m & E & M). eexists _, _. split; [|exact M].
  unfold MaskFromByte. change (alloc h 4) with (fst (alloc h 4), snd (alloc h 4)). cbv iota zeta. rewrite E. reflexivity.
Qed.

Lemma last_byte_ok m ip mask ret j : (j < blen ip)%nat -> (j < blen mask)%nat -> (j < len ret)%nat ->
  last_byte m ip mask ret j = Ret (set m (off ret + j) (N.lor (m (at_ ip + j)%nat) (not8 (m (at_ mask + j)%nat)))).
Proof.
  intros H1 H2 H3. unfold last_byte. rewrite !load_ok by (cbn [len window]; assumption). rewrite !bind_Ret. cbv beta.
  apply store_ok, H3.
Qed.
Lemma lor_not8 a b : a < 256 -> b < 256 -> N.lor a (not8 b) < 256.
Proof.
  intros Ha Hb. rewrite ChecksumProofs.not8_small by exact Hb. 
  destruct (N.eq_0_gt_0_cases a) as [->|P1]; [rewrite N.lor_0_l; lia|].
  destruct (N.eq_0_gt_0_cases (255 - b)) as [->|P2]; [rewrite N.lor_0_r; exact Ha|].
  change 256 with (2 ^ 8) in *. apply N.log2_lt_pow2; [apply N.neq_0_lt_0; intros E; apply N.lor_eq_0_iff in E; lia|].
  rewrite N.log2_lor. apply N.max_lub_lt; apply N.log2_lt_pow2; lia.
Qed.
Lemma last_set_ok m a x y : mem_ok m -> mem_ok (set m a (N.lor (m x) (not8 (m y)))).
Proof. intros H. apply set_ok; [exact H|apply lor_not8; apply H]. Qed.
Lemma Last_made h ip mask : mem_ok (cells h) -> (at_ ip + blen ip <= brk h)%nat -> (at_ mask + blen mask <= brk h)%nat ->
  (4 <= blen ip)%nat -> (4 <= blen mask)%nat ->
  exists h' s, LastIpv4 h ip mask = Ret (h', s)
    /\ made h h' s (map (fun j => N.lor (nth j (contents (cells h) ip) 0) (not8 (nth j (contents (cells h) mask) 0))) [0; 1; 2; 3]%nat).
Proof.
  intros Hm B1 B2 L1 L2. unfold LastIpv4, alloc. 
  do 4 (rewrite last_byte_ok by (cbn [len]; lia); rewrite bind_Ret; cbv beta). cbn [off].
  eexists _, _. split; [reflexivity|]. unfold made. cbn [at_ blen bcap brk cells]. repeat split.
  - unfold contents. cbn [at_ blen]. apply read_eq; [reflexivity|]. intros i Hi. unfold set, zeroed.
    do 4 (destruct i as [|i]; [pick; cbn [map nth]; rewrite !nth_read by lia; repeat (bcase; try lia); reflexivity|]). lia.
  - intros x Hx. unfold set, zeroed. pick. bcase; [lia|reflexivity].
  - do 4 apply last_set_ok. apply zeroed_ok, Hm.
Qed.

(** ** Lists of CIDRs *)

Section Steps.
Context {V : Type}.
Implicit Types v : view V.

Definition placed (lo hi : nat) (s : bslice) : Prop := (lo <= at_ s /\ at_ s + bcap s <= hi /\ blen s <= bcap s)%nat.
Lemma placed_disjoint lo mid hi s l : placed lo mid s -> Forall (placed mid hi) l -> Forall (disjoint s) l.
Proof.
  intros (P1 & P2 & P3) H. apply (Forall_impl _) with (2 := H). intros t (Q1 & Q2 & Q3) a. unfold covers. lia.
Qed.
Lemma placed_in lo lo' hi hi' s : (lo' <= lo)%nat -> (hi <= hi')%nat -> placed lo hi s -> placed lo' hi' s.
Proof. unfold placed. lia. Qed.

Lemma list_made (l : list (N * N * V)) : forall h, mem_ok (cells h) -> exists h' r, list_loop h l = Ret (h', r)
  /\ (brk h <= brk h')%nat /\ (forall x, (x < brk h)%nat -> cells h' x = cells h x) /\ mem_ok (cells h')
  /\ Forall (placed (brk h) (brk h')) (slices r) /\ ForallOrdPairs disjoint (slices r)
  /\ map (shown (cells h')) r = map (fun x => let '(position, bit, value) := x in
       (mkNet (Net.Ipv4FromUint position) (Net.MaskFromByte bit), value)) l.
Proof.
  induction l as [|[[position bit] value] l IH]; intros h Hm; cbn [list_loop].
  { exists h, []. repeat split; try constructor; auto. }
  destruct (FromUint_made h position Hm) as (h1 & ip & E1 & A1 & B1 & C1 & D1 & F1 & K1 & M1).
  destruct (MaskFrom_made h1 bit M1) as (h2 & mask & E2 & A2 & B2 & C2 & D2 & F2 & K2 & M2).
  destruct (IH h2 M2) as (h3 & r & E3 & Le & K3 & M3 & P3 & O3 & S3).
  rewrite E1, bind_Ret. cbv beta iota. rewrite E2, bind_Ret. cbv beta iota. rewrite E3, bind_Ret. cbv beta iota.
  exists h3, ((ip, mask, value) :: r). split; [reflexivity|]. split; [lia|]. split; [|split; [exact M3|]].
  { intros x Hx. rewrite K3 by lia. rewrite K2 by lia. apply K1. lia. }
  assert (P1 : placed (brk h) (brk h1) ip) by (unfold placed; lia).
  assert (P2 : placed (brk h1) (brk h2) mask) by (unfold placed; lia).
  cbn [slices flat_map app]. fold (slices r). split; [|split].
  - constructor; [|constructor]; [apply (placed_in (brk h) _ (brk h1)); [lia|lia|exact P1]|apply (placed_in (brk h1) _ (brk h2)); [lia|lia|exact P2]|].
    apply (Forall_impl _) with (2 := P3). intros s. apply placed_in; lia.
  - constructor; [|constructor; [apply (placed_disjoint (brk h1) (brk h2) (brk h3)); assumption|exact O3]].
    apply (placed_disjoint (brk h) (brk h1) (brk h3)); [exact P1|]. constructor; [apply (placed_in (brk h1) _ (brk h2)); [lia|lia|exact P2]|].
    apply (Forall_impl _) with (2 := P3). intros s. apply placed_in; lia.
  - cbn [map]. f_equal; [|exact S3]. cbn [shown]. unfold net_at. rewrite !bytes_in_contents. f_equal. f_equal.
    + rewrite <- F1. unfold contents. rewrite A1, B1. apply read_ext. intros x Hx. rewrite K3, K2 by lia. reflexivity.
    + rewrite <- F2. unfold contents. rewrite A2, B2. apply read_ext. intros x Hx. rewrite K3 by lia. reflexivity.
Qed.
Lemma ListCidr_made (t : Net.tree V) h : mem_ok (cells h) -> exists h' r, ListCidr h t = Ret (h', r)
  /\ (brk h <= brk h')%nat /\ (forall x, (x < brk h)%nat -> cells h' x = cells h x) /\ mem_ok (cells h')
  /\ Forall (placed (brk h) (brk h')) (slices r) /\ ForallOrdPairs disjoint (slices r)
  /\ map (shown (cells h')) r = Net.ListCidr t.
Proof. apply list_made. Qed.

(** ** Trees *)

Lemma nth_update {A} (l : list A) : forall i j x, nth_error (update i x l) j =
  if Nat.eqb i j then match nth_error l j with Some _ => Some x | None => None end else nth_error l j.
Proof.
  induction l as [|z l IH]; intros [|i] [|j] x; cbn [nth_error update Nat.eqb]; try reflexivity.
  - destruct (Nat.eqb i j); reflexivity.
  - apply IH.
Qed.
Lemma length_update {A} (l : list A) : forall i x, length (update i x l) = length l.
Proof. induction l as [|z l IH]; intros [|i] x; cbn [update length]; auto. Qed.
Lemma nth_add_call (l : list ((V -> V -> V) * list (tree_call V))) : forall i j c, nth_error (add_call i c l) j =
  match nth_error l j with Some (mg, cs) => Some (mg, if Nat.eqb i j then cs ++ [c] else cs) | None => None end.
Proof.
  induction l as [|[mg cs] l IH]; intros [|i] [|j] c; cbn [nth_error add_call Nat.eqb]; try reflexivity.
  - destruct (nth_error l j) as [[? ?]|]; reflexivity.
  - apply IH.
Qed.
Lemma length_add_call (l : list ((V -> V -> V) * list (tree_call V))) : forall i c, length (add_call i c l) = length l.
Proof. induction l as [|[mg cs] l IH]; intros [|i] c; cbn [add_call length]; auto. Qed.

Definition trees_ok (ts : list (Net.tree V)) v : Prop := length ts = length (grown v)
  /\ forall i mg cs, nth_error (grown v) i = Some (mg, cs) -> Forall proper cs
     /\ exists t fuel, nth_error ts i = Some t /\ Net.apply_all fuel (Net.New mg) cs = Ret t.
Definition Inv (w : world V) v : Prop :=
  mem_ok (cells (hp w)) /\ (forall a, owned v a -> (a < brk (hp w))%nat) /\ trees_ok (trees w) v.

Lemma Inv_start : Inv start nothing.
Proof.
  repeat split; try reflexivity; cbn [nothing owned grown] in *; try contradiction; destruct i; discriminate.
Qed.

Lemma apply_all_app fuel (cs1 cs2 : list (tree_call V)) : forall t,
  Net.apply_all fuel t (cs1 ++ cs2) = let! t1 := Net.apply_all fuel t cs1 in Net.apply_all fuel t1 cs2.
Proof.
  induction cs1 as [|c cs1 IH]; intros t; cbn [app Net.apply_all]; [reflexivity|].
  destruct (Net.apply fuel t c); cbn [bind]; try reflexivity. apply IH.
Qed.

(** A call on a tree. *)
Lemma on_tree_ok (w : world V) v i c : Inv w v -> tree_of v i -> proper c -> exists k t',
  (forall fuel, (k <= fuel)%nat -> on_tree w i (fun t => Net.apply fuel t c) = Ret (mkWorld (hp w) (update i t' (trees w)), NDone))
  /\ trees_ok (update i t' (trees w)) (mkView (owned v) (add_call i c (grown v))).
Proof.
  intros (_ & _ & HL & HT) Hi Hc. unfold tree_of in Hi.
  destruct (nth_error (grown v) i) as [[mg cs]|] eqn:Eg; [|apply nth_error_None in Eg; lia].
  destruct (HT _ _ _ Eg) as (Pc & t & f & Et & Ea).
  destruct (proper_steps [c] (Forall_cons _ Hc (Forall_nil _)) t) as (t' & k & _ & K).
  exists k, t'. split.
  - intros fuel Hf. unfold on_tree. rewrite Et. specialize (K fuel Hf). cbn [Net.apply_all] in K.
    apply bind_ret in K. destruct K as (x & Ex & K). injection K as ->. rewrite Ex. reflexivity.
  - split; [cbn [grown]; rewrite length_update, length_add_call; exact HL|]. cbn [grown]. intros j mg' cs'.
    rewrite nth_add_call, nth_update. destruct (nth_error (grown v) j) as [[mg1 cs1]|] eqn:Ej; [|discriminate].
    intros E. injection E as <- <-. destruct (HT _ _ _ Ej) as (Pj & tj & fj & Etj & Eaj).
    destruct (Nat.eqb_spec i j) as [->|D]; [|split; [exact Pj|exists tj, fj; auto]].
    rewrite Eg in Ej. injection Ej as <- <-. split; [apply Forall_app; split; [exact Pc|repeat constructor; exact Hc]|].
    rewrite Et in Etj. injection Etj as <-. exists t', (Nat.max f k). rewrite Et. split; [reflexivity|].
    rewrite apply_all_app. rewrite (apply_all_mono cs f (Nat.max f k) _ t) by (exact Ea || lia). rewrite bind_Ret. apply K. lia.
Qed.

(** The list of a tree. *)
Lemma tree_list mg (cs : list (tree_call V)) fuel t : Forall proper cs -> Net.apply_all fuel (Net.New mg) cs = Ret t -> exists B L,
  history mg no_blocks cs B /\ Net.ListCidr t = map (fun x => let '(y, p, z) := x in (net_of y p, z)) L
  /\ StronglySorted (fun x y => let '(y1, p, _) := x in let '(y2, _, _) := y in y1 + size p <= y2) L
  /\ forall y p z, In (y, p, z) L <-> B y p = Some z.
Proof.
  intros Hp E. destruct (canonical _ _ _ _ E) as (L & EL & AL & SL & _).
  destruct (reference mg cs Hp) as (t' & k & B & Ek & Hi & AB & HB).
  specialize (Ek (Nat.max k fuel) ltac:(lia)). apply (apply_all_mono cs fuel (Nat.max k fuel)) in E; [|lia].
  rewrite E in Ek. injection Ek as <-. exists B, L. split; [exact Hi|]. split; [exact EL|]. split; [exact SL|].
  assert (Inj : forall u p u' p', aligned u p -> aligned u' p' -> net_of u p = net_of u' p' -> u = u' /\ p = p').
  { intros u p u' p' (A1 & A2 & A3) (A1' & A2' & A3') En. apply (cidr_fun (net_of u p)).
    - repeat split; [exact A1|left; reflexivity|exact A2].
    - rewrite En. repeat split; [exact A1'|left; reflexivity|exact A2']. }
  intros y p z. split.
  - intros X. assert (Q : In (net_of y p, z) (Net.ListCidr t)) by (rewrite EL; apply in_map_iff; exists (y, p, z); auto).
    apply HB in Q. destruct Q as (y' & p' & En & Q). destruct (Inj _ _ _ _ (AL _ _ _ X) (AB _ _ _ Q) En) as [-> ->]. exact Q.
  - intros X. assert (Q : In (net_of y p, z) (Net.ListCidr t)) by (apply HB; eauto).
    rewrite EL in Q. apply in_map_iff in Q. destruct Q as ([[y' p'] z'] & En & Q). apply pair_equal_spec in En. destruct En as [En ->].
    destruct (Inj y' p' y p) as [-> ->]; [apply (AL _ _ _ Q)|apply (AB _ _ _ X)|exact En|exact Q].
Qed.

(** ** Every operation *)

Lemma fresh_above (w : world V) v s h' : (forall a, owned v a -> (a < brk (hp w))%nat) -> placed (brk (hp w)) h' s -> fresh v s.
Proof. intros H (P1 & P2 & P3). split; [exact P3|]. intros a Ha Ho. apply H in Ho. unfold covers in Ha. lia. Qed.
Lemma kept (w : world V) v m' (A : nat -> Prop) : (forall a, owned v a -> (a < brk (hp w))%nat) ->
  (forall a, (a < brk (hp w))%nat -> m' a = cells (hp w) a) -> changes_only A (cells (hp w)) v m'.
Proof. intros H K a Ha _. apply K, H, Ha. Qed.

Lemma has_below (w : world V) v s : (forall a, owned v a -> (a < brk (hp w))%nat) -> has v s -> (blen s = 0 \/ at_ s + blen s <= brk (hp w))%nat.
Proof.
  intros H (L & C). destruct (Nat.eq_dec (bcap s) 0) as [Z|Z]; [lia|].
  specialize (C (at_ s + bcap s - 1)%nat). unfold covers in C. specialize (C ltac:(lia)). apply H in C. lia.
Qed.

Lemma step_mono fuel fuel' (w : world V) u x : (fuel <= fuel')%nat -> step fuel w u = Ret x -> step fuel' w u = Ret x.
Proof.
  intros Hf. destruct u; try (intros E; exact E). cbn [step]. unfold on_tree. destruct (nth_error (trees w) i) as [t|]; [|auto].
  intros E. apply bind_ret in E. destruct E as (t' & E & E'). 
  assert (F : Net.apply_all fuel t [CAddRange (contents (cells (hp w)) s) (contents (cells (hp w)) e) v] = Ret t')
    by (cbn [Net.apply_all Net.apply]; rewrite E; reflexivity).
  apply (apply_all_mono _ fuel fuel') in F; [|exact Hf]. cbn [Net.apply_all Net.apply] in F.
  apply bind_ret in F. destruct F as (t2 & F & F'). injection F' as ->. rewrite F. exact E'.
Qed.

Lemma grown_after m v u a : called m u = None -> (forall mg, u <> UTree mg) -> grown (after m v u a) = grown v.
Proof. intros Hc Hu. destruct u; try discriminate Hc; try reflexivity. exfalso. apply (Hu merge). reflexivity. Qed.
(** Operations that answer with a new slice of four bytes. *)
Lemma made_ok (w : world V) v u h' s l : Inv w v -> made (hp w) h' s l -> called (cells (hp w)) u = None ->
  (forall mg, u <> UTree mg) ->
  returns (cells h') v (NSlice s) l /\ (forall A, changes_only A (cells (hp w)) v (cells h'))
  /\ Inv (mkWorld h' (trees w)) (after (cells (hp w)) v u (NSlice s)).
Proof.
  intros (Hm & Ho & Ht) (A1 & A2 & A3 & A4 & A5 & A6 & A7) Hc Hu.
  assert (K : forall a, (a < brk (hp w))%nat -> cells h' a = cells (hp w) a) by (intros a Ha; apply A6; lia).
  split; [|split].
  - exists s. split; [reflexivity|]. split; [|rewrite bytes_in_contents; exact A5].
    apply (fresh_above w v s (brk h') Ho). unfold placed. lia.
  - intros A. apply (kept w); assumption.
  - split; [exact A7|]. cbn [hp]. split.
    + cbn [after owned]. intros a [Ha|Ha]; [apply Ho in Ha; lia|]. unfold covers in Ha. lia.
    + unfold trees_ok. rewrite grown_after by assumption. exact Ht.
Qed.
(** Operations that only answer. *)
Lemma quiet_ok (w : world V) v u a : Inv w v -> called (cells (hp w)) u = None -> (forall mg, u <> UTree mg) ->
  (forall x, match a with NSlice s => covers s x | NEntries l => exists s, In s (slices l) /\ covers s x | _ => False end -> owned v x) ->
  (forall A, changes_only A (cells (hp w)) v (cells (hp w))) /\ Inv w (after (cells (hp w)) v u a).
Proof.
  intros (Hm & Ho & Ht) Hc Hu Ha. split; [intros A x _ _; reflexivity|].
  split; [exact Hm|]. split.
  - cbn [after owned]. intros x [H|H]; apply Ho; auto.
  - unfold trees_ok. rewrite grown_after by assumption. exact Ht.
Qed.

Definition fine (w : world V) v u : Prop := exists k w' a,
  (forall fuel, (k <= fuel)%nat -> step fuel w u = Ret (w', a))
  /\ promised first_same (cells (hp w)) v u a (cells (hp w')) /\ Inv w' (after (cells (hp w)) v u a).

Lemma step_ok (w : world V) v u : Inv w v -> legal (cells (hp w)) v u -> fine w v u.
Proof.
  intros HI (Hg & Hc & Hl). pose proof HI as (Hm & Ho & Ht). unfold fine.
  assert (Mok : forall s, bytes_ok (bytes_in (cells (hp w)) s)) by (intros s; rewrite bytes_in_contents; apply read_ok, Hm).
  destruct u; cbn [given called] in Hg, Hc.
  - (* UMake *)
    pose proof (alloc_spec (hp w) c) as A. destruct (alloc (hp w) c) as [h' s] eqn:Ea. destruct A as (A1 & A2 & A3 & A4 & A5).
    assert (K : forall a, (a < brk (hp w))%nat -> cells h' a = cells (hp w) a) by (intros a Ha; apply A5; lia).
    exists 0%nat, (mkWorld h' (trees w)), (NSlice (mkB (off s) n c)). split; [intros fuel _; cbn [step]; rewrite Ea; reflexivity|].
    split; [split|].
    + cbn [answered]. eexists. split; [reflexivity|]. cbn [blen bcap]. split; [reflexivity|]. split; [reflexivity|]. split.
      * apply (fresh_above w v _ (brk h') Ho). unfold placed. cbn [at_ bcap blen]. lia.
      * unfold covers. cbn [at_ bcap hp]. intros x Hx. apply A4. lia.
    + apply (kept w); assumption.
    + split; [|split; [|exact Ht]]; cbn [hp owned after].
      * intros x. destruct (Nat.lt_ge_cases x (brk (hp w))) as [L|L]; [rewrite K by exact L; apply Hm|].
        destruct (Nat.lt_ge_cases x (brk (hp w) + c)) as [L2|L2]; [rewrite A4 by lia; reflexivity|rewrite A5 by lia; apply Hm].
      * intros a [Ha|Ha]; [apply Ho in Ha; lia|]. unfold covers in Ha. cbn [at_ bcap] in Ha. lia.
  - (* UStore *)
    destruct Hl as [Hj Hx]. inversion Hg as [|? ? Hs _]; subst.
    eexists 0%nat, _, _. split; [intros fuel _; cbn [step]; rewrite store_ok by exact Hj; rewrite bind_Ret; reflexivity|].
    cbn [hp cells window off]. split; [split|].
    + cbn [answered]. split; [reflexivity|]. unfold set. rewrite Nat.eqb_refl. reflexivity.
    + intros a _ Hn. unfold set. destruct (Nat.eqb_spec a (at_ s + j)); [contradiction|reflexivity].
    + split; [|split; [|exact Ht]]; cbn [hp owned after cells brk].
      * apply set_ok; assumption.
      * intros a [Ha|[]]. apply Ho, Ha.
  - (* UToUint *)
    set (l := contents (cells (hp w)) ip). assert (Bl : bytes_ok l) by (apply read_ok, Hm).
    destruct (ToUint_total l Bl) as (x & _ & Ex).
    destruct (quiet_ok w v (UToUint ip) (NNum x) HI eq_refl ltac:(discriminate) ltac:(contradiction)) as [C I'].
    exists 0%nat, w, (NNum x). split; [intros fuel _; cbn [step]; fold l; rewrite Ex; reflexivity|].
    split; [split; [|apply C]|exact I']. cbn [answered]. exists x. rewrite bytes_in_contents. fold l. split; [reflexivity|]. split.
    + intros y Hy. rewrite (ToUint_addr _ _ Hy) in Ex. congruence.
    + intros Hn. rewrite (ToUint_other _ Bl Hn) in Ex. congruence.
  - (* UFromUint *)
    destruct (FromUint_made (hp w) u Hm) as (h' & s & E & M).
    destruct (made_ok w v (UFromUint u) h' s _ HI M eq_refl ltac:(discriminate)) as (R & C & I').
    exists 0%nat, (mkWorld h' (trees w)), (NSlice s). split; [intros fuel _; cbn [step slice_answer]; unfold slice_answer; rewrite E; reflexivity|].
    split; [split; [|apply C]|exact I']. cbn [answered hp]. rewrite <- be32_addr by exact Hl. exact R.
  - (* UMaskFrom *)
    destruct (MaskFrom_made (hp w) b Hm) as (h' & s & E & M).
    destruct (made_ok w v (UMaskFrom b) h' s _ HI M eq_refl ltac:(discriminate)) as (R & C & I').
    exists 0%nat, (mkWorld h' (trees w)), (NSlice s). split; [intros fuel _; cbn [step]; unfold slice_answer; rewrite E; reflexivity|].
    split; [split; [|apply C]|exact I']. cbn [answered hp]. destruct (N.leb_spec b 32) as [L|L].
    + rewrite <- MaskFromByte_small by exact L. exact R.
    + rewrite <- (MaskFromByte_big b) by (split; assumption). exact R.
  - (* UMaskTo *)
    set (x := Net.MaskToByte (contents (cells (hp w)) m)).
    destruct (quiet_ok w v (UMaskTo m) (NNum x) HI eq_refl ltac:(discriminate) ltac:(contradiction)) as [C I'].
    exists 0%nat, w, (NNum x). split; [reflexivity|]. split; [split; [|apply C]|exact I'].
    cbn [answered]. exists x. split; [reflexivity|]. pose proof (Mok m) as B. rewrite bytes_in_contents in *. split.
    + intros n Hn. apply MaskToByte_length; assumption.
    + intros Hn. apply MaskToByte_other; assumption.
  - (* UEqual *)
    assert (Q : exists b, Net.CidrEqual (Some (mkNet (contents (cells (hp w)) ip) (contents (cells (hp w)) m)))
      (Some (mkNet (contents (cells (hp w)) ip') (contents (cells (hp w)) m'))) = Ret b)
      by (unfold Net.CidrEqual; destruct (negb _); eauto).
    destruct Q as (b & Eb). destruct (quiet_ok w v (UEqual ip m ip' m') (NBool b) HI eq_refl ltac:(discriminate) ltac:(contradiction)) as [C I'].
    exists 0%nat, w, (NBool b). split; [intros fuel _; cbn [step]; rewrite Eb; reflexivity|].
    split; [split; [|apply C]|exact I']. cbn [answered]. exists b. split; [reflexivity|]. rewrite !bytes_in_contents. intros x x' Hx Hx'.
    destruct (CidrEqual_v4 (mkNet (contents (cells (hp w)) ip) (contents (cells (hp w)) m))
      (mkNet (contents (cells (hp w)) ip') (contents (cells (hp w)) m')) x x' Hx Hx') as (r & Er & Q).
    rewrite Eb in Er. injection Er as <-. exact Q.
  - (* UFirst *)
    inversion Hg as [|? ? Hip _]; subst.
    destruct (quiet_ok w v (UFirst ip m) (NSlice ip) HI eq_refl ltac:(discriminate) (proj2 Hip)) as [C I'].
    exists 0%nat, w, (NSlice ip). split; [reflexivity|]. split; [split; [reflexivity|apply C]|exact I'].
  - (* ULast *)
    inversion Hg as [|? ? Hip Hg']; subst. inversion Hg' as [|? ? Hmk _]; subst. destruct Hl as [L1 L2].
    pose proof (has_below w v ip Ho Hip) as Bi. pose proof (has_below w v m Ho Hmk) as Bm.
    destruct (Last_made (hp w) ip m Hm ltac:(lia) ltac:(lia) L1 L2) as (h' & s & E & M).
    destruct (made_ok w v (ULast ip m) h' s _ HI M eq_refl ltac:(discriminate)) as (R & C & I').
    exists 0%nat, (mkWorld h' (trees w)), (NSlice s). split; [intros fuel _; cbn [step]; unfold slice_answer; rewrite E; reflexivity|].
    split; [split; [|apply C]|exact I']. cbn [answered hp]. eexists. split; [exact R|].
    pose proof (Mok ip) as Ki. pose proof (Mok m) as Km. unfold net_at. rewrite !bytes_in_contents in *.
    set (li := contents (cells (hp w)) ip) in *. set (lm := contents (cells (hp w)) m) in *. split.
    + apply map_ext. intros j. f_equal. apply ChecksumProofs.not8_small. apply (WhirlpoolProofs.nth_byte lm j Km).
    + intros x p H4 Hcd. pose proof (last_exact _ _ _ Hcd) as X. cbn [IP] in X.
      assert (Ll : length li = 4%nat) by (unfold li, contents; rewrite read_length; exact H4).
      rewrite Ll in X. change (4 =? 4)%nat with true in X. cbv iota in X.
      assert (Lm : (4 <= length lm)%nat) by (unfold lm, contents; rewrite read_length; exact L2).
      destruct li as [|i0 [|i1 [|i2 [|i3 [|? ?]]]]]; try discriminate Ll.
      destruct lm as [|m0 [|m1 [|m2 [|m3 lm]]]]; cbn [length] in Lm; try lia.
      unfold Net.LastIpv4, idx in X. cbn [IP Mask nth_error bind] in X. unfold addr in *. cbn [map nth]. congruence.
  - (* UTree *)
    exists 0%nat, (mkWorld (hp w) (trees w ++ [Net.New merge])), (NNew (length (trees w))). split; [reflexivity|].
    destruct Ht as [HL HT]. split; [split; [cbn [answered]; rewrite HL; reflexivity|intros a _ _; reflexivity]|].
    split; [exact Hm|]. split; [intros a [Ha|[]]; apply Ho, Ha|]. cbn [trees after grown called]. split.
    + unfold after. cbn [grown]. rewrite !app_length, HL. reflexivity.
    + unfold after. cbn [grown]. intros i mg cs Ei. destruct (Nat.lt_ge_cases i (length (grown v))) as [L|L].
      * rewrite nth_error_app1 in Ei by exact L. destruct (HT _ _ _ Ei) as (P & t & f & Et & Ea). split; [exact P|].
        exists t, f. split; [rewrite nth_error_app1 by lia; exact Et|exact Ea].
      * rewrite nth_error_app2 in Ei by exact L. destruct (i - length (grown v))%nat as [|d] eqn:Ed; [|destruct d; discriminate Ei].
        injection Ei as <- <-. split; [constructor|]. exists (Net.New merge), 0%nat. split; [|reflexivity].
        rewrite nth_error_app2 by lia. replace (i - length (trees w))%nat with 0%nat by lia. reflexivity.
  - (* UAddIp *)
    destruct (Hc _ _ eq_refl) as [Hi Hp]. destruct (on_tree_ok w v _ _ HI Hi Hp) as (k & t' & E & T).
    rewrite bytes_in_contents in E. exists k. eexists _, _. split; [intros fuel Hf; cbn [step]; apply (E fuel Hf)|].
    split; [split; [reflexivity|intros a _ _; reflexivity]|].
    split; [exact Hm|]. split; [intros a [Ha|[]]; apply Ho, Ha|exact T].
  - (* UAddRange *)
    destruct (Hc _ _ eq_refl) as [Hi Hp]. destruct (on_tree_ok w v _ _ HI Hi Hp) as (k & t' & E & T).
    rewrite !bytes_in_contents in E. exists k. eexists _, _. split; [intros fuel Hf; cbn [step]; apply (E fuel Hf)|].
    split; [split; [reflexivity|intros a _ _; reflexivity]|].
    split; [exact Hm|]. split; [intros a [Ha|[]]; apply Ho, Ha|exact T].
  - (* UAddCidr *)
    destruct (Hc _ _ eq_refl) as [Hi Hp]. destruct (on_tree_ok w v _ _ HI Hi Hp) as (k & t' & E & T).
    unfold net_at in E. rewrite !bytes_in_contents in E. exists k. eexists _, _. split; [intros fuel Hf; cbn [step]; apply (E fuel Hf)|].
    split; [split; [reflexivity|intros a _ _; reflexivity]|].
    split; [exact Hm|]. split; [intros a [Ha|[]]; apply Ho, Ha|exact T].
  - (* UList *)
    unfold tree_of in Hl. destruct Ht as [HL HT].
    destruct (nth_error (grown v) i) as [[mg cs]|] eqn:Eg; [|apply nth_error_None in Eg; lia].
    destruct (HT _ _ _ Eg) as (Pc & t & f & Et & Ea).
    destruct (ListCidr_made t (hp w) Hm) as (h' & r & E & Le & K & M & P & O & S).
    exists 0%nat, (mkWorld h' (trees w)), (NEntries r). split; [intros fuel _; cbn [step]; rewrite Et, E; reflexivity|].
    split; [split|].
    + cbn [answered hp]. exists r. split; [reflexivity|]. split; [|split; [exact O|]].
      * apply (Forall_impl _) with (2 := P). intros s. apply (fresh_above w v s (brk h') Ho).
      * intros mg' cs' Eq. rewrite Eg in Eq. injection Eq as <- <-. rewrite S. apply (tree_list mg cs f t Pc Ea).
    + apply (kept w); assumption.
    + split; [exact M|]. split; [|split; [exact HL|exact HT]]. cbn [hp owned after]. intros a [Ha|(s & Hs & Ha)]; [apply Ho in Ha; lia|].
      rewrite Forall_forall in P. specialize (P s Hs). unfold placed in P. unfold covers in Ha. lia.
Qed.
End Steps.
