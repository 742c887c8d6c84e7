(** Histories of calls on an IpTree. *)
From Coq Require Import Sorting.Sorted.
From Verif Require Import Base.Go Base.GoNet Base.NetApi Model.Net Spec.NetSpec Proofs.Util
  Proofs.NetBasic Proofs.NetTree Proofs.NetList Proofs.NetBlocks Proofs.NetRange.
Local Open Scope N_scope.

Section Hist.
Context {V : Type}.
Implicit Type t : tree V.

(** ** Invariants of any call that returns *)

Lemma range_inv (P : tree V -> Prop) v : (forall t u e, P t -> P (add_root t u e v)) ->
  forall fuel t a b t', P t -> range_loop fuel t a b v = Ret t' -> P t'.
Proof.
  intros Step. induction fuel as [|fuel IH]; intros t a b t' Pt; cbn [range_loop];
  destruct (a <=? b); try discriminate; try (intros E; injection E as <-; exact Pt).
  destruct (shrink 33 a b _) as [m| |]; cbn [bind]; try discriminate.
  destruct (bit_len 33 m 0) as [bit| |]; cbn [bind]; try discriminate.
  apply IH. apply Step, Pt.
Qed.
Lemma apply_inv (P : tree V -> Prop) c : (forall t u e, P t -> P (add_root t u e (call_value c))) ->
  forall fuel t t', P t -> apply fuel t c = Ret t' -> P t'.
Proof.
  intros Step fuel t t' Pt. destruct c as [ip v|s e v|[n|] v]; cbn [apply call_value] in *.
  - unfold AddIp. destruct (Ipv4ToUint ip); cbn [bind]; try discriminate.
    intros E. injection E as <-. apply Step, Pt.
  - unfold AddRange. destruct (Ipv4ToUint s); cbn [bind]; try discriminate.
    destruct (Ipv4ToUint e); cbn [bind]; try discriminate. apply range_inv; assumption.
  - unfold AddCidr. destruct (Ipv4ToUint (IP n)); cbn [bind]; try discriminate.
    intros E. injection E as <-. apply Step, Pt.
  - discriminate.
Qed.
Lemma apply_all_inv (P : tree V -> Prop) cs :
  (forall c t u e, In c cs -> P t -> P (add_root t u e (call_value c))) ->
  forall fuel t t', P t -> apply_all fuel t cs = Ret t' -> P t'.
Proof.
  induction cs as [|c cs IH]; intros Step fuel t t' Pt; cbn [apply_all].
  - intros E. injection E as <-. exact Pt.
  - destruct (apply fuel t c) as [t1| |] eqn:E; cbn [bind]; try discriminate.
    apply IH; [intros; apply Step; [right|]; assumption|].
    apply (apply_inv P c) with (3 := E); [|exact Pt]. intros. apply Step; [left; reflexivity|assumption].
Qed.

Lemma reached_normal fuel mg cs t : apply_all fuel (New mg) cs = Ret t -> normal 32 (root t).
Proof.
  apply (apply_all_inv (fun t => normal 32 (root t))); [|exact I].
  intros c t0 u e _ H. apply add_normal, H.
Qed.
Lemma reached_merge fuel mg cs t : apply_all fuel (New mg) cs = Ret t -> merge t = mg.
Proof. apply (apply_all_inv (fun t => merge t = mg)); [|reflexivity]. intros c t0 u e _ H. exact H. Qed.
Lemma reached_values (P : V -> Prop) fuel mg cs t : (forall a b, P a -> P b -> P (mg a b)) ->
  (forall c, In c cs -> P (call_value c)) -> apply_all fuel (New mg) cs = Ret t -> Forall P (values (root t)).
Proof.
  intros M C E. enough (merge t = mg /\ Forall P (values (root t))) by tauto. revert E.
  apply (apply_all_inv (fun t => merge t = mg /\ Forall P (values (root t)))); [|split; [reflexivity|constructor]].
  intros c t0 u e Hc [Em F]. split; [exact Em|]. cbn [root add_root]. rewrite Em.
  apply add_values; auto.
Qed.

(** ** The listing *)

Definition entries t : list (N * N * V) := lst 32 (root t) 0.
Definition show_entry (x : N * N * V) : ipnet * V := let '(u, p, v) := x in (net_of u p, v).

Lemma entry_aligned t u p v : In (u, p, v) (entries t) -> aligned u p.
Proof.
  intros H. apply lst_entry in H; [|lia|reflexivity]. destruct H as (Hp & A & _ & L).
  change (0 + pw 32) with (2 ^ 32) in L. pose proof (size_pos p). unfold aligned. repeat split; [lia|lia|exact A].
Qed.

Lemma ListCidr_entries t : normal 32 (root t) -> ListCidr t = map show_entry (entries t).
Proof.
  intros H. unfold ListCidr. change 31 with (sub8 (N.of_nat 32) 1).
  rewrite each_lst by (lia || exact H || reflexivity). fold (entries t). apply map_ext_in.
  intros [[u p] v] I. destruct (entry_aligned _ _ _ _ I) as (Hu & Hp & _). unfold show_entry, net_of.
  rewrite MaskFromByte_small by exact Hp. unfold Ipv4FromUint. rewrite be32_addr by exact Hu. reflexivity.
Qed.

Lemma Contains_entry u p x : aligned u p -> x < 2 ^ 32 -> Contains (net_of u p) (addr x) = true <-> in_net u p x.
Proof.
  intros (Hu & Hp & _) Hx. apply Contains_cidr; [apply net_of_cidr; assumption|]. split; auto.
Qed.

Lemma listed_mem t x : normal 32 (root t) -> x < 2 ^ 32 -> listed (ListCidr t) x <-> mem 32 (root t) x = true.
Proof.
  intros H Hx. rewrite ListCidr_entries by exact H.
  rewrite (lst_mem (merge t) 32 (root t) 0 x) by (lia || reflexivity || (change (0 + pw 32) with (2 ^ 32); lia)).
  split.
  - intros (n & v & I & C). apply in_map_iff in I. destruct I as ([[u p] v'] & E & I). injection E as <- <-.
    exists u, p, v'. split; [exact I|]. apply Contains_entry in C; [exact C| |exact Hx].
    apply (entry_aligned _ _ _ _ I).
  - intros (u & p & v & I & C). exists (net_of u p), v. split.
    + apply in_map_iff. exists (u, p, v). auto.
    + apply Contains_entry; [apply (entry_aligned _ _ _ _ I)|exact Hx|exact C].
Qed.

Lemma low_mod x : low_eq 32 x (x mod 2 ^ 32).
Proof. intros i Hi. symmetry. apply N.mod_pow2_bits_low. lia. Qed.

Lemma same_listed {V2} t (t2 : tree V2) : normal 32 (root t) -> normal 32 (root t2) ->
  (forall x, x < 2 ^ 32 -> mem 32 (root t) x = true <-> mem 32 (root t2) x = true) ->
  forall x, mem 32 (root t) x = mem 32 (root t2) x.
Proof.
  intros H1 H2 E x. rewrite (mem_ext 32 _ x (x mod 2 ^ 32)), (mem_ext 32 (root t2) x (x mod 2 ^ 32)) by apply low_mod.
  assert (B : x mod 2 ^ 32 < 2 ^ 32) by (apply N.mod_lt; discriminate). specialize (E _ B).
  destruct (mem 32 (root t) _), (mem 32 (root t2) _); try reflexivity; destruct E as [E1 E2];
  [symmetry; apply E1; reflexivity|apply E2; reflexivity].
Qed.

Lemma agree_in_net u p x : u < 2 ^ 32 -> x < 2 ^ 32 -> agree 32 (32 - p) u x = true <-> in_net u p x.
Proof.
  intros Hu Hx. rewrite agree_div by assumption. unfold in_net, size. split; congruence.
Qed.

(** ** C39 *)

Theorem canonical fuel mg cs t : apply_all fuel (New mg) cs = Ret t -> exists L,
  ListCidr t = map (fun x => let '(u, p, v) := x in (net_of u p, v)) L
  /\ (forall u p v, In (u, p, v) L -> aligned u p)
  /\ StronglySorted (fun x y => let '(u, p, _) := x in let '(u', _, _) := y in u + size p <= u') L
  /\ (forall u p v u' p' v', In (u, p, v) L -> In (u', p', v') L -> ~ halves u p u' p').
Proof.
  intros E. apply reached_normal in E. exists (entries t). split; [apply ListCidr_entries, E|].
  split; [intros u p v; apply entry_aligned|]. split.
  - apply lst_sorted; [lia|reflexivity].
  - intros u p v u' p' v'. apply lst_no_halves; [lia|exact E|reflexivity].
Qed.

(** ** C40 *)

Theorem shortest fuel mg cs t (L : list ipnet) : apply_all fuel (New mg) cs = Ret t ->
  (forall n, In n L -> exists u p, is_cidr n u p) ->
  (forall x, x < 2 ^ 32 -> listed (ListCidr t) x <-> exists n, In n L /\ Contains n (addr x) = true) ->
  (length (ListCidr t) <= length L)%nat.
Proof.
  intros E Hc Hx. apply reached_normal in E.
  rewrite ListCidr_entries, map_length by exact E. unfold entries. rewrite lst_length by exact E.
  assert (F : exists PL, length PL = length L /\ Forall (fun b => fst b < 2 ^ 32) PL /\
    forall x, x < 2 ^ 32 -> existsb (fun b => agree 32 (snd b) (fst b) x) PL = true
                            <-> exists n, In n L /\ Contains n (addr x) = true).
  { clear Hx. induction L as [|n L IH].
    - exists []. split; [reflexivity|]. split; [constructor|]. intros x _. split; [discriminate|intros (? & [] & _)].
    - destruct IH as (PL & Len & Ok & C); [intros m Hm; apply Hc; right; exact Hm|].
      destruct (Hc n (or_introl eq_refl)) as (u & p & D). exists ((u, 32 - p) :: PL).
      split; [cbn [length]; congruence|]. split; [constructor; [apply D|exact Ok]|]. intros x Hx.
      cbn [existsb fst snd]. rewrite Bool.orb_true_iff, (C x Hx).
      rewrite agree_in_net by (apply D || exact Hx).
      assert (A : is_addr (addr x) x) by (split; auto).
      rewrite <- (Contains_cidr n u p (addr x) x D A). split.
      + intros [X|(m & I & X)]; [exists n|exists m]; (split; [|exact X]); [left|right]; auto.
      + intros (m & [->|I] & X); [left; exact X|right; eauto]. }
  destruct F as (PL & <- & Ok & C). apply (count_minimal 32); [exact E|]. intros x.
  rewrite (mem_ext 32 _ x (x mod 2 ^ 32)) by apply low_mod.
  rewrite (existsb_ext _ (fun b => agree 32 (snd b) (fst b) (x mod 2 ^ 32))) by
    (intros b _; apply agree_ext, low_mod).
  assert (B : x mod 2 ^ 32 < 2 ^ 32) by (apply N.mod_lt; discriminate). specialize (C _ B).
  rewrite <- (Hx _ B), (listed_mem t _ E B) in C.
  destruct (existsb _ PL), (mem 32 (root t) _); try reflexivity; destruct C as [C1 C2];
  [apply C1; reflexivity|symmetry; apply C2; reflexivity].
Qed.

(** ** C41 *)

Theorem same_set_same_list fuel1 fuel2 mg1 mg2 cs1 cs2 t1 t2 :
  apply_all fuel1 (New mg1) cs1 = Ret t1 -> apply_all fuel2 (New mg2) cs2 = Ret t2 ->
  (forall x, x < 2 ^ 32 -> listed (ListCidr t1) x <-> listed (ListCidr t2) x) ->
  map fst (ListCidr t1) = map fst (ListCidr t2).
Proof.
  intros E1 E2 S. apply reached_normal in E1, E2. rewrite !ListCidr_entries by assumption.
  assert (Sh : shape (root t1) = shape (root t2)).
  { apply (shape_unique 32); [exact E1|exact E2|]. apply same_listed; [exact E1|exact E2|].
    intros x Hx. rewrite <- !listed_mem by assumption. apply S, Hx. }
  rewrite !map_map.
  assert (F : forall L : list (N * N * V), map (fun x => fst (show_entry x)) L = map (fun up => net_of (fst up) (snd up)) (map fst L)).
  { intros L. rewrite map_map. apply map_ext. intros [[u p] v]. reflexivity. }
  rewrite !F. unfold entries. rewrite (lst_shape 32 _ _ 0 Sh). reflexivity.
Qed.

(** ** Proper histories *)

Inductive steps : tree V -> list (tree_call V) -> tree V -> Prop :=
| steps_nil t : steps t [] t
| steps_cons t c L cs t' : call_prefixes c L -> Forall prefix_ok L ->
    (forall x, x < 2 ^ 32 -> covered_by L x <-> adds c x) ->
    steps (add_prefixes t L (call_value c)) cs t' -> steps t (c :: cs) t'.

Lemma proper_steps cs : Forall proper cs -> forall t, exists t' k, steps t cs t' /\
  forall fuel, (k <= fuel)%nat -> apply_all fuel t cs = Ret t'.
Proof.
  induction 1 as [|c cs Hc Hcs IH]; intros t.
  - exists t, O. split; [constructor|]. reflexivity.
  - destruct (apply_ok c Hc) as (L & k1 & P & Ok & Cov & A).
    destruct (IH (add_prefixes t L (call_value c))) as (t' & k2 & S & E).
    exists t', (Nat.max k1 k2). split; [econstructor; eassumption|]. intros fuel Hf.
    cbn [apply_all]. rewrite A by lia. apply E. lia.
Qed.

(** Running with any fuel that suffices gives the same tree. *)
Lemma range_loop_mono fuel : forall fuel' t a b v t', (fuel <= fuel')%nat ->
  range_loop fuel t a b v = Ret t' -> range_loop fuel' t a b v = Ret t'.
Proof.
  induction fuel as [|fuel IH]; intros fuel' t a b v t' Hf; cbn [range_loop].
  - destruct (a <=? b) eqn:L; [discriminate|]. intros E. destruct fuel'; cbn [range_loop]; rewrite L; exact E.
  - destruct fuel' as [|fuel']; [lia|]. cbn [range_loop]. destruct (a <=? b); [|auto].
    destruct (shrink 33 a b _); cbn [bind]; try discriminate. destruct (bit_len 33 _ 0); cbn [bind]; try discriminate.
    apply IH. lia.
Qed.
Lemma apply_all_mono cs : forall fuel fuel' t t', (fuel <= fuel')%nat ->
  apply_all fuel t cs = Ret t' -> apply_all fuel' t cs = Ret t'.
Proof.
  induction cs as [|c cs IH]; intros fuel fuel' t t' Hf; cbn [apply_all]; [auto|].
  destruct (apply fuel t c) as [t1| |] eqn:E; cbn [bind]; try discriminate.
  assert (E' : apply fuel' t c = Ret t1).
  { destruct c as [ip v|s e v|n v]; cbn [apply] in *; [exact E| |exact E]. unfold AddRange in *.
    destruct (Ipv4ToUint s); cbn [bind] in *; try discriminate.
    destruct (Ipv4ToUint e); cbn [bind] in *; try discriminate. apply range_loop_mono with fuel; assumption. }
  rewrite E'. cbn [bind]. apply IH, Hf.
Qed.

Lemma steps_reached mg cs t : steps (New mg) cs t -> Forall proper cs ->
  forall fuel t', apply_all fuel (New mg) cs = Ret t' -> steps (New mg) cs t'.
Proof.
  intros S H fuel t' E. destruct (proper_steps cs H (New mg)) as (t2 & k & S2 & E2).
  specialize (E2 (Nat.max k fuel) ltac:(lia)). apply (apply_all_mono cs fuel (Nat.max k fuel)) in E; [|lia].
  rewrite E in E2. injection E2 as ->. exact S2.
Qed.

Lemma add_prefixes_normal L v : forall t, normal 32 (root t) -> normal 32 (root (add_prefixes t L v)).
Proof.
  induction L as [|[u p] L IH]; intros t H; [exact H|]. unfold add_prefixes in *. cbn [fold_left].
  apply IH. apply add_normal, H.
Qed.
Lemma add_prefixes_mem L v x : x < 2 ^ 32 -> forall t, Forall prefix_ok L ->
  mem 32 (root (add_prefixes t L v)) x = true <-> mem 32 (root t) x = true \/ covered_by L x.
Proof.
  intros Hx. induction L as [|[u p] L IH]; intros t Ok.
  - split; [auto|]. intros [H|(? & ? & [] & _)]. exact H.
  - inversion Ok as [|? ? [Hu Hp] Ok']; subst. cbn [fst snd] in *. unfold add_prefixes in *. cbn [fold_left].
    rewrite (IH _ Ok'). cbn [root add_root fst snd]. rewrite add_mem, Bool.orb_true_iff, agree_in_net by assumption.
    split.
    + intros [[H|H]|(u' & p' & I & C)]; [left; exact H| |].
      * right. exists u, p. split; [left; reflexivity|exact H].
      * right. exists u', p'. split; [right; exact I|exact C].
    + intros [H|(u' & p' & [Q|I] & C)]; [auto| |].
      * injection Q as <- <-. auto.
      * right. exists u', p'. auto.
Qed.

Lemma steps_normal t cs t' : steps t cs t' -> normal 32 (root t) -> normal 32 (root t').
Proof. induction 1; intros N1; auto. apply IHsteps, add_prefixes_normal, N1. Qed.
Lemma steps_mem t cs t' : steps t cs t' -> forall x, x < 2 ^ 32 ->
  mem 32 (root t') x = true <-> mem 32 (root t) x = true \/ exists c, In c cs /\ adds c x.
Proof.
  induction 1 as [t|t c L cs t' P Ok Cov S IH]; intros x Hx.
  - split; [auto|]. intros [H|(? & [] & _)]. exact H.
  - rewrite (IH x Hx), (add_prefixes_mem L _ x Hx t Ok), (Cov x Hx). split.
    + intros [[H|H]|(c' & I & H)]; [auto| |]; right; [exists c|exists c']; (split; [|exact H]); [left|right]; auto.
    + intros [H|(c' & [->|I] & H)]; [auto|auto|]. right. eauto.
Qed.

(** ** C38 *)

Theorem coverage mg cs : Forall proper cs -> exists t k,
  (forall fuel, (k <= fuel)%nat -> apply_all fuel (New mg) cs = Ret t)
  /\ forall x, x < 2 ^ 32 -> listed (ListCidr t) x <-> exists c, In c cs /\ adds c x.
Proof.
  intros H. destruct (proper_steps cs H (New mg)) as (t & k & S & E). exists t, k. split; [exact E|].
  intros x Hx. rewrite listed_mem by (try exact Hx; apply (steps_normal _ _ _ S); exact I).
  rewrite (steps_mem _ _ _ S x Hx). cbn [New root mem]. split; [intros [X|X]; [discriminate|exact X]|auto].
Qed.

(** What [proper_steps] says of any run that returns. *)
Lemma coverage_run fuel mg cs t : Forall proper cs -> apply_all fuel (New mg) cs = Ret t ->
  forall x, x < 2 ^ 32 -> listed (ListCidr t) x <-> exists c, In c cs /\ adds c x.
Proof.
  intros H E. destruct (coverage mg cs H) as (t' & k & E' & C).
  specialize (E' (Nat.max k fuel) ltac:(lia)). apply (apply_all_mono cs fuel (Nat.max k fuel)) in E; [|lia].
  rewrite E in E'. injection E' as ->. exact C.
Qed.

Theorem order_free fuel1 fuel2 mg1 mg2 cs1 cs2 t1 t2 : Forall proper cs1 -> Forall proper cs2 ->
  (forall x, x < 2 ^ 32 -> (exists c, In c cs1 /\ adds c x) <-> exists c, In c cs2 /\ adds c x) ->
  apply_all fuel1 (New mg1) cs1 = Ret t1 -> apply_all fuel2 (New mg2) cs2 = Ret t2 ->
  map fst (ListCidr t1) = map fst (ListCidr t2).
Proof.
  intros H1 H2 S E1 E2. apply (same_set_same_list fuel1 fuel2 mg1 mg2 cs1 cs2 t1 t2 E1 E2).
  intros x Hx. rewrite (coverage_run _ _ _ _ H1 E1 x Hx), (coverage_run _ _ _ _ H2 E2 x Hx). apply S, Hx.
Qed.

(** ** C44 *)

Theorem covered_noop fuel mg cs t c : apply_all fuel (New mg) cs = Ret t -> proper c ->
  (forall x, x < 2 ^ 32 -> adds c x -> listed (ListCidr t) x) ->
  exists k, forall fuel', (k <= fuel')%nat -> apply fuel' t c = Ret t.
Proof.
  intros E Hc H. apply reached_normal in E. destruct (apply_ok c Hc) as (L & k & P & Ok & Cov & A).
  exists k. intros fuel' Hf. rewrite A by exact Hf. f_equal.
  assert (Q : forall x, x < 2 ^ 32 -> covered_by L x -> mem 32 (root t) x = true).
  { intros x Hx C. apply listed_mem; [exact E|exact Hx|]. apply H; [exact Hx|]. apply Cov; assumption. }
  clear - Q Ok E. revert Ok Q. induction L as [|[u p] L IH]; intros Ok Q; [reflexivity|].
  inversion Ok as [|? ? [Hu Hp] Ok']; subst. cbn [fst snd] in *. unfold add_prefixes in *. cbn [fold_left fst snd].
  assert (X : add_root t u (32 - p) (call_value c) = t).
  { destruct t as [r m]. unfold add_root. cbn [root merge] in *. f_equal. apply add_present; [exact E|].
    intros x Ax. rewrite (mem_ext 32 _ x (x mod 2 ^ 32)) by apply low_mod.
    rewrite (agree_ext 32 _ _ x (x mod 2 ^ 32)) in Ax by apply low_mod.
    assert (B : x mod 2 ^ 32 < 2 ^ 32) by (apply N.mod_lt; discriminate). apply Q; [exact B|].
    exists u, p. split; [left; reflexivity|]. apply agree_in_net; assumption. }
  rewrite X. apply IH; [exact Ok'|]. intros x Hx (u' & p' & I & C). apply Q; [exact Hx|].
  exists u', p'. split; [right; exact I|exact C].
Qed.

Lemma apply_all_app cs1 cs2 fuel t t1 : apply_all fuel t cs1 = Ret t1 ->
  apply_all fuel t (cs1 ++ cs2) = apply_all fuel t1 cs2.
Proof.
  revert t. induction cs1 as [|c cs1 IH]; intros t; cbn [apply_all app].
  - intros E. injection E as ->. reflexivity.
  - destruct (apply fuel t c); cbn [bind]; try discriminate. apply IH.
Qed.
Theorem idempotent mg cs c : Forall proper cs -> proper c -> In c cs ->
  exists t k, forall fuel, (k <= fuel)%nat ->
    apply_all fuel (New mg) cs = Ret t /\ apply_all fuel (New mg) (cs ++ [c]) = Ret t.
Proof.
  intros H Hc I0. destruct (coverage mg cs H) as (t & k & E & C).
  destruct (covered_noop k mg cs t c (E k (le_n k)) Hc) as (k2 & E2).
  { intros x Hx A. apply C; [exact Hx|]. eauto. }
  exists t, (Nat.max k k2). intros fuel Hf. split; [apply E; lia|].
  rewrite (apply_all_app cs [c] fuel _ t) by (apply E; lia). cbn [apply_all]. rewrite E2 by lia. reflexivity.
Qed.

(** ** C45 *)

Lemma add_prefixes_look L v : forall t, normal 32 (root t) -> Forall prefix_ok L ->
  eqv (look 32 (root (add_prefixes t L v)) 0) (insert_all (merge t) (look 32 (root t) 0) L v).
Proof.
  assert (Ext : forall L mg (B1 B2 : blocks V), eqv B1 B2 -> eqv (insert_all mg B1 L v) (insert_all mg B2 L v)).
  { clear L. induction L as [|[u p] L IH]; intros mg B1 B2 E; [exact E|]. apply IH. apply insert_ext, E. }
  induction L as [|[u p] L IH]; intros t Nm Ok; [intros a b; reflexivity|].
  inversion Ok as [|? ? [Hu Hp] Ok']; subst. cbn [fst snd] in *. unfold add_prefixes in *. cbn [fold_left fst snd].
  specialize (IH (add_root t u (32 - p) v) ltac:(apply add_normal, Nm) Ok'). intros a b. rewrite IH.
  unfold insert_all at 2. cbn [fold_left fst snd]. apply Ext. cbn [root merge add_root].
  destruct (size_as_pw p Hp) as (j & Hj & -> & _).
  replace (32 - pre j) with (N.of_nat j) by (unfold pre; lia). apply add_insert; assumption.
Qed.

Lemma steps_history t cs t' : steps t cs t' -> normal 32 (root t) -> forall B, eqv (look 32 (root t) 0) B ->
  exists B', history (merge t) B cs B' /\ eqv (look 32 (root t') 0) B'.
Proof.
  assert (Ext : forall L v mg (B1 B2 : blocks V), eqv B1 B2 -> eqv (insert_all mg B1 L v) (insert_all mg B2 L v)).
  { induction L as [|[u p] L IH]; intros v mg B1 B2 E; [exact E|]. apply IH. apply insert_ext, E. }
  induction 1 as [t|t c L cs t' P Ok Cov S IH]; intros Nm B E.
  - exists B. split; [constructor|exact E].
  - destruct (IH (add_prefixes_normal L _ t Nm) (insert_all (merge t) B L (call_value c))) as (B' & H & E').
    { intros u q. rewrite add_prefixes_look by assumption. apply Ext, E. }
    exists B'. split; [|exact E']. rewrite add_prefixes_merge in H. econstructor; eassumption.
Qed.

Theorem reference mg cs : Forall proper cs -> exists t k B,
  (forall fuel, (k <= fuel)%nat -> apply_all fuel (New mg) cs = Ret t)
  /\ history mg no_blocks cs B
  /\ (forall u p v, B u p = Some v -> aligned u p)
  /\ forall n v, In (n, v) (ListCidr t) <-> exists u p, n = net_of u p /\ B u p = Some v.
Proof.
  intros H. destruct (proper_steps cs H (New mg)) as (t & k & S & E).
  pose proof (steps_normal _ _ _ S I) as Nm.
  destruct (steps_history _ _ _ S I no_blocks) as (B & Hi & Eq); [intros u q; reflexivity|].
  exists t, k, B. split; [exact E|]. split; [exact Hi|].
  assert (Q : forall u p v, B u p = Some v <-> In (u, p, v) (entries t)).
  { intros u p v. rewrite <- Eq. apply look_In; [lia|reflexivity]. }
  split; [intros u p v X; apply Q in X; apply (entry_aligned _ _ _ _ X)|].
  intros n v. rewrite ListCidr_entries by exact Nm. rewrite in_map_iff. split.
  - intros ([[u p] v'] & X & I0). injection X as <- <-. exists u, p. split; [reflexivity|]. apply Q, I0.
  - intros (u & p & -> & X). exists (u, p, v). split; [reflexivity|]. apply Q, X.
Qed.

(** The reference is determined by the history. *)
Lemma call_prefixes_fun (c : tree_call V) L1 L2 : call_prefixes c L1 -> call_prefixes c L2 -> L1 = L2.
Proof.
  destruct c as [ip v|s e v|[n|] v]; cbn [call_prefixes].
  - intros (u & U & ->) (u' & U' & ->). rewrite (is_addr_fun _ _ _ U U'). reflexivity.
  - intros (a & b & A & B & ->) (a' & b' & A' & B' & ->).
    rewrite (is_addr_fun _ _ _ A A'), (is_addr_fun _ _ _ B B'). reflexivity.
  - intros (u & p & C & ->) (u' & p' & C' & ->). destruct (cidr_fun _ _ _ _ _ C C') as [-> ->]. reflexivity.
  - contradiction.
Qed.
Lemma history_fun mg (B : blocks V) cs B1 B2 : history mg B cs B1 -> history mg B cs B2 -> B1 = B2.
Proof.
  intros H. revert B2. induction H as [B|B c L cs B' P H IH]; intros B2 H2; inversion H2; subst; [reflexivity|].
  apply IH. rewrite (call_prefixes_fun c L L0) by assumption. assumption.
Qed.

(** ** C46 *)

Theorem values_from_added (P : V -> Prop) fuel mg cs t : (forall a b, P a -> P b -> P (mg a b)) ->
  (forall c, In c cs -> P (call_value c)) -> apply_all fuel (New mg) cs = Ret t ->
  forall n v, In (n, v) (ListCidr t) -> P v.
Proof.
  intros M C E n v I0. pose proof (reached_values P fuel mg cs t M C E) as F. apply reached_normal in E.
  rewrite ListCidr_entries in I0 by exact E. rewrite <- (lst_values 32 (root t) 0 E) in F.
  apply in_map_iff in I0. destruct I0 as ([[u p] v'] & X & I0). injection X as _ <-.
  rewrite Forall_forall in F. apply F. apply in_map_iff. exists (u, p, v'). auto.
Qed.

(** ** C48 *)

Lemma entries_cons mg k r u p (v : V) L :
  add_entries mg k r ((u, p, v) :: L) = add_entries mg k (add mg r u k (32 - p) v) L.
Proof. reflexivity. Qed.

Theorem relist fuel mg cs t : apply_all fuel (New mg) cs = Ret t ->
  forall fuel', apply_all fuel' (New mg) (map (fun nv => CAddCidr (Some (fst nv)) (snd nv)) (ListCidr t)) = Ret t.
Proof.
  intros E fuel'. pose proof (reached_merge _ _ _ _ E) as Em. apply reached_normal in E.
  rewrite ListCidr_entries, map_map by exact E.
  assert (G : forall L r, Forall (fun x => aligned (fst (fst x)) (snd (fst x))) L ->
    apply_all fuel' (mkTree r mg) (map (fun x : N * N * V => CAddCidr (Some (fst (show_entry x))) (snd (show_entry x))) L)
    = Ret (mkTree (add_entries mg 32 r L) mg)).
  { induction L as [|[[u p] v] L IH]; intros r Ok; [reflexivity|].
    inversion Ok as [|? ? (Hu & Hp & _) Ok']; subst. cbn [fst snd] in *.
    cbn [map apply_all show_entry fst snd apply]. unfold AddCidr at 1.
    cbn [IP Mask net_of]. rewrite (ToUint_addr (addr u) u) by (split; auto). cbn [bind].
    rewrite MaskToByte_From by exact Hp.
    rewrite sub8_32 by exact Hp.
    unfold add_root. cbn [root merge]. rewrite IH by exact Ok'. rewrite entries_cons. reflexivity. }
  unfold New. rewrite G.
  - unfold entries. rewrite rebuild by (lia || exact E || reflexivity). destruct t as [r m]. cbn [root merge] in *. subst m. reflexivity.
  - apply Forall_forall. intros [[u p] v] I0. apply (entry_aligned _ _ _ _ I0).
Qed.

(** ** C47 *)

Fixpoint vat (k : nat) (n : node V) (x : N) : option V :=
  match n with
  | NNone => None
  | NAll v => Some v
  | NTree l r =>
      match k with
      | O => None
      | S k' => if N.testbit x (N.of_nat k') then vat k' r x else vat k' l x
      end
  end.

Definition holds (R : V -> Prop) (o : option V) : Prop := match o with Some v => R v | None => False end.

Lemma vat_fork mg k l r x : (is_all l && is_all r)%bool = false ->
  vat (S k) (fork mg l r) x = if N.testbit x (N.of_nat k) then vat k r x else vat k l x.
Proof. destruct l, r; try discriminate; reflexivity. Qed.
Lemma vat_children k n x : is_all n = false ->
  vat (S k) n x = if N.testbit x (N.of_nat k) then vat k (right n) x else vat k (left n) x.
Proof. destruct n; try discriminate; cbn [vat left right]; intros _; [destruct (N.testbit x _), k|]; reflexivity. Qed.
Lemma vat_fork_holds (R : V -> Prop) mg k l r x : (forall a b, R a \/ R b -> R (mg a b)) ->
  holds R (if N.testbit x (N.of_nat k) then vat k r x else vat k l x) ->
  holds R (vat (S k) (fork mg l r) x).
Proof.
  intros M H. destruct (is_all l && is_all r)%bool eqn:A; [|rewrite vat_fork by exact A; exact H].
  destruct l as [|a|], r as [|b|]; try discriminate. destruct k; destruct (N.testbit x _); cbn in *; auto.
Qed.

Lemma vat_keeps (R : V -> Prop) mg : (forall a b, R a \/ R b -> R (mg a b)) ->
  forall k n pos e w x, agree k e pos x = false -> holds R (vat k n x) -> holds R (vat k (add mg n pos k e w) x).
Proof.
  intros M. induction k as [|k IH]; intros n pos e w x A H; [discriminate|].
  destruct (is_all n) eqn:I0; [destruct n; try discriminate; rewrite add_all; exact H|].
  destruct (N.le_gt_cases (N.of_nat (S k)) e) as [L|L]; [rewrite agree_top in A by exact L; discriminate|].
  rewrite agree_step in A by lia. rewrite add_step by (exact I0 || lia). rewrite vat_children in H by exact I0.
  destruct (N.testbit pos (N.of_nat k)) eqn:Bp; apply vat_fork_holds; try exact M;
  destruct (N.testbit x (N.of_nat k)) eqn:Bx; cbn [Bool.eqb andb] in A; auto.
Qed.
Lemma vat_new (R : V -> Prop) mg : (forall a b, R a \/ R b -> R (mg a b)) ->
  forall k n pos e w x, agree k e pos x = true -> (forall y, agree k e pos y = true -> mem k n y = false) ->
  R w -> holds R (vat k (add mg n pos k e w) x).
Proof.
  intros M. induction k as [|k IH]; intros n pos e w x A D Rw.
  - specialize (D x A). destruct n; try discriminate D; rewrite add_top by (reflexivity || lia); exact Rw.
  - assert (I0 : is_all n = false). { specialize (D x A). destruct n; [reflexivity|discriminate D|reflexivity]. }
    destruct (N.le_gt_cases (N.of_nat (S k)) e) as [L|L]; [rewrite add_top by assumption; exact Rw|].
    rewrite agree_step in A by lia. apply andb_prop in A. destruct A as [A1 A2]. apply Bool.eqb_prop in A1.
    rewrite add_step by (exact I0 || lia).
    assert (Q : forall y, agree k e pos y = true ->
      mem k (if N.testbit pos (N.of_nat k) then right n else left n) y = false).
    { intros y Ay. specialize (D (put_bit (N.testbit pos (N.of_nat k)) k y)).
      rewrite agree_step in D by lia. rewrite put_bit_top, Bool.eqb_reflx in D. cbn [andb] in D.
      rewrite (agree_ext k e pos _ y (put_bit_low _ k y)) in D. specialize (D Ay).
      rewrite mem_children, put_bit_top in D by exact I0.
      destruct (N.testbit pos (N.of_nat k)); rewrite <- D; apply mem_ext; intros i Hi; symmetry;
      apply (put_bit_low _ k y i Hi). }
    destruct (N.testbit pos (N.of_nat k)) eqn:Bp; apply vat_fork_holds; try exact M; rewrite <- A1;
    apply IH; assumption.
Qed.

Lemma vat_entry k : forall (n : node V) p x v, (k <= 32)%nat -> p mod pw k = 0 -> p <= x < p + pw k ->
  vat k n x = Some v -> exists u q, In (u, q, v) (lst k n p) /\ in_net u q x.
Proof.
  induction k as [|k IH]; intros n p x v Hk A R H.
  - destruct n as [|w|l r]; try discriminate. injection H as <-. cbn [lst].
    exists p, (pre 0). split; [left; reflexivity|]. unfold in_net. rewrite size_pre by lia.
    change (pw 0) with 1 in *. replace x with p by lia. reflexivity.
  - destruct n as [|w|l r]; try discriminate.
    + injection H as <-. cbn [lst]. exists p, (pre (S k)). split; [left; reflexivity|].
      unfold in_net. rewrite size_pre by lia. apply aligned_range; [apply pw_pos|exact A|exact R].
    + cbn [vat lst] in *. rewrite (bit_half k p x A R) in H. destruct (half_aligned k p A) as [A1 A2].
      rewrite pw_S in R. destruct (N.leb_spec (p + pw k) x) as [L|L].
      * destruct (IH r (p + pw k) x v ltac:(lia) A2 ltac:(lia) H) as (u & q & I0 & C).
        exists u, q. split; [apply in_or_app; right; exact I0|exact C].
      * destruct (IH l p x v ltac:(lia) A1 ltac:(lia) H) as (u & q & I0 & C).
        exists u, q. split; [apply in_or_app; left; exact I0|exact C].
Qed.

Lemma mem_mod (n : node V) y : mem 32 n y = mem 32 n (y mod 2 ^ 32).
Proof. apply mem_ext, low_mod. Qed.

(** Blocks of one call do not overlap. *)
Fixpoint apart_blocks (L : list (N * N)) : Prop :=
  match L with
  | [] => True
  | up :: L' => (forall x, x < 2 ^ 32 -> in_net (fst up) (snd up) x -> ~ covered_by L' x) /\ apart_blocks L'
  end.
Lemma range_apart last : last < 2 ^ 32 -> forall n u, (N.to_nat (last + 1 - u) <= n)%nat ->
  apart_blocks (range_prefixes n u last).
Proof.
  intros Hl. induction n as [|n IH]; intros u Hn; cbn [range_prefixes]; [exact I|].
  destruct (N.leb_spec u last) as [L|L]; [|exact I].
  destruct (biggest_spec u last 32 0 eq_refl) as (i & J & E).
  { split; [apply N.mod_1_r|change (pw 0) with 1; lia]. }
  change (pre 0) with 32 in E. rewrite E. destruct J as (Hi & (A & F) & _). pose proof (pw_pos i).
  rewrite size_pre by exact Hi. cbn [apart_blocks fst snd]. split; [|apply IH; lia].
  intros x Hx C Y. apply range_covers in Y; [|exact Hl|lia].
  unfold in_net in C. rewrite size_pre in C by exact Hi. apply aligned_range in C; [lia|apply pw_pos|exact A].
Qed.
Lemma call_apart (c : tree_call V) L : proper c -> call_prefixes c L -> apart_blocks L.
Proof.
  destruct c as [ip v|s e v|[n|] v]; cbn [call_prefixes proper].
  - intros _ (u & _ & ->). cbn. split; [|exact I]. intros x _ _ (? & ? & [] & _).
  - intros (a' & b' & _ & B' & Hb) (a & b & _ & B & ->). rewrite (is_addr_fun _ _ _ B' B) in Hb.
    apply range_apart; lia.
  - intros _ (u & p & _ & ->). cbn. split; [|exact I]. intros x _ _ (? & ? & [] & _).
  - contradiction.
Qed.

Lemma prefixes_cons t u p L v : add_prefixes t ((u, p) :: L) v = add_prefixes (add_root t u (32 - p) v) L v.
Proof. reflexivity. Qed.

Lemma prefixes_keep (R : V -> Prop) x v : x < 2 ^ 32 -> forall L t, (forall a b, R a \/ R b -> R (merge t a b)) ->
  Forall prefix_ok L -> ~ covered_by L x -> holds R (vat 32 (root t) x) ->
  holds R (vat 32 (root (add_prefixes t L v)) x).
Proof.
  intros Hx. induction L as [|[u p] L IH]; intros t M Ok NC H; [exact H|].
  inversion Ok as [|? ? [Hu Hp] Ok']; subst. cbn [fst snd] in *. rewrite prefixes_cons.
  apply IH; [exact M|exact Ok'| |].
  - intros (u' & p' & I0 & C). apply NC. exists u', p'. split; [right; exact I0|exact C].
  - cbn [root add_root]. apply vat_keeps; [exact M| |exact H]. apply Bool.not_true_iff_false. intros A.
    apply NC. exists u, p. split; [left; reflexivity|]. apply agree_in_net; assumption.
Qed.
Lemma prefixes_new (R : V -> Prop) x v : x < 2 ^ 32 -> R v -> forall L t,
  (forall a b, R a \/ R b -> R (merge t a b)) ->
  Forall prefix_ok L -> apart_blocks L -> (forall y, y < 2 ^ 32 -> covered_by L y -> mem 32 (root t) y = false) ->
  covered_by L x -> holds R (vat 32 (root (add_prefixes t L v)) x).
Proof.
  intros Hx Rv. induction L as [|[u p] L IH]; intros t M Ok Ap D C; [destruct C as (? & ? & [] & _)|].
  inversion Ok as [|? ? [Hu Hp] Ok']; subst. cbn [fst snd apart_blocks] in *. destruct Ap as [Ap1 Ap2].
  assert (Disj : forall y, agree 32 (32 - p) u y = true -> mem 32 (root t) y = false).
  { intros y Ay. rewrite mem_mod. rewrite (agree_ext 32 _ _ y (y mod 2 ^ 32)) in Ay by apply low_mod.
    assert (B : y mod 2 ^ 32 < 2 ^ 32) by (apply N.mod_lt; discriminate). apply D; [exact B|].
    exists u, p. split; [left; reflexivity|]. apply agree_in_net; assumption. }
  rewrite prefixes_cons. destruct C as (u' & p' & [Q|I0] & C).
  - injection Q as <- <-. apply (prefixes_keep R x v Hx); [exact M|exact Ok'|apply Ap1; assumption|].
    cbn [root add_root]. apply vat_new; [exact M|apply agree_in_net; assumption|exact Disj|exact Rv].
  - apply IH; [exact M|exact Ok'|exact Ap2| |exists u', p'; auto].
    intros y Hy Cy. cbn [root add_root]. rewrite add_mem, (D y Hy).
    + cbn [orb]. apply Bool.not_true_iff_false. intros A. apply agree_in_net in A; [|exact Hu|exact Hy].
      apply (Ap1 y Hy A Cy).
    + destruct Cy as (u2 & p2 & I2 & C2). exists u2, p2. split; [right; exact I2|exact C2].
Qed.

Lemma steps_keep (R : V -> Prop) x t cs t' : x < 2 ^ 32 -> steps t cs t' ->
  (forall a b, R a \/ R b -> R (merge t a b)) -> (forall c, In c cs -> ~ adds c x) ->
  holds R (vat 32 (root t) x) -> holds R (vat 32 (root t') x).
Proof.
  intros Hx S. induction S as [t|t c L cs t' P Ok Cov S IH]; intros M NA H; [exact H|].
  apply IH; [rewrite add_prefixes_merge; exact M|intros c' I0; apply NA; right; exact I0|].
  apply prefixes_keep; [exact Hx|exact M|exact Ok| |exact H].
  intros C. apply Cov in C; [|exact Hx]. apply (NA c (or_introl eq_refl) C).
Qed.
Lemma steps_app t cs1 cs2 t' : steps t (cs1 ++ cs2) t' -> exists t1, steps t cs1 t1 /\ steps t1 cs2 t'.
Proof.
  revert t. induction cs1 as [|c cs1 IH]; intros t H; [exists t; split; [constructor|exact H]|].
  cbn [app] in H. inversion H as [|? ? L ? ? P Ok Cov S]; subst. destruct (IH _ S) as (t1 & S1 & S2). exists t1.
  split; [econstructor; eassumption|exact S2].
Qed.
Lemma steps_merge t cs t' : steps t cs t' -> merge t' = merge t.
Proof. induction 1; [reflexivity|]. rewrite IHsteps. apply add_prefixes_merge. Qed.

Theorem value_kept (R : V -> Prop) fuel mg cs1 c cs2 t : (forall a b, R a \/ R b -> R (mg a b)) ->
  Forall proper (cs1 ++ c :: cs2) ->
  (forall c' x, In c' (cs1 ++ cs2) -> adds c x -> ~ adds c' x) ->
  R (call_value c) -> apply_all fuel (New mg) (cs1 ++ c :: cs2) = Ret t ->
  forall x, x < 2 ^ 32 -> adds c x -> exists n v, In (n, v) (ListCidr t) /\ Contains n (addr x) = true /\ R v.
Proof.
  intros M H D Rv E x Hx Ax.
  destruct (proper_steps _ H (New mg)) as (t0 & k & S & _).
  pose proof (steps_reached _ _ _ S H _ _ E) as S'. clear S t0 k.
  apply reached_normal in E. destruct (steps_app _ _ _ _ S') as (t1 & S1 & S2). inversion S2 as [|? ? L ? ? P Ok Cov S3]; subst.
  pose proof (steps_merge _ _ _ S1) as Em. cbn [New merge] in Em.
  assert (Hc : proper c). { apply Forall_app in H. destruct H as [_ H]. inversion H; assumption. }
  assert (K : holds R (vat 32 (root t) x)).
  { apply (steps_keep R x _ _ _ Hx S3).
    - rewrite add_prefixes_merge, Em. exact M.
    - intros c' I0 A'. apply (D c' x); [apply in_or_app; right; exact I0|exact Ax|exact A'].
    - apply prefixes_new; [exact Hx|exact Rv|rewrite Em; exact M|assumption| | |].
      + apply (call_apart c); assumption.
      + intros y Hy Cy. apply Bool.not_true_iff_false. intros My. apply (steps_mem _ _ _ S1 y Hy) in My.
        destruct My as [X|(c' & I0 & A')]; [discriminate|]. apply (D c' y); [apply in_or_app; left; exact I0| |exact A'].
        apply Cov; assumption.
      + apply Cov; assumption. }
  destruct (vat 32 (root t) x) as [v|] eqn:Ev; [|contradiction].
  destruct (vat_entry 32 (root t) 0 x v) as (u & q & I0 & C);
    [lia|reflexivity|change (0 + pw 32) with (2 ^ 32); lia|exact Ev|].
  exists (net_of u q), v. split; [|split; [|exact K]].
  - rewrite ListCidr_entries by exact E. apply in_map_iff. exists (u, q, v). auto.
  - apply Contains_entry; [apply (entry_aligned _ _ _ _ I0)|exact Hx|exact C].
Qed.

(** ** C42, C43 *)

Theorem AddRange_adds fuel mg cs t s e a b v : apply_all fuel (New mg) cs = Ret t ->
  is_addr s a -> is_addr e b -> b < 2 ^ 32 - 1 -> exists t' k,
  (forall fuel', (k <= fuel')%nat -> AddRange fuel' t s e v = Ret t')
  /\ forall x, x < 2 ^ 32 -> listed (ListCidr t') x <-> listed (ListCidr t) x \/ a <= x <= b.
Proof.
  intros E A B Hb. apply reached_normal in E.
  assert (P : proper (CAddRange s e v)) by (exists a, b; auto).
  destruct (apply_ok _ P) as (L & k & Pr & Ok & Cov & Ap). cbn [call_value apply] in Ap.
  exists (add_prefixes t L v), k. split; [intros fuel' Hf; apply Ap, Hf|]. intros x Hx.
  rewrite !listed_mem by (try exact Hx; try exact E; apply add_prefixes_normal, E).
  rewrite add_prefixes_mem by assumption. rewrite (Cov x Hx). cbn [adds]. split.
  - intros [H|(a' & b' & A' & B' & R)]; [auto|]. rewrite (is_addr_fun _ _ _ A A'), (is_addr_fun _ _ _ B B'). auto.
  - intros [H|R]; [auto|]. right. eauto 10.
Qed.

Theorem AddRange_empty fuel t s e a b v : is_addr s a -> is_addr e b -> b < a -> AddRange fuel t s e v = Ret t.
Proof.
  intros A B H. unfold AddRange. rewrite (ToUint_addr s a A), (ToUint_addr e b B). cbn [bind].
  destruct fuel; cbn [range_loop]; rewrite (proj2 (N.leb_gt _ _) H); reflexivity.
Qed.

Theorem AddRange_top fuel t s e a v : is_addr s a -> is_addr e (2 ^ 32 - 1) -> AddRange fuel t s e v = OutOfFuel.
Proof.
  intros A B. unfold AddRange. rewrite (ToUint_addr s a A), (ToUint_addr e _ B). cbn [bind].
  apply range_loop_top, A.
Qed.

Lemma AddCidr_cidr t n u p v : is_cidr n u p -> AddCidr t (Some n) v = Ret (add_root t u (32 - p) v).
Proof.
  intros (A & Hp & M). unfold AddCidr. rewrite (ToUint_addr _ u A), M, MaskToByte_From by exact Hp.
  cbn [bind]. rewrite sub8_32 by exact Hp. reflexivity.
Qed.

Lemma AddRange_block t s e u p v fuel : aligned u p -> is_addr s u -> is_addr e (u + size p - 1) ->
  u + size p - 1 < 2 ^ 32 - 1 -> AddRange (S fuel) t s e v = Ret (add_root t u (32 - p) v).
Proof.
  intros H A B L. destruct H as (Hu & Hp & Al). destruct (size_as_pw p Hp) as (j & Hj & -> & S).
  rewrite S in *. pose proof (pw_pos j). unfold AddRange. rewrite (ToUint_addr s u A), (ToUint_addr e _ B). cbn [bind].
  destruct (round fuel t u (u + pw j - 1) v Hu ltac:(lia)) as (i & I0 & ->).
  assert (J : largest u (u + pw j - 1) j).
  { split; [exact Hj|]. split; [split; [exact Al|lia]|]. intros _ [_ F]. rewrite pw_S in F. lia. }
  rewrite (largest_unique _ _ _ _ I0 J). rewrite N.mod_small by lia.
  replace (32 - pre j) with (N.of_nat j) by (unfold pre; lia).
  destruct fuel; cbn [range_loop]; rewrite (proj2 (N.leb_gt _ _)) by lia; reflexivity.
Qed.

Theorem ip_three_ways t ip u v fuel : is_addr ip u -> u < 2 ^ 32 - 1 -> (0 < fuel)%nat ->
  AddIp t ip v = AddCidr t (Some (mkNet ip (MaskFromByte 32))) v /\ AddRange fuel t ip ip v = AddIp t ip v.
Proof.
  intros A L F. assert (E : AddIp t ip v = Ret (add_root t u 0 v)).
  { unfold AddIp. rewrite (ToUint_addr ip u A). reflexivity. }
  rewrite E. split.
  - rewrite (AddCidr_cidr t _ u 32); [reflexivity|]. split; [exact A|]. split; [lia|].
    cbn [Mask]. apply MaskFromByte_small. lia.
  - destruct fuel as [|fuel]; [lia|]. change 0 with (32 - 32). apply AddRange_block.
    + split; [apply A|]. split; [lia|]. change (size 32) with 1. apply N.mod_1_r.
    + exact A.
    + change (size 32) with 1. replace (u + 1 - 1) with u by lia. exact A.
    + change (size 32) with 1. lia.
Qed.
Lemma ip_cidr t ip v u : is_addr ip u -> AddIp t ip v = AddCidr t (Some (mkNet ip (MaskFromByte 32))) v.
Proof.
  intros A. unfold AddIp. rewrite (ToUint_addr ip u A). cbn [bind].
  rewrite (AddCidr_cidr t _ u 32); [reflexivity|]. split; [exact A|]. split; [lia|].
  cbn [Mask]. apply MaskFromByte_small. lia.
Qed.

Theorem cidr_range t u p v fuel first last : aligned u p -> u + size p < 2 ^ 32 -> (0 < fuel)%nat ->
  FirstIpv4 (Some (net_of u p)) = Ret first -> LastIpv4 (Some (net_of u p)) = Ret last ->
  AddRange fuel t first last v = AddCidr t (Some (net_of u p)) v.
Proof.
  intros H L F E1 E2. rewrite LastIpv4_net in E2 by exact H. cbn [FirstIpv4 net_of IP] in E1.
  injection E1 as <-. injection E2 as <-. pose proof (size_pos p). destruct H as (Hu & Hp & A).
  rewrite (AddCidr_cidr t _ u p) by (apply net_of_cidr; assumption).
  destruct fuel as [|fuel]; [lia|]. apply AddRange_block.
  - split; auto.
  - split; auto.
  - split; [lia|auto].
  - lia.
Qed.

(** ** C49 *)

Theorem odd_cidr_v6 t ip m b v : bytes_ok ip -> bytes_ok m -> (forall u, ~ is_addr ip u) ->
  mask_of_length m b -> (b <= 32)%nat ->
  AddCidr t (Some (mkNet ip m)) v = AddCidr t (Some (net_of 0 (N.of_nat b))) v.
Proof.
  intros Bi Bm H M Hb. rewrite (AddCidr_cidr t (net_of 0 (N.of_nat b)) 0 (N.of_nat b)) by (apply net_of_cidr; [reflexivity|lia]).
  unfold AddCidr. cbn [IP Mask]. rewrite (ToUint_other ip Bi H). cbn [bind].
  rewrite (MaskToByte_length m b Bm M), N.mod_small by lia. rewrite sub8_32 by lia. reflexivity.
Qed.
Lemma add_whole mg n pos e (w : V) : 32 <= e -> add mg n pos 32 e w = match n with NAll _ => n | _ => NAll w end.
Proof.
  intros H. destruct n as [|x|l r]; [|apply add_all|]; apply add_top; (reflexivity || exact H).
Qed.
Theorem odd_cidr_whole t ip m v : bytes_ok ip -> bytes_ok m ->
  (forall b, ~ mask_of_length m b) \/ (exists b, mask_of_length m b /\ (32 < b < 256)%nat) ->
  AddCidr t (Some (mkNet ip m)) v = AddCidr t (Some (net_of 0 0)) v.
Proof.
  intros Bi Bm H. rewrite (AddCidr_cidr t (net_of 0 0) 0 0) by (apply net_of_cidr; [reflexivity|lia]).
  unfold AddCidr. cbn [IP Mask]. destruct (ToUint_not_panic ip) as [u ->]. cbn [bind].
  assert (L : 32 <= sub8 32 (MaskToByte m)).
  { destruct H as [H|(b & M & Hb)].
    - rewrite (MaskToByte_other m Bm H). vm_compute. discriminate.
    - rewrite (MaskToByte_length m b Bm M), N.mod_small by lia. unfold sub8, u8.
      rewrite N.mod_small by lia. lia. }
  unfold add_root. rewrite !add_whole by (exact L || lia). reflexivity.
Qed.
(** For every address and mask whatsoever: the call is that of an IPv4 CIDR. *)
Theorem odd_cidr_any t ip m u k v : bytes_ok ip -> bytes_ok m ->
  is_addr ip u \/ (forall x, ~ is_addr ip x) /\ u = 0 ->
  mask_of_length m k \/ (forall b, ~ mask_of_length m b) /\ k = 0%nat ->
  let p := if N.of_nat k mod 256 <=? 32 then N.of_nat k mod 256 else 0 in
  AddCidr t (Some (mkNet ip m)) v = AddCidr t (Some (net_of u p)) v.
Proof.
  intros Bi Bm Hu Hk p.
  assert (U : Ipv4ToUint ip = Ret u /\ u < 2 ^ 32).
  { destruct Hu as [Hu|[Hu ->]]; [split; [apply ToUint_addr; exact Hu|apply Hu]|split; [apply ToUint_other; assumption|reflexivity]]. }
  destruct U as [U Lu].
  assert (K : MaskToByte m = N.of_nat k mod 256).
  { destruct Hk as [Hk|[Hk ->]]; [apply MaskToByte_length; assumption|apply MaskToByte_other; assumption]. }
  assert (P : p <= 32) by (unfold p; destruct (N.leb_spec (N.of_nat k mod 256) 32); lia).
  rewrite (AddCidr_cidr t (net_of u p) u p) by (apply net_of_cidr; assumption).
  unfold AddCidr. cbn [IP Mask]. rewrite U, K. cbn [bind]. subst p.
  destruct (N.leb_spec (N.of_nat k mod 256) 32) as [L|L].
  - rewrite sub8_32 by exact L. reflexivity.
  - assert (M : N.of_nat k mod 256 < 256) by (apply N.mod_lt; discriminate).
    assert (Z : 32 <= sub8 32 (N.of_nat k mod 256)) by (revert L M; generalize (N.of_nat k mod 256); intros b L M; unfold sub8, u8; rewrite N.mod_small by lia; lia).
    unfold add_root. rewrite !add_whole by (exact Z || lia). reflexivity.
Qed.
End Hist.
