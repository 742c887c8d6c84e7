(** Additions in another order, and trees put together. *)
From Coq Require Import Sorting.Permutation Sorting.Sorted.
From Verif Require Import Base.Go Base.GoNet Base.NetApi Model.Net Spec.NetSpec Spec.NetOrderSpec
  Proofs.NetTree Proofs.NetList Proofs.NetBasic Proofs.NetMore Proofs.NetRange Proofs.NetProofs.
Local Open Scope N_scope.

Section Nodes.
Context {V : Type} (mg : V -> V -> V).
Implicit Types t l r : node V.

(** ** Disjoint blocks can be added in either order *)
Lemma fork_tree l r : (is_all l && is_all r)%bool = false -> fork mg l r = NTree l r.
Proof. destruct l; [reflexivity| |reflexivity]. destruct r; [reflexivity|discriminate|reflexivity]. Qed.
Lemma add_fork l r pos k e w : e <= N.of_nat k ->
  add mg (fork mg l r) pos (S k) e w =
  if N.testbit pos (N.of_nat k) then fork mg l (add mg r pos k e w) else fork mg (add mg l pos k e w) r.
Proof.
  intros L. destruct (is_all l && is_all r)%bool eqn:A.
  - apply andb_prop in A. destruct A as [A1 A2]. destruct l as [|a|]; try discriminate. destruct r as [|b|]; try discriminate.
    cbn [fork]. rewrite !add_all. destruct (N.testbit pos (N.of_nat k)); reflexivity.
  - rewrite fork_tree by exact A. rewrite add_step by (auto; reflexivity). reflexivity.
Qed.
Lemma agree_self k e p : agree k e p p = true.
Proof. apply agree_bits. reflexivity. Qed.

Lemma add_swap k : forall t p1 e1 v1 p2 e2 v2, (forall z, agree k e1 p1 z = true -> agree k e2 p2 z = false) ->
  add mg (add mg t p1 k e1 v1) p2 k e2 v2 = add mg (add mg t p2 k e2 v2) p1 k e1 v1.
Proof.
  induction k as [|k IH]; intros t p1 e1 v1 p2 e2 v2 D; [discriminate (D 0 eq_refl)|].
  destruct (N.le_gt_cases (N.of_nat (S k)) e1) as [L1|L1].
  { specialize (D p2). rewrite agree_top, agree_self in D by exact L1. discriminate (D eq_refl). }
  destruct (N.le_gt_cases (N.of_nat (S k)) e2) as [L2|L2].
  { specialize (D p1 (agree_self _ _ _)). rewrite agree_top in D by exact L2. discriminate D. }
  assert (M1 : e1 <= N.of_nat k) by lia. assert (M2 : e2 <= N.of_nat k) by lia.
  assert (Di : N.testbit p1 (N.of_nat k) = N.testbit p2 (N.of_nat k) ->
    forall x : N, agree k e1 p1 x = true -> agree k e2 p2 x = false).
  { intros B x A. specialize (D (put_bit (N.testbit p1 (N.of_nat k)) k x)).
    rewrite !agree_step, put_bit_top, B, Bool.eqb_reflx in D by assumption. cbn [andb] in D.
    rewrite !(agree_ext k _ _ _ x (put_bit_low _ k x)) in D. apply D, A. }
  destruct (is_all t) eqn:At; [destruct t; try discriminate; rewrite !add_all; reflexivity|].
  rewrite (add_step mg t p1), (add_step mg t p2) by assumption.
  destruct (N.testbit p1 (N.of_nat k)) eqn:B1; destruct (N.testbit p2 (N.of_nat k)) eqn:B2; rewrite !add_fork, ?B1, ?B2 by assumption;
    try reflexivity; f_equal; apply IH; apply Di; reflexivity.
Qed.

(** ** Two trees without common address *)
Fixpoint union (x y : node V) : node V :=
  match x, y with
  | NNone, _ => y
  | _, NNone => x
  | NTree a b, NTree c d => fork mg (union a c) (union b d)
  | _, _ => x
  end.
Lemma union_none x : union x NNone = x.
Proof. destruct x; reflexivity. Qed.

Definition apart k (x y : node V) : Prop := forall z, mem k x z = true -> mem k y z = false.

Lemma apart_children k a b y : is_all y = false -> apart (S k) (NTree a b) y -> apart k a (left y) /\ apart k b (right y).
Proof.
  intros Ay D. split; intros z M.
  - specialize (D (put_bit false k z)). rewrite (mem_children k (NTree a b)), (mem_children k y), put_bit_top in D by (exact Ay || reflexivity).
    cbn [left right] in D. rewrite !(mem_ext k _ _ z (put_bit_low _ k z)) in D. apply D, M.
  - specialize (D (put_bit true k z)). rewrite (mem_children k (NTree a b)), (mem_children k y), put_bit_top in D by (exact Ay || reflexivity).
    cbn [left right] in D. rewrite !(mem_ext k _ _ z (put_bit_low _ k z)) in D. apply D, M.
Qed.
Lemma apart_all k x y : normal k x -> apart k x y -> is_all y = true -> x = NNone.
Proof.
  intros Nx D A. apply (empty_normal k); [exact Nx|]. intros z. destruct (mem k x z) eqn:M; [|reflexivity].
  apply D in M. destruct y; try discriminate. destruct k; discriminate.
Qed.

Lemma union_add k : forall x y p e v, normal k x -> normal k y -> apart k x y ->
  (forall z, agree k e p z = true -> mem k x z = false) ->
  add mg (union x y) p k e v = union x (add mg y p k e v).
Proof.
  induction k as [|k IH]; intros x y p e v Nx Ny D Db.
  - destruct x as [|a|a b]; [reflexivity| |contradiction]. discriminate (Db p (agree_self _ _ _)).
  - destruct x as [|a|a b]; [reflexivity|discriminate (Db p (agree_self _ _ _))|].
    destruct (N.le_gt_cases (N.of_nat (S k)) e) as [L|L].
    { assert (X : NTree a b = NNone); [|discriminate X]. apply (empty_normal (S k)); [exact Nx|].
      intros z. apply Db. apply agree_top, L. }
    assert (L' : e <= N.of_nat k) by lia.
    destruct (is_all y) eqn:Ay; [discriminate (apart_all _ _ _ Nx D Ay)|].
    assert (Da : apart (S k) (NTree a b) (add mg y p (S k) e v)).
    { intros z M. rewrite add_mem, (D z M). cbn [orb]. destruct (agree (S k) e p z) eqn:G; [|reflexivity].
      rewrite (Db z G) in M. discriminate M. }
    assert (U : union (NTree a b) y = fork mg (union a (left y)) (union b (right y))).
    { destruct y as [| |c d]; [|discriminate|reflexivity]. cbn [left right]. rewrite !union_none. symmetry. apply fork_tree.
      apply Nx. }
    assert (U' : forall c d, is_all (fork mg c d) = false -> union (NTree a b) (fork mg c d) = fork mg (union a c) (union b d)).
    { intros c d F. assert (Y : fork mg c d = NTree c d); [|rewrite Y; reflexivity].
      apply fork_tree. destruct c; try reflexivity. destruct d; try reflexivity. discriminate F. }
    rewrite U, add_fork by exact L'. rewrite (add_step mg y) in Da |- * by assumption.
    destruct (normal_children _ _ Ny) as [Nl Nr]. cbn [normal] in Nx. destruct Nx as (Na & Nb & N1 & N2).
    destruct (apart_children k a b y Ay D) as [Dl Dr].
    assert (Fa : forall w, apart (S k) (NTree a b) w -> is_all w = false).
    { intros w Dw. destruct (is_all w) eqn:Aw; [|reflexivity].
      discriminate (apart_all (S k) (NTree a b) w (conj Na (conj Nb (conj N1 N2))) Dw Aw). }
    assert (Db' : forall z, agree k e p z = true -> mem k (if N.testbit p (N.of_nat k) then b else a) z = false).
    { intros z A. specialize (Db (put_bit (N.testbit p (N.of_nat k)) k z)). cbn [mem] in Db.
      rewrite agree_step, put_bit_top, Bool.eqb_reflx in Db by exact L'. cbn [andb] in Db.
      rewrite (agree_ext k _ _ _ z (put_bit_low _ k z)) in Db. specialize (Db A).
      destruct (N.testbit p (N.of_nat k)); rewrite (mem_ext k _ _ z (put_bit_low _ k z)) in Db; exact Db. }
    destruct (N.testbit p (N.of_nat k)); rewrite U' by (apply Fa; exact Da); f_equal; apply IH; assumption.
Qed.

(** ** How many nodes there are *)
Fixpoint nodes t : nat := match t with NTree l r => S (nodes l + nodes r) | _ => 1%nat end.
Lemma count_pos k : forall t, normal k t -> t <> NNone -> (1 <= count t)%nat.
Proof.
  induction k as [|k IH]; intros t Nt H; destruct t as [|v|l r]; cbn [count normal] in *; try lia; try congruence; try contradiction.
  destruct Nt as (Nl & Nr & _ & Nn).
  assert (D : l <> NNone \/ r <> NNone). { destruct l; [|left; discriminate|left; discriminate]. right. intros ->. apply Nn. auto. }
  destruct D as [D|D]; [specialize (IH l Nl D)|specialize (IH r Nr D)]; lia.
Qed.
Lemma nodes_bound k : forall t, normal k t -> (nodes t <= 2 * k * count t + 1)%nat.
Proof.
  induction k as [|k IH]; intros t Nt; destruct t as [|v|l r]; cbn [nodes]; try lia; try contradiction.
  pose proof (count_pos (S k) _ Nt ltac:(discriminate)) as P. cbn [count normal] in *. destruct Nt as (Nl & Nr & _ & _).
  specialize (IH l Nl) as I1. specialize (IH r Nr) as I2. nia.
Qed.
End Nodes.

(** ** Trees and calls *)
Section Trees.
Context {V : Type}.
Implicit Types t : tree V.

Lemma net_disjoint u1 p1 u2 p2 : u1 < 2 ^ 32 -> u2 < 2 ^ 32 -> (forall x, x < 2 ^ 32 -> in_net u1 p1 x -> ~ in_net u2 p2 x) ->
  forall x, agree 32 (32 - p1) u1 x = true -> agree 32 (32 - p2) u2 x = false.
Proof.
  intros H1 H2 D x A. rewrite (agree_ext 32 _ _ x (x mod 2 ^ 32)) in A by apply low_mod.
  rewrite (agree_ext 32 _ _ x (x mod 2 ^ 32)) by apply low_mod.
  assert (B : x mod 2 ^ 32 < 2 ^ 32) by (apply N.mod_lt; discriminate).
  apply agree_in_net in A; [|exact H1|exact B]. apply Bool.not_true_iff_false. intros A2.
  apply agree_in_net in A2; [|exact H2|exact B]. destruct (D _ B A A2).
Qed.
Lemma root_swap t u1 p1 v1 u2 p2 v2 : u1 < 2 ^ 32 -> u2 < 2 ^ 32 -> (forall x, x < 2 ^ 32 -> in_net u1 p1 x -> ~ in_net u2 p2 x) ->
  add_root (add_root t u1 (32 - p1) v1) u2 (32 - p2) v2 = add_root (add_root t u2 (32 - p2) v2) u1 (32 - p1) v1.
Proof.
  intros H1 H2 D. unfold add_root. cbn [root merge]. f_equal. apply add_swap. apply net_disjoint; assumption.
Qed.
Lemma prefixes_root u p v L w : u < 2 ^ 32 -> Forall prefix_ok L -> (forall x, x < 2 ^ 32 -> in_net u p x -> ~ covered_by L x) ->
  forall t, add_prefixes (add_root t u (32 - p) v) L w = add_root (add_prefixes t L w) u (32 - p) v.
Proof.
  intros Hu Ok. induction Ok as [|[u' p'] L [Hu' Hp'] Ok IH]; intros D t; [reflexivity|]. cbn [fst snd] in *.
  rewrite !prefixes_cons, (root_swap t u p v u' p' w Hu Hu').
  - apply IH. intros x Hx H (a & b & I0 & C). apply (D x Hx H). exists a, b. split; [right; exact I0|exact C].
  - intros x Hx H H'. apply (D x Hx H). exists u', p'. split; [left; reflexivity|exact H'].
Qed.
Lemma prefixes_swap L1 v1 L2 v2 : Forall prefix_ok L1 -> Forall prefix_ok L2 -> (forall x, x < 2 ^ 32 -> covered_by L1 x -> ~ covered_by L2 x) ->
  forall t, add_prefixes (add_prefixes t L1 v1) L2 v2 = add_prefixes (add_prefixes t L2 v2) L1 v1.
Proof.
  intros Ok1 Ok2. induction Ok1 as [|[u p] L1 [Hu Hp] Ok1 IH]; intros D t; [reflexivity|]. cbn [fst snd] in *.
  rewrite !prefixes_cons, IH.
  - f_equal. apply prefixes_root; [exact Hu|exact Ok2|]. intros x Hx H. apply (D x Hx). exists u, p. split; [left; reflexivity|exact H].
  - intros x Hx (a & b & I0 & C). apply (D x Hx). exists a, b. split; [right; exact I0|exact C].
Qed.

(** Enough rounds make every call return, whatever the tree. *)
Definition settled fuel (cs : list (tree_call V)) : Prop :=
  forall t, exists t', apply_all fuel t cs = Ret t'.
Lemma proper_settled cs : Forall proper cs -> exists k, forall fuel, (k <= fuel)%nat -> settled fuel cs.
Proof.
  induction 1 as [|c cs Hc Hcs (k2 & IH)]; [exists O; intros fuel _ t; exists t; reflexivity|].
  destruct (apply_ok c Hc) as (L & k1 & _ & _ & _ & A). exists (Nat.max k1 k2). intros fuel Hf t. cbn [apply_all].
  rewrite A by lia. cbn [bind]. apply IH. lia.
Qed.

Lemma call_swap c d : proper c -> proper d -> disjoint c d -> exists k, forall fuel t, (k <= fuel)%nat ->
  apply_all fuel t [c; d] = apply_all fuel t [d; c].
Proof.
  intros Hc Hd D. destruct (apply_ok c Hc) as (L1 & k1 & _ & Ok1 & C1 & A1). destruct (apply_ok d Hd) as (L2 & k2 & _ & Ok2 & C2 & A2).
  exists (Nat.max k1 k2). intros fuel t Hf. cbn [apply_all]. rewrite A1, A2 by lia. cbn [bind]. rewrite A2, A1 by lia. cbn [bind].
  f_equal. apply prefixes_swap; [exact Ok1|exact Ok2|]. intros x Hx X1 X2. apply C1 in X1; [|exact Hx]. apply C2 in X2; [|exact Hx].
  apply (D x X1 X2).
Qed.

Lemma apply_all_split fuel cs1 cs2 : forall t,
  apply_all fuel t (cs1 ++ cs2) = (let! t' := apply_all fuel t cs1 in apply_all fuel t' cs2).
Proof.
  induction cs1 as [|c cs1 IH]; intros t; cbn [apply_all app bind]; [reflexivity|].
  destruct (apply fuel t c); cbn [bind]; [apply IH|reflexivity|reflexivity].
Qed.
Lemma swap_middle cs1 c d cs2 : proper c -> proper d -> disjoint c d -> exists k, forall fuel t, (k <= fuel)%nat ->
  apply_all fuel t (cs1 ++ c :: d :: cs2) = apply_all fuel t (cs1 ++ d :: c :: cs2).
Proof.
  intros Hc Hd D. destruct (call_swap c d Hc Hd D) as (k & E). exists k. intros fuel t Hf.
  change (c :: d :: cs2) with ([c; d] ++ cs2). change (d :: c :: cs2) with ([d; c] ++ cs2). rewrite !apply_all_split.
  destruct (apply_all fuel t cs1); cbn [bind]; [|reflexivity|reflexivity]. rewrite !apply_all_split, E by exact Hf. reflexivity.
Qed.

Theorem rearranged_same cs1 cs2 : rearranged cs1 cs2 -> Forall proper cs1 ->
  Forall proper cs2 /\ exists k, forall fuel t, (k <= fuel)%nat -> apply_all fuel t cs1 = apply_all fuel t cs2.
Proof.
  induction 1 as [cs|cs1 c d cs2 cs D R IH]; intros P; [split; [exact P|]; exists O; reflexivity|].
  apply Forall_app in P. destruct P as [P1 P]. inversion P as [|? ? Pc P']; subst. inversion P' as [|? ? Pd P2]; subst.
  destruct IH as [Pn (k & E)]. { apply Forall_app. split; [exact P1|]. constructor; [exact Pd|]. constructor; assumption. }
  split; [exact Pn|]. destruct (swap_middle cs1 c d cs2 Pc Pd D) as (k' & E'). exists (Nat.max k k'). intros fuel t Hf.
  rewrite E' by lia. apply E. lia.
Qed.

Lemma disjoint_sym (c d : tree_call V) : disjoint c d -> disjoint d c.
Proof. intros D x H H'. apply (D x H' H). Qed.

Lemma rearranged_cons c (cs1 cs2 : list (tree_call V)) : rearranged cs1 cs2 -> rearranged (c :: cs1) (c :: cs2).
Proof.
  induction 1 as [cs|cs1 a b cs2 cs D R IH]; [constructor|]. apply (exchanged (c :: cs1) a b cs2 _ D). exact IH.
Qed.
Lemma rearranged_trans (cs1 cs2 cs3 : list (tree_call V)) : rearranged cs1 cs2 -> rearranged cs2 cs3 -> rearranged cs1 cs3.
Proof. induction 1 as [|? ? ? ? ? D R IH]; intros H; [exact H|]. apply exchanged; auto. Qed.
Lemma any_order cs1 cs2 : ForallOrdPairs (@disjoint V) cs1 -> Permutation cs1 cs2 -> rearranged cs1 cs2.
Proof.
  intros F P. assert (Sy : forall l, ForallOrdPairs (@disjoint V) l -> forall l', Permutation l l' -> ForallOrdPairs (@disjoint V) l').
  { clear. intros l F l' P. induction P as [|x l l' P IH|x y l|l l' l'' P1 IH1 P2 IH2]; [exact F| | |auto].
    - inversion F as [|? ? Fx Fl]; subst. constructor; [|apply IH, Fl]. eapply Permutation_Forall; eassumption.
    - inversion F as [|? ? Fx Fl]; subst. inversion Fl as [|? ? Fy Fl']; subst. inversion Fx as [|? ? Dyx Fy']; subst.
      constructor; [constructor; [apply disjoint_sym, Dyx|exact Fy]|]. constructor; assumption. }
  induction P as [|x l l' P IH|x y l|l l' l'' P1 IH1 P2 IH2].
  - constructor.
  - inversion F; subst. apply rearranged_cons. auto.
  - apply (exchanged [] y x l); [|constructor]. inversion F as [|? ? Fx Fl]; subst. inversion Fx; assumption.
  - apply (rearranged_trans _ l'); [auto|]. apply IH2. apply (Sy _ F _ P1).
Qed.
Lemma blocks_order (cs1 cs2 : list (tree_call V)) : (forall c d, In c cs1 -> In d cs2 -> disjoint c d) -> rearranged (cs1 ++ cs2) (cs2 ++ cs1).
Proof.
  induction cs1 as [|c cs1 IH]; intros D; cbn [app]; [rewrite app_nil_r; constructor|].
  apply (rearranged_trans _ (c :: cs2 ++ cs1)); [apply rearranged_cons, IH; intros; apply D; [right|]; assumption|].
  clear IH. assert (Dc : forall d, In d cs2 -> disjoint c d) by (intros; apply D; [left; reflexivity|assumption]). clear D.
  induction cs2 as [|d cs2 IH]; cbn [app]; [constructor|].
  apply (exchanged [] c d (cs2 ++ cs1)); [apply Dc; left; reflexivity|]. cbn [app]. apply rearranged_cons, IH.
  intros d' I0. apply Dc. right. exact I0.
Qed.

(** ** Putting two trees together *)
Definition joined t1 t2 : tree V := mkTree (union (merge t1) (root t1) (root t2)) (merge t1).

Lemma joined_prefixes v L : forall t1 t2, Forall prefix_ok L -> merge t2 = merge t1 -> normal 32 (root t1) -> normal 32 (root t2) ->
  apart 32 (root t1) (root t2) -> (forall x, x < 2 ^ 32 -> covered_by L x -> mem 32 (root t1) x = false) ->
  add_prefixes (joined t1 t2) L v = joined t1 (add_prefixes t2 L v) /\ apart 32 (root t1) (root (add_prefixes t2 L v)).
Proof.
  induction L as [|[u p] L IH]; intros t1 t2 Ok Em N1 N2 D Dl; [split; [reflexivity|exact D]|].
  inversion Ok as [|? ? [Hu Hp] Ok']; subst. cbn [fst snd] in *.
  assert (Db : forall z, agree 32 (32 - p) u z = true -> mem 32 (root t1) z = false).
  { intros z A. rewrite mem_mod. rewrite (agree_ext 32 _ _ z (z mod 2 ^ 32)) in A by apply low_mod.
    assert (B : z mod 2 ^ 32 < 2 ^ 32) by (apply N.mod_lt; discriminate). apply Dl; [exact B|].
    exists u, p. split; [left; reflexivity|]. apply agree_in_net; assumption. }
  rewrite !prefixes_cons. assert (E : add_root (joined t1 t2) u (32 - p) v = joined t1 (add_root t2 u (32 - p) v)).
  { unfold add_root, joined. cbn [root merge]. rewrite Em. f_equal. apply union_add; assumption. }
  rewrite E. apply IH; [exact Ok'|exact Em|exact N1|apply add_normal, N2| |].
  - intros z M. cbn [root add_root]. rewrite add_mem, (D z M). cbn [orb]. destruct (agree 32 (32 - p) u z) eqn:A; [|reflexivity].
    rewrite (Db z A) in M. discriminate M.
  - intros x Hx (a & b & I0 & C). apply Dl; [exact Hx|]. exists a, b. split; [right; exact I0|exact C].
Qed.
Lemma joined_steps t2 cs t2' : steps t2 cs t2' -> forall t1, merge t2 = merge t1 -> normal 32 (root t1) -> normal 32 (root t2) ->
  apart 32 (root t1) (root t2) -> (forall c x, In c cs -> x < 2 ^ 32 -> adds c x -> mem 32 (root t1) x = false) ->
  steps (joined t1 t2) cs (joined t1 t2').
Proof.
  induction 1 as [t|t c L cs t' P Ok Cov S IH]; intros t1 Em N1 N2 D Dc; [constructor|].
  destruct (joined_prefixes (call_value c) L t1 t Ok Em N1 N2 D) as [E D'].
  { intros x Hx C. apply (Dc c x (or_introl eq_refl) Hx). apply Cov; assumption. }
  econstructor; [exact P|exact Ok|exact Cov|]. rewrite E. apply IH; [rewrite add_prefixes_merge; exact Em|exact N1| |exact D'|].
  - apply add_prefixes_normal, N2.
  - intros c' x I0. apply Dc. right. exact I0.
Qed.
Lemma joined_new t : joined t (New (merge t)) = t.
Proof. unfold joined. cbn [New root]. rewrite union_none. destruct t. reflexivity. Qed.

Lemma prefixes_fun_steps cs : Forall proper cs -> exists k, forall t t', steps t cs t' ->
  forall fuel, (k <= fuel)%nat -> apply_all fuel t cs = Ret t'.
Proof.
  induction 1 as [|c cs Hc Hcs (k2 & IH)].
  - exists O. intros t t' S fuel _. inversion S; subst. reflexivity.
  - destruct (apply_ok c Hc) as (L & k1 & P & _ & _ & A). exists (Nat.max k1 k2). intros t t' S fuel Hf.
    inversion S as [|? ? L' ? ? P' Ok' Cov' S']; subst. cbn [apply_all]. rewrite A by lia. cbn [bind].
    rewrite (call_prefixes_fun c L L' P P'). apply IH; [exact S'|lia].
Qed.
Lemma run_steps fuel mg cs t : Forall proper cs -> apply_all fuel (New mg) cs = Ret t -> steps (New mg) cs t.
Proof.
  intros H E. destruct (proper_steps cs H (New mg)) as (t0 & k & S & _). apply (steps_reached _ _ _ S H _ _ E).
Qed.
Lemma added_mem fuel mg cs t : Forall proper cs -> apply_all fuel (New mg) cs = Ret t -> forall x, x < 2 ^ 32 ->
  mem 32 (root t) x = true <-> exists c, In c cs /\ adds c x.
Proof.
  intros H E x Hx. rewrite (steps_mem _ _ _ (run_steps _ _ _ _ H E) x Hx). cbn [New root mem].
  split; [intros [X|X]; [discriminate|exact X]|auto].
Qed.

(** Calls on a second tree, and then their result added to the first. *)
Lemma apart_run fuel mg cs t fuel1 cs1 t1 : Forall proper cs1 -> apply_all fuel1 (New mg) cs1 = Ret t1 ->
  Forall proper cs -> (forall c d, In c cs1 -> In d cs -> disjoint c d) -> apply_all fuel (New mg) cs = Ret t ->
  exists k, forall fuel', (k <= fuel')%nat -> apply_all fuel' t1 cs = Ret (joined t1 t).
Proof.
  intros P1 E1 P D E. pose proof (reached_merge _ _ _ _ E1) as M1. pose proof (reached_normal _ _ _ _ E1) as N1.
  pose proof (run_steps _ _ _ _ P E) as S. destruct (prefixes_fun_steps cs P) as (k & K). exists k.
  apply (K t1). rewrite <- (joined_new t1) at 1. apply joined_steps; [rewrite M1; exact S|reflexivity|exact N1|exact Logic.I| |].
  - intros z _. reflexivity.
  - intros c x I0 Hx A. destruct (mem 32 (root t1) x) eqn:M; [|reflexivity].
    apply (added_mem _ _ _ _ P1 E1 x Hx) in M. destruct M as (d & Id & Ad). destruct (D d c Id I0 x Ad A).
Qed.

(** ** Listings *)
Lemma listing_proper fuel mg cs t : apply_all fuel (New mg) cs = Ret t -> Forall proper (add_listing (ListCidr t)).
Proof.
  intros E. apply reached_normal in E. rewrite (ListCidr_entries t E). unfold add_listing. rewrite map_map. apply Forall_forall.
  intros c I0. apply in_map_iff in I0. destruct I0 as ([[u p] v] & <- & I0). apply entry_aligned in I0. destruct I0 as (Hu & Hp & _).
  cbn [show_entry fst snd proper]. exists u, p. repeat split; try assumption. left. reflexivity.
Qed.
Lemma listing_adds fuel mg cs t : apply_all fuel (New mg) cs = Ret t -> forall x, x < 2 ^ 32 ->
  (exists c, In c (add_listing (ListCidr t)) /\ adds c x) <-> mem 32 (root t) x = true.
Proof.
  intros E x Hx. pose proof (relist _ _ _ _ E O) as E0. fold (add_listing (ListCidr t)) in E0.
  symmetry. apply (added_mem _ _ _ _ (listing_proper _ _ _ _ E) E0 x Hx).
Qed.
Lemma adds_small (c : tree_call V) x : adds c x -> x < 2 ^ 32.
Proof.
  destruct c as [ip v|s e v|[n|] v]; cbn [adds].
  - intros [H _]. exact H.
  - intros (a & b & _ & [H _] & R). lia.
  - intros (u & p & ([Hu _] & Hp & _) & C). unfold in_net in C. apply (N.lt_le_trans _ (size p * (u / size p + 1))).
    + rewrite <- C. pose proof (N.mul_succ_div_gt x (size p)) as G. unfold size in *. specialize (G ltac:(apply N.pow_nonzero; discriminate)). lia.
    + assert (F : 2 ^ 32 = size p * 2 ^ p) by (unfold size; rewrite <- N.pow_add_r; f_equal; lia). rewrite F.
      apply N.mul_le_mono_l. assert (u / size p < 2 ^ p); [|lia]. apply N.div_lt_upper_bound; [unfold size; apply N.pow_nonzero; discriminate|].
      rewrite <- F. exact Hu.
  - intros [].
Qed.
Lemma listing_disjoint fuel mg cs t d : apply_all fuel (New mg) cs = Ret t -> Forall proper cs ->
  (forall c, In c cs -> disjoint c d) -> forall c, In c (add_listing (ListCidr t)) -> disjoint c d.
Proof.
  intros E P D c I0 x A A'. pose proof (adds_small _ _ A) as Hx.
  assert (M : mem 32 (root t) x = true) by (apply (listing_adds _ _ _ _ E x Hx); eauto).
  apply (added_mem _ _ _ _ P E x Hx) in M. destruct M as (c' & I' & A2). apply (D c' I' x A2 A').
Qed.
Lemma sorted_disjoint (L : list (N * N * V)) :
  (forall u p v, In (u, p, v) L -> aligned u p) ->
  StronglySorted (fun x y => let '(u, p, _) := x in let '(u', _, _) := y in u + size p <= u') L ->
  ForallOrdPairs disjoint (map (fun x => CAddCidr (Some (fst (show_entry x))) (snd (show_entry x))) L).
Proof.
  intros Al S. induction S as [|[[u p] v] L S IH F]; cbn [map]; [constructor|].
  constructor; [|apply IH; intros; apply (Al _ _ v0); right; assumption].
  apply Forall_forall. intros c I0. apply in_map_iff in I0. destruct I0 as ([[u' p'] v'] & <- & I0).
  rewrite Forall_forall in F. specialize (F _ I0). cbn beta iota in F.
  destruct (Al u p v (or_introl eq_refl)) as (Hu & Hp & A). destruct (Al u' p' v' (or_intror I0)) as (Hu' & Hp' & A').
  intros x. cbn [show_entry fst snd adds]. intros (a & q & C & I1) (a' & q' & C' & I2).
  assert (C0 : is_cidr (net_of u p) u p) by (repeat split; try assumption; left; reflexivity).
  assert (C0' : is_cidr (net_of u' p') u' p') by (repeat split; try assumption; left; reflexivity).
  destruct (cidr_fun _ _ _ _ _ C C0) as [-> ->]. destruct (cidr_fun _ _ _ _ _ C' C0') as [-> ->].
  unfold in_net in *. apply aligned_range in I1; [|unfold size; apply N.neq_0_lt_0, N.pow_nonzero; discriminate|exact A].
  apply aligned_range in I2; [|unfold size; apply N.neq_0_lt_0, N.pow_nonzero; discriminate|exact A']. lia.
Qed.
Lemma relist_any_order fuel mg cs t l : apply_all fuel (New mg) cs = Ret t -> Permutation (ListCidr t) l ->
  exists k, forall fuel', (k <= fuel')%nat -> apply_all fuel' (New mg) (add_listing l) = Ret t.
Proof.
  intros E P. pose proof (listing_proper _ _ _ _ E) as Pr. pose proof (relist _ _ _ _ E) as R.
  assert (Rr : rearranged (add_listing (ListCidr t)) (add_listing l)).
  { apply any_order; [|apply Permutation_map, P]. destruct (canonical _ _ _ _ E) as (L & EL & Al & So & _).
    rewrite EL. unfold add_listing. rewrite map_map. erewrite map_ext; [apply (sorted_disjoint L Al So)|].
    intros [[u p] v]. reflexivity. }
  destruct (rearranged_same _ _ Rr Pr) as [_ (k & K)]. exists k. intros fuel' Hf. rewrite <- K by exact Hf. apply R.
Qed.
Lemma same_listing fuel1 fuel2 mg cs1 cs2 t1 t2 : apply_all fuel1 (New mg) cs1 = Ret t1 -> apply_all fuel2 (New mg) cs2 = Ret t2 ->
  ListCidr t1 = ListCidr t2 -> t1 = t2.
Proof.
  intros E1 E2 L. apply (relist _ _ _ _) with (fuel' := O) in E1. apply (relist _ _ _ _) with (fuel' := O) in E2.
  rewrite L, E2 in E1. injection E1 as ->. reflexivity.
Qed.

(** Work divided: both parts on trees of their own, then one listing added to the other tree. *)
Theorem divided mg fuel1 fuel2 cs1 cs2 t1 t2 : Forall proper cs1 -> Forall proper cs2 ->
  (forall c d, In c cs1 -> In d cs2 -> disjoint c d) ->
  apply_all fuel1 (New mg) cs1 = Ret t1 -> apply_all fuel2 (New mg) cs2 = Ret t2 ->
  exists t k, forall fuel, (k <= fuel)%nat ->
    apply_all fuel (New mg) (cs1 ++ cs2) = Ret t /\ apply_all fuel t1 (add_listing (ListCidr t2)) = Ret t.
Proof.
  intros P1 P2 D E1 E2. destruct (apart_run _ _ _ _ _ _ _ P1 E1 P2 D E2) as (k1 & K1).
  destruct (apart_run O mg (add_listing (ListCidr t2)) t2 fuel1 cs1 t1 P1 E1 (listing_proper _ _ _ _ E2)) as (k2 & K2).
  { intros c d Ic Id. apply disjoint_sym. apply (listing_disjoint _ _ _ _ c E2 P2); [|exact Id].
    intros d' Id'. apply disjoint_sym. apply D; assumption. }
  { apply (relist _ _ _ _ E2). }
  exists (joined t1 t2), (Nat.max fuel1 (Nat.max k1 k2)). intros fuel Hf. split; [|apply K2; lia].
  rewrite (apply_all_app cs1 cs2 fuel _ t1); [apply K1; lia|]. apply (apply_all_mono cs1 fuel1); [lia|exact E1].
Qed.
Lemma divided_parts mg (parts : list (list (tree_call V) * tree V)) :
  Forall (fun p => Forall proper (fst p) /\ exists fuel, apply_all fuel (New mg) (fst p) = Ret (snd p)) parts ->
  ForallOrdPairs (fun p q => forall c d, In c (fst p) -> In d (fst q) -> disjoint c d) parts ->
  forall cs0 t0 fuel0, Forall proper cs0 -> apply_all fuel0 (New mg) cs0 = Ret t0 ->
  (forall p, In p parts -> forall c d, In c cs0 -> In d (fst p) -> disjoint c d) ->
  exists t k, forall fuel, (k <= fuel)%nat ->
    apply_all fuel (New mg) (cs0 ++ concat (map fst parts)) = Ret t
    /\ apply_all fuel t0 (concat (map (fun p => add_listing (ListCidr (snd p))) parts)) = Ret t.
Proof.
  induction parts as [|[cs1 t1] parts IH]; intros F O cs0 t0 fuel0 P0 E0 D.
  - exists t0, fuel0. intros fuel Hf. cbn [map concat]. rewrite app_nil_r. split; [|reflexivity].
    apply (apply_all_mono cs0 fuel0); assumption.
  - inversion F as [|? ? [P1 [fuel1 E1]] F']; subst. inversion O as [|? ? O1 O']; subst. cbn [fst snd] in *.
    destruct (divided mg fuel0 fuel1 cs0 cs1 t0 t1 P0 P1) as (t & k & K); try assumption.
    { intros c d. apply (D (cs1, t1) (or_introl eq_refl)). }
    destruct (IH F' O' (cs0 ++ cs1) t k) as (t' & k' & K').
    { apply Forall_app. auto. }
    { apply K. lia. }
    { intros p Ip c d Ic Id. apply in_app_or in Ic. destruct Ic as [Ic|Ic]; [apply (D p (or_intror Ip)); assumption|].
      rewrite Forall_forall in O1. apply (O1 p Ip); assumption. }
    exists t', (Nat.max k k'). intros fuel Hf. destruct (K' fuel ltac:(lia)) as [A B]. cbn [map concat fst snd]. split.
    + rewrite app_assoc. exact A.
    + rewrite (apply_all_app _ _ fuel t0 t); [exact B|]. apply K. lia.
Qed.
(** Any two trees: the addresses of both. *)
Theorem both mg mg' fuel1 fuel2 cs1 cs2 t1 t2 : Forall proper cs1 ->
  apply_all fuel1 (New mg) cs1 = Ret t1 -> apply_all fuel2 (New mg') cs2 = Ret t2 ->
  exists t k, (forall fuel, (k <= fuel)%nat -> apply_all fuel t1 (add_listing (ListCidr t2)) = Ret t) /\
    forall x, x < 2 ^ 32 -> listed (ListCidr t) x <-> listed (ListCidr t1) x \/ listed (ListCidr t2) x.
Proof.
  intros P1 E1 E2. pose proof (listing_proper _ _ _ _ E2) as P2.
  destruct (proper_steps (cs1 ++ add_listing (ListCidr t2)) ltac:(apply Forall_app; auto) (New mg)) as (t & k & S & E).
  exists t, (Nat.max k fuel1). assert (Ef : forall fuel, (Nat.max k fuel1 <= fuel)%nat -> apply_all fuel t1 (add_listing (ListCidr t2)) = Ret t).
  { intros fuel Hf. rewrite <- (apply_all_app cs1 _ fuel (New mg)); [apply E; lia|]. apply (apply_all_mono cs1 fuel1); [lia|exact E1]. }
  split; [exact Ef|]. intros x Hx.
  rewrite (listed_mem t x) by (try exact Hx; apply (steps_normal _ _ _ S); exact Logic.I).
  rewrite (listed_mem t1 x) by (try exact Hx; apply (reached_normal _ _ _ _ E1)).
  rewrite (listed_mem t2 x) by (try exact Hx; apply (reached_normal _ _ _ _ E2)).
  rewrite (steps_mem _ _ _ S x Hx), (added_mem _ _ _ _ P1 E1 x Hx), <- (listing_adds _ _ _ _ E2 x Hx). cbn [New root mem]. split.
  - intros [X|(c & I0 & A)]; [discriminate|]. apply in_app_or in I0. destruct I0; eauto.
  - intros [(c & I0 & A)|(c & I0 & A)]; right; exists c; (split; [|exact A]); apply in_or_app; auto.
Qed.
Lemma listing_nodes fuel mg cs t : apply_all fuel (New mg) cs = Ret t -> (nodes (root t) <= 64 * length (ListCidr t) + 1)%nat.
Proof.
  intros E. apply reached_normal in E. rewrite (ListCidr_entries t E), map_length. unfold entries. rewrite lst_length by exact E.
  apply (nodes_bound 32 _ E).
Qed.
End Trees.
