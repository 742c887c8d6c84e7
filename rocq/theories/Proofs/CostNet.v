(** Bounds on the number of memory accesses of package net. *)
From Verif Require Import Base.Go Base.GoNet Base.NetApi Spec.NetSpec Base.Goroutine Base.GoUse Base.NetGo Base.Cost Spec.CostSpec Spec.NetGoSpec.
From Verif Require Import Model.NetAtom Proofs.Util Proofs.GoroutineProofs Proofs.NetAtomProofs Proofs.NetGoProofs Proofs.NetList Proofs.NetRange Proofs.CostProofs.
From Verif Require Model.Net Proofs.NetBasic Proofs.NetEffectMore.
Local Open Scope nat_scope.

Ltac one n := match goal with |- pays _ ?N _ => eapply (pays_seq _ _ n (N - n) _ any) end.
Ltac free := apply pays_lift; intros; exact Logic.I.
Ltac unbind H := apply bind_ret in H; let x := fresh "x" in let E := fresh "E" in destruct H as (x & E & H).
Lemma pays_more {A} (c : code A) n N P : pays c n P -> n <= N -> pays c N P.
Proof. intros H L. eapply pays_mono; [exact H|exact L|auto]. Qed.

(** ** Adding *)

Lemma pays_get_inode a : pays (get_inode a) 4 any.
Proof. unfold get_inode. apply (pays_seq _ _ 4 0 _ (fun _ => True)); [eapply pays_mono; [apply pays_gets|lia|auto]|intros; exact Logic.I|lia]. Qed.
Lemma pays_set_inode a i : pays (set_inode a i) 4 any.
Proof. unfold set_inode. eapply pays_more; [apply pays_sets|rewrite inode_cells_length; lia]. Qed.
Lemma pays_new_all v : pays (new_all v) 3 any.
Proof. unfold new_all. one 2; [apply pays_new|intros p _|lia]. one 1; [apply pays_set|intros; exact Logic.I|lia]. Qed.
Lemma pays_new_tree l r : pays (new_tree l r) 17 any.
Proof. unfold new_tree. one 9; [apply pays_new|intros p _|lia]. one 4; [apply pays_set_inode|intros _ _|lia]. one 4; [apply pays_set_inode|intros; exact Logic.I|lia]. Qed.
Lemma pays_as_all i : pays (as_all i) 1 any.
Proof. destruct i; cbn [as_all]; try exact Logic.I. one 1; [apply pays_get|intros; exact Logic.I|lia]. Qed.
Lemma pays_add mg pos end_ v mask : forall n, pays (add mg n pos mask end_ v) (27 * mask + 3) any.
Proof.
  induction mask as [|mask IH]; intros n.
  - destruct n as [|p|p]; cbn [add]; try exact Logic.I; destruct (N.leb_spec (N.of_nat 0) end_) as [_|X]; try lia; apply pays_new_all.
  - assert (D : forall l r, pays (do (l, r) <- (if (N.land (N.shiftr pos (N.of_nat mask)) 1 =? 1)%N then do r' <- add mg r pos mask end_ v; Return (l, r')
                             else do l' <- add mg l pos mask end_ v; Return (l', r));
               do a <- as_all l; do b <- as_all r; match a, b with Some a, Some b => new_all (mg a b) | _, _ => new_tree l r end) (27 * mask + 22) any).
    { intros l r. one (27 * mask + 3); [|intros [l' r'] _|lia].
      - destruct (_ =? 1)%N; (one (27 * mask + 3); [apply IH|intros; exact Logic.I|lia]).
      - one 1; [apply pays_as_all|intros a _|lia]. one 1; [apply pays_as_all|intros b _|lia].
        destruct a as [a|]; [destruct b as [b|]|]; (eapply pays_more; [first [apply pays_new_all|apply pays_new_tree]|lia]). }
    destruct n as [|p|p]; cbn [add]; try exact Logic.I; (destruct (_ <=? _)%N; [eapply pays_more; [apply pays_new_all|lia]|]).
    + one 0; [exact Logic.I|intros [l r] _|lia]. eapply pays_more; [apply D|lia].
    + one 8; [|intros [l r] _; eapply pays_more; [apply D|lia]|lia].
      one 4; [apply pays_get_inode|intros l _|lia]. one 4; [apply pays_get_inode|intros; exact Logic.I|lia].
Qed.
Lemma pays_add_root t u e v : pays (add_root t u e v) 875 any.
Proof.
  unfold add_root. one 4; [apply pays_get_inode|intros r _|lia]. one (27 * 32 + 3); [apply pays_add|intros r' _|lia]. eapply pays_more; [apply pays_set_inode|lia].
Qed.
Lemma pays_range t last v : (last < 2 ^ 32 - 1)%N -> forall n fuel u, n <= fuel -> N.to_nat (last + 1 - u) <= n ->
  pays (range_loop fuel t u last v) (875 * length (range_prefixes n u last)) any.
Proof.
  intros Hl. induction n as [|n IH]; intros fuel u Hf Hn; cbn [range_prefixes].
  - destruct fuel; cbn [range_loop]; rewrite (proj2 (N.leb_gt u last)) by lia; exact Logic.I.
  - destruct (N.leb_spec u last) as [L|L]; [|destruct fuel; cbn [range_loop]; rewrite (proj2 (N.leb_gt u last)) by lia; exact Logic.I].
    assert (Hu : (u < 2 ^ 32)%N) by lia. destruct fuel as [|fuel]; [lia|].
    destruct (low_mask_spec u Hu) as (z & Hz & M & A & N1).
    destruct (shrink_spec u last Hu L z 33 Hz ltac:(lia) A) as (j & J & E).
    { intros Lz [F _]. apply (N1 Lz F). }
    cbn [range_loop]. rewrite (proj2 (N.leb_le _ _) L). fold (low_mask u). rewrite M, E. cbn [lift thenc]. rewrite bit_len_ones by apply J. cbn [lift thenc].
    rewrite (biggest_largest u last j L J). assert (Hj : j <= 32) by apply J. rewrite size_pre by exact Hj. pose proof (pw_pos j).
    destruct J as (_ & (Aj & F) & _). cbn [length].
    replace (add32 u (add32 (N.ones (N.of_nat j)) 1)) with (u + pw j)%N.
    + one 875; [apply pays_add_root|intros _ _|lia]. eapply pays_more; [apply IH; lia|lia].
    + unfold add32, u32. rewrite ones_pw. replace (pw j - 1 + 1)%N with (pw j) by lia. rewrite N.add_mod_idemp_r by discriminate. rewrite N.mod_small; [reflexivity|]. lia.
Qed.
Lemma pays_range_62 t last v u : (last < 2 ^ 32 - 1)%N -> pays (range_loop (N.to_nat (last + 1 - u)) t u last v) (62 * 875) any.
Proof.
  intros Hl. eapply pays_more; [apply (pays_range t last v Hl (N.to_nat (last + 1 - u))); lia|].
  pose proof (NetEffectMore.range_62 last Hl (N.to_nat (last + 1 - u)) u). lia.
Qed.

(** ** Exact numbers *)

Lemma accesses_then {A B} (id : nat) (c : code A) (f : A -> code B) : forall m u,
  accesses id (thenc c f) m u = accesses id c m u + match alone id c m u with Some (x, m', u') => accesses id (f x) m' u' | None => 0 end.
Proof.
  induction c as [x| |a k IH|a v k IH|l s k IH]; intros m u; cbn [thenc accesses alone]; try rewrite IH; lia.
Qed.
Lemma accesses_gets (id : nat) n : forall a m u, accesses id (gets a n) m u = n.
Proof.
  induction n as [|n IH]; intros a m u; [reflexivity|]. cbn [gets get thenc accesses]. rewrite accesses_then, IH. destruct (alone id (gets (shift a 1) n) m u) as [[[x m'] u']|]; cbn [accesses]; lia.
Qed.
Lemma alone_gets (id : nat) n : forall a m u, alone id (gets a n) m u = Some (cells m a n, m, u).
Proof.
  induction n as [|n IH]; intros a m u; [reflexivity|]. rewrite cells_S. cbn [gets get thenc alone].
  assert (X : forall A B (c : code A) (f : A -> code B) m u x m' u', alone id c m u = Some (x, m', u') -> alone id (thenc c f) m u = alone id (f x) m' u').
  { clear. intros A B c f. induction c as [x| |a k IH|a v k IH|l s k IH]; intros m u y m' u'; cbn [thenc alone]; try discriminate; auto. intros E. injection E as <- <- <-. reflexivity. }
  rewrite (X _ _ _ _ _ _ _ _ _ (IH _ _ _)). reflexivity.
Qed.
Lemma alone_then {A B} (id : nat) (c : code A) (f : A -> code B) m u x m' u' : alone id c m u = Some (x, m', u') -> alone id (thenc c f) m u = alone id (f x) m' u'.
Proof.
  revert m u. induction c as [y| |a k IH|a v k IH|l s k IH]; intros m u; cbn [thenc alone]; try discriminate; auto. intros E. injection E as <- <- <-. reflexivity.
Qed.
Lemma alone_back {A B} (id : nat) (c : code A) (f : A -> code B) : forall m u y, alone id (thenc c f) m u = Some y -> exists x m' u', alone id c m u = Some (x, m', u') /\ alone id (f x) m' u' = Some y.
Proof.
  induction c as [x| |a k IH|a v k IH|l s k IH]; intros m u y; cbn [thenc alone]; try discriminate; eauto.
Qed.
Lemma accesses_get_inode (id : nat) a m u : accesses id (get_inode a) m u = 4.
Proof. unfold get_inode. rewrite accesses_then, accesses_gets. destruct (alone id (gets a 4) m u) as [[[x m'] u']|]; reflexivity. Qed.
Lemma alone_get_inode (id : nat) a i m u : cells m a 4 = inode_cells i -> alone id (get_inode a) m u = Some (i, m, u).
Proof. intros E. unfold get_inode. rewrite (alone_then _ _ _ _ _ _ _ _ (alone_gets id 4 a m u)). cbn [alone]. rewrite E, inode_of_cells. reflexivity. Qed.

(** ** Listing *)

(** No fork without anything below it. *)
Fixpoint full (n : Net.node N) : Prop :=
  match n with
  | Net.NTree l r => (l <> Net.NNone \/ r <> Net.NNone) /\ full l /\ full r
  | _ => True
  end.
Lemma add_full mg pos end_ v mask : forall n, full n -> full (Net.add mg n pos mask end_ v) /\ Net.add mg n pos mask end_ v <> Net.NNone.
Proof.
  induction mask as [|mask IH]; intros n H; destruct n as [|w|l r]; cbn [Net.add]; try (split; [exact H|discriminate]).
  - destruct (N.leb_spec (N.of_nat 0) end_); split; try exact Logic.I; try discriminate; lia.
  - destruct (N.leb_spec (N.of_nat 0) end_); split; try exact Logic.I; try discriminate; lia.
  - destruct (N.of_nat (S mask) <=? end_)%N; [split; [exact Logic.I|discriminate]|]. destruct (IH Net.NNone Logic.I) as [F D]. destruct (_ =? 1)%N;
      destruct (Net.add mg Net.NNone pos mask end_ v) as [|w|l r]; try contradiction; (split; [|discriminate]); cbn [full] in *; repeat split; try tauto; try (right; discriminate); try (left; discriminate).
  - cbn [full] in H. destruct H as (_ & Fl & Fr). destruct (N.of_nat (S mask) <=? end_)%N; [split; [exact Logic.I|discriminate]|]. destruct (_ =? 1)%N.
    + destruct (IH r Fr) as [F D]. destruct l, (Net.add mg r pos mask end_ v); try contradiction; (split; [|discriminate]); cbn [full] in *; repeat split; try tauto; try (right; discriminate); try (left; discriminate).
    + destruct (IH l Fl) as [F D]. destruct r, (Net.add mg l pos mask end_ v); try contradiction; (split; [|discriminate]); cbn [full] in *; repeat split; try tauto; try (right; discriminate); try (left; discriminate).
Qed.
Lemma range_full e v fuel : forall t s t', Net.range_loop fuel t s e v = Ret t' -> full (Net.root t) -> full (Net.root t').
Proof.
  induction fuel as [|fuel IH]; intros t s t'; cbn [Net.range_loop]; destruct (s <=? e)%N; try discriminate; try (intros E; injection E as <-; auto).
  intros E H. unbind E. unbind E. apply (IH _ _ _ E). apply add_full, H.
Qed.
Lemma apply_full fuel t c t' : Net.apply fuel t c = Ret t' -> full (Net.root t) -> full (Net.root t').
Proof.
  destruct c as [ip v|s e v|[n|] v]; cbn [Net.apply]; intros E H.
  - unfold Net.AddIp in E. unbind E. injection E as <-. apply add_full, H.
  - unfold Net.AddRange in E. unbind E. unbind E. apply (range_full _ _ _ _ _ _ E H).
  - unfold Net.AddCidr in E. unbind E. injection E as <-. apply add_full, H.
  - discriminate.
Qed.
Lemma all_full fuel cs : forall t t', Net.apply_all fuel t cs = Ret t' -> full (Net.root t) -> full (Net.root t').
Proof.
  induction cs as [|c cs IH]; intros t t' E H; cbn [Net.apply_all] in E; [injection E as <-; exact H|]. unbind E.
  apply (IH _ _ E). apply (apply_full _ _ _ _ E0 H).
Qed.
Fixpoint leaves (n : Net.node N) : nat := match n with Net.NNone => 0 | Net.NAll _ => 1 | Net.NTree l r => leaves l + leaves r end.
Lemma leaves_each n : forall position mask, length (Net.each n position mask) = leaves n.
Proof. induction n as [|v|l IHl r IHr]; intros position mask; cbn [Net.each leaves length]; [reflexivity|reflexivity|]. rewrite app_length, IHl, IHr. reflexivity. Qed.
Lemma full_leaves n : full n -> n <> Net.NNone -> 1 <= leaves n.
Proof.
  induction n as [|v|l IHl r IHr]; cbn [full leaves]; intros H D; [contradiction|lia|]. destruct H as ([H|H] & Fl & Fr); [specialize (IHl Fl H)|specialize (IHr Fr H)]; lia.
Qed.
Lemma pays_four l : length l = 4 -> pays (four_bytes l) 9 any.
Proof. intros L. unfold four_bytes. one 5; [apply pays_new|intros a _|lia]. one 4; [rewrite <- L; apply pays_sets|intros; exact Logic.I|lia]. Qed.
Lemma pays_output position bit v : pays (output position bit v) 18 any.
Proof.
  unfold output. one 9; [apply pays_four, be32_length|intros a _|lia]. one 9; [apply pays_four, be32_length|intros; exact Logic.I|lia].
Qed.
Lemma each_cost (id : nat) ts depth : forall n i position mask m u, levels n < depth -> full n -> is_node (frozen id ts u) m n i ->
  accesses id (each depth i position mask) m u <= (8 * levels n + 19) * leaves n.
Proof.
  induction depth as [|depth IH]; intros n i position mask m u H F R; [lia|]. destruct n as [|v|l r]; cbn [is_node] in R.
  - subst i. apply Nat.le_0_l.
  - destruct R as (p & -> & Fp & E). cbn [each levels leaves]. eapply pays_accesses with (P := any).
    one 1; [apply pays_get|intros x _|lia]. one 18; [apply pays_output|intros; exact Logic.I|lia].
  - destruct R as (p & il & ir & -> & Fp & E1 & E2 & R1 & R2). cbn [each levels leaves full] in *. destruct F as (D & Fl & Fr).
    rewrite accesses_then, accesses_get_inode, (alone_get_inode _ _ _ _ _ E1), accesses_then, accesses_get_inode, (alone_get_inode _ _ _ _ _ E2), accesses_then.
    destruct (safe_alone _ _ _ _ _ (each_ok id ts depth l il position (sub8 mask 1) m u ltac:(lia) R1)) as (a & m1 & u1 & Ea & (_ & B1) & _). rewrite Ea, accesses_then.
    destruct (safe_alone _ _ _ _ _ (each_ok id ts depth r ir (N.lor position (shl32 1 mask)) (sub8 mask 1) m1 u1 ltac:(lia) (node_bytes _ _ _ _ _ _ _ _ _ B1 R2))) as (b & m2 & u2 & Eb & _ & _). rewrite Eb.
    cbn [accesses].
    pose proof (IH l il position (sub8 mask 1)%N m u ltac:(lia) Fl R1) as C1.
    pose proof (IH r ir (N.lor position (shl32 1 mask)) (sub8 mask 1) m1 u1 ltac:(lia) Fr (node_bytes _ _ _ _ _ _ _ _ _ B1 R2)) as C2.
    assert (L1 : 1 <= leaves l + leaves r) by (destruct D as [D|D]; [pose proof (full_leaves l Fl D)|pose proof (full_leaves r Fr D)]; lia).
    assert (K1 : (8 * levels l + 19) * leaves l <= (8 * Nat.max (levels l) (levels r) + 19) * leaves l) by (apply Nat.mul_le_mono_r; lia).
    assert (K2 : (8 * levels r + 19) * leaves r <= (8 * Nat.max (levels l) (levels r) + 19) * leaves r) by (apply Nat.mul_le_mono_r; lia).
    set (q := Nat.max (levels l) (levels r)) in *. replace ((8 * S q + 19) * (leaves l + leaves r)) with (8 * (leaves l + leaves r) + ((8 * q + 19) * leaves l + (8 * q + 19) * leaves r)) by lia. lia.
Qed.

(** ** Every operation *)

Lemma pays_bytes s : pays (bytes_at s) (slen s) any.
Proof. eapply pays_mono; [apply pays_gets|lia|intros; exact Logic.I]. Qed.
Lemma pays_load s j : pays (load_at s j) 1 any.
Proof. apply pays_if; [apply pays_get|exact Logic.I]. Qed.
Lemma pays_last s m r j : pays (last_byte s m r j) 3 any.
Proof. unfold last_byte. one 1; [apply pays_load|intros a _|lia]. one 1; [apply pays_load|intros b _|lia]. apply pays_set. Qed.

Section Goroutine.
Context (id : nat) (shared : list ptree) (ours : list known_tree) (before : nat).
Context (Main : id = O -> shared = [] /\ before = O).
Notation Inv := (Inv id shared ours).

Lemma act_cost m u st mine a : Inv m u st mine -> allowed id ours before st a ->
  forall mine' r m' u', alone id (do_nact shared mine a) m u = Some ((mine', r), m', u') -> accesses id (do_nact shared mine a) m u <= net_price a r.
Proof.
  intros Iv Al mine' rep m' u' E. pose proof Al as (Hg & Hc & Hl).
  destruct a as [n c|s j v|s j|ip|x|b|mk|ip mk ip' mk'|ip mk|ip mk|mg|h|h ip v|h s e v|h ip mk v|h]; cbn [given called] in Hg, Hc;
    match goal with |- accesses _ (do_nact _ _ (GAddRange _ _ _ _)) _ _ <= _ => idtac | |- accesses _ (do_nact _ _ (GList _)) _ _ <= _ => idtac
      | _ => eapply pays_accesses with (P := any); cbn [do_nact net_price] end.
  - one (S c); [apply pays_new|intros; exact Logic.I|lia].
  - apply pays_if; [|exact Logic.I]. one 1; [apply pays_set|intros; exact Logic.I|lia].
  - one 1; [apply pays_load|intros; exact Logic.I|lia].
  - one (slen ip); [apply pays_bytes|intros bs _|lia]. one 0; [free|intros; exact Logic.I|lia].
  - one 9; [apply pays_four, be32_length|intros; exact Logic.I|lia].
  - one 9; [apply pays_four, be32_length|intros; exact Logic.I|lia].
  - one (slen mk); [apply pays_bytes|intros; exact Logic.I|lia].
  - one (slen ip); [apply pays_bytes|intros b1 _|lia]. one (slen mk); [apply pays_bytes|intros b2 _|lia]. one (slen ip'); [apply pays_bytes|intros b3 _|lia].
    one (slen mk'); [apply pays_bytes|intros b4 _|lia]. one 0; [free|intros; exact Logic.I|lia].
  - exact Logic.I.
  - one 17; [|intros; exact Logic.I|lia]. unfold LastIpv4. one 5; [apply pays_new|intros t _|lia]. do 4 (one 3; [apply pays_last|intros _ _|lia]). exact Logic.I.
  - one 9; [|intros; exact Logic.I|lia]. unfold New. one 5; [apply pays_new|intros t _|lia]. one 4; [apply pays_set_inode|intros; exact Logic.I|lia].
  - one 0; [free|intros t _|lia]. one 13; [|intros; exact Logic.I|lia]. unfold Copy. one 4; [apply pays_get_inode|intros t' _|lia]. one 5; [apply pays_new|intros p _|lia]. one 4; [apply pays_set_inode|intros; exact Logic.I|lia].
  - one 0; [free|intros t _|lia]. one (875 + slen ip); [|intros; exact Logic.I|lia]. unfold AddIp. one (slen ip); [apply pays_bytes|intros bs _|lia]. one 0; [free|intros x _|lia]. eapply pays_more; [apply pays_add_root|lia].
  - (* GAddRange *)
    destruct (Hc _ _ eq_refl) as ((x & y & Hx & Hy & Ly) & i & [mg cs] & -> & Ei). apply forall_one in Hg. destruct Hg as [Hs Hg]. apply forall_one in Hg. destruct Hg as [He _].
    cbn [do_nact net_price]. rewrite accesses_then. destruct (tree_of id shared ours before Main m u st mine (Mine i) (mg, cs) Iv Ei) as (t & Et & _). unfold NetAtom.tree_at. rewrite Et. cbn [lift accesses alone].
    destruct (bytes_cells id shared ours before m u st mine s Iv Hs) as (Cs & _ & _). destruct (bytes_cells id shared ours before m u st mine e Iv He) as (Ce & _ & _).
    rewrite accesses_then. assert (X : accesses id (AddRange t s e v) m u <= 62 * 875 + slen s + slen e).
    { unfold AddRange, bytes_at. rewrite accesses_then, accesses_gets, alone_gets, Cs, accesses_then, (NetBasic.ToUint_addr _ _ Hx). cbn [lift accesses alone].
      rewrite accesses_then, accesses_gets, alone_gets, Ce, accesses_then, (NetBasic.ToUint_addr _ _ Hy). cbn [lift accesses alone].
      pose proof (pays_accesses id _ _ _ m u (pays_range_62 t y v x Ly)). lia. }
    destruct (alone id (AddRange t s e v) m u) as [[[? ?] ?]|]; cbn [accesses]; lia.
  - one 0; [free|intros t _|lia]. one (875 + slen ip + slen mk); [|intros; exact Logic.I|lia]. unfold AddCidr. one (slen ip); [apply pays_bytes|intros bs _|lia]. one 0; [free|intros x _|lia].
    one (slen mk); [apply pays_bytes|intros ms _|lia]. eapply pays_more; [apply pays_add_root|lia].
  - (* GList *)
    destruct Hl as ([mg cs] & Eh). destruct (tree_of id shared ours before Main m u st mine h _ Iv Eh) as ([c mg'] & Et & S & Mc & _).
    pose proof S as (S1 & S2 & S3 & n & fuel & S4 & i & Ei & R). cbn [fst snd] in *. subst mg'.
    assert (Lv : levels (Net.root n) <= 32) by (apply (all_levels _ _ _ _ S4 (Nat.le_0_l _))).
    pose proof (all_full _ _ _ _ S4 Logic.I) as Fl.
    destruct (safe_alone _ _ _ _ _ (each_ok id (map fst mine) 33 (Net.root n) i 0 31 m u ltac:(lia) R)) as (l & m1 & u1 & Ea & (El & _) & _).
    cbn [do_nact] in E |- *. rewrite accesses_then. unfold NetAtom.tree_at in *. rewrite Et in *. cbn [lift accesses alone thenc] in *. rewrite accesses_then.
    assert (A : alone id (ListCidr (c, mg)) m u = Some (l, m1, u1)) by (unfold ListCidr; cbn [fst]; rewrite (alone_then _ _ _ _ _ _ _ _ (alone_get_inode id c i m u Ei)); exact Ea).
    rewrite (alone_then _ _ _ _ _ _ _ _ A) in E. cbn [alone] in E. injection E as <- <- <- <-. rewrite A. cbn [accesses net_price].
    unfold ListCidr. cbn [fst]. rewrite accesses_then, accesses_get_inode, (alone_get_inode _ _ _ _ _ Ei).
    pose proof (each_cost id (map fst mine) 33 (Net.root n) i 0 31 m u ltac:(lia) Fl R) as C.
    assert (Ll : length l = leaves (Net.root n)).
    { rewrite El, <- (leaves_each (Net.root n) 0 31). generalize (u false). generalize (Net.each (Net.root n) 0 31). clear. induction l as [|[[y p] z] l IH]; intros k; cbn [placed length]; [reflexivity|]. rewrite IH. reflexivity. }
    rewrite Ll. assert ((8 * levels (Net.root n) + 19) * leaves (Net.root n) <= 275 * leaves (Net.root n)) by (apply Nat.mul_le_mono_r; lia). lia.
Qed.
Lemma behave_cost g : forall m u st mine, Inv m u st mine -> plays_fair id ours before st g ->
  forall rs mine' m' u', alone id (nbehave shared mine g) m u = Some ((rs, mine'), m', u') -> accesses id (nbehave shared mine g) m u <= net_bill g rs.
Proof.
  induction g as [|a k IH]; intros m u st mine Iv Pf rs mine' m' u' E; cbn [plays_fair nbehave] in *; [apply Nat.le_0_l|]. destruct Pf as [Al Pf].
  destruct (alone_back _ _ _ _ _ _ E) as ([mine1 r] & m1 & u1 & E1 & E2). destruct (alone_back _ _ _ _ _ _ E2) as ([rs2 mine2] & m2 & u2 & E3 & E4).
  cbn [alone] in E4. injection E4 as <- <- <- <-. rewrite accesses_then, E1, accesses_then, E3. cbn [accesses net_bill].
  pose proof (act_cost m u st mine a Iv Al _ _ _ _ E1) as C1.
  destruct (safe_alone _ _ _ _ _ (act_ok id shared ours before Main m u st mine a Iv Al)) as ([mine1' r'] & m1' & u1' & E1' & (st1 & Ee & Iv1) & _).
  rewrite E1 in E1'. injection E1' as <- <- <- <-. cbn [fst snd] in *. pose proof (IH r m1 u1 st1 mine1 Iv1 (Pf _ _ Ee) _ _ _ _ E3) as C2. lia.
Qed.
End Goroutine.

(** ** Among others *)

Lemma accesses_ext {A} (id : nat) (c : code A) Q : forall m m' u, agree id m m' -> safe id c m u Q -> accesses id c m' u = accesses id c m u.
Proof.
  induction c as [x| |a k IH|a v k IH|l n k IH]; cbn [safe accesses]; intros m m' u H S; try reflexivity.
  - destruct S as [M S]. rewrite (H a M). f_equal. apply (IH _ m m' u H S).
  - destruct S as [M S]. f_equal. apply (IH (put m a v)); [|exact S]. intros b Hb. unfold put. rewrite (H b Hb). reflexivity.
  - cbv zeta. f_equal. apply (IH _ (clear m (mkA id l (u l)) n)); [|exact S]. intros b Hb. unfold clear. rewrite (H b Hb). reflexivity.
Qed.
Lemma takes_becomes {A} (w : system A) ns w' : takes w ns w' -> becomes w w'.
Proof. induction 1 as [|ns m ts i t m' t' n _ IH Ht Hn Ha]; [constructor|]. eapply More; [exact IH|]. econstructor; eassumption. Qed.
Section System.
Context {A : Type} (Q : nat -> A -> memory -> Prop) (Loc : forall i, concerns (S i) (Q i)).
(** What a goroutine has done and what it has still to do make what it does alone. *)
Lemma takes_alone (w : system A) ns w' : fine Q w -> takes w ns w' -> length ns = length (snd w') /\
  forall i t0 t n, nth_error (snd w) i = Some t0 -> nth_error (snd w') i = Some t -> nth_error ns i = Some n ->
    n + accesses (S i) (todo t) (fst w') (used t) = accesses (S i) (todo t0) (fst w) (used t0).
Proof.
  intros F. induction 1 as [|ns m ts i t m' t' n Tk IH Ht Hn Ha].
  - split; [apply map_length|]. intros i t0 t n H0 H1 H2. rewrite nth_error_map, H1 in H2. rewrite H0 in H1. injection H1 as <-. injection H2 as <-. reflexivity.
  - destruct IH as [L IH]. cbn [fst snd] in *. split; [rewrite !replaced_length; exact L|]. intros j t0 tj nj H0 H1 H2. rewrite nth_replaced in H1. rewrite nth_replaced in H2.
    pose proof (fine_becomes Q Loc _ _ (takes_becomes _ _ _ Tk) F) as Fm.
    destruct (Nat.eqb_spec i j) as [<-|D].
    + rewrite Ht in H1. rewrite Hn in H2. injection H1 as <-. injection H2 as <-. rewrite <- (IH i t0 t n H0 Ht Hn). unfold advance in Ha.
      destruct (todo t) as [x| |a k|a v k|l s k]; cbn [accesses weight] in *; try discriminate; injection Ha as <- <-; cbn [todo used]; lia.
    + rewrite <- (IH j t0 tj nj H0 H1 H2). f_equal.
      apply (fun G => accesses_ext _ _ _ _ _ _ G (Fm j tj H1)). intros a Ma. pose proof (Fm i t Ht) as Sf. cbn [fst snd] in Sf. assert (W : who a <> S i) by (destruct Ma; lia). unfold advance in Ha.
      destruct (todo t) as [x| |b k|b v k|l s k]; cbn [safe] in Sf; try discriminate; injection Ha as <- <-; [reflexivity| |].
      * unfold put. destruct (same_spec a b) as [->|]; [destruct Sf; contradiction|reflexivity].
      * unfold clear. destruct (within_spec (mkA (S i) l (used t l)) s a) as [(X & _)|]; [contradiction|reflexivity].
Qed.
End System.
