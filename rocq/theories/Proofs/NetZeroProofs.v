(** The zero value of Tree against a tree made by New(nil). *)
From Verif Require Import Base.Go Base.GoNet Base.NetApi Model.Net Model.NetEffects Model.NetZero
  Spec.NetSpec Spec.NetEffectSpec Spec.NetZeroSpec Proofs.Util Proofs.NetBasic Proofs.NetTree Proofs.NetRange Proofs.NetProofs
  Proofs.NetEffectProofs Proofs.NetEffectMore.
Local Open Scope N_scope.

Section Zero.
Context {V : Type}.
Notation mg := (outside (@never V)).
Implicit Types w : world V unit.

(** The root of a zero tree that stands for a tree of New(nil). *)
Definition zof (n : node V) : ztree V := match n with NNone => None | _ => Some n end.
Definition ends (e : ending (world V unit)) : ending (ztree V) :=
  match e with Returned w => Returned (zof (fst w)) | Panicked w => Panicked (zof (fst w)) | Running => Running end.

Lemma count_pos k : forall t : node V, normal k t -> t <> NNone -> (0 < count t)%nat.
Proof.
  induction k as [|k IH]; intros [|v|l r] N H; cbn [count]; try congruence; try lia; [contradiction|].
  destruct N as (Nl & Nr & _ & NN). destruct l as [|a|l1 l2]; [|cbn [count]; lia|].
  - destruct r as [|b|r1 r2]; [destruct NN; auto|cbn [count]; lia|]. pose proof (IH _ Nr ltac:(discriminate)). lia.
  - pose proof (IH _ Nl ltac:(discriminate)). lia.
Qed.
Lemma zof_node n : match zof n with Some m => m | None => NNone end = n.
Proof. destruct n; reflexivity. Qed.
Lemma zof_some n : n <> NNone -> zof n = Some n.
Proof. destruct n; [congruence|reflexivity|reflexivity]. Qed.

Lemma add_not_none (m : V -> V -> V) k : forall t pos e v, add m t pos k e v <> NNone.
Proof.
  intros t pos e v. destruct (is_all t) eqn:T; [destruct t; try discriminate; rewrite add_all; discriminate|].
  destruct (N.le_gt_cases (N.of_nat k) e) as [L|L]; [rewrite add_top by auto; discriminate|].
  destruct k as [|k]; [cbn in L; lia|]. rewrite add_step by (auto; lia).
  assert (F : forall l r : node V, fork m l r <> NNone) by (intros [|a|? ?] [|b|? ?]; discriminate).
  destruct (N.testbit pos (N.of_nat k)); apply F.
Qed.
Lemma add_eff_some mg' k t pos e v w w' n : add_eff mg' t pos k e v w = (w', Some n) -> n <> @NNone V.
Proof.
  intros E. apply (add_eff_shape mg' (fun a _ => a)) in E. intros ->.
  apply (add_not_none (fun a _ => a) k t pos e v). cbn [shape] in E.
  destruct (add (fun a _ => a) t pos k e v); try discriminate. reflexivity.
Qed.

(** nil_merge does not look at the world. *)
Lemma nil_world k : forall (t : node V) pos e v (w1 : world V unit) (w2 : world V unit),
  snd (add_eff nil_merge t pos k e v w1) = snd (add_eff nil_merge t pos k e v w2).
Proof.
  induction k as [|k IH]; intros t pos e v w1 w2;
    (destruct (is_all t) eqn:T; [destruct t; try discriminate; rewrite !add_eff_all; reflexivity|]).
  - rewrite !add_eff_top by (auto; lia). reflexivity.
  - destruct (N.le_gt_cases (N.of_nat (S k)) e) as [L|L]; [rewrite !add_eff_top by auto; reflexivity|].
    rewrite !add_eff_step by (auto; lia). cbv zeta.
    specialize (IH (if N.testbit pos (N.of_nat k) then right t else left t) pos e v w1 w2).
    destruct (add_eff nil_merge _ pos k e v w1) as [u1 o1], (add_eff nil_merge _ pos k e v w2) as [u2 o2].
    cbn [snd] in IH. subst o2. destruct o1 as [c|]; [|reflexivity].
    unfold fork_eff. destruct (if N.testbit pos (N.of_nat k) then left t else c); try reflexivity.
    destruct (if N.testbit pos (N.of_nat k) then c else right t); reflexivity.
Qed.
Lemma never_nil k : forall (t : node V) pos e v w,
  add_eff mg t pos k e v w = (w, snd (add_eff nil_merge t pos k e v w)).
Proof.
  induction k as [|k IH]; intros t pos e v w;
    (destruct (is_all t) eqn:T; [destruct t; try discriminate; rewrite !add_eff_all; reflexivity|]).
  - rewrite !add_eff_top by (auto; lia). reflexivity.
  - destruct (N.le_gt_cases (N.of_nat (S k)) e) as [L|L]; [rewrite !add_eff_top by auto; reflexivity|].
    rewrite !add_eff_step by (auto; lia). cbv zeta. rewrite IH.
    destruct (add_eff nil_merge _ pos k e v w) as [u1 [c|]]; [|reflexivity]. cbn [snd].
    unfold fork_eff. destruct (if N.testbit pos (N.of_nat k) then left t else c); try reflexivity.
    destruct (if N.testbit pos (N.of_nat k) then c else right t); try reflexivity. destruct w as [w1 []]. reflexivity.
Qed.

Lemma zset_ok n u e v : zset (zof n) u e v = ends (set_root mg (n, tt) u e v).
Proof.
  unfold zset, zadd, set_root. rewrite zof_node, never_nil. cbn [fst snd].
  rewrite (nil_world 32 n u e v (NNone, tt) (n, tt)).
  destruct (add_eff nil_merge n u 32 e v (n, tt)) as [w' [n'|]] eqn:E; cbn [snd ends fst]; [|reflexivity].
  rewrite zof_some; [reflexivity|]. exact (add_eff_some _ _ _ _ _ _ _ _ _ E).
Qed.
Lemma set_root_tt w u e v : set_root mg w u e v = set_root mg (fst w, tt) u e v.
Proof. destruct w as [n []]. reflexivity. Qed.

Lemma range_zero b v fuel : forall n a, range_loop_zero fuel (zof n) a b v = ends (range_loop_eff fuel mg (n, tt) a b v).
Proof.
  induction fuel as [|fuel IH]; intros n a; cbn [range_loop_zero range_loop_eff].
  { destruct (a <=? b); reflexivity. }
  destruct (a <=? b); [|reflexivity].
  destruct (bind _ _) as [[m bit]| |]; [|reflexivity|reflexivity]. rewrite zset_ok.
  destruct (set_root mg (n, tt) a bit v) as [[n' []]|w|]; cbn [ends fst]; [apply IH|reflexivity|reflexivity].
Qed.
Lemma apply_zero_ok fuel n c : apply_zero fuel (zof n) c = ends (apply_eff fuel mg (n, tt) c).
Proof.
  destruct c as [ip v|s e v|[m|] v]; cbn [apply_zero apply_eff]; unfold AddIp_zero, AddIp_eff, AddRange_zero, AddRange_eff, AddCidr_zero, AddCidr_eff.
  - destruct (Ipv4ToUint ip); [apply zset_ok|reflexivity|reflexivity].
  - destruct (bind _ _) as [[a b]| |]; [apply range_zero|reflexivity|reflexivity].
  - destruct (Ipv4ToUint (IP m)); [apply zset_ok|reflexivity|reflexivity].
  - reflexivity.
Qed.
Theorem run_zero_ok fuel cs : forall n, run_zero fuel (zof n) cs =
  match run_eff fuel mg (n, tt) cs with Some (w, oks) => Some (zof (fst w), oks) | None => None end.
Proof.
  induction cs as [|c cs IH]; intros n; cbn [run_zero run_eff]; [reflexivity|]. rewrite apply_zero_ok.
  destruct (apply_eff fuel mg (n, tt) c) as [[n' []]|[n' []]|]; cbn [ends fst]; [| |reflexivity];
    rewrite IH; destruct (run_eff fuel mg (n', tt) cs) as [[w l]|]; reflexivity.
Qed.

(** *** When the root is still nil *)

(** The end of a call, as the tree it leaves. *)
Definition leaves (e : ending (world V unit)) (P : node V -> Prop) : Prop :=
  match e with Returned w | Panicked w => P (fst w) | Running => True end.

Lemma none_returns w u e v : fst w = NNone -> exists w', set_root mg w u e v = Returned w' /\ fst w' <> NNone.
Proof.
  assert (G : forall k e pos (x : world V unit), exists n, add_eff mg NNone pos k e v x = (x, Some n)).
  { clear. intros k. induction k as [|k IH]; intros e pos x; [eexists; rewrite add_eff_top by (auto; lia); reflexivity|].
    destruct (N.le_gt_cases (N.of_nat (S k)) e) as [L|L]; [eexists; rewrite add_eff_top by auto; reflexivity|].
    rewrite add_eff_step by (auto; lia). cbn [left right]. cbv zeta.
    destruct (IH e pos x) as (n & E). destruct (N.testbit pos (N.of_nat k)); rewrite E; unfold fork_eff; eexists;
      [reflexivity|]. destruct n; reflexivity. }
  intros H. unfold set_root. rewrite H. destruct (G 32%nat e u w) as (n & E). rewrite E.
  eexists. split; [reflexivity|]. exact (add_eff_some _ _ _ _ _ _ _ _ _ E).
Qed.
Lemma set_root_none w u e v : leaves (set_root mg w u e v) (fun n => n <> NNone).
Proof.
  destruct (fst w) as [|a|l r] eqn:T.
  - destruct (none_returns w u e v T) as (w' & -> & N). exact N.
  - unfold set_root. rewrite T, add_eff_all. cbn [leaves fst]. discriminate.
  - unfold set_root. destruct (add_eff mg (fst w) u 32 e v w) as [w' [n|]] eqn:E; cbn [leaves fst].
    + exact (add_eff_some _ _ _ _ _ _ _ _ _ E).
    + rewrite never_nil in E. apply (f_equal fst) in E. cbn [fst] in E. rewrite <- E, T. discriminate.
Qed.
Lemma prefixes_none L v : forall w, leaves (prefixes_eff mg w L v) (fun n => n = NNone <-> L = [] /\ fst w = NNone).
Proof.
  induction L as [|[u p] L IH]; intros w; cbn [prefixes_eff]; [split; tauto|].
  pose proof (set_root_none w u (32 - p) v) as S. destruct (set_root mg w u (32 - p) v) as [w'|w'|]; cbn [leaves] in *.
  - specialize (IH w'). destruct (prefixes_eff mg w' L v); cbn [leaves] in *; try exact Logic.I;
      (split; [intros H; apply IH in H; tauto|intros [H _]; discriminate]).
  - split; [tauto|intros [H _]; discriminate].
  - exact Logic.I.
Qed.

Lemma prefixes_nil (c : tree_call V) L : proper c -> call_prefixes c L -> (L = [] <-> forall x, ~ adds c x).
Proof.
  intros H P. destruct (proper_prefixes c H) as (L' & P' & Ok & C).
  assert (E : L' = L).
  { destruct c as [ip v|s e v|[n|] v]; cbn [call_prefixes] in P, P'.
    - destruct P as (u & U & ->), P' as (u' & U' & ->). rewrite (is_addr_fun _ _ _ U U'). reflexivity.
    - destruct P as (a & b & A & B & ->), P' as (a' & b' & A' & B' & ->).
      rewrite (is_addr_fun _ _ _ A A'), (is_addr_fun _ _ _ B B'). reflexivity.
    - destruct P as (u & p & U & ->), P' as (u' & p' & U' & ->). destruct U as (U & Hp & M), U' as (U' & Hp' & M').
      rewrite (is_addr_fun _ _ _ U U'). rewrite M in M'.
      assert (E : MaskToByte (addr (2 ^ 32 - size p)) = MaskToByte (addr (2 ^ 32 - size p'))) by congruence.
      rewrite !MaskToByte_From in E by assumption. subst p'. reflexivity.
    - contradiction. }
  subst L'. split.
  - intros -> x A. assert (Hx : x < 2 ^ 32).
    { destruct c as [ip v|s e v|[n|] v]; cbn [call_prefixes] in P.
      - destruct P as (u & _ & Q). discriminate.
      - destruct A as (a & b & _ & [B _] & R). lia.
      - destruct P as (u & p & _ & Q). discriminate.
      - contradiction. }
    apply C in A; [|exact Hx]. destruct A as (u & p & [] & _).
  - intros N. destruct L as [|[u p] L]; [reflexivity|exfalso]. inversion Ok as [|? ? [O1 O2] _]; subst.
    apply (N u), C; [exact O1|]. exists u, p. split; [left; reflexivity|reflexivity].
Qed.
Lemma call_none fuel w c : proper c ->
  leaves (apply_eff fuel mg w c) (fun n => n = NNone <-> (forall x, ~ adds c x) /\ fst w = NNone).
Proof.
  intros H. destruct (proper_prefixes c H) as (L & P & _ & _).
  destruct (apply_eff fuel mg w c) eqn:E; try exact Logic.I; rewrite <- E;
    (rewrite (apply_eff_prefixes' mg fuel w c L H P) by congruence);
    pose proof (prefixes_none L (call_value c) w) as Q; pose proof (prefixes_nil c L H P) as Z;
    destruct (prefixes_eff mg w L (call_value c)); cbn [leaves] in *; tauto.
Qed.
Theorem run_none fuel cs : Forall proper cs -> forall w w' oks, run_eff fuel mg w cs = Some (w', oks) ->
  (fst w' = NNone <-> (forall c x, In c cs -> ~ adds c x) /\ fst w = NNone).
Proof.
  induction 1 as [|c cs Hc Hcs IH]; intros w w' oks; cbn [run_eff].
  - intros E. injection E as <- _. split; [|tauto]. intros F. split; [intros c x []|exact F].
  - pose proof (call_none fuel w c Hc) as Q. intros E.
    destruct (apply_eff fuel mg w c) as [w1|w1|]; [| |discriminate]; cbn [leaves] in Q;
      (destruct (run_eff fuel mg w1 cs) as [[w2 l]|] eqn:R; [|discriminate]); injection E as <- _;
      rewrite (IH _ _ _ R), Q; (split; [intros (A & B & F); split; [|exact F]; intros d x [->|I0]; [apply B|apply A, I0]
                                |intros (A & F); split; [intros d x I0; apply A; right; exact I0|]; split; [intros x; apply A; left; reflexivity|exact F]]).
Qed.

Theorem zero_reference (cs : list (tree_call V)) : Forall proper cs -> exists k (t : ztree V) oks (B : blocks V),
  (forall fuel, (k <= fuel)%nat -> run_zero fuel zero_tree cs = Some (t, oks))
  /\ history_eff never tt no_blocks cs oks tt B
  /\ ((forall c x, In c cs -> ~ adds c x) -> ListCidr_zero t = Panic)
  /\ forall c x, In c cs -> adds c x -> exists l, ListCidr_zero t = Ret l
     /\ forall n (v : V), In (n, v) l <-> exists u p, n = net_of u p /\ B u p = Some v.
Proof.
  intros H. destruct (reference_eff (@never V) tt cs H) as (k & w & oks & B & R & Hi & _ & L).
  exists k, (zof (fst w)), oks, B. split.
  { intros fuel Hf. change zero_tree with (zof (@NNone V)). rewrite run_zero_ok, (R fuel Hf). reflexivity. }
  split; [destruct w as [n []]; exact Hi|].
  pose proof (run_none k cs H _ _ _ (R k (le_n k))) as Q. cbn [fst] in Q. split.
  - intros E. rewrite (proj2 Q) by auto. reflexivity.
  - intros c x I0 A. rewrite zof_some by (intros F; apply Q in F; exact (proj1 F c x I0 A)).
    exists (ListCidr_eff w). split; [reflexivity|exact L].
Qed.

End Zero.
