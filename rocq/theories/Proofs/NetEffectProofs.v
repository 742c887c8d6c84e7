(** IpTree with a merge function that has effects and may panic. *)
From Verif Require Import Base.Go Base.GoNet Base.NetApi Model.Net Model.NetEffects
  Spec.NetSpec Spec.NetEffectSpec Proofs.Util Proofs.NetBasic Proofs.NetTree Proofs.NetList
  Proofs.NetBlocks Proofs.NetRange Proofs.NetProofs.
Local Open Scope N_scope.

(** ** Shapes *)

Lemma shape_all {A B} (a : node A) (b : node B) : shape a = shape b -> is_all a = is_all b.
Proof. destruct a, b; cbn [shape]; try discriminate; reflexivity. Qed.
Lemma shape_none {A B} (a : node A) (b : node B) : shape a = shape b -> a = NNone -> b = NNone.
Proof. intros H ->. destruct b; try discriminate. reflexivity. Qed.
Lemma shape_normal {A B} k : forall (a : node A) (b : node B), shape a = shape b -> normal k a -> normal k b.
Proof.
  induction k as [|k IH]; intros a b E N; destruct a as [|v|l r], b as [|v'|l' r']; try discriminate; try exact I;
    try contradiction.
  cbn [shape] in E. injection E as E1 E2. destruct N as (Nl & Nr & NA & NN). cbn [normal].
  split; [apply (IH l l'); auto|]. split; [apply (IH r r'); auto|].
  rewrite <- (shape_all l l' E1), <- (shape_all r r' E2). split; [exact NA|].
  intros [-> ->]. apply NN. destruct l, r; try discriminate. auto.
Qed.
Lemma shape_mem {A B} k : forall (a : node A) (b : node B) x, shape a = shape b -> mem k a x = mem k b x.
Proof.
  induction k as [|k IH]; intros a b x E; destruct a as [|v|l r], b as [|v'|l' r']; try discriminate; try reflexivity.
  cbn [shape] in E. injection E as E1 E2. cbn [mem]. destruct (N.testbit x _); apply IH; assumption.
Qed.
Lemma shape_count {A B} (a : node A) : forall b : node B, shape a = shape b -> count a = count b.
Proof.
  induction a as [|v|l IHl r IHr]; intros [|v'|l' r'] E; try discriminate; try reflexivity.
  cbn [shape] in E. injection E as E1 E2. cbn [count]. rewrite (IHl _ E1), (IHr _ E2). reflexivity.
Qed.
Lemma shape_left {A B} (a : node A) (b : node B) : shape a = shape b -> shape (left a) = shape (left b).
Proof. destruct a, b; cbn [shape left]; try discriminate; try reflexivity. intros E. injection E; auto. Qed.
Lemma shape_right {A B} (a : node A) (b : node B) : shape a = shape b -> shape (right a) = shape (right b).
Proof. destruct a, b; cbn [shape right]; try discriminate; try reflexivity. intros E. injection E; auto. Qed.
Lemma shape_fork {A B} (m1 : A -> A -> A) (m2 : B -> B -> B) l r l' r' :
  shape l = shape l' -> shape r = shape r' -> shape (fork m1 l r) = shape (fork m2 l' r').
Proof.
  intros E1 E2. pose proof (shape_all l l' E1). pose proof (shape_all r r' E2).
  unfold fork. destruct l, l'; try discriminate; try (cbn [shape] in *; congruence).
  destruct r, r'; try discriminate; cbn [shape] in *; congruence.
Qed.
Lemma add_shape {A B} (m1 : A -> A -> A) (m2 : B -> B -> B) k : forall t t' pos e v v', shape t = shape t' ->
  shape (add m1 t pos k e v) = shape (add m2 t' pos k e v').
Proof.
  induction k as [|k IH]; intros t t' pos e v v' E; pose proof (shape_all t t' E) as AE;
    (destruct (is_all t) eqn:T; [destruct t, t'; try discriminate; rewrite !add_all; reflexivity|]); symmetry in AE.
  - rewrite !add_top by (auto; lia). reflexivity.
  - destruct (N.le_gt_cases (N.of_nat (S k)) e) as [L|L]; [rewrite !add_top by auto; reflexivity|].
    rewrite !add_step by (auto; lia).
    destruct (N.testbit pos (N.of_nat k)); apply shape_fork; auto using shape_left, shape_right.
Qed.

(** ** add_eff by cases *)

Section Callback.
Context {V St : Type} (mg : callback V St).
Implicit Types t l r n : node V.
Implicit Types w : world V St.

Definition fork_eff w l r : world V St * option (node V) :=
  match l, r with
  | NAll a, NAll b =>
      let (w2, v) := mg w a b in (w2, match v with Some v => Some (NAll v) | None => None end)
  | _, _ => (w, Some (NTree l r))
  end.

Lemma add_eff_all v pos k e x w : add_eff mg (NAll v) pos k e x w = (w, Some (NAll v)).
Proof. destruct k; reflexivity. Qed.
Lemma add_eff_top t pos k e x w : is_all t = false -> N.of_nat k <= e ->
  add_eff mg t pos k e x w = (w, Some (NAll x)).
Proof.
  intros H L. apply N.leb_le in L. destruct t; try discriminate; destruct k; cbn [add_eff]; rewrite L; reflexivity.
Qed.
Lemma add_eff_step t pos k e x w : is_all t = false -> e <= N.of_nat k ->
  add_eff mg t pos (S k) e x w =
  let b := N.testbit pos (N.of_nat k) in
  let (w1, o) := add_eff mg (if b then right t else left t) pos k e x w in
  match o with
  | None => (w1, None)
  | Some c => fork_eff w1 (if b then left t else c) (if b then c else right t)
  end.
Proof.
  intros H L. assert (E : (N.of_nat (S k) <=? e) = false) by (apply N.leb_gt; lia).
  rewrite <- odd_bit. cbv zeta. destruct t; try discriminate; cbn [add_eff]; rewrite E; cbn [left right];
    destruct (N.land (N.shiftr pos (N.of_nat k)) 1 =? 1);
    (destruct (add_eff mg _ pos k e x w) as [w1 [c|]]; reflexivity).
Qed.

(** What add_eff returns has the shape of what add returns, whatever merge does. *)
Lemma add_eff_shape (m : V -> V -> V) k : forall t pos e x w w' n,
  add_eff mg t pos k e x w = (w', Some n) -> shape n = shape (add m t pos k e x).
Proof.
  induction k as [|k IH]; intros t pos e x w w' n;
    (destruct (is_all t) eqn:T; [destruct t; try discriminate; rewrite add_eff_all, add_all; intros E; injection E as _ <-; reflexivity|]).
  - rewrite add_eff_top, add_top by (auto; lia). intros E. injection E as _ <-. reflexivity.
  - destruct (N.le_gt_cases (N.of_nat (S k)) e) as [L|L].
    { rewrite add_eff_top, add_top by auto. intros E. injection E as _ <-. reflexivity. }
    rewrite add_eff_step, add_step by (auto; lia). cbv zeta.
    destruct (N.testbit pos (N.of_nat k));
      (destruct (add_eff mg _ pos k e x w) as [w1 [c|]] eqn:Ec; [|discriminate]);
      apply IH in Ec; unfold fork_eff, fork; intros E.
    + assert (A := shape_all _ _ Ec). destruct (left t) as [|a|]; [injection E as _ <-; cbn [shape]; congruence| |injection E as _ <-; cbn [shape]; congruence].
      destruct c as [|b|], (add m (right t) pos k e x); try discriminate;
        try (injection E as _ <-; cbn [shape] in *; congruence).
      destruct (mg w1 a b) as [w2 [y|]]; [|discriminate]. injection E as _ <-. reflexivity.
    + assert (A := shape_all _ _ Ec). destruct c as [|a|], (add m (left t) pos k e x); try discriminate;
        try (injection E as _ <-; cbn [shape] in *; congruence).
      destruct (right t) as [|b|]; try (injection E as _ <-; cbn [shape] in *; congruence).
      destruct (mg w1 a b) as [w2 [y|]]; [|discriminate]. injection E as _ <-. reflexivity.
Qed.

Lemma add_eff_normal k t pos e x w w' n : normal k t ->
  add_eff mg t pos k e x w = (w', Some n) -> normal k n.
Proof.
  intros N E. apply (add_eff_shape (fun a _ => a)) in E.
  apply (shape_normal k (add (fun a _ => a) t pos k e x)); [symmetry; exact E|apply add_normal, N].
Qed.
Lemma add_eff_mem k t pos e x w w' n y :
  add_eff mg t pos k e x w = (w', Some n) -> mem k n y = (mem k t y || agree k e pos y)%bool.
Proof.
  intros E. apply (add_eff_shape (fun a _ => a)) in E. rewrite (shape_mem k _ _ y E). apply add_mem.
Qed.

End Callback.

(** ** A merge without effects: the earlier model *)

Lemma add_eff_pure {V St} (m : V -> V -> V) k : forall t pos e x (w : world V St),
  add_eff (fun w a b => (w, Some (m a b))) t pos k e x w = (w, Some (add m t pos k e x)).
Proof.
  induction k as [|k IH]; intros t pos e x w;
    (destruct (is_all t) eqn:T; [destruct t; try discriminate; rewrite add_eff_all, add_all; reflexivity|]).
  - rewrite add_eff_top, add_top by (auto; lia). reflexivity.
  - destruct (N.le_gt_cases (N.of_nat (S k)) e) as [L|L]; [rewrite add_eff_top, add_top by auto; reflexivity|].
    rewrite add_eff_step, add_step by (auto; lia). cbv zeta.
    destruct (N.testbit pos (N.of_nat k)); rewrite IH; unfold fork_eff, fork.
    + destruct (left t); try reflexivity. destruct (add m (right t) pos k e x); reflexivity.
    + destruct (add m (left t) pos k e x); try reflexivity. destruct (right t); reflexivity.
Qed.

(** ** The chain of merges *)

Section Climb.
Context {V X : Type} (f : X -> V -> V -> X * option V).
Implicit Types F G B : blocks V.

(** Merge x, the value of the prefix u/p, with the other halves found in F. *)
Fixpoint climb (n : nat) (s : X) F (u p : N) (x : V) : X * option (N * V) :=
  match n with
  | O => (s, Some (p, x))
  | S n' =>
      let l := base u (p - 1) in
      let low := base u p =? l in
      match F (if low then l + size p else l) p with
      | None => (s, Some (p, x))
      | Some y =>
          let (s', o) := if low then f s x y else f s y x in
          match o with
          | None => (s', None)
          | Some z => climb n' s' F u (p - 1) z
          end
      end
  end.

Lemma climb_ext n : forall s F G u p x, eqv F G -> climb n s F u p x = climb n s G u p x.
Proof.
  induction n as [|n IH]; intros s F G u p x E; [reflexivity|]. cbn [climb]. cbv zeta. rewrite E.
  destruct (G _ p); [|reflexivity].
  destruct (if base u p =? base u (p - 1) then _ else _) as [s' [z|]]; [apply IH, E|reflexivity].
Qed.

Lemma climb_base n : forall s F u q p x, p <= q <= 32 -> climb n s F (base u q) p x = climb n s F u p x.
Proof.
  induction n as [|n IH]; intros s F u q p x H; [reflexivity|]. cbn [climb]. cbv zeta.
  rewrite !base_base by lia. destruct (F _ p); [|reflexivity].
  destruct (if base u p =? base u (p - 1) then _ else _) as [s' [z|]]; [apply IH; lia|reflexivity].
Qed.

Lemma climb_range n : forall s F u p x s' q z, N.of_nat n <= p ->
  climb n s F u p x = (s', Some (q, z)) -> p - N.of_nat n <= q <= p.
Proof.
  induction n as [|n IH]; intros s F u p x s' q z H; cbn [climb]; cbv zeta.
  - intros E. injection E as _ <- _. lia.
  - destruct (F _ p); [|intros E; injection E as _ <- _; lia].
    destruct (if base u p =? base u (p - 1) then _ else _) as [s1 [y|]]; [|discriminate].
    intros E. apply IH in E; lia.
Qed.

Lemma climb_snoc n : forall s F u p x, N.of_nat n <= p ->
  climb (S n) s F u p x =
  match climb n s F u p x with
  | (s', Some (q, z)) => if q =? p - N.of_nat n then climb 1 s' F u q z else (s', Some (q, z))
  | (s', None) => (s', None)
  end.
Proof.
  induction n as [|n IH]; intros s F u p x H.
  - change (N.of_nat 0) with 0. rewrite N.sub_0_r. cbn [climb]. rewrite N.eqb_refl. reflexivity.
  - remember (S n) as m. cbn [climb]. cbv zeta. subst m.
    change (climb (S n) s F u p x) with
      (let l := base u (p - 1) in
       let low := base u p =? l in
       match F (if low then l + size p else l) p with
       | None => (s, Some (p, x))
       | Some y => let (s', o) := if low then f s x y else f s y x in
                   match o with None => (s', None) | Some z => climb n s' F u (p - 1) z end
       end). cbv zeta.
    destruct (F _ p).
    + destruct (if base u p =? base u (p - 1) then _ else _) as [s1 [z|]]; [|reflexivity].
      rewrite IH by lia. replace (p - 1 - N.of_nat n) with (p - N.of_nat (S n)) by lia. reflexivity.
    + destruct (N.eqb_spec p (p - N.of_nat (S n))); [lia|reflexivity].
Qed.

Lemma base_half u p : 0 < p -> p <= 32 -> base u p = base u (p - 1) \/ base u p = base u (p - 1) + size p.
Proof.
  intros H L. pose proof (base_below u (p - 1)) as A. rewrite size_step in A by lia.
  pose proof (base_aligned u (p - 1)) as M. apply (aligned_anti _ p) in M; [|lia]. pose proof (size_pos p).
  destruct (N.lt_ge_cases u (base u (p - 1) + size p)) as [C|C].
  - left. apply base_is; [exact M|lia].
  - right. apply base_is; [|lia]. replace (base u (p - 1) + size p) with (base u (p - 1) + 1 * size p) by lia.
    rewrite N.mod_add by lia. exact M.
Qed.

Lemma climb_local n : forall s F G u p x b k, (k <= 32)%nat -> b mod 2 ^ N.of_nat k = 0 ->
  b <= u < b + 2 ^ N.of_nat k -> N.of_nat n + pre k <= p -> p <= 32 ->
  (forall u' q', b <= u' < b + 2 ^ N.of_nat k -> F u' q' = G u' q') -> climb n s F u p x = climb n s G u p x.
Proof.
  induction n as [|n IH]; intros s F G u p x b k Hk E Hu Hn Hp H; [reflexivity|]. cbn [climb]. cbv zeta.
  assert (S0 : size (pre k) = 2 ^ N.of_nat k) by (apply size_pre, Hk).
  pose proof (base_nested u (pre k) (p - 1) b ltac:(lia)) as Nest. rewrite S0 in Nest.
  specialize (Nest E Hu). rewrite (size_step p) in Nest by lia. pose proof (size_pos p).
  rewrite H by (destruct (base u p =? base u (p - 1)); lia).
  destruct (G _ p); [|reflexivity].
  destruct (if base u p =? base u (p - 1) then _ else _) as [s1 [z|]]; [|reflexivity].
  apply (IH _ F G u (p - 1) z b k); auto; lia.
Qed.

(** ** The reference in terms of the chain *)

Definition agree_opt (a b : X * option (blocks V)) : Prop :=
  fst a = fst b /\ match snd a, snd b with
                   | Some B1, Some B2 => eqv B1 B2
                   | None, None => True
                   | _, _ => False
                   end.
Lemma agree_opt_trans a b c : agree_opt a b -> agree_opt b c -> agree_opt a c.
Proof.
  intros [E1 H1] [E2 H2]. split; [congruence|]. destruct (snd a), (snd b), (snd c); try contradiction; auto.
  intros u q. rewrite H1. apply H2.
Qed.

Lemma join_eff_ext n : forall s B1 B2 u p, eqv B1 B2 -> agree_opt (join_eff f n s B1 u p) (join_eff f n s B2 u p).
Proof.
  induction n as [|n IH]; intros s B1 B2 u p H; cbn [join_eff]; [split; [reflexivity|exact H]|]. cbv zeta.
  rewrite <- !H. destruct (B1 (base u (p - 1)) p); [|split; [reflexivity|exact H]].
  destruct (B1 (base u (p - 1) + size p) p); [|split; [reflexivity|exact H]].
  destruct (f s v v0) as [s' [z|]]; [apply IH, place_ext, H|split; [reflexivity|exact I]].
Qed.

Lemma place_place B u p x q z : q <= p -> p <= 32 -> eqv (place (place B u p x) u q z) (place B u q z).
Proof.
  intros H Hp u' q'. unfold place at 1 3. destruct ((q <=? q') && (base u' q =? base u q))%bool eqn:C; [reflexivity|].
  unfold place. destruct (N.leb_spec p q') as [L|L]; [|reflexivity].
  destruct (N.eqb_spec (base u' p) (base u p)) as [X0|X0]; [|reflexivity]. exfalso.
  rewrite (proj2 (N.leb_le q q')) in C by lia. cbn [andb] in C. apply N.eqb_neq in C. apply C.
  rewrite <- (base_base u' q p), <- (base_base u q p) by lia. congruence.
Qed.
Lemma place_base B u p q z : q <= p -> p <= 32 -> eqv (place B (base u p) q z) (place B u q z).
Proof. intros H Hp u' q'. unfold place. rewrite base_base by lia. reflexivity. Qed.

Lemma place_other B u p x b : base b p = b -> b <> base u p -> place B u p x b p = B b p.
Proof.
  intros Hb N0. unfold place. rewrite Hb. destruct (N.eqb_spec b (base u p)); [contradiction|].
  rewrite Bool.andb_false_r. reflexivity.
Qed.

Lemma join_climb n : forall s B u p x, N.of_nat n <= p -> p <= 32 ->
  agree_opt (join_eff f n s (place B u p x) u p)
    (match climb n s B u p x with (s', Some (q, z)) => (s', Some (place B u q z)) | (s', None) => (s', None) end).
Proof.
  induction n as [|n IH]; intros s B u p x Hn Hp; cbn [join_eff climb]; cbv zeta.
  - split; [reflexivity|]. intros u' q'. reflexivity.
  - pose proof (base_half u p ltac:(lia) Hp) as HB. pose proof (size_pos p) as SP.
    pose proof (place_at B u p x) as Own.
    assert (Al : base (base u (p - 1)) p = base u (p - 1)).
    { apply base_self, (aligned_anti (p - 1)); [lia|apply base_aligned]. }
    assert (Ar : base (base u (p - 1) + size p) p = base u (p - 1) + size p).
    { apply base_self. replace (base u (p - 1) + size p) with (base u (p - 1) + 1 * size p) by lia.
      rewrite N.mod_add by lia. apply (aligned_anti (p - 1)); [lia|apply base_aligned]. }
    assert (Rec : forall s1 z, agree_opt (join_eff f n s1 (place (place B u p x) (base u (p - 1)) (p - 1) z) (base u (p - 1)) (p - 1))
        (match climb n s1 B u (p - 1) z with (s', Some (q, z)) => (s', Some (place B u q z)) | (s', None) => (s', None) end)).
    { intros s1 z.
      assert (Eq1 : eqv (place (place B u p x) (base u (p - 1)) (p - 1) z) (place B (base u (p - 1)) (p - 1) z)).
      { intros u' q'. rewrite place_base by lia. rewrite place_place by lia. symmetry. apply place_base; lia. }
      eapply agree_opt_trans; [apply join_eff_ext, Eq1|]. eapply agree_opt_trans; [apply IH; lia|].
      rewrite climb_base by lia. destruct (climb n s1 B u (p - 1) z) as [s' [[q y]|]] eqn:C; [|split; reflexivity].
      apply climb_range in C; [|lia]. split; [reflexivity|]. cbn [snd]. apply place_base; lia. }
    destruct HB as [HB|HB].
    + rewrite (proj2 (N.eqb_eq _ _) HB). rewrite HB in Own. rewrite Own.
      rewrite (place_other B u p x (base u (p - 1) + size p) Ar) by lia.
      destruct (B (base u (p - 1) + size p) p) as [y|]; [|split; [reflexivity|intros u' q'; reflexivity]].
      destruct (f s x y) as [s' [z|]]; [apply Rec|split; [reflexivity|exact I]].
    + assert (Hne : (base u p =? base u (p - 1)) = false) by (apply N.eqb_neq; lia). rewrite Hne.
      rewrite HB in Own. rewrite Own.
      rewrite (place_other B u p x (base u (p - 1)) Al) by lia.
      destruct (B (base u (p - 1)) p) as [y|]; [|split; [reflexivity|intros u' q'; reflexivity]].
      destruct (f s y x) as [s' [z|]]; [apply Rec|split; [reflexivity|exact I]].
Qed.

End Climb.

Lemma climb_outside {V St} (f : St -> V -> V -> St * option V) n : forall (w : world V St) F u p x,
  climb (outside f) n w F u p x = let (s', o) := climb f n (snd w) F u p x in ((fst w, s'), o).
Proof.
  induction n as [|n IH]; intros w F u p x; cbn [climb]; [destruct w; reflexivity|]. cbv zeta.
  destruct (F _ p) as [y|]; [|destruct w; reflexivity]. unfold outside at 1 2.
  destruct (base u p =? base u (p - 1)).
  - destruct (f (snd w) x y) as [s' [z|]]; [rewrite IH; reflexivity|reflexivity].
  - destruct (f (snd w) y x) as [s' [z|]]; [rewrite IH; reflexivity|reflexivity].
Qed.

(** ** add_eff is the chain *)

Section Graft.
Context {V : Type}.
Implicit Types t l r n : node V.

(** t with the block of height m at pos replaced by one value. *)
Fixpoint graft (k : nat) t (pos m : N) (z : V) : node V :=
  if N.of_nat k <=? m then NAll z
  else match k with
       | O => NAll z
       | S k' => if N.testbit pos (N.of_nat k')
                 then NTree (left t) (graft k' (right t) pos m z)
                 else NTree (graft k' (left t) pos m z) (right t)
       end.
Lemma graft_top k t pos m z : N.of_nat k <= m -> graft k t pos m z = NAll z.
Proof. intros H. apply N.leb_le in H. destruct k; cbn [graft]; rewrite H; reflexivity. Qed.
Lemma graft_step k t pos m z : m <= N.of_nat k -> graft (S k) t pos m z =
  if N.testbit pos (N.of_nat k)
  then NTree (left t) (graft k (right t) pos m z) else NTree (graft k (left t) pos m z) (right t).
Proof. intros H. cbn [graft]. rewrite (proj2 (N.leb_gt _ _)) by lia. reflexivity. Qed.
Lemma graft_not_all k t pos m z : m < N.of_nat k -> is_all (graft k t pos m z) = false.
Proof.
  intros H. destruct k as [|k]; [lia|]. rewrite graft_step by lia. destruct (N.testbit _ _); reflexivity.
Qed.

(** Descending into the half of pos. *)
Lemma covered_down k t p pos e (b : bool) : (S k <= 32)%nat -> is_all t = false -> p mod 2 ^ N.of_nat (S k) = 0 ->
  p <= pos < p + 2 ^ N.of_nat (S k) -> (e <= k)%nat -> b = (p + 2 ^ N.of_nat k <=? pos) ->
  let s := if b then p + 2 ^ N.of_nat k else p in
  let c := if b then right t else left t in
  s mod 2 ^ N.of_nat k = 0 /\ s <= pos < s + 2 ^ N.of_nat k
  /\ (forall u q, s <= u < s + 2 ^ N.of_nat k -> look (S k) t p u q = look k c s u q)
  /\ covered (look (S k) t p) pos (pre e) = covered (look k c s) pos (pre e).
Proof.
  intros Hk A E Hpos He Eb s c.
  destruct (half_aligned k p E) as [E1 E2]. pose proof (pw_S k) as PS. pose proof (pw_pos k) as PP.
  assert (Es : s mod 2 ^ N.of_nat k = 0) by (unfold s; destruct b; auto).
  assert (Hs : s <= pos < s + 2 ^ N.of_nat k).
  { unfold s. rewrite Eb. destruct (N.leb_spec (p + 2 ^ N.of_nat k) pos); lia. }
  clear Eb.
  assert (Sk : size (pre k) = 2 ^ N.of_nat k) by (apply size_pre; lia).
  assert (Fs : forall u q, s <= u < s + 2 ^ N.of_nat k -> look (S k) t p u q = look k c s u q).
  { intros u q Hu. rewrite look_children by exact A. unfold c, s in *.
    destruct b; destruct (N.leb_spec (p + 2 ^ N.of_nat k) u); try reflexivity; lia. }
  split; [exact Es|]. split; [exact Hs|]. split; [exact Fs|].
  apply Bool.eq_true_iff_eq. rewrite !covered_spec.
  assert (Q : forall q, q <= pre e -> look (S k) t p (base pos q) q = look k c s (base pos q) q).
  { intros q Hq. destruct (N.le_gt_cases (pre k) q) as [G|G].
    - apply Fs. pose proof (base_nested pos (pre k) q s) as BN. rewrite Sk in BN.
      specialize (BN ltac:(unfold pre in *; lia) Es Hs). pose proof (size_pos q). lia.
    - rewrite (look_none k c) by (auto; lia). rewrite look_children by exact A.
      destruct (_ <=? _); apply look_none; auto; lia. }
  split; intros (q & Hq & H); exists q; split; auto; [rewrite <- Q by exact Hq|rewrite Q by exact Hq]; exact H.
Qed.

Lemma look_graft k : forall t p pos m z, (k <= 32)%nat -> normal k t -> p mod 2 ^ N.of_nat k = 0 ->
  p <= pos < p + 2 ^ N.of_nat k -> (m <= k)%nat -> covered (look k t p) pos (pre m) = false ->
  eqv (look k (graft k t pos (N.of_nat m) z) p) (place (look k t p) pos (pre m) z).
Proof.
  induction k as [|k IH]; intros t p pos m z Hk N E Hpos Hm C.
  - assert (m = 0%nat) as -> by lia. assert (pos = p) as -> by (change (2 ^ N.of_nat 0) with 1 in *; lia).
    pose proof (add_ins (fun a _ => a) 0 t p p 0 z Hk N E Hpos (le_n _)) as A. unfold ins in A. rewrite C in A.
    rewrite graft_top by lia. destruct (is_all t) eqn:T.
    { exfalso. apply Bool.not_true_iff_false in C. apply C, covered_spec. exists (pre 0). split; [lia|].
      destruct t; try discriminate. rewrite base_self by (rewrite size_pre by lia; exact E). cbn [look].
      rewrite !N.eqb_refl. discriminate. }
    rewrite add_top in A by (auto; lia). exact A.
  - destruct (is_all t) eqn:T.
    { exfalso. apply Bool.not_true_iff_false in C. apply C, covered_spec. exists (pre (S k)). split; [unfold pre; lia|].
      destruct t; try discriminate. rewrite (base_is pos (pre (S k)) p) by (rewrite size_pre by lia; assumption).
      cbn [look]. rewrite !N.eqb_refl. discriminate. }
    destruct (Nat.eq_dec m (S k)) as [->|Hne].
    { pose proof (add_ins (fun a _ => a) (S k) t p pos (S k) z Hk N E Hpos (le_n _)) as A. unfold ins in A.
      rewrite C, Nat.sub_diag in A. rewrite add_top in A by (auto; lia). rewrite graft_top by lia. exact A. }
    assert (Hm' : (m <= k)%nat) by lia.
    destruct (covered_down k t p pos m _ Hk T E Hpos Hm' eq_refl) as (Es & Hs & Fs & Cov).
    destruct (normal_children k t N) as [Nl Nr]. rewrite Cov in C. clear Cov.
    rewrite graft_step by lia. rewrite (bit_half k p pos E Hpos).
    pose proof (pw_S k) as PS. pose proof (pw_pos k) as PP.
    assert (Sk : size (pre k) = 2 ^ N.of_nat k) by (apply size_pre; lia).
    assert (Nest : forall s, s mod 2 ^ N.of_nat k = 0 -> s <= pos < s + 2 ^ N.of_nat k ->
                   s <= base pos (pre m) /\ base pos (pre m) + size (pre m) <= s + 2 ^ N.of_nat k).
    { intros s E1 H1. pose proof (base_nested pos (pre k) (pre m) s) as BN. rewrite Sk in BN.
      apply BN; [unfold pre; lia|exact E1|exact H1]. }
    specialize (Nest _ Es Hs).
    destruct (N.leb_spec (p + 2 ^ N.of_nat k) pos) as [L|L]; intros u q; cbn [look].
    + destruct (N.leb_spec (p + 2 ^ N.of_nat k) u) as [L'|L'].
      * rewrite (IH (right t) _ pos m z ltac:(lia) Nr Es Hs Hm' C u q).
        destruct (N.lt_ge_cases u (p + 2 ^ N.of_nat k + 2 ^ N.of_nat k)) as [L2|L2].
        -- unfold place. rewrite Fs by lia. reflexivity.
        -- rewrite !(place_in _ pos (pre m) z u q _ eq_refl) by lia.
           rewrite !look_none; auto; lia.
      * rewrite (place_in _ pos (pre m) z u q _ eq_refl) by lia.
        rewrite look_children by exact T. rewrite (proj2 (N.leb_gt _ _)) by lia. reflexivity.
    + destruct (N.leb_spec (p + 2 ^ N.of_nat k) u) as [L'|L'].
      * rewrite (place_in _ pos (pre m) z u q _ eq_refl) by lia.
        rewrite look_children by exact T. rewrite (proj2 (N.leb_le _ _)) by lia. reflexivity.
      * rewrite (IH (left t) _ pos m z ltac:(lia) Nl Es Hs Hm' C u q).
        destruct (N.lt_ge_cases u p) as [L2|L2].
        -- rewrite !(place_in _ pos (pre m) z u q _ eq_refl) by lia.
           rewrite !look_none; auto; lia.
        -- unfold place. rewrite Fs by lia. reflexivity.
Qed.

Context {St : Type} (mg : callback V St).

Lemma add_eff_climb k : forall t p pos e v w, (k <= 32)%nat -> normal k t -> p mod 2 ^ N.of_nat k = 0 ->
  p <= pos < p + 2 ^ N.of_nat k -> (e <= k)%nat ->
  add_eff mg t pos k (N.of_nat e) v w =
  if covered (look k t p) pos (pre e) then (w, Some t)
  else match climb mg (k - e) w (look k t p) pos (pre e) v with
       | (w', Some (q, z)) => (w', Some (graft k t pos (32 - q) z))
       | (w', None) => (w', None)
       end.
Proof.
  induction k as [|k IH]; intros t p pos e v w Hk N E Hpos He.
  - assert (e = 0%nat) as -> by lia. destruct (is_all t) eqn:T.
    + destruct t; try discriminate. rewrite add_eff_all. replace (covered _ _ _) with true; [reflexivity|].
      symmetry. apply covered_spec. exists (pre 0). split; [lia|].
      rewrite (base_is pos (pre 0) p) by (rewrite size_pre by lia; assumption). cbn [look]. rewrite !N.eqb_refl. discriminate.
    + rewrite add_eff_top by (auto; lia). destruct t; try discriminate; [|destruct N].
      assert (C : covered (look 0 (@NNone V) p) pos (pre 0) = false).
      { apply Bool.not_true_is_false. rewrite covered_spec. intros (q & _ & H). apply H. reflexivity. }
      rewrite C.
      cbn [climb Nat.sub]. rewrite graft_top by (unfold pre; lia). reflexivity.
  - destruct (is_all t) eqn:T.
    { destruct t; try discriminate. rewrite add_eff_all. replace (covered _ _ _) with true; [reflexivity|].
      symmetry. apply covered_spec. exists (pre (S k)). split; [unfold pre; lia|].
      rewrite (base_is pos (pre (S k)) p) by (rewrite size_pre by lia; assumption). cbn [look]. rewrite !N.eqb_refl. discriminate. }
    destruct (Nat.eq_dec e (S k)) as [->|Hne].
    { rewrite add_eff_top by (auto; lia). rewrite Nat.sub_diag. cbn [climb].
      replace (covered _ _ _) with false; [rewrite graft_top by (unfold pre; lia); reflexivity|].
      symmetry. apply Bool.not_true_is_false. rewrite covered_spec. intros (q & Hq & H).
      destruct (look (S k) t p (base pos q) q) eqn:L; [|contradiction].
      apply look_In in L; auto. pose proof (lst_entry _ _ _ _ _ _ Hk E L).
      assert (q = pre (S k)) as -> by lia. apply lst_top in L; auto. destruct L as [-> _]. discriminate. }
    assert (He' : (e <= k)%nat) by lia.
    destruct (covered_down k t p pos e _ Hk T E Hpos He' eq_refl) as (Es & Hs & Fs & Cov).
    destruct (normal_children k t N) as [Nl Nr].
    rewrite add_eff_step by (auto; lia). cbv zeta. rewrite (bit_half k p pos E Hpos).
    set (b := p + 2 ^ N.of_nat k <=? pos) in *.
    set (s := if b then p + 2 ^ N.of_nat k else p) in *. set (c := if b then right t else left t) in *.
    assert (Nc : normal k c) by (unfold c; destruct b; auto).
    rewrite (IH c s pos e v w ltac:(lia) Nc Es Hs He'). rewrite Cov.
    destruct (covered (look k c s) pos (pre e)) eqn:Cv.
    { assert (NA : (is_all (left t) && is_all (right t))%bool = false /\ t <> NNone).
      { destruct t as [|x|l r]; [|discriminate|split; [apply N|discriminate]]. exfalso.
        apply covered_spec in Cv. destruct Cv as (q & _ & H). apply H. unfold c. destruct b; reflexivity. }
      destruct NA as [NA NN]. unfold fork_eff, c.
      destruct t as [|x|l r]; [contradiction|discriminate|]. cbn [left right] in *.
      destruct b, l, r; try reflexivity; discriminate. }
    assert (Loc : climb mg (k - e) w (look k c s) pos (pre e) v = climb mg (k - e) w (look (S k) t p) pos (pre e) v).
    { symmetry. apply (climb_local mg (k - e) w _ _ pos (pre e) v s k); auto; unfold pre; lia. }
    rewrite Loc. replace (S k - e)%nat with (S (k - e)) by lia.
    rewrite (climb_snoc mg (k - e)) by (unfold pre; lia).
    destruct (climb mg (k - e) w (look (S k) t p) pos (pre e) v) as [w1 [[q z]|]] eqn:Cl; [|reflexivity].
    apply climb_range in Cl; [|unfold pre; lia].
    replace (pre e - N.of_nat (k - e)) with (pre k) in * by (unfold pre; lia).
    pose proof (pw_S k) as PS. pose proof (pw_pos k) as PP.
    assert (Sk : size (pre k) = 2 ^ N.of_nat k) by (apply size_pre; lia).
    assert (Bs : base pos (pre k) = s) by (apply base_is; rewrite Sk; auto).
    assert (Bp : base pos (pre k - 1) = p).
    { replace (pre k - 1) with (pre (S k)) by (unfold pre; lia). apply base_is; rewrite size_pre by lia; assumption. }
    destruct (N.eqb_spec q (pre k)) as [->|Hq].
    + rewrite graft_top by (unfold pre; lia). cbn [climb]. cbv zeta. rewrite Bs, Bp, Sk.
      destruct (half_aligned k p E) as [E1 E2].
      assert (Sib : look (S k) t p (if s =? p then p + 2 ^ N.of_nat k else p) (pre k)
                    = match (if b then left t else right t) with NAll y => Some y | _ => None end).
      { unfold s. destruct b.
        - rewrite (proj2 (N.eqb_neq (p + 2 ^ N.of_nat k) p)) by lia. rewrite look_children by exact T.
          rewrite (proj2 (N.leb_gt _ _)) by lia.
          destruct (look k (left t) p p (pre k)) eqn:Lk.
          + apply look_top in Lk; auto; [|lia]. rewrite Lk. reflexivity.
          + destruct (left t); try reflexivity. cbn [look] in Lk. rewrite !N.eqb_refl in Lk. discriminate.
        - rewrite N.eqb_refl. rewrite look_children by exact T. rewrite N.leb_refl.
          destruct (look k (right t) (p + 2 ^ N.of_nat k) (p + 2 ^ N.of_nat k) (pre k)) eqn:Lk.
          + apply look_top in Lk; auto; [|lia]. rewrite Lk. reflexivity.
          + destruct (right t); try reflexivity. cbn [look] in Lk. rewrite !N.eqb_refl in Lk. discriminate. }
      rewrite Sib. clear Sib.
      assert (Gt : graft (S k) t pos (32 - pre k) z = if b then NTree (left t) (NAll z) else NTree (NAll z) (right t)).
      { rewrite graft_step by (unfold pre; lia). rewrite (bit_half k p pos E Hpos). fold b.
        rewrite !graft_top by (unfold pre; lia). reflexivity. }
      unfold s, fork_eff. destruct b.
      * rewrite (proj2 (N.eqb_neq (p + 2 ^ N.of_nat k) p)) by lia.
        destruct (left t) as [|y|] eqn:Lt; rewrite ?Gt; try reflexivity.
        destruct (mg w1 y z) as [w2 [y2|]]; [|reflexivity]. rewrite graft_top by (unfold pre; lia). reflexivity.
      * rewrite N.eqb_refl. destruct (right t) as [|y|] eqn:Rt; rewrite ?Gt; try reflexivity.
        destruct (mg w1 z y) as [w2 [y2|]]; [|reflexivity]. rewrite graft_top by (unfold pre; lia). reflexivity.
    + assert (NA : is_all (graft k c pos (32 - q) z) = false) by (apply graft_not_all; unfold pre in *; lia).
      rewrite graft_step by (unfold pre in *; lia). rewrite (bit_half k p pos E Hpos). fold b.
      unfold fork_eff, c in *. destruct b.
      * destruct (left t), (graft k (right t) pos (32 - q) z); try reflexivity; discriminate.
      * destruct (graft k (left t) pos (32 - q) z); try reflexivity; discriminate.
Qed.

End Graft.

(** ** Calls as sequences of prefixes, for any merge *)

Section Calls.
Context {V St : Type} (mg : callback V St).
Implicit Types w : world V St.

Fixpoint prefixes_eff w (L : list (N * N)) (v : V) : ending (world V St) :=
  match L with
  | [] => Returned w
  | (u, p) :: L' => match set_root mg w u (32 - p) v with
                    | Returned w' => prefixes_eff w' L' v
                    | stop => stop
                    end
  end.
Lemma set_root_stops w u e v : set_root mg w u e v <> Running.
Proof. unfold set_root. destruct (add_eff mg (fst w) u 32 e v w) as [w' [n|]]; discriminate. Qed.
Lemma prefixes_stop v L : forall w, prefixes_eff w L v <> Running.
Proof.
  induction L as [|[u p] L IH]; intros w; cbn [prefixes_eff]; [discriminate|].
  destruct (set_root mg w u (32 - p) v) eqn:E; [apply IH|discriminate|]. exfalso. exact (set_root_stops _ _ _ _ E).
Qed.

Lemma round_eff fuel w u last v : u < 2 ^ 32 -> u <= last ->
  exists j, largest u last j /\
    range_loop_eff (S fuel) mg w u last v
    = match set_root mg w u (N.of_nat j) v with
      | Returned w' => range_loop_eff fuel mg w' ((u + 2 ^ N.of_nat j) mod 2 ^ 32) last v
      | stop => stop
      end.
Proof.
  intros Hu Hl. destruct (low_mask_spec u Hu) as (z & Hz & M & A & N1).
  destruct (shrink_spec u last Hu Hl z 33 Hz ltac:(lia) A) as (j & J & E).
  { intros L [F _]. apply (N1 L F). }
  exists j. split; [exact J|]. cbn [range_loop_eff]. rewrite (proj2 (N.leb_le _ _) Hl).
  fold (low_mask u). rewrite M, E. cbn [bind]. rewrite bit_len_ones by apply J. cbn [bind].
  destruct (set_root mg w u (N.of_nat j) v); try reflexivity. f_equal.
  unfold add32, u32. rewrite ones_pw. pose proof (pw_pos j). replace (2 ^ N.of_nat j - 1 + 1) with (2 ^ N.of_nat j) by lia.
  rewrite N.add_mod_idemp_r by discriminate. reflexivity.
Qed.

Lemma range_loop_eff_ok last v : last < 2 ^ 32 - 1 -> forall n fuel w u, (n <= fuel)%nat ->
  (N.to_nat (last + 1 - u) <= n)%nat ->
  range_loop_eff fuel mg w u last v = prefixes_eff w (range_prefixes n u last) v.
Proof.
  intros Hl. induction n as [|n IH]; intros fuel w u Hf Hn.
  - cbn [range_prefixes]. destruct fuel; cbn [range_loop_eff];
    rewrite (proj2 (N.leb_gt u last)) by lia; reflexivity.
  - cbn [range_prefixes]. destruct (N.leb_spec u last) as [L|L].
    + assert (Hu : u < 2 ^ 32) by lia. destruct fuel as [|fuel]; [lia|].
      destruct (round_eff fuel w u last v Hu L) as (j & J & ->). rewrite (biggest_largest u last j L J).
      assert (Hj : (j <= 32)%nat) by apply J. rewrite size_pre by exact Hj. pose proof (pw_pos j).
      destruct J as (_ & (A & F) & _). cbn [prefixes_eff].
      replace (32 - pre j) with (N.of_nat j) by (unfold pre; lia).
      destruct (set_root mg w u (N.of_nat j) v); try reflexivity.
      rewrite N.mod_small by lia. apply IH; lia.
    + destruct fuel; cbn [range_loop_eff]; rewrite (proj2 (N.leb_gt u last)) by lia; reflexivity.
Qed.

Lemma apply_eff_prefixes (c : tree_call V) L : proper c -> call_prefixes c L -> exists k,
  forall fuel w, (k <= fuel)%nat -> apply_eff fuel mg w c = prefixes_eff w L (call_value c).
Proof.
  destruct c as [ip v|s e v|[n|] v]; cbn [proper call_prefixes call_value].
  - intros _ (u & U & ->). exists O. intros fuel w _. cbn [apply_eff prefixes_eff]. unfold AddIp_eff.
    rewrite (ToUint_addr ip u U). change (32 - 32) with 0. destruct (set_root mg w u 0 v); reflexivity.
  - intros (a' & b' & A' & B' & Hb) (a & b & A & B & ->). rewrite (is_addr_fun _ _ _ B' B) in Hb.
    exists (N.to_nat (b + 1 - a)). intros fuel w Hf. cbn [apply_eff]. unfold AddRange_eff.
    rewrite (ToUint_addr s a A), (ToUint_addr e b B). cbn [bind]. apply range_loop_eff_ok; [exact Hb|exact Hf|lia].
  - intros _ (u & p & C & ->). exists O. intros fuel w _. cbn [apply_eff prefixes_eff]. unfold AddCidr_eff.
    destruct C as (A & Hp & M). rewrite (ToUint_addr _ u A), M, MaskToByte_From by exact Hp.
    rewrite sub8_32 by exact Hp. destruct (set_root mg w u (32 - p) v); reflexivity.
  - contradiction.
Qed.

(** A call either adds all its prefixes or panics with some first part added. *)
Lemma set_root_normal w u e v w' : normal 32 (fst w) -> set_root mg w u e v = Returned w' -> normal 32 (fst w').
Proof.
  intros N. unfold set_root. destruct (add_eff mg (fst w) u 32 e v w) as [w1 [n|]] eqn:E; [|discriminate].
  intros Q. injection Q as <-. cbn [fst]. apply (add_eff_normal mg 32 _ _ _ _ _ _ _ N E).
Qed.
Lemma set_root_mem w u p v w' x : u < 2 ^ 32 -> p <= 32 -> x < 2 ^ 32 -> set_root mg w u (32 - p) v = Returned w' ->
  mem 32 (fst w') x = true <-> mem 32 (fst w) x = true \/ in_net u p x.
Proof.
  intros Hu Hp Hx. unfold set_root. destruct (add_eff mg (fst w) u 32 (32 - p) v w) as [w1 [n|]] eqn:E; [|discriminate].
  intros Q. injection Q as <-. cbn [fst]. rewrite (add_eff_mem mg 32 _ _ _ _ _ _ _ x E), Bool.orb_true_iff.
  rewrite agree_in_net by assumption. reflexivity.
Qed.
Lemma prefixes_eff_normal L v : forall w w', normal 32 (fst w) -> prefixes_eff w L v = Returned w' -> normal 32 (fst w').
Proof.
  induction L as [|[u p] L IH]; intros w w' N; cbn [prefixes_eff]; [intros E; injection E as <-; exact N|].
  destruct (set_root mg w u (32 - p) v) as [w1|w1|] eqn:E; try discriminate.
  apply IH, (set_root_normal _ _ _ _ _ N E).
Qed.
Lemma prefixes_eff_mem L v x : x < 2 ^ 32 -> Forall prefix_ok L -> forall w w', prefixes_eff w L v = Returned w' ->
  mem 32 (fst w') x = true <-> mem 32 (fst w) x = true \/ covered_by L x.
Proof.
  intros Hx. induction L as [|[u p] L IH]; intros Ok w w'; cbn [prefixes_eff].
  - intros E. injection E as <-. split; [auto|]. intros [H|(? & ? & [] & _)]. exact H.
  - destruct (set_root mg w u (32 - p) v) as [w1|w1|] eqn:E; try discriminate. intros Q.
    inversion Ok as [|? ? [Hu Hp] Ok']; subst. cbn [fst snd] in Hu, Hp.
    rewrite (IH Ok' w1 w' Q), (set_root_mem w u p v w1 x Hu Hp Hx E). split.
    + intros [[H|H]|(u' & p' & I0 & C)]; [auto| |]; right.
      * exists u, p. split; [left; reflexivity|exact H].
      * exists u', p'. split; [right; exact I0|exact C].
    + intros [H|(u' & p' & [I0|I0] & C)]; [auto| |].
      * injection I0 as <- <-. auto.
      * right. exists u', p'. auto.
Qed.

End Calls.

(** ** Refinement *)

Section Refine.
Context {V St : Type} (f : St -> V -> V -> St * option V).
Notation mg := (outside f).

Lemma set_root_ref (w : world V St) B u p v : normal 32 (fst w) -> u < 2 ^ 32 -> p <= 32 -> eqv (look 32 (fst w) 0) B ->
  match insert_eff f (snd w) B u p v with
  | (s', Some B') => exists n, set_root mg w u (32 - p) v = Returned (n, s') /\ normal 32 n /\ eqv (look 32 n 0) B'
  | (s', None) => set_root mg w u (32 - p) v = Panicked (fst w, s')
  end.
Proof.
  intros N Hu Hp E. set (e := N.to_nat (32 - p)).
  assert (Ee : 32 - p = N.of_nat e) by (unfold e; lia). assert (Pe : pre e = p) by (unfold e, pre; lia).
  assert (He : (e <= 32)%nat) by (unfold e; lia).
  pose proof (add_eff_climb mg 32 (fst w) 0 u e v w (le_n _) N eq_refl) as A.
  specialize (A ltac:(change (2 ^ N.of_nat 32) with (2 ^ 32); lia) He). rewrite Pe in A.
  rewrite (covered_ext _ _ u p E) in A.
  unfold insert_eff, set_root. rewrite Ee. destruct (covered B u p) eqn:Cv.
  { rewrite A. exists (fst w). split; [reflexivity|]. split; assumption. }
  rewrite climb_outside, (climb_ext f _ _ _ _ u p v E) in A.
  replace (32 - e)%nat with (N.to_nat p) in A by (unfold e; lia).
  pose proof (join_climb f (N.to_nat p) (snd w) B u p v ltac:(lia) Hp) as [J1 J2].
  destruct (climb f (N.to_nat p) (snd w) B u p v) as [s' [[q z]|]] eqn:Cl;
    destruct (join_eff f (N.to_nat p) (snd w) (place B u p v) u p) as [s2 [B'|]]; cbn [fst snd] in J1, J2; try contradiction;
    subst s2; rewrite A.
  - exists (graft 32 (fst w) u (32 - q) z). split; [reflexivity|].
    split; [apply (add_eff_normal mg 32 _ _ _ _ _ _ _ N A)|].
    apply climb_range in Cl; [|lia]. set (m := N.to_nat (32 - q)).
    replace (32 - q) with (N.of_nat m) by (unfold m; lia).
    assert (Pm : pre m = q) by (unfold m, pre; lia).
    intros u' q'. rewrite (look_graft 32 (fst w) 0 u m z (le_n _) N eq_refl).
    + rewrite Pm, J2. apply place_ext, E.
    + change (2 ^ N.of_nat 32) with (2 ^ 32). lia.
    + unfold m. lia.
    + rewrite Pm, (covered_ext _ _ u q E). apply Bool.not_true_is_false. intros C.
      apply Bool.not_true_iff_false in Cv. apply Cv. apply covered_spec in C. destruct C as (q0 & Hq & C).
      apply covered_spec. exists q0. split; [lia|exact C].
  - reflexivity.
Qed.

Lemma prefixes_ref L v : Forall prefix_ok L -> forall (w : world V St) B, normal 32 (fst w) -> eqv (look 32 (fst w) 0) B ->
  exists n s' B' ok, insert_all_eff f (snd w) B L v = (s', B', ok) /\ normal 32 n /\ eqv (look 32 n 0) B'
  /\ prefixes_eff mg w L v = (if ok then Returned (n, s') else Panicked (n, s')).
Proof.
  induction L as [|[u p] L IH]; intros Ok w B N E; cbn [insert_all_eff prefixes_eff].
  - exists (fst w), (snd w), B, true. destruct w. auto.
  - inversion Ok as [|? ? [Hu Hp] Ok']; subst. cbn [fst snd] in Hu, Hp.
    pose proof (set_root_ref w B u p v N Hu Hp E) as R.
    destruct (insert_eff f (snd w) B u p v) as [s1 [B1|]].
    + destruct R as (n1 & R & N1 & E1). rewrite R. apply (IH Ok' (n1, s1) B1 N1 E1).
    + rewrite R. exists (fst w), s1, B, false. auto.
Qed.

Lemma insert_eff_ext s B1 B2 u p v : eqv B1 B2 -> agree_opt (insert_eff f s B1 u p v) (insert_eff f s B2 u p v).
Proof.
  intros H. unfold insert_eff. rewrite (covered_ext _ _ _ _ H).
  destruct (covered B2 u p); [split; [reflexivity|exact H]|]. apply join_eff_ext, place_ext, H.
Qed.

Lemma proper_prefixes (c : tree_call V) : proper c -> exists L, call_prefixes c L /\ Forall prefix_ok L
  /\ forall x, x < 2 ^ 32 -> covered_by L x <-> adds c x.
Proof. intros H. destruct (apply_ok c H) as (L & k & P & Ok & C & _). eauto. Qed.

Theorem run_ref cs : Forall proper cs -> forall (w : world V St) B, normal 32 (fst w) -> eqv (look 32 (fst w) 0) B ->
  exists k n s' B' oks, history_eff f (snd w) B cs oks s' B' /\ normal 32 n /\ eqv (look 32 n 0) B'
  /\ forall fuel, (k <= fuel)%nat -> run_eff fuel mg w cs = Some ((n, s'), oks).
Proof.
  induction 1 as [|c cs Hc Hcs IH]; intros w B N E.
  - exists O, (fst w), (snd w), B, []. split; [constructor|]. split; [exact N|]. split; [exact E|]. destruct w. reflexivity.
  - destruct (proper_prefixes c Hc) as (L & P & Ok & _).
    destruct (apply_eff_prefixes mg c L Hc P) as (k1 & A).
    destruct (prefixes_ref L (call_value c) Ok w B N E) as (n1 & s1 & B1 & ok & I1 & N1 & E1 & R1).
    destruct (IH (n1, s1) B1 N1 E1) as (k2 & n2 & s2 & B2 & oks & H2 & N2 & E2 & R2).
    exists (Nat.max k1 k2), n2, s2, B2, (ok :: oks). split; [econstructor; eassumption|].
    split; [exact N2|]. split; [exact E2|]. intros fuel Hf. cbn [run_eff].
    rewrite A by lia. rewrite R1. destruct ok; rewrite R2 by lia; reflexivity.
Qed.

Lemma history_eff_fun s B cs oks1 s1 B1 oks2 s2 B2 : history_eff f s B cs oks1 s1 B1 -> history_eff f s B cs oks2 s2 B2 ->
  oks1 = oks2 /\ s1 = s2 /\ B1 = B2.
Proof.
  intros H. revert oks2 s2 B2. induction H as [s B|s B c L cs ok oks s1 B1 s2 B2 P E H IH]; intros oks' s' B' H2;
    inversion H2; subst; [auto|].
  match goal with Q : call_prefixes c ?L0 |- _ => rewrite (call_prefixes_fun c L0 L Q P) in * end.
  match goal with Q : insert_all_eff _ _ _ _ _ = (?a, ?b, ?d) |- _ => rewrite E in Q; injection Q as <- <- <- end.
  destruct (IH _ _ _ ltac:(eassumption)) as (-> & -> & ->). auto.
Qed.

Lemma ListCidr_look (n : node V) (s : St) B : normal 32 n -> eqv (look 32 n 0) B ->
  (forall u p v, B u p = Some v -> aligned u p)
  /\ forall c v, In (c, v) (ListCidr_eff (n, s)) <-> exists u p, c = net_of u p /\ B u p = Some v.
Proof.
  intros Nm Eq. set (t := mkTree n (fun a _ : V => a)).
  assert (Q : forall u p v, B u p = Some v <-> In (u, p, v) (entries t)).
  { intros u p v. rewrite <- Eq. apply look_In; [lia|reflexivity]. }
  split; [intros u p v X; apply Q in X; apply (entry_aligned _ _ _ _ X)|].
  intros c v. unfold ListCidr_eff. cbn [fst]. fold t. rewrite ListCidr_entries by exact Nm. rewrite in_map_iff. split.
  - intros ([[u p] v'] & X & I0). injection X as <- <-. exists u, p. split; [reflexivity|]. apply Q, I0.
  - intros (u & p & -> & X). exists (u, p, v). split; [reflexivity|]. apply Q, X.
Qed.

Theorem reference_eff s cs : Forall proper cs -> exists k w oks B,
  (forall fuel, (k <= fuel)%nat -> run_eff fuel mg (NNone, s) cs = Some (w, oks))
  /\ history_eff f s no_blocks cs oks (snd w) B
  /\ (forall u p v, B u p = Some v -> aligned u p)
  /\ forall n v, In (n, v) (ListCidr_eff w) <-> exists u p, n = net_of u p /\ B u p = Some v.
Proof.
  intros H. destruct (run_ref cs H (NNone, s) no_blocks I) as (k & n & s' & B & oks & Hi & N & E & R).
  { intros u q. reflexivity. }
  exists k, (n, s'), oks, B. split; [exact R|]. split; [exact Hi|]. apply (ListCidr_look n s' B N E).
Qed.

End Refine.
