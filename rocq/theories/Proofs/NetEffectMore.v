(** IpTree with a merge function that has effects: panics, number of merge
    calls, changes made to the tree from inside merge. *)
From Verif Require Import Base.Go Base.GoNet Base.NetApi Model.Net Model.NetEffects
  Spec.NetSpec Spec.NetEffectSpec Proofs.Util Proofs.NetBasic Proofs.NetTree Proofs.NetList
  Proofs.NetBlocks Proofs.NetRange Proofs.NetProofs Proofs.NetEffectProofs.
Local Open Scope N_scope.

(** ** Reached trees *)

Section Reached.
Context {V St : Type}.
Implicit Types w : world V St.

Lemma listed_world w x : normal 32 (fst w) -> x < 2 ^ 32 ->
  listed (ListCidr_eff w) x <-> mem 32 (fst w) x = true.
Proof. intros N Hx. apply (listed_mem (mkTree (fst w) (fun a _ => a)) x N Hx). Qed.
Lemma length_world w : normal 32 (fst w) -> length (ListCidr_eff w) = count (fst w).
Proof.
  intros N. unfold ListCidr_eff. rewrite ListCidr_entries by exact N. rewrite map_length.
  apply (lst_length 32 (fst w) 0 N).
Qed.

(** merge keeps trees normal. *)
Definition keeps (mg : callback V St) : Prop :=
  forall w a b, normal 32 (fst w) -> normal 32 (fst (fst (mg w a b))).
Lemma outside_keeps f : keeps (outside f).
Proof. intros w a b N. unfold outside. destruct (f (snd w) a b). exact N. Qed.
Lemma add_eff_keeps mg k : keeps mg -> forall t pos e v w, normal 32 (fst w) ->
  normal 32 (fst (fst (add_eff mg t pos k e v w))).
Proof.
  intros K. induction k as [|k IH]; intros t pos e v w N;
    (destruct (is_all t) eqn:T; [destruct t; try discriminate; rewrite add_eff_all; exact N|]).
  - rewrite add_eff_top by (auto; lia). exact N.
  - destruct (N.le_gt_cases (N.of_nat (S k)) e) as [L|L]; [rewrite add_eff_top by auto; exact N|].
    rewrite add_eff_step by (auto; lia). cbv zeta.
    destruct (N.testbit pos (N.of_nat k)).
    + specialize (IH (right t) pos e v w N). destruct (add_eff mg (right t) pos k e v w) as [w1 [c|]]; [|exact IH].
      unfold fork_eff. cbn [fst] in IH. destruct (left t) as [|x|]; try exact IH. destruct c as [|y|]; try exact IH.
      pose proof (K w1 x y IH). destruct (mg w1 x y) as [w2 [z|]]; assumption.
    + specialize (IH (left t) pos e v w N). destruct (add_eff mg (left t) pos k e v w) as [w1 [c|]]; [|exact IH].
      unfold fork_eff. cbn [fst] in IH. destruct c as [|x|]; try exact IH. destruct (right t) as [|y|]; try exact IH.
      pose proof (K w1 x y IH). destruct (mg w1 x y) as [w2 [z|]]; assumption.
Qed.

Definition after (P : world V St -> Prop) (e : ending (world V St)) : Prop :=
  match e with Returned w | Panicked w => P w | Running => True end.
Lemma set_root_keeps mg w u e v : keeps mg -> normal 32 (fst w) ->
  after (fun w' => normal 32 (fst w')) (set_root mg w u e v).
Proof.
  intros K N. unfold set_root. pose proof (add_eff_keeps mg 32 K (fst w) u e v w N) as A.
  destruct (add_eff mg (fst w) u 32 e v w) as [w' [n|]] eqn:E; cbn [after fst]; [|exact A].
  apply (add_eff_normal mg 32 _ _ _ _ _ _ _ N E).
Qed.
Lemma range_loop_eff_eq fuel (mg : callback V St) w a b v : range_loop_eff fuel mg w a b v =
  if a <=? b then
    match fuel with
    | O => Running
    | S fuel' =>
        match (let! m := shrink 33 a b (N.land (sub32 a 1) (not32 a)) in
               let! bit := bit_len 33 m 0 in Ret (m, bit)) with
        | Ret (m, bit) =>
            match set_root mg w a bit v with
            | Returned w' => range_loop_eff fuel' mg w' (add32 a (add32 m 1)) b v
            | stop => stop
            end
        | Panic => Panicked w
        | OutOfFuel => Running
        end
    end
  else Returned w.
Proof. destruct fuel; reflexivity. Qed.
Lemma range_after (P : world V St -> Prop) mg b v :
  (forall w u e, P w -> after P (set_root mg w u e v)) ->
  forall fuel w a, P w -> after P (range_loop_eff fuel mg w a b v).
Proof.
  intros K. induction fuel as [|fuel IH]; intros w a N; rewrite range_loop_eff_eq; destruct (a <=? b).
  - exact I.
  - exact N.
  - destruct (bind _ _) as [[m bit]| |]; [|exact N|exact I].
    specialize (K w a bit N). destruct (set_root mg w a bit v) as [w1|w1|]; [|exact K|exact I].
    exact (IH _ _ K).
  - exact N.
Qed.
Lemma range_keeps mg b v : keeps mg -> forall fuel w a, normal 32 (fst w) ->
  after (fun w' => normal 32 (fst w')) (range_loop_eff fuel mg w a b v).
Proof.
  intros K. apply (range_after (fun w' => normal 32 (fst w')) mg b v). intros w u e. apply set_root_keeps, K.
Qed.
Lemma apply_keeps mg fuel w c : keeps mg -> normal 32 (fst w) ->
  after (fun w' => normal 32 (fst w')) (apply_eff fuel mg w c).
Proof.
  intros K N. destruct c as [ip v|s e v|[n|] v]; cbn [apply_eff].
  - unfold AddIp_eff. destruct (Ipv4ToUint ip); [apply set_root_keeps; assumption|exact N|exact I].
  - unfold AddRange_eff. destruct (bind _ _) as [[a b]| |]; [apply range_keeps; assumption|exact N|exact I].
  - unfold AddCidr_eff. destruct (Ipv4ToUint (IP n)); [apply set_root_keeps; assumption|exact N|exact I].
  - exact N.
Qed.
Lemma run_after (P : world V St -> Prop) mg fuel : (forall w c, P w -> after P (apply_eff fuel mg w c)) ->
  forall cs w w' oks, P w -> run_eff fuel mg w cs = Some (w', oks) -> P w'.
Proof.
  intros K. induction cs as [|c cs IH]; intros w w' oks N; cbn [run_eff]; [intros E; injection E as <- _; exact N|].
  specialize (K w c N). destruct (apply_eff fuel mg w c) as [w1|w1|]; [| |discriminate];
    (destruct (run_eff fuel mg w1 cs) as [[w2 l]|] eqn:E; [|discriminate]); intros Q; injection Q as <- _;
    exact (IH _ _ _ K E).
Qed.
Lemma run_keeps mg fuel cs : keeps mg -> forall w w' oks, normal 32 (fst w) ->
  run_eff fuel mg w cs = Some (w', oks) -> normal 32 (fst w').
Proof.
  intros K. apply (run_after (fun w => normal 32 (fst w)) mg fuel). intros w c. apply apply_keeps, K.
Qed.
Lemma reached_eff f fuel s cs w oks : run_eff fuel (outside f) (NNone, s) cs = Some (w, oks) -> normal 32 (fst w).
Proof. apply run_keeps; [apply outside_keeps|exact I]. Qed.

(** ** Effect-free merge *)

Definition pure (m : V -> V -> V) : callback V St := fun w a b => (w, Some (m a b)).
Definition lift (t0 : node V) (s : St) (o : outcome (tree V)) : ending (world V St) :=
  match o with Ret t => Returned (root t, s) | Panic => Panicked (t0, s) | OutOfFuel => Running end.
Lemma set_root_pure m n s u e v : set_root (pure m) (n, s) u e v = Returned (add m n u 32 e v, s).
Proof. unfold set_root, pure. cbn [fst]. rewrite add_eff_pure. reflexivity. Qed.
Lemma shrink_np fuel a b : forall m, shrink fuel a b m <> Panic.
Proof. induction fuel as [|fuel IH]; intros m; cbn [shrink]; destruct (_ <? _); try discriminate. apply IH. Qed.
Lemma bit_len_np fuel : forall m b, bit_len fuel m b <> Panic.
Proof. induction fuel as [|fuel IH]; intros m b; cbn [bit_len]; destruct (_ =? _); try discriminate. apply IH. Qed.
Lemma add_root_root (t : tree V) u e v : root (add_root t u e v) = add (merge t) (root t) u 32 e v.
Proof. reflexivity. Qed.
Lemma range_pure b v fuel : forall (t : tree V) s a, 
  range_loop_eff fuel (pure (merge t)) (root t, s) a b v = lift (root t) s (range_loop fuel t a b v).
Proof.
  induction fuel as [|fuel IH]; intros t s a; cbn [range_loop_eff range_loop]; destruct (a <=? b); try reflexivity.
  destruct (shrink 33 a b _) as [m| |]; cbn [bind]; try reflexivity.
  destruct (bit_len 33 m 0) as [bit| |]; cbn [bind]; try reflexivity.
  rewrite set_root_pure. specialize (IH (add_root t a bit v) s (add32 a (add32 m 1))).
  rewrite add_root_merge, add_root_root in IH. rewrite IH. unfold lift.
  destruct (range_loop fuel (add_root t a bit v) _ b v) eqn:E; try reflexivity.
  exfalso. clear - E. revert E. generalize (add_root t a bit v), (add32 a (add32 m 1)). clear.
  induction fuel as [|fuel IH]; intros t a; cbn [range_loop]; destruct (a <=? b); try discriminate.
  pose proof (shrink_np 33 a b (N.land (sub32 a 1) (not32 a))) as P1.
  destruct (shrink 33 a b _) as [m| |]; cbn [bind]; try discriminate; [|contradiction].
  pose proof (bit_len_np 33 m 0) as P2.
  destruct (bit_len 33 m 0) as [bit| |]; cbn [bind]; try discriminate; [|contradiction]. apply IH.
Qed.
Theorem apply_pure fuel (t : tree V) s c :
  apply_eff fuel (pure (merge t)) (root t, s) c = lift (root t) s (apply fuel t c).
Proof.
  destruct c as [ip v|b e v|[n|] v]; cbn [apply_eff apply].
  - unfold AddIp_eff, AddIp. destruct (Ipv4ToUint ip); cbn [bind]; try reflexivity. rewrite set_root_pure.
    cbn [lift]. rewrite add_root_root. reflexivity.
  - unfold AddRange_eff, AddRange. destruct (Ipv4ToUint b); cbn [bind]; try reflexivity.
    destruct (Ipv4ToUint e); cbn [bind]; try reflexivity. apply range_pure.
  - unfold AddCidr_eff, AddCidr. destruct (Ipv4ToUint (IP n)); cbn [bind]; try reflexivity. rewrite set_root_pure.
    cbn [lift]. rewrite add_root_root. reflexivity.
  - reflexivity.
Qed.

(** ** Panics *)

Lemma add_eff_outside f k : forall (t : node V) pos e v w, fst (fst (add_eff (outside f) t pos k e v w)) = fst w.
Proof.
  induction k as [|k IH]; intros t pos e v w;
    (destruct (is_all t) eqn:T; [destruct t; try discriminate; rewrite add_eff_all; reflexivity|]).
  - rewrite add_eff_top by (auto; lia). reflexivity.
  - destruct (N.le_gt_cases (N.of_nat (S k)) e) as [L|L]; [rewrite add_eff_top by auto; reflexivity|].
    rewrite add_eff_step by (auto; lia). cbv zeta.
    destruct (N.testbit pos (N.of_nat k)).
    + specialize (IH (right t) pos e v w). destruct (add_eff _ (right t) pos k e v w) as [w1 [c|]]; [|exact IH].
      unfold fork_eff. cbn [fst] in IH. destruct (left t) as [|x|]; try exact IH. destruct c as [|y|]; try exact IH.
      unfold outside at 1. destruct (f (snd w1) x y) as [s' [z|]]; exact IH.
    + specialize (IH (left t) pos e v w). destruct (add_eff _ (left t) pos k e v w) as [w1 [c|]]; [|exact IH].
      unfold fork_eff. cbn [fst] in IH. destruct c as [|x|]; try exact IH. destruct (right t) as [|y|]; try exact IH.
      unfold outside at 1. destruct (f (snd w1) x y) as [s' [z|]]; exact IH.
Qed.
Lemma set_root_panic f w u e v w' : set_root (outside f) w u e v = Panicked w' -> fst w' = fst w.
Proof.
  unfold set_root. pose proof (add_eff_outside f 32 (fst w) u e v w) as A.
  destruct (add_eff (outside f) (fst w) u 32 e v w) as [w1 [n|]]; [discriminate|]. intros E. injection E as <-. exact A.
Qed.
Lemma one_panic f fuel w c w' : (forall s e v, c <> CAddRange s e v) ->
  apply_eff fuel (outside f) w c = Panicked w' -> fst w' = fst w.
Proof.
  intros H. destruct c as [ip v|b e v|[n|] v]; cbn [apply_eff].
  - unfold AddIp_eff. destruct (Ipv4ToUint ip); [apply set_root_panic|intros E; injection E as <-; reflexivity|discriminate].
  - destruct (H _ _ _ eq_refl).
  - unfold AddCidr_eff. destruct (Ipv4ToUint (IP n)); [apply set_root_panic|intros E; injection E as <-; reflexivity|discriminate].
  - intros E. injection E as <-. reflexivity.
Qed.

Lemma prefixes_panic f v L : forall w w', prefixes_eff (outside f) w L v = Panicked w' -> exists L1 up L2 w1,
  L = L1 ++ up :: L2 /\ prefixes_eff (outside f) w L1 v = Returned w1 /\ fst w' = fst w1.
Proof.
  induction L as [|[u p] L IH]; intros w w'; cbn [prefixes_eff]; [discriminate|].
  destruct (set_root (outside f) w u (32 - p) v) as [w1|w1|] eqn:E; intros Q; [|injection Q as <-|discriminate].
  - destruct (IH _ _ Q) as (L1 & up & L2 & w2 & -> & R & F). exists ((u, p) :: L1), up, L2, w2.
    split; [reflexivity|]. split; [|exact F]. cbn [prefixes_eff]. rewrite E. exact R.
  - exists [], (u, p), L, w. split; [reflexivity|]. split; [reflexivity|]. apply (set_root_panic _ _ _ _ _ _ E).
Qed.

Lemma range_part last : last < 2 ^ 32 -> forall n u L1 y q L2, range_prefixes n u last = L1 ++ (y, q) :: L2 ->
  u <= y <= last /\ forall x, covered_by L1 x <-> u <= x < y.
Proof.
  intros Hl. induction n as [|n IH]; intros u L1 y q L2; cbn [range_prefixes]; [destruct L1; discriminate|].
  destruct (N.leb_spec u last) as [L|L]; [|destruct L1; discriminate].
  destruct (biggest_spec u last 32 0 eq_refl) as (i & I & Eb).
  { split; [apply N.mod_1_r|change (pw 0) with 1; lia]. }
  change (pre 0) with 32 in Eb. rewrite Eb. destruct I as (Hi & (A & F) & _).
  destruct L1 as [|[u1 p1] L1]; cbn [app]; intros E.
  - injection E as -> _ _. split; [lia|]. intros x. split; [intros (? & ? & [] & _)|lia].
  - injection E as <- <- E. apply IH in E. destruct E as [Y E].
    assert (In1 : forall x, in_net u (pre i) x <-> u <= x <= u + pw i - 1).
    { intros x. rewrite <- size_pre by exact Hi. apply in_net_aligned. split; [lia|]. split; [unfold pre; lia|].
      rewrite size_pre by exact Hi. exact A. }
    pose proof (pw_pos i). rewrite size_pre in Y, E by exact Hi. split; [lia|]. intros x. split.
    + intros (u' & p' & [Q|Q] & C).
      * injection Q as <- <-. apply In1 in C. lia.
      * assert (covered_by L1 x) as Z by (exists u', p'; auto). apply E in Z. lia.
    + intros R. destruct (N.lt_ge_cases x (u + pw i)) as [C|C].
      * exists u, (pre i). split; [left; reflexivity|]. apply In1. lia.
      * destruct (proj2 (E x) ltac:(lia)) as (u' & p' & Q & Z). exists u', p'. split; [right; exact Q|exact Z].
Qed.

Lemma range_loop_eff_mono mg b v fuel : forall fuel' w a, (fuel <= fuel')%nat ->
  range_loop_eff fuel mg w a b v <> Running -> range_loop_eff fuel' mg w a b v = range_loop_eff fuel mg w a b v.
Proof.
  induction fuel as [|fuel IH]; intros fuel' w a Hf; cbn [range_loop_eff].
  - destruct (a <=? b) eqn:L; [congruence|]. intros _. destruct fuel'; cbn [range_loop_eff]; rewrite L; reflexivity.
  - destruct fuel' as [|fuel']; [lia|]. cbn [range_loop_eff]. destruct (a <=? b); [|reflexivity].
    destruct (bind _ _) as [[m bit]| |]; try reflexivity.
    destruct (set_root mg w a bit v) as [w1|w1|]; try reflexivity. intros H. apply IH; [lia|exact H].
Qed.
Lemma apply_eff_mono mg fuel fuel' w c : (fuel <= fuel')%nat -> apply_eff fuel mg w c <> Running ->
  apply_eff fuel' mg w c = apply_eff fuel mg w c.
Proof.
  intros Hf. destruct c as [ip v|s e v|n v]; cbn [apply_eff]; try reflexivity. unfold AddRange_eff.
  destruct (bind _ _) as [[a b]| |]; try reflexivity. apply range_loop_eff_mono, Hf.
Qed.
Lemma apply_eff_prefixes' mg fuel w c L : proper c -> call_prefixes c L -> apply_eff fuel mg w c <> Running ->
  apply_eff fuel mg w c = prefixes_eff mg w L (call_value c).
Proof.
  intros H P R. destruct (apply_eff_prefixes mg c L H P) as (k & A).
  rewrite <- (A (Nat.max k fuel) w) by lia. symmetry. apply apply_eff_mono; [lia|exact R].
Qed.

Theorem range_panic f fuel w w' s e a b v : normal 32 (fst w) -> is_addr s a -> is_addr e b -> b < 2 ^ 32 - 1 ->
  AddRange_eff fuel (outside f) w s e v = Panicked w' ->
  exists y, a <= y <= b /\ forall x, x < 2 ^ 32 ->
    listed (ListCidr_eff w') x <-> listed (ListCidr_eff w) x \/ a <= x < y.
Proof.
  intros N A B Hb E. set (L := range_prefixes (N.to_nat (b + 1 - a)) a b).
  assert (R : apply_eff fuel (outside f) w (CAddRange s e v) = prefixes_eff (outside f) w L v).
  { apply (apply_eff_prefixes' (outside f) fuel w (CAddRange s e v) L).
    - exists a, b. auto.
    - exists a, b. auto.
    - cbn [apply_eff]. congruence. }
  cbn [apply_eff] in R. rewrite E in R. symmetry in R.
  destruct (prefixes_panic f v L w w' R) as (L1 & [y q] & L2 & w1 & EL & R1 & F).
  destruct (range_part b ltac:(lia) _ _ _ _ _ _ EL) as [Y C].
  exists y. split; [exact Y|]. intros x Hx.
  assert (Ok : Forall prefix_ok L1).
  { assert (O : Forall prefix_ok L) by (apply range_ok; lia). rewrite EL in O. apply Forall_app in O. apply O. }
  pose proof (prefixes_eff_normal _ _ _ _ _ N R1) as N1.
  rewrite !listed_world by (try exact Hx; try exact N; rewrite F; exact N1).
  rewrite F, (prefixes_eff_mem (outside f) L1 v x Hx Ok w w1 R1), C. reflexivity.
Qed.

(** ** Coverage when a call returns, whatever merge does *)

Theorem returned_adds mg fuel w w' c : normal 32 (fst w) -> proper c -> apply_eff fuel mg w c = Returned w' ->
  normal 32 (fst w') /\ forall x, x < 2 ^ 32 -> listed (ListCidr_eff w') x <-> listed (ListCidr_eff w) x \/ adds c x.
Proof.
  intros N H E. destruct (proper_prefixes c H) as (L & P & Ok & C).
  pose proof (apply_eff_prefixes' mg fuel w c L H P ltac:(congruence)) as R. rewrite E in R. symmetry in R.
  pose proof (prefixes_eff_normal _ _ _ _ _ N R) as N1. split; [exact N1|]. intros x Hx.
  rewrite !listed_world by assumption. rewrite (prefixes_eff_mem mg L _ x Hx Ok w w' R), (C x Hx). reflexivity.
Qed.

End Reached.

(** ** Covered, in terms of addresses *)

Section Nil.
Context {V : Type}.
Implicit Type t : node V.

Lemma pair_some {A B} (a c : A) (b d : B) : (a, Some b) = (c, Some d) -> b = d.
Proof. congruence. Qed.
Lemma search (P : N -> bool) n : (forall x, x < n -> P x = true) \/ exists x, x < n /\ P x = false.
Proof.
  induction n as [|n IH] using N.peano_ind; [left; lia|]. destruct IH as [H|(x & Hx & E)].
  - destruct (P n) eqn:E; [left|right; exists n; split; [lia|exact E]]. intros x Hx.
    destruct (N.eq_dec x n) as [->|]; [exact E|apply H; lia].
  - right. exists x. split; [lia|exact E].
Qed.
Lemma covered_mem t u p (v : V) : normal 32 t -> u < 2 ^ 32 -> p <= 32 ->
  covered (look 32 t 0) u p = true <-> forall y, y < 2 ^ 32 -> in_net u p y -> mem 32 t y = true.
Proof.
  intros N Hu Hp. set (e := N.to_nat (32 - p)).
  assert (Ee : 32 - p = N.of_nat e) by (unfold e; lia). assert (Pe : pre e = p) by (unfold e, pre; lia).
  assert (He : (e <= 32)%nat) by (unfold e; lia).
  pose proof (add_eff_climb (pure (St := unit) (fun a _ => a)) 32 t 0 u e v (t, tt) (le_n _) N eq_refl) as A.
  specialize (A ltac:(change (2 ^ N.of_nat 32) with (2 ^ 32); lia) He). rewrite Pe in A. unfold pure in A at 1.
  rewrite add_eff_pure in A.
  assert (M : forall y, mem 32 (add (fun a _ => a) t u 32 (N.of_nat e) v) y = (mem 32 t y || agree 32 (32 - p) u y)%bool).
  { intros y. rewrite Ee. apply add_mem. }
  destruct (covered (look 32 t 0) u p) eqn:C.
  - split; [intros _|reflexivity]. apply pair_some in A. rewrite A in M.
    intros y Hy I0. apply agree_in_net in I0; [|exact Hu|exact Hy]. rewrite M, I0. apply Bool.orb_true_r.
  - split; [discriminate|]. intros H. exfalso.
    assert (Pr : add (fun a _ => a) t u 32 (N.of_nat e) v = t).
    { apply add_present; [exact N|]. intros x Ax.
      rewrite (mem_ext 32 _ x (x mod 2 ^ 32)) by apply low_mod.
      rewrite (agree_ext 32 _ _ x (x mod 2 ^ 32)) in Ax by apply low_mod.
      assert (B : x mod 2 ^ 32 < 2 ^ 32) by (apply N.mod_lt; discriminate). apply H; [exact B|].
      apply agree_in_net; [exact Hu|exact B|]. rewrite Ee. exact Ax. }
    rewrite Pr in A. destruct (climb _ _ _ _ _ _ _) as [w' [[q z]|]] eqn:Cl; [|discriminate].
    apply pair_some in A. apply climb_range in Cl; [|lia]. set (m := N.to_nat (32 - q)).
    replace (32 - q) with (N.of_nat m) in A by (unfold m; lia).
    assert (Pm : pre m = q) by (unfold m, pre; lia).
    assert (Cq : covered (look 32 t 0) u (pre m) = false).
    { apply Bool.not_true_is_false. intros X. apply Bool.not_true_iff_false in C. apply C.
      apply covered_spec in X. destruct X as (q0 & Hq & X). apply covered_spec. exists q0. split; [lia|exact X]. }
    pose proof (look_graft 32 t 0 u m z (le_n _) N eq_refl ltac:(change (2 ^ N.of_nat 32) with (2 ^ 32); lia)
      ltac:(unfold m; lia) Cq (base u (pre m)) (pre m)) as G.
    rewrite <- A, place_at in G. apply Bool.not_true_iff_false in C. apply C. apply covered_spec.
    exists (pre m). split; [lia|]. rewrite G. discriminate.
Qed.

(** ** nil merge *)

Lemma other_half_facts u p : 0 < p -> p <= 32 -> u < 2 ^ 32 ->
  other_half u p < 2 ^ 32 /\ base (other_half u p) p = other_half u p
  /\ (forall q, q < p -> base (other_half u p) q = base u q)
  /\ other_half u p = (if base u p =? base u (p - 1) then base u (p - 1) + size p else base u (p - 1)).
Proof.
  intros H Hp Hu. pose proof (base_half u p H Hp) as HB. pose proof (size_pos p) as SP.
  pose proof (base_below u (p - 1)) as BB. rewrite (size_step p) in BB by lia.
  pose proof (base_aligned u (p - 1)) as BA.
  assert (Top : base u (p - 1) + 2 * size p <= 2 ^ 32).
  { pose proof (aligned_last (base u (p - 1)) (p - 1)) as AL. rewrite (size_step p) in AL by lia. apply AL.
    split; [lia|]. split; [lia|exact BA]. }
  assert (BP : base u (p - 1) mod size p = 0) by (apply (aligned_anti (p - 1)); [lia|exact BA]).
  assert (Eo : other_half u p = (if base u p =? base u (p - 1) then base u (p - 1) + size p else base u (p - 1))).
  { unfold other_half. rewrite N.eqb_sym. destruct (N.eqb_spec (base u p) (base u (p - 1))) as [E|E]; lia. }
  assert (Al : other_half u p mod size p = 0).
  { rewrite Eo. destruct (base u p =? base u (p - 1)); [|exact BP].
    replace (base u (p - 1) + size p) with (base u (p - 1) + 1 * size p) by lia. rewrite N.mod_add by lia. exact BP. }
  assert (In1 : base u (p - 1) <= other_half u p < base u (p - 1) + size (p - 1)).
  { rewrite (size_step p) by lia. rewrite Eo. destruct (base u p =? base u (p - 1)); lia. }
  split; [rewrite (size_step p) in In1 by lia; lia|]. split; [apply base_self, Al|]. split; [|exact Eo].
  intros q Hq. assert (X : base (other_half u p) (p - 1) = base u (p - 1)) by (apply base_is; [exact BA|exact In1]).
  rewrite <- (base_base (other_half u p) q (p - 1)), <- (base_base u q (p - 1)) by lia. congruence.
Qed.

Definition in_netb (u p x : N) : bool := x / size p =? u / size p.

Context {St : Type}.
Lemma nil_panics (w : world V St) u p v : normal 32 (fst w) -> u < 2 ^ 32 -> p <= 32 ->
  (set_root nil_merge w u (32 - p) v = Panicked w <->
    0 < p /\ (exists x, x < 2 ^ 32 /\ in_net u p x /\ mem 32 (fst w) x = false)
    /\ forall x, x < 2 ^ 32 -> in_net (other_half u p) p x -> mem 32 (fst w) x = true)
  /\ (set_root nil_merge w u (32 - p) v = Panicked w \/ exists n, set_root nil_merge w u (32 - p) v = Returned (n, snd w)).
Proof.
  intros N Hu Hp. set (e := N.to_nat (32 - p)).
  assert (Ee : 32 - p = N.of_nat e) by (unfold e; lia). assert (Pe : pre e = p) by (unfold e, pre; lia).
  assert (He : (e <= 32)%nat) by (unfold e; lia).
  pose proof (add_eff_climb (nil_merge (St := St)) 32 (fst w) 0 u e v w (le_n _) N eq_refl) as A.
  specialize (A ltac:(change (2 ^ N.of_nat 32) with (2 ^ 32); lia) He). rewrite Pe in A.
  unfold set_root. rewrite Ee, A. pose proof (covered_mem (fst w) u p v N Hu Hp) as CM.
  destruct (covered (look 32 (fst w) 0) u p) eqn:C.
  { split; [|right; eexists; reflexivity]. split; [discriminate|]. intros (_ & (x & Hx & I0 & M) & _).
    rewrite (proj1 CM eq_refl x Hx I0) in M. discriminate. }
  assert (Ex : exists x, x < 2 ^ 32 /\ in_net u p x /\ mem 32 (fst w) x = false).
  { destruct (search (fun x => (negb (in_netb u p x) || mem 32 (fst w) x)%bool) (2 ^ 32)) as [H|(x & Hx & E)].
    - exfalso. apply Bool.diff_false_true, CM. intros y Hy I0. specialize (H y Hy). cbv beta in H.
      apply N.eqb_eq in I0. unfold in_netb in H. rewrite I0 in H.
      destruct (mem 32 (fst w) y); [reflexivity|discriminate].
    - apply Bool.orb_false_iff in E. destruct E as [E1 E2]. apply Bool.negb_false_iff in E1. apply N.eqb_eq in E1.
      exists x. auto. }
  replace (32 - e)%nat with (N.to_nat p) by (unfold e; lia).
  destruct (N.eq_dec p 0) as [P0|P0].
  { rewrite P0. change (N.to_nat 0) with O. cbn [climb]. split; [|right; eexists; reflexivity]. split; [discriminate|lia]. }
  destruct (N.to_nat p) as [|n] eqn:En; [lia|]. cbn [climb]. cbv zeta.
  destruct (other_half_facts u p ltac:(lia) Hp Hu) as (Ho & Bo & Bq & Eo). rewrite <- Eo.
  pose proof (covered_mem (fst w) (other_half u p) p v N Ho Hp) as CO.
  destruct (look 32 (fst w) 0 (other_half u p) p) as [y|] eqn:Lk.
  - assert (Pn : (let (s', o) := if base u p =? base u (p - 1) then nil_merge w v y else nil_merge w y v in
                  match o with None => (s', None) | Some z => climb nil_merge n s' (look 32 (fst w) 0) u (p - 1) z end)
                 = (w, None)) by (unfold nil_merge; destruct (base u p =? base u (p - 1)); reflexivity).
    rewrite Pn. split; [|left; reflexivity]. split; [intros _|reflexivity].
    split; [lia|]. split; [exact Ex|]. apply CO. apply covered_spec. exists p. split; [lia|]. rewrite Bo, Lk. discriminate.
  - split; [|right; eexists; reflexivity]. split; [discriminate|]. intros (_ & _ & H). exfalso.
    apply CO in H. apply covered_spec in H. destruct H as (q & Hq & H).
    destruct (N.eq_dec q p) as [->|Hne]; [rewrite Bo, Lk in H; contradiction|].
    rewrite Bq in H by lia. apply Bool.not_true_iff_false in C. apply C, covered_spec. exists q. split; [lia|exact H].
Qed.

End Nil.

(** ** Number of prefixes of a range *)

Section Bound.
Context (last : N) (Hlast : last < 2 ^ 32 - 1).

Lemma tail_bound n : forall u j, (j <= 32)%nat -> u mod pw j = 0 -> last + 1 - u < pw j ->
  (length (range_prefixes n u last) <= j)%nat.
Proof.
  induction n as [|n IH]; intros u j Hj A R; cbn [range_prefixes]; [cbn; lia|].
  destruct (N.leb_spec u last) as [L|L]; [|cbn; lia].
  destruct (biggest_spec u last 32 0 eq_refl) as (i & I & Eb).
  { split; [apply N.mod_1_r|change (pw 0) with 1; lia]. }
  change (pre 0) with 32 in Eb. rewrite Eb. destruct I as (Hi & (Ai & F) & M). rewrite size_pre by exact Hi.
  assert (Hij : (i < j)%nat).
  { destruct (le_lt_dec j i) as [G|G]; [|exact G]. pose proof (pw_mono j i G). lia. }
  cbn [length]. assert (B : last + 1 - (u + pw i) < pw i).
  { assert (NF : ~ fits u last (S i)) by (apply M; lia).
    destruct (N.lt_ge_cases (last + 1 - (u + pw i)) (pw i)) as [G|G]; [exact G|]. exfalso. apply NF.
    split; [apply div_pow_dvd with (N.of_nat j); [lia|exact A]|rewrite pw_S; lia]. }
  assert (Au : (u + pw i) mod pw i = 0).
  { pose proof (pw_pos i). replace (u + pw i) with (u + 1 * pw i) by lia. rewrite N.mod_add by lia. exact Ai. }
  pose proof (IH (u + pw i) i ltac:(lia) Au B). lia.
Qed.

Lemma range_bound n : forall u j, (j <= 31)%nat -> 0 < u -> u mod pw j = 0 ->
  (length (range_prefixes n u last) <= 62 - j)%nat.
Proof.
  induction n as [|n IH]; intros u j Hj U A; cbn [range_prefixes]; [cbn; lia|].
  destruct (N.leb_spec u last) as [L|L]; [|cbn; lia].
  destruct (biggest_spec u last 32 0 eq_refl) as (i & I & Eb).
  { split; [apply N.mod_1_r|change (pw 0) with 1; lia]. }
  pose proof I as (Hi & (Ai & F) & M). pose proof (pw_pos i) as PP.
  assert (Hi31 : (i < 32)%nat).
  { destruct (Nat.eq_dec i 32) as [->|]; [|lia]. exfalso. change (pw 32) with (2 ^ 32) in F. lia. }
  destruct (N.eq_dec (u mod pw (S i)) 0) as [Z|Z].
  - (* limited by the end *)
    assert (Hi30 : (S i <= 31)%nat).
    { destruct (Nat.eq_dec i 31) as [->|]; [|lia]. exfalso. change (pw 32) with (2 ^ 32) in Z.
      rewrite N.mod_small in Z by lia. lia. }
    assert (T : (length (range_prefixes (S n) u last) <= S i)%nat).
    { apply tail_bound; [lia|exact Z|]. assert (NF : ~ fits u last (S i)) by (apply M; lia).
      destruct (N.lt_ge_cases (last + 1 - u) (pw (S i))) as [G|G]; [exact G|]. exfalso. apply NF. split; [exact Z|].
      pose proof (pw_pos (S i)). lia. }
    cbn [range_prefixes] in T. rewrite (proj2 (N.leb_le _ _) L) in T. lia.
  - (* limited by the alignment *)
    assert (Hij : (j <= i)%nat).
    { destruct (le_lt_dec j i) as [G|G]; [exact G|]. exfalso. apply Z. apply div_pow_dvd with (N.of_nat j); [lia|exact A]. }
    assert (Next : (u + pw i) mod pw (S i) = 0).
    { assert (D : exists c, u = pw i * c) by (exists (u / pw i); apply N.div_exact; [lia|exact Ai]).
      destruct D as [c D]. assert (Od : exists h, c = 2 * h + 1).
      { destruct (N.Even_or_Odd c) as [[h E]|[h E]]; [|exists h; exact E]. exfalso. apply Z.
        rewrite D, E, pw_S. replace (pw i * (2 * h)) with (h * (2 * pw i)) by lia. apply N.mod_mul. lia. }
      destruct Od as [h ->]. rewrite D, pw_S. replace (pw i * (2 * h + 1) + pw i) with ((h + 1) * (2 * pw i)) by lia.
      apply N.mod_mul. lia. }
    change (pre 0) with 32 in Eb. rewrite Eb, size_pre by exact Hi. cbn [length].
    assert (Hi30 : (S i <= 31)%nat).
    { destruct (Nat.eq_dec i 31) as [->|]; [|lia]. exfalso. change (pw 32) with (2 ^ 32) in Next.
      apply N.mod_divide in Next; [|discriminate]. destruct Next as [c Nx]. change (pw 31) with 2147483648 in *.
      change (2 ^ 32) with 4294967296 in *. lia. }
    pose proof (IH (u + pw i) (S i) Hi30 ltac:(lia) Next). lia.
Qed.

Lemma range_62 n u : (length (range_prefixes n u last) <= 62)%nat.
Proof.
  destruct (N.eq_dec u 0) as [->|H].
  - apply Nat.le_trans with 32%nat; [|lia]. apply tail_bound; [lia|reflexivity|]. change (pw 32) with (2 ^ 32). lia.
  - pose proof (range_bound n u 0 ltac:(lia) ltac:(lia) (N.mod_1_r u)). lia.
Qed.
End Bound.

(** ** Number of merge calls *)

Section Calls.
Context {V St : Type} (f : St -> V -> V -> St * option V).
Notation mg := (outside (recorded f)).
Definition calls (w : world V (St * list (V * V))) : nat := length (snd (snd w)).

Lemma mg_calls (w : world V (St * list (V * V))) a b : calls (fst (mg w a b)) = S (calls w).
Proof.
  unfold outside, recorded, calls. destruct (f (fst (snd w)) a b) as [s o]. cbn [fst snd].
  rewrite app_length. cbn [length]. lia.
Qed.

Lemma add_calls k : forall t pos e v (w : world V (St * list (V * V))) w' n,
  add_eff mg t pos k e v w = (w', Some n) -> (calls w' + count n <= calls w + count t + 1)%nat.
Proof.
  induction k as [|k IH]; intros t pos e v w w' n;
    (destruct (is_all t) eqn:T; [destruct t; try discriminate; rewrite add_eff_all; intros E; injection E as <- <-; lia|]).
  - rewrite add_eff_top by (auto; lia). intros E; injection E as <- <-. cbn [count]. lia.
  - destruct (N.le_gt_cases (N.of_nat (S k)) e) as [L|L].
    { rewrite add_eff_top by auto. intros E; injection E as <- <-. cbn [count]. lia. }
    rewrite add_eff_step by (auto; lia). cbv zeta.
    assert (Ct : count t = (count (left t) + count (right t))%nat) by (destruct t; [reflexivity|discriminate|reflexivity]).
    assert (Fk : forall w1 l r w2 n2, fork_eff mg w1 l r = (w2, Some n2) ->
                 (calls w2 + count n2 <= calls w1 + count l + count r)%nat).
    { intros w1 l r w2 n2. unfold fork_eff.
      destruct l as [|x|]; [intros E; injection E as <- <-; cbn [count]; lia| |intros E; injection E as <- <-; cbn [count]; lia].
      destruct r as [|y|]; [intros E; injection E as <- <-; cbn [count]; lia| |intros E; injection E as <- <-; cbn [count]; lia].
      pose proof (mg_calls w1 x y) as M. destruct (mg w1 x y) as [w3 [z|]]; [|discriminate].
      cbn [fst] in M. intros E; injection E as <- <-. cbn [count]. lia. }
    destruct (N.testbit pos (N.of_nat k));
      (destruct (add_eff mg _ pos k e v w) as [w1 [c|]] eqn:Ec; [|discriminate]); apply IH in Ec;
      intros E; apply Fk in E; lia.
Qed.

(** At most as many calls as levels above the block. *)
Lemma add_calls_levels k : forall t pos e v (w : world V (St * list (V * V))),
  (calls (fst (add_eff mg t pos k (N.of_nat e) v w)) <= calls w + (k - e))%nat.
Proof.
  induction k as [|k IH]; intros t pos e v w;
    (destruct (is_all t) eqn:T; [destruct t; try discriminate; rewrite add_eff_all; cbn [fst]; lia|]).
  - rewrite add_eff_top by (auto; lia). cbn [fst]. lia.
  - destruct (le_lt_dec (S k) e) as [L|L].
    { rewrite add_eff_top by (auto; lia). cbn [fst]. lia. }
    rewrite add_eff_step by (auto; lia). cbv zeta.
    assert (Fk : forall w1 l r, (calls (fst (fork_eff mg w1 l r)) <= S (calls w1))%nat).
    { intros w1 l r. unfold fork_eff. destruct l as [|x|], r as [|y|]; cbn [fst]; try lia.
      pose proof (mg_calls w1 x y) as M. destruct (mg w1 x y) as [w3 [z|]]; cbn [fst] in *; lia. }
    destruct (N.testbit pos (N.of_nat k));
      [specialize (IH (right t) pos e v w)|specialize (IH (left t) pos e v w)];
      (destruct (add_eff mg _ pos k (N.of_nat e) v w) as [w1 [c|]]; cbn [fst] in IH; [|cbn [fst]; lia]);
      match goal with |- (calls (fst (fork_eff _ _ ?l ?r)) <= _)%nat => specialize (Fk w1 l r); lia end.
Qed.

Lemma ending_calls (r : world V (St * list (V * V)) * option (node V)) c : (calls (fst r) <= c)%nat ->
  exists w', ((let (w1, o) := r in match o with Some n => Returned (n, snd w1) | None => Panicked w1 end) = Returned w'
              \/ (let (w1, o) := r in match o with Some n => Returned (n, snd w1) | None => Panicked w1 end) = Panicked w')
  /\ (calls w' <= c)%nat.
Proof.
  destruct r as [w1 [n|]]; cbn [fst]; intros H.
  - exists (n, snd w1). split; [left; reflexivity|exact H].
  - exists w1. split; [right; reflexivity|exact H].
Qed.
Lemma set_root_levels (w : world V (St * list (V * V))) u p v : p <= 32 ->
  exists w', (set_root mg w u (32 - p) v = Returned w' \/ set_root mg w u (32 - p) v = Panicked w')
  /\ (calls w' <= calls w + N.to_nat p)%nat.
Proof.
  intros Hp. apply (ending_calls (add_eff mg (fst w) u 32 (32 - p) v w)).
  replace (N.to_nat p) with (32 - N.to_nat (32 - p))%nat by lia.
  replace (32 - p) with (N.of_nat (N.to_nat (32 - p))) at 1 by lia. apply add_calls_levels.
Qed.
Lemma set_root_calls w u e v w' : set_root mg w u e v = Returned w' ->
  (calls w' + count (fst w') <= calls w + count (fst w) + 1)%nat.
Proof.
  unfold set_root. destruct (add_eff mg (fst w) u 32 e v w) as [w1 [n|]] eqn:E; [|discriminate].
  intros Q. injection Q as <-. apply add_calls in E. unfold calls in *. cbn [fst snd]. lia.
Qed.
Lemma prefixes_calls v L : forall w w', prefixes_eff mg w L v = Returned w' ->
  (calls w' + count (fst w') <= calls w + count (fst w) + length L)%nat.
Proof.
  induction L as [|[u p] L IH]; intros w w'; cbn [prefixes_eff length].
  - intros E. injection E as <-. lia.
  - destruct (set_root mg w u (32 - p) v) as [w1|w1|] eqn:E; try discriminate. intros Q.
    apply set_root_calls in E. apply IH in Q. lia.
Qed.
Lemma run_calls fuel cs : Forall proper cs -> forall Ls w w' oks, Forall2 call_prefixes cs Ls ->
  run_eff fuel mg w cs = Some (w', oks) -> Forall (eq true) oks ->
  (calls w' + count (fst w') <= calls w + count (fst w) + length (concat Ls))%nat.
Proof.
  induction 1 as [|c cs Hc Hcs IH]; intros Ls w w' oks FL; inversion FL as [|? L ? Ls' P FL']; subst; cbn [run_eff concat].
  - intros E _. injection E as <- _. cbn [length]. lia.
  - destruct (apply_eff fuel mg w c) as [w1|w1|] eqn:E; [| |discriminate];
      (destruct (run_eff fuel mg w1 cs) as [[w2 l]|] eqn:R; [|discriminate]); intros Q; injection Q as <- <-;
      intros T; inversion T as [|? ? T1 T2]; subst; [|discriminate].
    pose proof (apply_eff_prefixes' mg fuel w c L Hc P ltac:(congruence)) as A. rewrite E in A. symmetry in A.
    apply prefixes_calls in A. pose proof (IH Ls' w1 w2 l FL' R T2). rewrite app_length. lia.
Qed.

End Calls.

(** ** Number of listed CIDRs *)

Lemma add_count {V} (m : V -> V -> V) k : forall t pos e v, (count (add m t pos k e v) <= count t + 1)%nat.
Proof.
  induction k as [|k IH]; intros t pos e v;
    (destruct (is_all t) eqn:T; [destruct t; try discriminate; rewrite add_all; lia|]).
  - rewrite add_top by (auto; lia). cbn [count]. lia.
  - destruct (N.le_gt_cases (N.of_nat (S k)) e) as [L|L]; [rewrite add_top by auto; cbn [count]; lia|].
    rewrite add_step by (auto; lia).
    assert (Ct : count t = (count (left t) + count (right t))%nat) by (destruct t; [reflexivity|discriminate|reflexivity]).
    assert (Fk : forall l r, (count (fork m l r) <= count l + count r)%nat).
    { intros l r. unfold fork. destruct l, r; cbn [count]; lia. }
    destruct (N.testbit pos (N.of_nat k)).
    + pose proof (Fk (left t) (add m (right t) pos k e v)). specialize (IH (right t) pos e v). lia.
    + pose proof (Fk (add m (left t) pos k e v) (right t)). specialize (IH (left t) pos e v). lia.
Qed.
Lemma ListCidr_count {V} (t : tree V) : normal 32 (root t) -> length (ListCidr t) = count (root t).
Proof. intros N. rewrite ListCidr_entries by exact N. rewrite map_length. apply (lst_length 32 (root t) 0 N). Qed.
Lemma add_root_count {V} (t : tree V) u e v : (count (root (add_root t u e v)) <= count (root t) + 1)%nat.
Proof. rewrite add_root_root. apply add_count. Qed.
Lemma add_prefixes_count {V} L v : forall t : tree V,
  (count (root (add_prefixes t L v)) <= count (root t) + length L)%nat.
Proof.
  induction L as [|[u p] L IH]; intros t; [cbn; lia|]. rewrite prefixes_cons. cbn [length].
  pose proof (IH (add_root t u (32 - p) v)). pose proof (add_root_count t u (32 - p) v). lia.
Qed.
Theorem grows_by {V} fuel mg (cs : list (tree_call V)) t fuel' t' c : apply_all fuel (New mg) cs = Ret t ->
  apply fuel' t c = Ret t' ->
  match c with
  | CAddRange s e _ => forall b, is_addr e b -> b < 2 ^ 32 - 1 -> (exists a, is_addr s a) ->
                       (length (ListCidr t') <= length (ListCidr t) + 62)%nat
  | _ => (length (ListCidr t') <= length (ListCidr t) + 1)%nat
  end.
Proof.
  intros E A. pose proof (reached_normal _ _ _ _ E) as N.
  assert (N' : normal 32 (root t')).
  { apply (apply_inv (fun t => normal 32 (root t)) c) with (fuel := fuel') (t := t); [|exact N|exact A].
    intros t0 u e0 H0. rewrite add_root_root. apply add_normal, H0. }
  rewrite !ListCidr_count by assumption. destruct c as [ip v|s e v|[n|] v]; cbn [apply] in A.
  - unfold AddIp in A. destruct (Ipv4ToUint ip) as [u| |]; try discriminate. cbn [bind] in A.
    assert (X : add_root t u 0 v = t') by congruence. rewrite <- X. apply add_root_count.
  - intros b B Hb [a Aa]. assert (P : call_prefixes (CAddRange s e v) (range_prefixes (N.to_nat (b + 1 - a)) a b))
      by (exists a, b; auto).
    destruct (apply_ok (CAddRange s e v)) as (L & k & P' & _ & _ & R); [exists a, b; auto|].
    rewrite (call_prefixes_fun _ _ _ P' P) in R. clear P P' L.
    assert (X : apply (Nat.max k fuel') t (CAddRange s e v) = Ret t').
    { cbn [apply]. unfold AddRange in *. destruct (Ipv4ToUint s); try discriminate.
      destruct (Ipv4ToUint e); try discriminate. cbn [bind] in *. apply (range_loop_mono fuel'); [lia|exact A]. }
    rewrite R in X by lia. cbn [call_value] in X.
    assert (Y : add_prefixes t (range_prefixes (N.to_nat (b + 1 - a)) a b) v = t') by congruence.
    rewrite <- Y. pose proof (add_prefixes_count (range_prefixes (N.to_nat (b + 1 - a)) a b) v t).
    pose proof (range_62 b Hb (N.to_nat (b + 1 - a)) a). lia.
  - unfold AddCidr in A. destruct (Ipv4ToUint (IP n)) as [u| |]; try discriminate. cbn [bind] in A.
    assert (X : add_root t u (sub8 32 (MaskToByte (Mask n))) v = t') by congruence. rewrite <- X. apply add_root_count.
  - discriminate.
Qed.
