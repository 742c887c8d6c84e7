(** Properties C78-C82: IpTree with a merge function that has effects, panics
    or changes the tree; growth of the list of CIDRs. *)
From Verif Require Import Base.Go Base.GoNet Base.NetApi Model.Net Model.NetEffects
  Spec.NetSpec Spec.NetEffectSpec Proofs.NetProofs Proofs.NetEffectProofs Proofs.NetEffectMore.
Local Open Scope N_scope.

(** ** C78 refinement, with effects and recovered panics *)

Theorem C78_reference : forall V St (f : St -> V -> V -> St * option V) s cs, Forall proper cs ->
  exists k w oks B,
  (forall fuel, (k <= fuel)%nat -> run_eff fuel (outside f) (NNone, s) cs = Some (w, oks))
  /\ history_eff f s no_blocks cs oks (snd w) B
  /\ (forall u p v, B u p = Some v -> aligned u p)
  /\ forall n v, In (n, v) (ListCidr_eff w) <-> exists u p, n = net_of u p /\ B u p = Some v.
Proof. exact @reference_eff. Qed.
Print Assumptions C78_reference.

(** The reference is determined by the history. *)
Theorem C78_unique : forall V St (f : St -> V -> V -> St * option V) s B cs oks1 s1 B1 oks2 s2 B2,
  history_eff f s B cs oks1 s1 B1 -> history_eff f s B cs oks2 s2 B2 -> oks1 = oks2 /\ s1 = s2 /\ B1 = B2.
Proof. exact @history_eff_fun. Qed.
Print Assumptions C78_unique.

(** With a merge that has no effects this is the model used for C41-C49. *)
Theorem C78_pure : forall V St fuel (t : tree V) (s : St) c,
  apply_eff fuel (fun w a b => (w, Some (merge t a b))) (root t, s) c
  = match apply fuel t c with Ret t' => Returned (root t', s) | Panic => Panicked (root t, s) | OutOfFuel => Running end.
Proof. exact @apply_pure. Qed.
Print Assumptions C78_pure.

(** merge concatenates, records its calls and panics on its third call. *)
Definition third (s : nat) (a b : list N) : nat * option (list N) :=
  (S s, if Nat.eqb s 2 then None else Some (a ++ b)).
Example C78_nonvacuous :
  let cs := [CAddIp (addr (quad 10 0 0 1)) [1]; CAddIp (addr (quad 10 0 0 2)) [2]; CAddIp (addr (quad 10 0 0 3)) [3];
             CAddIp (addr (quad 10 0 0 0)) [4]; CAddIp (addr (quad 10 0 0 0)) [5]] in
  Forall proper cs
  /\ exists w, run_eff 1 (outside (recorded third)) (NNone, (O, [])) cs = Some (w, [true; true; true; false; true])
     /\ snd (snd w) = [([2], [3]); ([4], [1]); ([4; 1], [2; 3]); ([5], [1]); ([5; 1], [2; 3])]
     /\ ListCidr_eff w = [(net_of (quad 10 0 0 0) 30, [5; 1; 2; 3])].
Proof.
  split; [repeat constructor; eexists; split; try (left; reflexivity); reflexivity|].
  eexists. split; [vm_compute; reflexivity|]. split; vm_compute; reflexivity.
Qed.

(** ** C79 a merge that panics *)

(** AddIp and AddCidr leave the tree as it was. *)
Theorem C79_one_partial : forall V St (f : St -> V -> V -> St * option V) fuel w c w',
  (forall s e v, c <> CAddRange s e v) -> apply_eff fuel (outside f) w c = Panicked w' ->
  fst w' = fst w /\ ListCidr_eff w' = ListCidr_eff w.
Proof.
  intros V St f fuel w c w' H E. pose proof (one_panic f fuel w c w' H E) as F. split; [exact F|].
  unfold ListCidr_eff. rewrite F. reflexivity.
Qed.
Print Assumptions C79_one_partial.

(** AddRange leaves a first part of the range added. *)
Theorem C79_range_partial : forall V St (f : St -> V -> V -> St * option V) fuel s0 cs w oks fuel' s e a b v w',
  run_eff fuel (outside f) (NNone, s0) cs = Some (w, oks) -> is_addr s a -> is_addr e b -> b < 2 ^ 32 - 1 ->
  AddRange_eff fuel' (outside f) w s e v = Panicked w' ->
  exists y, a <= y <= b /\ forall x, x < 2 ^ 32 ->
    listed (ListCidr_eff w') x <-> listed (ListCidr_eff w) x \/ a <= x < y.
Proof.
  intros V St f fuel s0 cs w oks fuel' s e a b v w' R. apply range_panic, (reached_eff _ _ _ _ _ _ R).
Qed.
Print Assumptions C79_range_partial.

(** 10.0.0.7 is in the tree; AddRange(10.0.0.1, 10.0.0.6) panics when it comes
    to 10.0.0.6 and leaves 10.0.0.1-10.0.0.5. *)
Theorem C79_refuted : exists w w' : world N unit,
  run_eff 1 (outside (fun s _ _ => (s, None))) (NNone, tt) [CAddIp (addr (quad 10 0 0 7)) 1] = Some (w, [true])
  /\ AddRange_eff 8 (outside (fun s _ _ => (s, None))) w (addr (quad 10 0 0 1)) (addr (quad 10 0 0 6)) 2 = Panicked w'
  /\ ListCidr_eff w = [(net_of (quad 10 0 0 7) 32, 1)]
  /\ ListCidr_eff w' = [(net_of (quad 10 0 0 1) 32, 2); (net_of (quad 10 0 0 2) 31, 2);
                        (net_of (quad 10 0 0 4) 31, 2); (net_of (quad 10 0 0 7) 32, 1)].
Proof. do 2 eexists. split; [vm_compute; reflexivity|]. split; [vm_compute; reflexivity|]. split; vm_compute; reflexivity. Qed.
Print Assumptions C79_refuted.

(** With a nil merge AddCidr panics exactly when it would have to merge: the
    block is not the whole address space and not yet covered, and the other
    half of its parent is covered. Otherwise it returns. *)
Theorem C79_nil : forall V St (f : St -> V -> V -> St * option V) fuel s0 cs w oks n u p v,
  run_eff fuel (outside f) (NNone, s0) cs = Some (w, oks) -> is_cidr n u p ->
  (AddCidr_eff nil_merge w (Some n) v = Panicked w <->
    0 < p /\ (exists x, x < 2 ^ 32 /\ in_net u p x /\ ~ listed (ListCidr_eff w) x)
    /\ forall x, x < 2 ^ 32 -> in_net (other_half u p) p x -> listed (ListCidr_eff w) x)
  /\ (AddCidr_eff nil_merge w (Some n) v = Panicked w \/ exists w', AddCidr_eff nil_merge w (Some n) v = Returned w').
Proof.
  intros V St f fuel s0 cs w oks n u p v R C. pose proof (reached_eff _ _ _ _ _ _ R) as N.
  pose proof C as ([Hu A] & Hp & M).
  assert (E : AddCidr_eff nil_merge w (Some n) v = set_root nil_merge w u (32 - p) v).
  { unfold AddCidr_eff. rewrite (NetBasic.ToUint_addr _ u (conj Hu A)), M, NetBasic.MaskToByte_From by exact Hp.
    rewrite NetRange.sub8_32 by exact Hp. reflexivity. }
  rewrite E. destruct (nil_panics w u p v N Hu Hp) as [P Q]. split.
  - rewrite P. split; intros (H0 & (x & Hx & I0 & L) & H1); (split; [exact H0|]; split).
    + exists x. split; [exact Hx|]. split; [exact I0|]. rewrite listed_world by assumption. congruence.
    + intros y Hy I1. apply listed_world; auto.
    + exists x. split; [exact Hx|]. split; [exact I0|]. rewrite listed_world in L by assumption.
      apply Bool.not_true_is_false, L.
    + intros y Hy I1. apply listed_world; auto.
  - destruct Q as [Q|[n' Q]]; [left; exact Q|right; eexists; exact Q].
Qed.
Print Assumptions C79_nil.

Example C79_nonvacuous :
  exists w : world N unit, run_eff 1 (outside (fun s _ _ => (s, None))) (NNone, tt)
    [CAddCidr (Some (net_of (quad 10 0 0 0) 25)) 1] = Some (w, [true])
  /\ AddCidr_eff nil_merge w (Some (net_of (quad 10 0 0 128) 25)) 2 = Panicked w
  /\ (exists w', AddCidr_eff nil_merge w (Some (net_of (quad 10 0 0 128) 26)) 2 = Returned w')
  /\ other_half (quad 10 0 0 128) 25 = quad 10 0 0 0.
Proof. eexists. split; [vm_compute; reflexivity|]. split; [vm_compute; reflexivity|]. split; [eexists; vm_compute; reflexivity|]. vm_compute. reflexivity. Qed.

(** ** C80 how often merge is called *)

(** Prefixes added = at least merge calls + listed CIDRs. *)
Theorem C80_amortized : forall V St (f : St -> V -> V -> St * option V) fuel s cs Ls w oks,
  Forall proper cs -> Forall2 call_prefixes cs Ls ->
  run_eff fuel (outside (recorded f)) (NNone, (s, [])) cs = Some (w, oks) -> Forall (eq true) oks ->
  (length (snd (snd w)) + length (ListCidr_eff w) <= length (concat Ls))%nat.
Proof.
  intros V St f fuel s cs Ls w oks H FL R T. pose proof (reached_eff _ _ _ _ _ _ R) as N.
  pose proof (run_calls f fuel cs H Ls _ _ _ FL R T) as C. unfold calls in C. cbn [fst snd length NetTree.count] in C.
  rewrite length_world by exact N. lia.
Qed.
Print Assumptions C80_amortized.

(** So with AddIp and AddCidr only: at most one merge per call on average. *)
Theorem C80_singles : forall V St (f : St -> V -> V -> St * option V) fuel s cs w oks,
  Forall proper cs -> (forall c a b v, In c cs -> c <> CAddRange a b v) ->
  run_eff fuel (outside (recorded f)) (NNone, (s, [])) cs = Some (w, oks) -> Forall (eq true) oks ->
  (length (snd (snd w)) + length (ListCidr_eff w) <= length cs)%nat.
Proof.
  intros V St f fuel s cs w oks H NR R T.
  assert (X : exists Ls, Forall2 call_prefixes cs Ls /\ length (concat Ls) = length cs).
  { clear R T. induction H as [|c cs Hc Hcs IH]; [exists []; split; [constructor|reflexivity]|].
    destruct IH as (Ls & F & E); [intros; apply NR; right; assumption|].
    assert (Y : exists up, call_prefixes c [up]).
    { destruct c as [ip v|a b v|[n|] v]; cbn [proper call_prefixes] in *.
      - destruct Hc as [u U]. eexists; eauto.
      - destruct (NR _ a b v (or_introl eq_refl) eq_refl).
      - destruct Hc as (u & p & C). eexists; eauto.
      - contradiction. }
    destruct Y as [up Y]. exists ([up] :: Ls). split; [constructor; assumption|]. cbn [concat app length]. lia. }
  destruct X as (Ls & F & E). rewrite <- E. exact (C80_amortized V St f fuel s cs Ls w oks H F R T).
Qed.
Print Assumptions C80_singles.

(** One block u/p: at most p merge calls, also when merge panics. *)
Theorem C80_levels : forall V St (f : St -> V -> V -> St * option V) w n u p v, is_cidr n u p ->
  exists w', (AddCidr_eff (outside (recorded f)) w (Some n) v = Returned w'
              \/ AddCidr_eff (outside (recorded f)) w (Some n) v = Panicked w')
  /\ (length (snd (snd w')) <= length (snd (snd w)) + N.to_nat p)%nat.
Proof.
  intros V St f w n u p v ([Hu A] & Hp & M). unfold AddCidr_eff.
  rewrite (NetBasic.ToUint_addr _ u (conj Hu A)), M, NetBasic.MaskToByte_From by exact Hp.
  rewrite NetRange.sub8_32 by exact Hp. exact (set_root_levels f w u p v Hp).
Qed.
Print Assumptions C80_levels.

(** Four calls, three merges, one CIDR listed. *)
Example C80_nonvacuous :
  (let cs := [CAddIp (addr 3) [3]; CAddIp (addr 2) [2]; CAddIp (addr 0) [0]; CAddIp (addr 1) [1]] in
   exists w, run_eff 1 (outside (recorded (fun s a b => (s, Some (a ++ b))))) (NNone, (tt, [])) cs = Some (w, [true; true; true; true])
   /\ snd (snd w) = [([2], [3]); ([0], [1]); ([0; 1], [2; 3])] /\ length (ListCidr_eff w) = 1%nat).
Proof. eexists. split; [vm_compute; reflexivity|]. split; vm_compute; reflexivity. Qed.

(** ** C81 changing the tree from inside merge *)

(** Whatever merge does, also to the tree: when the call returns, the addresses
    in the tree are those from before the call and those added by the call. So
    anything else added while the call ran is lost. *)
Theorem C81_partial : forall V St (f : St -> V -> V -> St * option V) fuel s cs w oks (mg : callback V St) fuel' c w',
  run_eff fuel (outside f) (NNone, s) cs = Some (w, oks) -> proper c -> apply_eff fuel' mg w c = Returned w' ->
  forall x, x < 2 ^ 32 -> listed (ListCidr_eff w') x <-> listed (ListCidr_eff w) x \/ adds c x.
Proof.
  intros V St f fuel s cs w oks mg fuel' c w' R H E.
  exact (proj2 (returned_adds mg fuel' w w' c (reached_eff _ _ _ _ _ _ R) H E)).
Qed.
Print Assumptions C81_partial.

(** A merge that adds 9.9.9.9 to the tree before it adds up the values. *)
Definition adder : callback N unit := fun w a b =>
  match AddIp_eff nil_merge w (addr (quad 9 9 9 9)) 7 with
  | Returned w' => (w', Some (a + b))
  | Panicked w' => (w', None)
  | Running => (w, None)
  end.
Theorem C81_refuted : exists w w1 w2,
  run_eff 1 (outside (fun s a b => (s, Some (a + b)))) (NNone, tt) [CAddIp (addr (quad 10 0 0 0)) 1] = Some (w, [true])
  /\ adder w 1 2 = (w1, Some 3) /\ listed (ListCidr_eff w1) (quad 9 9 9 9)
  /\ AddIp_eff adder w (addr (quad 10 0 0 1)) 2 = Returned w2
  /\ ListCidr_eff w2 = [(net_of (quad 10 0 0 0) 31, 3)].
Proof.
  do 3 eexists. split; [vm_compute; reflexivity|]. split; [vm_compute; reflexivity|]. split.
  { exists (net_of (quad 9 9 9 9) 32), 7. split; [left; vm_compute; reflexivity|vm_compute; reflexivity]. }
  split; vm_compute; reflexivity.
Qed.
Print Assumptions C81_refuted.

(** ** C82 how fast the list grows *)

Theorem C82_one : forall V (merge : V -> V -> V) fuel cs t fuel' c t',
  apply_all fuel (New merge) cs = Ret t -> (forall s e v, c <> CAddRange s e v) -> apply fuel' t c = Ret t' ->
  (length (ListCidr t') <= length (ListCidr t) + 1)%nat.
Proof.
  intros V merge fuel cs t fuel' c t' E H A. pose proof (grows_by fuel merge cs t fuel' t' c E A) as G.
  destruct c as [ip v|s e v|n v]; try exact G. destruct (H _ _ _ eq_refl).
Qed.
Print Assumptions C82_one.

Theorem C82_range : forall V (merge : V -> V -> V) fuel cs t fuel' s e a b v t',
  apply_all fuel (New merge) cs = Ret t -> is_addr s a -> is_addr e b -> b < 2 ^ 32 - 1 ->
  AddRange fuel' t s e v = Ret t' -> (length (ListCidr t') <= length (ListCidr t) + 62)%nat.
Proof.
  intros V merge fuel cs t fuel' s e a b v t' E A B Hb R.
  exact (grows_by fuel merge cs t fuel' t' (CAddRange s e v) E R b B Hb (ex_intro _ a A)).
Qed.
Print Assumptions C82_range.

(** 62 is reached by 0.0.0.1 - 255.255.255.254. *)
Example C82_nonvacuous : exists t, AddRange 62 (New (fun a _ : N => a)) [0; 0; 0; 1] [255; 255; 255; 254] 1 = Ret t
  /\ length (ListCidr t) = 62%nat.
Proof. eexists. split; vm_compute; reflexivity. Qed.
