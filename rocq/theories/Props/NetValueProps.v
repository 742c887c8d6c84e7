(** C108: what the values in a listing are made of. *)
From Coq Require Import Sorting.Permutation.
From Verif Require Import Base.Go Base.GoNet Base.NetApi Model.Net Spec.NetSpec Spec.NetOrderSpec Spec.NetValueSpec
  Proofs.NetBasic Proofs.NetProofs Proofs.NetValue.
Local Open Scope N_scope.

(** Every history: the entries of the listing are made of the blocks that stand,
    each once; those in one entry fill it from end to end, and its value is theirs
    merged half by half. *)
Theorem C108_values : forall V fuel (merge : V -> V -> V) cs t, Forall proper cs -> apply_all fuel (New merge) cs = Ret t ->
  exists B S ls, blocks_of cs B /\ standing B S /\ Permutation (concat ls) S /\
    Forall2 (fun nv l => exists u p, aligned u p /\ fst nv = net_of u p /\ end_to_end u l (u + size p) /\ merged merge u p l (snd nv))
      (ListCidr t) ls.
Proof. exact @listed_values. Qed.
Print Assumptions C108_values.

(** If merge is associative, that is: merged in the order of the addresses. *)
Theorem C108_address_order : forall V (merge : V -> V -> V), (forall a b c, merge (merge a b) c = merge a (merge b c)) ->
  forall u p l v, merged merge u p l v -> in_order merge (map snd l) v.
Proof. intros V merge A u p l v. apply merged_assoc, A. Qed.
Print Assumptions C108_address_order.

(** If no two calls add the same address, all blocks stand. *)
Theorem C108_apart : forall V fuel (merge : V -> V -> V) cs t B, Forall proper cs -> ForallOrdPairs disjoint cs ->
  apply_all fuel (New merge) cs = Ret t -> blocks_of cs B ->
  exists ls, Permutation (concat ls) B /\
    Forall2 (fun nv l => exists u p, aligned u p /\ fst nv = net_of u p /\ end_to_end u l (u + size p) /\ merged merge u p l (snd nv))
      (ListCidr t) ls.
Proof. exact @listed_apart. Qed.
Print Assumptions C108_apart.

(** So nothing gets lost or is counted twice: whatever merge adds up has the same
    total in the listing as in what was added. *)
Theorem C108_total : forall V fuel (merge : V -> V -> V) cs t B (f : V -> N), (forall a b, f (merge a b) = f a + f b) ->
  Forall proper cs -> ForallOrdPairs disjoint cs -> apply_all fuel (New merge) cs = Ret t -> blocks_of cs B ->
  total f (map snd (ListCidr t)) = total f (map snd B).
Proof. exact @totals. Qed.
Print Assumptions C108_total.

(** Overlaps or not: if every block is added with the number of its addresses, and
    merge adds these numbers up, every entry has the number of its addresses. *)
Theorem C108_count : forall V fuel (merge : V -> V -> V) cs t (f : V -> N), (forall a b, f (merge a b) = f a + f b) ->
  Forall proper cs -> (forall B u p v, blocks_of cs B -> In (u, p, v) B -> f v = size p) -> apply_all fuel (New merge) cs = Ret t ->
  forall n v, In (n, v) (ListCidr t) -> exists u p, aligned u p /\ n = net_of u p /\ f v = size p.
Proof. exact @counted. Qed.
Print Assumptions C108_count.

(** ** An example: 10.0.0.3, then 10.0.0.2 to 10.0.0.5, then 10.0.0.4 again, then
    10.0.0.0/31 and 10.0.0.6. The block 10.0.0.2/31 takes the place of 10.0.0.3,
    10.0.0.4 is ignored. *)
Definition overlapping : list (tree_call (list N)) :=
  [CAddIp [10; 0; 0; 3] [1]; CAddRange [10; 0; 0; 2] [10; 0; 0; 5] [2]; CAddIp [10; 0; 0; 4] [3];
   CAddCidr (Some (net_of (quad 10 0 0 0) 31)) [4]; CAddIp [10; 0; 0; 6] [5]].
Ltac address := split; [vm_compute; reflexivity|left; vm_compute; reflexivity].
Lemma at_hand : Forall proper overlapping.
Proof.
  constructor; [exists (quad 10 0 0 3); address|]. constructor; [exists (quad 10 0 0 2), (quad 10 0 0 5); split; [address|split; [address|reflexivity]]|].
  constructor; [exists (quad 10 0 0 4); address|]. constructor; [exists (quad 10 0 0 0), 31; split; [address|split; [discriminate|reflexivity]]|].
  constructor; [exists (quad 10 0 0 6); address|]. constructor.
Qed.
Example C108_nonvacuous : exists t, apply_all 4 (New (@app N)) overlapping = Ret t
  /\ ListCidr t = [(net_of (quad 10 0 0 0) 30, [4; 2]); (net_of (quad 10 0 0 4) 31, [2]); (net_of (quad 10 0 0 6) 32, [5])]
  /\ merged (@app N) (quad 10 0 0 0) 30 [(quad 10 0 0 0, 31, [4]); (quad 10 0 0 2, 31, [2])] [4; 2].
Proof.
  eexists. split; [vm_compute; reflexivity|]. split; [vm_compute; reflexivity|].
  apply (two_halves (@app N) _ _ [(quad 10 0 0 0, 31, [4])] [(quad 10 0 0 2, 31, [2])] [4] [2]); constructor.
Qed.
Example C108_standing : standing [(3, 32, 1); (2, 31, 2); (3, 32, 3)] [(2, 31, 2)].
Proof.
  apply (ignored [(3, 32, 1); (2, 31, 2)]).
  - apply (takes_over [(3, 32, 1)] [(3, 32, 1)] 2 31 2 2); [|reflexivity|].
    + apply (takes_over [] [] 3 32 1 3); [constructor|reflexivity|]. intros (u & p & [] & _).
    + intros (u & p & [E|[]] & H). injection E as <- <-. discriminate H.
  - intros x H. exists 2, 31. split; [right; left; reflexivity|]. unfold in_net in *. change (size 32) with 1 in H. change (size 31) with 2.
    rewrite !N.div_1_r in H. subst x. reflexivity.
Qed.
(** The conditions of C108_apart, C108_total and C108_count. *)
Definition counting : list (tree_call N) :=
  [CAddIp [10; 0; 0; 1] 1; CAddCidr (Some (net_of (quad 10 0 0 2) 31)) 2; CAddIp [10; 0; 0; 0] 1].
Example C108_counting :
  Forall proper counting /\ ForallOrdPairs disjoint counting
  /\ (exists t, apply_all 4 (New N.add) counting = Ret t /\ ListCidr t = [(net_of (quad 10 0 0 0) 30, 4)])
  /\ (exists B, blocks_of counting B /\ total (fun v => v) (map snd B) = 4)
  /\ forall B u p v, blocks_of counting B -> In (u, p, v) B -> v = size p.
Proof.
  assert (A0 : is_addr [10; 0; 0; 0] (quad 10 0 0 0)) by address. assert (A1 : is_addr [10; 0; 0; 1] (quad 10 0 0 1)) by address.
  assert (A2 : is_cidr (net_of (quad 10 0 0 2) 31) (quad 10 0 0 2) 31) by (split; [address|split; [discriminate|reflexivity]]).
  assert (Bo : blocks_of counting [(quad 10 0 0 1, 32, 1); (quad 10 0 0 2, 31, 2); (quad 10 0 0 0, 32, 1)]).
  { assert (B0 : blocks_of [CAddIp [10; 0; 0; 0] 1] [(quad 10 0 0 0, 32, 1)]).
    { refine (of_call (CAddIp [10; 0; 0; 0] 1) [(quad 10 0 0 0, 32)] [] [] _ of_none). exists (quad 10 0 0 0). auto. }
    assert (B1 := of_call (CAddCidr (Some (net_of (quad 10 0 0 2) 31)) 2) [(quad 10 0 0 2, 31)] _ _ (ex_intro _ _ (ex_intro _ _ (conj A2 eq_refl))) B0).
    exact (of_call (CAddIp [10; 0; 0; 1] 1) [(quad 10 0 0 1, 32)] _ _ (ex_intro _ _ (conj A1 eq_refl)) B1). }
  split; [|split; [|split; [|split]]].
  - constructor; [exists (quad 10 0 0 1); exact A1|]. constructor; [exists (quad 10 0 0 2), 31; exact A2|]. constructor; [exists (quad 10 0 0 0); exact A0|constructor].
  - assert (N1 : ~ in_net (quad 10 0 0 2) 31 (quad 10 0 0 1)) by discriminate. assert (N0 : ~ in_net (quad 10 0 0 2) 31 (quad 10 0 0 0)) by discriminate.
    constructor; [constructor; [|constructor; [|constructor]]|constructor; [constructor; [|constructor]|constructor; constructor]]; intros x H H'; cbn [adds] in H, H'.
    + destruct H' as (u & p & C & I0). destruct (cidr_fun _ _ _ _ _ C A2) as [-> ->]. rewrite (is_addr_fun _ _ _ H A1) in I0. exact (N1 I0).
    + rewrite (is_addr_fun _ _ _ H A1) in H'. pose proof (is_addr_fun _ _ _ H' A0) as E. discriminate E.
    + destruct H as (u & p & C & I0). destruct (cidr_fun _ _ _ _ _ C A2) as [-> ->]. rewrite (is_addr_fun _ _ _ H' A0) in I0. exact (N0 I0).
  - eexists. split; vm_compute; reflexivity.
  - eexists. split; [exact Bo|reflexivity].
  - intros B u p v H I0. rewrite (blocks_fun _ _ _ H Bo) in I0. destruct I0 as [E|[E|[E|[]]]]; injection E as <- <- <-; reflexivity.
Qed.
