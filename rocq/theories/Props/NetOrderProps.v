(** C104 and C105: the order of additions, and what a listing tells. *)
From Coq Require Import Sorting.Permutation.
From Verif Require Import Base.Go Base.GoNet Base.NetApi Model.Net Spec.NetSpec Spec.NetOrderSpec
  Proofs.NetBasic Proofs.NetList Proofs.NetRange Proofs.NetProofs Proofs.NetOrder.
Local Open Scope N_scope.

(** ** C104 disjoint additions can be done in any order, values included *)

(** Whatever merge is, and whatever was added before and is added after: the tree
    is the same, so every listing is, now and later. *)
Theorem C104_rearranged : forall V fuel (merge : V -> V -> V) cs1 cs2 t, Forall proper cs1 -> rearranged cs1 cs2 ->
  apply_all fuel (New merge) cs1 = Ret t ->
  exists k, forall fuel', (k <= fuel')%nat -> apply_all fuel' (New merge) cs2 = Ret t.
Proof.
  intros V fuel merge cs1 cs2 t P R E. destruct (rearranged_same _ _ R P) as [_ (k & K)]. exists (Nat.max k fuel). intros fuel' Hf.
  rewrite <- K by lia. apply (apply_all_mono cs1 fuel); [lia|exact E].
Qed.
Print Assumptions C104_rearranged.

Theorem C104_any_order : forall V fuel (merge : V -> V -> V) cs1 cs2 t, Forall proper cs1 ->
  ForallOrdPairs disjoint cs1 -> Permutation cs1 cs2 -> apply_all fuel (New merge) cs1 = Ret t ->
  exists k, forall fuel', (k <= fuel')%nat -> apply_all fuel' (New merge) cs2 = Ret t.
Proof. intros V fuel merge cs1 cs2 t P D Pm. apply C104_rearranged; [exact P|]. apply any_order; assumption. Qed.
Print Assumptions C104_any_order.

(** Overlapping additions cannot be exchanged, even if merge takes its arguments
    in any order: the first value stays, or the larger block takes over. *)
Theorem C104_overlap_matters : exists (c d : tree_call N) t1 t2,
  apply_all 1 (New N.add) [c; d] = Ret t1 /\ apply_all 1 (New N.add) [d; c] = Ret t2 /\ ListCidr t1 <> ListCidr t2.
Proof.
  exists (CAddIp [10; 0; 0; 1] 1), (CAddIp [10; 0; 0; 1] 2). do 2 eexists.
  split; [vm_compute; reflexivity|]. split; [vm_compute; reflexivity|]. vm_compute. discriminate.
Qed.
Print Assumptions C104_overlap_matters.

Definition halves_apart : list (tree_call (list N)) :=
  [CAddIp [10; 0; 0; 1] [1]; CAddRange [10; 0; 0; 2] [10; 0; 0; 5] [2]; CAddIp [10; 0; 0; 0] [3];
   CAddCidr (Some (net_of (quad 10 0 0 6) 31)) [4]].
Definition spans (c : tree_call (list N)) (a b : N) : Prop := forall x, adds c x -> a <= x <= b.
Lemma spans_ip ip u v : is_addr ip u -> spans (CAddIp ip v) u u.
Proof. intros A x H. rewrite (is_addr_fun _ _ _ A H). lia. Qed.
Lemma spans_range s e a b v : is_addr s a -> is_addr e b -> spans (CAddRange s e v) a b.
Proof.
  intros A B x (a' & b' & A' & B' & R). rewrite (is_addr_fun _ _ _ A A'), (is_addr_fun _ _ _ B B'). exact R.
Qed.
Lemma spans_cidr u p v : aligned u p -> spans (CAddCidr (Some (net_of u p)) v) u (u + size p - 1).
Proof.
  intros (Hu & Hp & A) x (u' & p' & C & I0).
  assert (C0 : is_cidr (net_of u p) u p) by (repeat split; try assumption; left; reflexivity).
  destruct (cidr_fun _ _ _ _ _ C C0) as [-> ->]. unfold in_net in I0.
  assert (P : 0 < size p) by (unfold size; apply N.neq_0_lt_0, N.pow_nonzero; discriminate).
  apply aligned_range in I0; [lia|exact P|exact A].
Qed.
Lemma spans_disjoint c d a b a' b' : spans c a b -> spans d a' b' -> b < a' \/ b' < a -> disjoint c d.
Proof. intros S T L x H H'. specialize (S x H). specialize (T x H'). lia. Qed.
Ltac address := split; [vm_compute; reflexivity|left; vm_compute; reflexivity].
Example C104_nonvacuous :
  Forall proper halves_apart /\ ForallOrdPairs disjoint halves_apart
  /\ exists t, apply_all 4 (New (@app N)) halves_apart = Ret t /\ ListCidr t = [(net_of (quad 10 0 0 0) 29, [3; 1; 2; 2; 4])]
     /\ apply_all 4 (New (@app N)) (rev halves_apart) = Ret t.
Proof.
  assert (A0 : is_addr [10; 0; 0; 0] (quad 10 0 0 0)) by address. assert (A1 : is_addr [10; 0; 0; 1] (quad 10 0 0 1)) by address.
  assert (A2 : is_addr [10; 0; 0; 2] (quad 10 0 0 2)) by address. assert (A5 : is_addr [10; 0; 0; 5] (quad 10 0 0 5)) by address.
  assert (A6 : aligned (quad 10 0 0 6) 31) by (split; [|split]; vm_compute; (reflexivity || discriminate)).
  split; [|split].
  - constructor; [exists (quad 10 0 0 1); exact A1|]. constructor; [exists (quad 10 0 0 2), (quad 10 0 0 5); repeat split; try apply A2; apply A5|].
    constructor; [exists (quad 10 0 0 0); exact A0|]. constructor; [|constructor]. exists (quad 10 0 0 6), 31.
    split; [address|]. split; [discriminate|reflexivity].
  - pose proof (spans_ip _ _ [1] A1) as S1. pose proof (spans_range _ _ _ _ [2] A2 A5) as S2. pose proof (spans_ip _ _ [3] A0) as S3.
    pose proof (spans_cidr _ _ [4] A6) as S4.
    assert (Q0 : quad 10 0 0 0 = 167772160) by reflexivity. assert (Q1 : quad 10 0 0 1 = 167772161) by reflexivity.
    assert (Q2 : quad 10 0 0 2 = 167772162) by reflexivity. assert (Q5 : quad 10 0 0 5 = 167772165) by reflexivity.
    assert (Q6 : quad 10 0 0 6 = 167772166) by reflexivity.
    constructor; [constructor; [|constructor; [|constructor; [|constructor]]]|].
    + apply (spans_disjoint _ _ _ _ _ _ S1 S2). lia.
    + apply (spans_disjoint _ _ _ _ _ _ S1 S3). lia.
    + apply (spans_disjoint _ _ _ _ _ _ S1 S4). lia.
    + constructor; [constructor; [|constructor; [|constructor]]|].
      * apply (spans_disjoint _ _ _ _ _ _ S2 S3). lia.
      * apply (spans_disjoint _ _ _ _ _ _ S2 S4). lia.
      * constructor; [constructor; [|constructor]|].
        -- apply (spans_disjoint _ _ _ _ _ _ S3 S4). lia.
        -- constructor; constructor.
  - eexists. split; [vm_compute; reflexivity|]. split; vm_compute; reflexivity.
Qed.

(** ** C105 a listing says all there is to say about a tree *)

(** Trees with the same merge and the same listing are the same from then on. *)
Theorem C105_same_listing : forall V fuel1 fuel2 (merge : V -> V -> V) cs1 cs2 t1 t2,
  apply_all fuel1 (New merge) cs1 = Ret t1 -> apply_all fuel2 (New merge) cs2 = Ret t2 -> ListCidr t1 = ListCidr t2 ->
  forall fuel cs, apply_all fuel t1 cs = apply_all fuel t2 cs.
Proof. intros V fuel1 fuel2 merge cs1 cs2 t1 t2 E1 E2 L fuel cs. rewrite (same_listing _ _ _ _ _ _ _ E1 E2 L). reflexivity. Qed.
Print Assumptions C105_same_listing.

(** The entries of a listing can be added to a new tree in any order; it becomes
    the tree that was listed. *)
Theorem C105_any_order : forall V fuel (merge : V -> V -> V) cs t l, apply_all fuel (New merge) cs = Ret t ->
  Permutation (ListCidr t) l ->
  exists k, forall fuel', (k <= fuel')%nat -> apply_all fuel' (New merge) (add_listing l) = Ret t.
Proof. exact @relist_any_order. Qed.
Print Assumptions C105_any_order.

(** Adding the listing of one tree to another gives the addresses of both. *)
Theorem C105_both : forall V (merge merge' : V -> V -> V) fuel1 fuel2 cs1 cs2 t1 t2, Forall proper cs1 ->
  apply_all fuel1 (New merge) cs1 = Ret t1 -> apply_all fuel2 (New merge') cs2 = Ret t2 ->
  exists t k, (forall fuel, (k <= fuel)%nat -> apply_all fuel t1 (add_listing (ListCidr t2)) = Ret t) /\
    forall x, x < 2 ^ 32 -> listed (ListCidr t) x <-> listed (ListCidr t1) x \/ listed (ListCidr t2) x.
Proof. exact @both. Qed.
Print Assumptions C105_both.

(** Work can be divided: if the parts have no common address, each can be done on
    a tree of its own; adding the listings to one tree then gives what all the
    calls on one tree give, values included. *)
Theorem C105_divided : forall V (merge : V -> V -> V) (parts : list (list (tree_call V) * tree V)),
  Forall (fun p => Forall proper (fst p) /\ exists fuel, apply_all fuel (New merge) (fst p) = Ret (snd p)) parts ->
  ForallOrdPairs (fun p q => forall c d, In c (fst p) -> In d (fst q) -> disjoint c d) parts ->
  exists t k, forall fuel, (k <= fuel)%nat ->
    apply_all fuel (New merge) (concat (map fst parts)) = Ret t
    /\ apply_all fuel (New merge) (concat (map (fun p => add_listing (ListCidr (snd p))) parts)) = Ret t.
Proof.
  intros V merge parts F D. apply (divided_parts merge parts F D [] (New merge) 0%nat); [constructor|reflexivity|]. intros p _ c d [].
Qed.
Print Assumptions C105_divided.

(** And the nodes a tree is made of are at most 64 for each entry of its listing,
    whatever calls led to it. *)
Theorem C105_size : forall V fuel (merge : V -> V -> V) cs t, apply_all fuel (New merge) cs = Ret t ->
  (nodes (root t) <= 64 * length (ListCidr t) + 1)%nat.
Proof. exact @listing_nodes. Qed.
Print Assumptions C105_size.

Example C105_nonvacuous : exists t1 t2 t,
  apply_all 4 (New (@app N)) (firstn 2 halves_apart) = Ret t1 /\ apply_all 4 (New (@app N)) (skipn 2 halves_apart) = Ret t2
  /\ length (ListCidr t1) = 3%nat /\ length (ListCidr t2) = 2%nat /\ nodes (root t1) = 67%nat
  /\ apply_all 4 t1 (add_listing (ListCidr t2)) = Ret t /\ ListCidr t = [(net_of (quad 10 0 0 0) 29, [3; 1; 2; 2; 4])].
Proof. do 3 eexists. repeat split; vm_compute; reflexivity. Qed.
