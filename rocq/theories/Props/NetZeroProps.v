(** Property C102: the zero value of net.Tree. *)
From Verif Require Import Base.Go Base.GoNet Base.NetApi Model.Net Model.NetEffects Model.NetZero
  Spec.NetSpec Spec.NetEffectSpec Spec.NetZeroSpec Proofs.NetProofs Proofs.NetEffectMore Proofs.NetZeroProofs.
Local Open Scope N_scope.

(** [var t net.Tree] is not an empty tree: ListCidr panics; and the second of two
    neighbours cannot be added. *)
Theorem C102_refuted : exists (t : ztree N),
  ListCidr_zero (zero_tree : ztree N) = Panic
  /\ run_zero 1 zero_tree [CAddIp (addr (quad 10 0 0 0)) 1; CAddIp (addr (quad 10 0 0 1)) 2] = Some (t, [true; false])
  /\ ListCidr_zero t = Ret [(net_of (quad 10 0 0 0) 32, 1)].
Proof. eexists. split; [reflexivity|]. split; vm_compute; reflexivity. Qed.
Print Assumptions C102_refuted.

(** What it does: ListCidr panics as long as no address has been added. From then
    on it gives the blocks of the reference whose every merge panics, and the
    calls that return are those of that reference. *)
Theorem C102_partial : forall V (cs : list (tree_call V)), Forall proper cs ->
  exists k (t : ztree V) oks (B : blocks V),
  (forall fuel, (k <= fuel)%nat -> run_zero fuel zero_tree cs = Some (t, oks))
  /\ history_eff never tt no_blocks cs oks tt B
  /\ ((forall c x, In c cs -> ~ adds c x) -> ListCidr_zero t = Panic)
  /\ forall c x, In c cs -> adds c x -> exists l, ListCidr_zero t = Ret l
     /\ forall n (v : V), In (n, v) l <-> exists u p, n = net_of u p /\ B u p = Some v.
Proof. exact @zero_reference. Qed.
Print Assumptions C102_partial.

(** The same for all calls, also with arguments that are not IPv4 and ranges that
    end at 255.255.255.255: as a tree made by New with a merge that panics, except
    that an empty one cannot be listed. *)
Theorem C102_as_new_partial : forall V fuel (cs : list (tree_call V)) w oks,
  run_eff fuel (outside never) (NNone, tt) cs = Some (w, oks) ->
  exists t, run_zero fuel zero_tree cs = Some (t, oks)
  /\ (ListCidr_zero t = Panic /\ ListCidr_eff w = [] \/ ListCidr_zero t = Ret (ListCidr_eff w) /\ ListCidr_eff w <> []).
Proof.
  intros V fuel cs w oks R. pose proof (reached_eff _ _ _ _ _ _ R) as N. exists (zof (fst w)).
  change zero_tree with (zof (@NNone V)). rewrite run_zero_ok, R. split; [reflexivity|].
  destruct w as [n []]. cbn [fst] in *. destruct (zof n) eqn:Z.
  - right. assert (n0 = n) as -> by (destruct n; cbn in Z; congruence). split; [reflexivity|].
    intros E. pose proof (length_world (n, tt) N) as L. rewrite E in L. cbn [fst length] in L.
    assert (n <> NNone) as H by (intros ->; discriminate). pose proof (count_pos 32 n N H). lia.
  - left. destruct n; try discriminate. split; reflexivity.
Qed.
Print Assumptions C102_as_new_partial.

(** A nil CIDR panics and an empty range adds nothing: the tree still cannot be
    listed. Then 10.0.0.0/25 is added, its other half not, half of that again. *)
Example C102_nonvacuous :
  let empty := CAddRange (addr (quad 10 0 0 9)) (addr (quad 10 0 0 1)) 1 in
  let cs := [empty; CAddCidr (Some (net_of (quad 10 0 0 0) 25)) 2; CAddCidr (Some (net_of (quad 10 0 0 128) 25)) 3;
             CAddCidr (Some (net_of (quad 10 0 0 128) 26)) 4] in
  Forall proper cs /\ (forall x, ~ adds empty x) /\ adds (CAddIp (addr 7) 1) 7
  /\ run_zero 1 zero_tree [CAddCidr None 5; empty] = Some (zero_tree, [false; true])
  /\ exists t, run_zero 1 zero_tree cs = Some (t, [true; true; false; true])
     /\ ListCidr_zero t = Ret [(net_of (quad 10 0 0 0) 25, 2); (net_of (quad 10 0 0 128) 26, 4)].
Proof.
  cbv zeta. split.
  { constructor; [exists (quad 10 0 0 9), (quad 10 0 0 1); split; [split; [reflexivity|left; reflexivity]|split; [split; [reflexivity|left; reflexivity]|reflexivity]]|].
    constructor; [exists (quad 10 0 0 0), 25; split; [split; [reflexivity|left; reflexivity]|split; [discriminate|reflexivity]]|].
    constructor; [exists (quad 10 0 0 128), 25; split; [split; [reflexivity|left; reflexivity]|split; [discriminate|reflexivity]]|].
    constructor; [exists (quad 10 0 0 128), 26; split; [split; [reflexivity|left; reflexivity]|split; [discriminate|reflexivity]]|].
    constructor. }
  split.
  { intros x (a & b & A & B & R).
    assert (a = quad 10 0 0 9) as -> by (apply (NetBasic.is_addr_fun _ _ _ A); split; [reflexivity|left; reflexivity]).
    assert (b = quad 10 0 0 1) as -> by (apply (NetBasic.is_addr_fun _ _ _ B); split; [reflexivity|left; reflexivity]).
    unfold quad in R. lia. }
  split; [split; [reflexivity|left; reflexivity]|].
  split; [vm_compute; reflexivity|]. eexists. split; vm_compute; reflexivity.
Qed.
