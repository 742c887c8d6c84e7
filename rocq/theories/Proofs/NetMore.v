(** Package net: CIDRs built by hand, and which arguments panic. *)
From Verif Require Import Base.Go Base.GoNet Base.NetApi Model.Net Spec.NetSpec Proofs.Util Proofs.NetBasic.
Local Open Scope N_scope.

Lemma base_aligned u p : u < 2 ^ 32 -> p <= 32 -> aligned (base u p) p.
Proof.
  intros Hu Hp. assert (S : size p <> 0) by (apply N.pow_nonzero; lia).
  unfold aligned, base. split; [|split; [exact Hp|apply N.mod_mul, S]].
  pose proof (N.mul_div_le u (size p) S). lia.
Qed.

Lemma not8_mask i p : p <= 32 -> In i [24; 16; 8; 0] -> not8 (byt i (2 ^ 32 - size p)) = byt i (size p - 1).
Proof.
  intros Hp Hi. assert (Sw := sweep 33 (fun p => forallb (fun i =>
      not8 (byt i (2 ^ 32 - size p)) =? byt i (size p - 1)) [24; 16; 8; 0])).
  specialize (Sw ltac:(vm_compute; reflexivity) p ltac:(lia)). cbv beta in Sw. rewrite forallb_forall in Sw.
  apply N.eqb_eq, Sw, Hi.
Qed.

Lemma size_small p : p <= 32 -> size p - 1 < 2 ^ 32.
Proof.
  intros H. assert (P : 0 < size p) by (apply N.neq_0_lt_0, N.pow_nonzero; lia).
  assert (size p <= 2 ^ 32) by (apply N.pow_le_mono_r; lia). lia.
Qed.

Lemma lor_host u p : u < 2 ^ 32 -> p <= 32 -> N.lor u (size p - 1) = base u p + size p - 1.
Proof.
  intros Hu Hp. assert (S : size p <> 0) by (apply N.pow_nonzero; lia).
  assert (O : size p - 1 = N.ones (32 - p)) by (unfold size; rewrite <- N.pred_sub; apply eq_sym, N.ones_equiv).
  assert (D : N.land (base u p) (size p - 1) = 0).
  { rewrite O, N.land_ones. unfold base. apply N.mod_mul, S. }
  replace (base u p + size p - 1) with (base u p + (size p - 1)) by lia.
  rewrite N.add_nocarry_lxor by exact D. rewrite N.lxor_lor by exact D.
  unfold base. unfold size at 2 3. rewrite <- N.shiftr_div_pow2, <- N.shiftl_mul_pow2.
  rewrite O. apply N.bits_inj. intros n. rewrite !N.lor_spec.
  destruct (N.lt_ge_cases n (32 - p)) as [C|C].
  - rewrite N.ones_spec_low by exact C. rewrite !Bool.orb_true_r. reflexivity.
  - rewrite N.ones_spec_high by exact C. rewrite !Bool.orb_false_r.
    rewrite N.shiftl_spec_high' by exact C. rewrite N.shiftr_spec by apply N.le_0_l.
    f_equal. lia.
Qed.

Lemma LastIpv4_host u p : u < 2 ^ 32 -> p <= 32 ->
  LastIpv4 (Some (mkNet (addr u) (addr (2 ^ 32 - size p)))) = Ret (addr (base u p + size p - 1)).
Proof.
  intros Hu Hp. rewrite <- lor_host by assumption. unfold LastIpv4. cbn [IP Mask].
  rewrite !addr_byt by (first [exact Hu | apply mask_small | apply lor_small; [exact Hu|apply size_small, Hp]]).
  unfold idx. cbn [nth_error bind]. rewrite !not8_mask by (cbn [In]; auto). rewrite !byt_lor. reflexivity.
Qed.

(** The first four bytes of an IPv4-mapped address are zero. *)
Lemma LastIpv4_mapped u p : p <= 32 ->
  LastIpv4 (Some (mkNet (mapped ++ addr u) (addr (2 ^ 32 - size p)))) = Ret (addr (size p - 1)).
Proof.
  intros Hp. unfold LastIpv4. cbn [IP Mask mapped repeat app].
  rewrite (addr_byt (2 ^ 32 - size p)) by apply mask_small.
  rewrite (addr_byt (size p - 1)) by apply size_small, Hp.
  unfold idx. cbn [nth_error bind]. rewrite !not8_mask by (cbn [In]; auto). reflexivity.
Qed.

Lemma last_exact n u p : is_cidr n u p ->
  LastIpv4 (Some n) = Ret (addr (if Nat.eqb (length (IP n)) 4 then base u p + size p - 1 else size p - 1)).
Proof.
  destruct n as [ip m]. intros (A & Hp & M). cbn [IP Mask] in *. subst m.
  destruct A as [Hu [-> | ->]].
  - rewrite addr_length. apply LastIpv4_host; assumption.
  - apply LastIpv4_mapped; assumption.
Qed.

Lemma contained_bounds n u p ip x : is_cidr n u p -> is_addr ip x ->
  Contains n ip = true <-> base u p <= x <= base u p + size p - 1.
Proof.
  intros H X. rewrite (Contains_cidr n u p ip x H X). destruct H as ([Hu _] & Hp & _).
  rewrite <- (in_net_aligned _ p x (base_aligned u p Hu Hp)). unfold in_net, base.
  rewrite N.div_mul by (apply N.pow_nonzero; lia). reflexivity.
Qed.

Lemma first_iff n u p : is_cidr n u p ->
  FirstIpv4 (Some n) = Ret (IP n) /\ is_addr (IP n) u /\ (u = base u p <-> u mod size p = 0).
Proof.
  intros (A & Hp & M). split; [reflexivity|]. split; [exact A|].
  assert (S : size p <> 0) by (apply N.pow_nonzero; lia). unfold base.
  pose proof (N.div_mod u (size p) S). split; intros; lia.
Qed.

(** ** Panics *)

Lemma last_panic n : LastIpv4 (Some n) = Panic <-> (length (IP n) < 4 \/ length (Mask n) < 4)%nat.
Proof.
  destruct n as [ip m]. unfold LastIpv4, idx. cbn [IP Mask].
  destruct ip as [|i0 [|i1 [|i2 [|i3 ip]]]]; destruct m as [|m0 [|m1 [|m2 [|m3 m]]]];
    cbn [nth_error bind length]; split; intros H; try reflexivity; try discriminate; lia.
Qed.
Lemma last_total n : LastIpv4 (Some n) <> OutOfFuel.
Proof.
  destruct n as [ip m]. unfold LastIpv4, idx. cbn [IP Mask].
  destruct ip as [|i0 [|i1 [|i2 [|i3 ip]]]]; destruct m as [|m0 [|m1 [|m2 [|m3 m]]]];
    cbn [nth_error bind]; discriminate.
Qed.

Lemma shrink_no_panic fuel : forall s e m, shrink fuel s e m <> Panic.
Proof.
  induction fuel as [|fuel IH]; intros s e m; cbn [shrink]; destruct (_ <? _); try discriminate. apply IH.
Qed.
Lemma bit_len_no_panic fuel : forall t b, bit_len fuel t b <> Panic.
Proof.
  induction fuel as [|fuel IH]; intros t b; cbn [bit_len]; destruct (_ =? _); try discriminate. apply IH.
Qed.
Lemma range_no_panic {V} fuel : forall (t : tree V) s e v, range_loop fuel t s e v <> Panic.
Proof.
  induction fuel as [|fuel IH]; intros t s e v; cbn [range_loop]; destruct (_ <=? _); try discriminate.
  destruct (shrink 33 s e _) as [m| |] eqn:E; [|exfalso; apply (shrink_no_panic _ _ _ _ E)|discriminate].
  cbn [bind]. destruct (bit_len 33 m 0) as [b| |] eqn:F; [|exfalso; apply (bit_len_no_panic _ _ _ F)|discriminate].
  apply IH.
Qed.

Lemma AddRange_no_panic {V} fuel (t : tree V) s e v : AddRange fuel t s e v <> Panic.
Proof.
  unfold AddRange. destruct (ToUint_not_panic s) as [a ->]. destruct (ToUint_not_panic e) as [b ->].
  cbn [bind]. apply range_no_panic.
Qed.
Lemma AddIp_returns {V} (t : tree V) ip v : exists t', AddIp t ip v = Ret t'.
Proof. unfold AddIp. destruct (ToUint_not_panic ip) as [a ->]. cbn [bind]. eauto. Qed.
Lemma AddCidr_returns {V} (t : tree V) c v :
  AddCidr t None v = Panic /\ exists t', AddCidr t (Some c) v = Ret t'.
Proof.
  split; [reflexivity|]. unfold AddCidr. destruct (ToUint_not_panic (IP c)) as [a ->]. cbn [bind]. eauto.
Qed.
Lemma CidrEqual_returns a b : (CidrEqual a b = Panic <-> a = None \/ b = None)
  /\ (a <> None -> b <> None -> exists r, CidrEqual a b = Ret r).
Proof.
  unfold CidrEqual. destruct a as [a|], b as [b|]; split; try tauto; try (split; auto).
  - destruct (negb _); discriminate.
  - intros [?|?]; discriminate.
  - intros _ _. destruct (negb _); eauto.
Qed.
