(** Addresses, masks and CIDRs of package net. *)
From Verif Require Import Base.Go Base.GoNet Model.Net Spec.NetSpec Proofs.Util.
Local Open Scope N_scope.

(** ** Bytes of a 32-bit number *)

Definition byt (i : N) (u : N) : N := N.land (N.shiftr u i) 255.

Lemma addr_byt u : u < 2 ^ 32 -> addr u = [byt 24 u; byt 16 u; byt 8 u; byt 0 u].
Proof.
  intros H. unfold addr, byt. change 255 with (N.ones 8). rewrite !N.land_ones, !N.shiftr_div_pow2.
  change (2 ^ 8) with 256. change (2 ^ 0) with 1. rewrite N.div_1_r.
  rewrite (N.mod_small (u / 2 ^ 24)); [reflexivity|].
  apply N.div_lt_upper_bound; [discriminate|]. change (2 ^ 24 * 256) with (2 ^ 32). exact H.
Qed.
Lemma be32_addr u : u < 2 ^ 32 -> be32 u = addr u.
Proof.
  intros H. rewrite addr_byt by exact H. unfold be32, byt, u8. change 255 with (N.ones 8).
  rewrite !N.land_ones, N.shiftr_0_r. reflexivity.
Qed.
Lemma addr_length u : length (addr u) = 4%nat.
Proof. reflexivity. Qed.

Lemma addr_quad u : u < 2 ^ 32 ->
  quad (u / 2 ^ 24) (u / 2 ^ 16 mod 256) (u / 2 ^ 8 mod 256) (u mod 256) = u.
Proof.
  intros H. unfold quad.
  assert (E1 : u / 2 ^ 16 = u / 2 ^ 24 * 256 + u / 2 ^ 16 mod 256).
  { rewrite (N.div_mod (u / 2 ^ 16) 256) at 1 by discriminate. rewrite N.div_div by discriminate.
    change (2 ^ 16 * 256) with (2 ^ 24). lia. }
  assert (E2 : u / 2 ^ 8 = u / 2 ^ 16 * 256 + u / 2 ^ 8 mod 256).
  { rewrite (N.div_mod (u / 2 ^ 8) 256) at 1 by discriminate. rewrite N.div_div by discriminate.
    change (2 ^ 8 * 256) with (2 ^ 16). lia. }
  rewrite <- E1, <- E2. rewrite (N.div_mod u 256) at 3 by discriminate. change (2 ^ 8) with 256. lia.
Qed.

Lemma addr_inj u v : u < 2 ^ 32 -> v < 2 ^ 32 -> addr u = addr v -> u = v.
Proof.
  intros Hu Hv E. unfold addr in E. injection E as E1 E2 E3 E4.
  rewrite <- (addr_quad u Hu), <- (addr_quad v Hv). rewrite E1, E2, E3, E4. reflexivity.
Qed.

Lemma quad_addr a b c d : a < 256 -> b < 256 -> c < 256 -> d < 256 ->
  quad a b c d < 2 ^ 32 /\ addr (quad a b c d) = [a; b; c; d].
Proof.
  intros Ha Hb Hc Hd. unfold quad. split; [change (2 ^ 32) with 4294967296; lia|]. unfold addr.
  change (2 ^ 24) with 16777216. change (2 ^ 16) with 65536. change (2 ^ 8) with 256.
  f_equal; [|f_equal; [|f_equal; [|f_equal]]].
  - symmetry. apply N.div_unique with ((b * 256 + c) * 256 + d); lia.
  - replace (_ / 65536) with (a * 256 + b) by (apply N.div_unique with (c * 256 + d); lia).
    symmetry. apply N.mod_unique with a; lia.
  - replace (_ / 256) with ((a * 256 + b) * 256 + c) by (apply N.div_unique with d; lia).
    symmetry. apply N.mod_unique with (a * 256 + b); lia.
  - symmetry. apply N.mod_unique with ((a * 256 + b) * 256 + c); lia.
Qed.

Lemma four_bytes l : length l = 4%nat -> bytes_ok l -> exists u, u < 2 ^ 32 /\ l = addr u.
Proof.
  intros L H. destruct l as [|a [|b [|c [|d [|]]]]]; try discriminate.
  inversion H as [|? ? Ha H1]; subst. inversion H1 as [|? ? Hb H2]; subst.
  inversion H2 as [|? ? Hc H3]; subst. inversion H3 as [|? ? Hd H4]; subst.
  destruct (quad_addr a b c d Ha Hb Hc Hd) as [Q1 Q2]. exists (quad a b c d). auto.
Qed.

Lemma addr_bytes u : u < 2 ^ 32 -> bytes_ok (addr u).
Proof.
  intros H. unfold addr, bytes_ok, is_byte. repeat constructor; try (apply N.mod_lt; discriminate).
  apply N.div_lt_upper_bound; [discriminate|exact H].
Qed.

(** ** C34 *)

Lemma get_be32_quad a b c d rest : a < 256 -> b < 256 -> c < 256 -> d < 256 ->
  get_be32 (a :: b :: c :: d :: rest) = Ret (quad a b c d).
Proof.
  intros Ha Hb Hc Hd. cbn [get_be32]. f_equal.
  assert (S : forall x k, x < 256 -> k <= 24 -> shl32 x k = x * 2 ^ k).
  { intros x k Hx Hk. unfold shl32, u32. rewrite N.shiftl_mul_pow2. apply N.mod_small.
    apply N.lt_le_trans with (2 ^ 8 * 2 ^ k); [apply N.mul_lt_mono_pos_r; [apply N.neq_0_lt_0, N.pow_nonzero; lia|exact Hx]|].
    rewrite <- N.pow_add_r. apply N.pow_le_mono_r; lia. }
  rewrite !S by (auto; lia).
  assert (O : forall x y k, x < 2 ^ k -> N.lor x (y * 2 ^ k) = x + y * 2 ^ k).
  { intros x y k Hx. rewrite <- N.shiftl_mul_pow2.
    assert (D : N.land x (N.shiftl y k) = 0).
    { apply N.bits_inj_0. intros i. rewrite N.land_spec.
      destruct (N.lt_ge_cases i k) as [L|L].
      - rewrite N.shiftl_spec_low by exact L. apply Bool.andb_false_r.
      - replace (N.testbit x i) with false; [reflexivity|]. symmetry.
        destruct (N.eq_0_gt_0_cases x) as [->|P]; [apply N.bits_0|].
        apply N.bits_above_log2. apply N.log2_lt_pow2 in Hx; lia. }
    rewrite <- N.lxor_lor by exact D. symmetry. apply N.add_nocarry_lxor, D. }
  rewrite (N.lor_comm (b * 2 ^ 16)).
  replace (N.lor (a * 2 ^ 24) (b * 2 ^ 16)) with (N.lor (b * 2 ^ 16) (a * 2 ^ 24)) by apply N.lor_comm.
  rewrite (O (b * 2 ^ 16) a 24) by (change (2 ^ 16) with 65536; change (2 ^ 24) with 16777216; lia).
  replace (b * 2 ^ 16 + a * 2 ^ 24) with ((b + a * 256) * 2 ^ 16)
    by (change (2 ^ 16) with 65536; change (2 ^ 24) with 16777216; lia).
  rewrite (O (c * 2 ^ 8)) by (change (2 ^ 16) with 65536; change (2 ^ 8) with 256; lia).
  replace (c * 2 ^ 8 + (b + a * 256) * 2 ^ 16) with ((c + (b + a * 256) * 256) * 2 ^ 8)
    by (change (2 ^ 16) with 65536; change (2 ^ 8) with 256; lia).
  rewrite O by (change (2 ^ 8) with 256; lia). unfold quad. change (2 ^ 8) with 256. lia.
Qed.

Lemma get_be32_addr u : u < 2 ^ 32 -> get_be32 (addr u) = Ret u.
Proof.
  intros H. pose proof (addr_bytes u H) as B. unfold addr in *.
  inversion B as [|? ? Ha H1]; subst. inversion H1 as [|? ? Hb H2]; subst.
  inversion H2 as [|? ? Hc H3]; subst. inversion H3 as [|? ? Hd H4]; subst.
  rewrite get_be32_quad by assumption. rewrite addr_quad by exact H. reflexivity.
Qed.

Lemma To4_4 ip : length ip = 4%nat -> To4 ip = Some ip.
Proof. intros H. unfold To4. rewrite H. reflexivity. Qed.
Lemma mapped_prefix : v4_prefix = mapped.
Proof. reflexivity. Qed.
Lemma To4_mapped ip : length ip = 4%nat -> To4 (mapped ++ ip) = Some ip.
Proof.
  rewrite <- mapped_prefix. intros H. unfold To4. rewrite app_length, H. cbn [Nat.add length v4_prefix Nat.eqb andb app firstn skipn].
  destruct (list_eq_dec N.eq_dec _ v4_prefix) as [E|E]; [reflexivity|exfalso; apply E; reflexivity].
Qed.
Lemma To4_some ip x : To4 ip = Some x -> length x = 4%nat /\ (ip = x \/ ip = mapped ++ x).
Proof.
  rewrite <- mapped_prefix.
  unfold To4. destruct (Nat.eqb_spec (length ip) 4) as [L|L]; [intros E; injection E as <-; auto|].
  destruct (Nat.eqb_spec (length ip) 16) as [L16|L16]; cbn [andb]; [|discriminate].
  destruct (list_eq_dec N.eq_dec (firstn 12 ip) v4_prefix) as [E|E]; [|discriminate].
  intros X. assert (Y : x = skipn 12 ip) by congruence. subst x. rewrite skipn_length, L16. split; [reflexivity|]. right.
  rewrite <- E. symmetry. apply firstn_skipn.
Qed.

Lemma To4_addr ip u : is_addr ip u -> To4 ip = Some (addr u).
Proof. intros [H [-> | ->]]; [apply To4_4|apply To4_mapped]; reflexivity. Qed.
Lemma addr_of_To4 ip x : bytes_ok ip -> To4 ip = Some x -> exists u, is_addr ip u /\ x = addr u.
Proof.
  intros B H. destruct (To4_some _ _ H) as [L E].
  assert (Bx : bytes_ok x). { destruct E as [-> | ->]; [exact B|]. apply Forall_app in B. tauto. }
  destruct (four_bytes x L Bx) as (u & Hu & ->). exists u. split; [split; auto|reflexivity].
Qed.

Lemma ToUint_addr ip u : is_addr ip u -> Ipv4ToUint ip = Ret u.
Proof. intros H. unfold Ipv4ToUint. rewrite (To4_addr ip u H). apply get_be32_addr, H. Qed.
Lemma is_addr_fun ip u v : is_addr ip u -> is_addr ip v -> u = v.
Proof. intros H1 H2. apply ToUint_addr in H1, H2. congruence. Qed.

Lemma ToUint_other ip : bytes_ok ip -> (forall u, ~ is_addr ip u) -> Ipv4ToUint ip = Ret 0.
Proof.
  intros B H. unfold Ipv4ToUint. destruct (To4 ip) as [x|] eqn:E; [|reflexivity].
  destruct (addr_of_To4 ip x B E) as (u & U & _). exfalso. apply (H u U).
Qed.
Lemma ToUint_total ip : bytes_ok ip -> exists u, u < 2 ^ 32 /\ Ipv4ToUint ip = Ret u.
Proof.
  intros B. unfold Ipv4ToUint. destruct (To4 ip) as [x|] eqn:E; [|exists 0; split; reflexivity].
  destruct (addr_of_To4 ip x B E) as (u & U & ->). exists u. split; [apply U|apply get_be32_addr, U].
Qed.
Lemma ToUint_not_panic ip : exists u, Ipv4ToUint ip = Ret u.
Proof.
  unfold Ipv4ToUint. destruct (To4 ip) as [x|] eqn:E; [|eauto]. apply To4_some in E. destruct E as [L _].
  destruct x as [|a [|b [|c [|d x]]]]; try discriminate. cbn [get_be32]. eauto.
Qed.

Lemma from_to u : u < 2 ^ 32 -> Ipv4ToUint (Ipv4FromUint u) = Ret u.
Proof. intros H. unfold Ipv4FromUint. rewrite be32_addr by exact H. apply ToUint_addr. split; auto. Qed.
Lemma FromUint_addr u : u < 2 ^ 32 -> is_addr (Ipv4FromUint u) u.
Proof. intros H. unfold Ipv4FromUint. rewrite be32_addr by exact H. split; auto. Qed.
Lemma to_from ip : length ip = 4%nat -> bytes_ok ip -> exists u, Ipv4ToUint ip = Ret u /\ Ipv4FromUint u = ip.
Proof.
  intros L B. destruct (four_bytes ip L B) as (u & Hu & ->). exists u. split.
  - apply ToUint_addr. split; auto.
  - unfold Ipv4FromUint. apply be32_addr, Hu.
Qed.
Lemma ToUint_quad a b c d : a < 256 -> b < 256 -> c < 256 -> d < 256 ->
  Ipv4ToUint [a; b; c; d] = Ret (quad a b c d) /\ Ipv4ToUint (v4_prefix ++ [a; b; c; d]) = Ret (quad a b c d).
Proof.
  intros Ha Hb Hc Hd. destruct (quad_addr a b c d Ha Hb Hc Hd) as [Q1 Q2].
  split; apply ToUint_addr; split; auto; rewrite Q2; auto.
Qed.
Lemma addr_lex u v : u < 2 ^ 32 -> v < 2 ^ 32 -> u < v <-> lex_lt (addr u) (addr v).
Proof.
  intros Hu Hv. rewrite <- (addr_quad u Hu) at 1. rewrite <- (addr_quad v Hv) at 1.
  pose proof (addr_bytes u Hu) as B1. pose proof (addr_bytes v Hv) as B2. unfold addr in *.
  generalize dependent (u / 2 ^ 24). generalize dependent (u / 2 ^ 16 mod 256).
  generalize dependent (u / 2 ^ 8 mod 256). generalize dependent (u mod 256).
  generalize dependent (v / 2 ^ 24). generalize dependent (v / 2 ^ 16 mod 256).
  generalize dependent (v / 2 ^ 8 mod 256). generalize dependent (v mod 256).
  intros d2 c2 b2 a2 B2 d1 c1 b1 a1 B1. unfold bytes_ok, is_byte in *.
  repeat match goal with H : Forall _ (_ :: _) |- _ => inversion H; clear H; subst end.
  cbn [lex_lt]. unfold quad. lia.
Qed.

(** ** C35 masks *)

Lemma MaskFromByte_small b : b <= 32 -> MaskFromByte b = addr (2 ^ 32 - size b).
Proof.
  intros H. assert (S := sweep 33 (fun b => bytes_same (MaskFromByte b) (addr (2 ^ 32 - size b)))).
  unfold bytes_same in S. specialize (S ltac:(vm_compute; reflexivity) b ltac:(lia)). cbv beta in S.
  destruct (list_eq_dec N.eq_dec (MaskFromByte b) (addr (2 ^ 32 - size b))); [assumption|discriminate].
Qed.
Lemma MaskFromByte_big b : 32 < b < 256 -> MaskFromByte b = [0; 0; 0; 0].
Proof.
  intros H. assert (S := sweep 256 (fun b => (b <=? 32) || bytes_same (MaskFromByte b) [0;0;0;0])%bool).
  specialize (S ltac:(vm_compute; reflexivity) b ltac:(lia)). cbv beta in S.
  rewrite (proj2 (N.leb_gt _ _)) in S by lia. cbn [orb] in S. unfold bytes_same in S.
  destruct (list_eq_dec N.eq_dec (MaskFromByte b) [0;0;0;0]); [assumption|discriminate].
Qed.

Lemma bit_head v rest i : (i < 8)%nat -> bit_of (v :: rest) i = N.testbit v (N.of_nat (7 - i)).
Proof. intros H. unfold bit_of. rewrite Nat.div_small, Nat.mod_small by exact H. reflexivity. Qed.
Lemma bit_tail v rest i : bit_of (v :: rest) (8 + i) = bit_of rest i.
Proof.
  unfold bit_of. replace (8 + i)%nat with (i + 1 * 8)%nat by lia.
  rewrite Nat.div_add, Nat.mod_add by lia. rewrite Nat.add_1_r. reflexivity.
Qed.

Lemma byte_ones v : v < 256 -> v <> 255 ->
  (exists j, (j < 8)%nat /\ forall n, count_ones 8 v n = (0, n + N.of_nat j)
     /\ forall i, (i < 8)%nat -> N.testbit v (N.of_nat (7 - i)) = Nat.ltb i j)
  \/ ((forall n, fst (count_ones 8 v n) <> 0) /\
      exists i j, (i < j < 8)%nat /\ N.testbit v (N.of_nat (7 - i)) = false /\ N.testbit v (N.of_nat (7 - j)) = true).
Proof.
  intros H H255.
  assert (Cn : forall k v n, count_ones k v n = (fst (count_ones k v 0), n + snd (count_ones k v 0))).
  { clear. induction k as [|k IH]; intros v n; cbn [count_ones fst snd]; [f_equal; lia|].
    destruct (N.testbit v 7); [|cbn [fst snd]; f_equal; lia].
    rewrite (IH _ (n + 1)), (IH _ (0 + 1)). cbn [fst snd]. f_equal. lia. }
  pose (ok := fun v : N => ((v =? 255) ||
    let (r, j) := count_ones 8 v 0 in
    if r =? 0 then ((j <? 8) && forallb (fun i => Bool.eqb (N.testbit v (N.of_nat (7 - i))) (Nat.ltb i (N.to_nat j))) (seq 0 8))%bool
    else existsb (fun i => existsb (fun j => (Nat.ltb i j && Nat.ltb j 8 && negb (N.testbit v (N.of_nat (7 - i)))
           && N.testbit v (N.of_nat (7 - j)))%bool) (seq 0 8)) (seq 0 8))%bool).
  assert (S : ok v = true) by (apply (sweep_byte ok); [vm_compute; reflexivity|exact H]).
  unfold ok in S. rewrite (proj2 (N.eqb_neq _ _) H255) in S. cbn [orb] in S.
  pose proof (Cn 8%nat v) as C. destruct (count_ones 8 v 0) as [r j]. cbn [fst snd] in C.
  destruct (N.eqb_spec r 0) as [->|R].
  - left. apply andb_prop in S. destruct S as [S1 S2]. apply N.ltb_lt in S1. exists (N.to_nat j).
    split; [lia|]. intros n. split; [rewrite C, N2Nat.id; reflexivity|]. intros i Hi.
    rewrite forallb_forall in S2. apply Bool.eqb_prop, S2, in_seq. lia.
  - right. split; [intros n; rewrite C; exact R|]. apply existsb_exists in S. destruct S as (i & _ & S).
    apply existsb_exists in S. destruct S as (i2 & _ & S). apply andb_prop in S. destruct S as [S S4].
    apply andb_prop in S. destruct S as [S S3]. apply andb_prop in S. destruct S as [S1 S2].
    apply Nat.ltb_lt in S1, S2. exists i, i2. split; [lia|]. split; [|exact S4].
    destruct (N.testbit v (N.of_nat (7 - i))); [discriminate|reflexivity].
Qed.

Lemma zeros_bits rest : bytes_ok rest ->
  forallb (fun x => x =? 0) rest = true <-> forall i, (i < 8 * length rest)%nat -> bit_of rest i = false.
Proof.
  intros B. induction B as [|v rest Hv B IH]; cbn [forallb length].
  - split; [intros _ i Hi; lia|reflexivity].
  - rewrite Bool.andb_true_iff, IH, N.eqb_eq. split.
    + intros [-> H] i Hi. destruct (Nat.lt_ge_cases i 8) as [L|L].
      * rewrite bit_head by exact L. apply N.bits_0.
      * replace i with (8 + (i - 8))%nat by lia. rewrite bit_tail. apply H. lia.
    + intros H. split.
      * apply N.bits_inj_0. intros i. destruct (N.lt_ge_cases i 8) as [L|L].
        -- specialize (H (7 - N.to_nat i)%nat ltac:(lia)). rewrite bit_head in H by lia.
           replace (N.of_nat (7 - (7 - N.to_nat i))) with i in H by lia. exact H.
        -- destruct (N.eq_0_gt_0_cases v) as [->|P]; [apply N.bits_0|]. apply N.bits_above_log2.
           apply N.log2_lt_pow2; [exact P|]. apply N.lt_le_trans with (2 ^ 8); [exact Hv|].
           apply N.pow_le_mono_r; lia.
      * intros i Hi. rewrite <- (bit_tail v). apply H. lia.
Qed.

Lemma bit_255 i : (i < 8)%nat -> N.testbit 255 (N.of_nat (7 - i)) = true.
Proof. intros H. change 255 with (N.ones 8). rewrite N.ones_spec_low; [reflexivity|lia]. Qed.

Lemma simple_spec m : bytes_ok m -> forall n,
  match simpleMaskLength m n with
  | Some r => exists k, r = n + N.of_nat k /\ mask_of_length m k
  | None => forall k, ~ mask_of_length m k
  end.
Proof.
  intros B. induction B as [|v rest Hv B IH]; intros n; cbn [simpleMaskLength].
  - exists O. split; [lia|]. split; [lia|]. intros i Hi. cbn in Hi. lia.
  - destruct (N.eqb_spec v 255) as [->|Hne].
    + specialize (IH (n + 8)). destruct (simpleMaskLength rest (n + 8)) as [r|].
      * destruct IH as (k & -> & L & M). exists (8 + k)%nat. split; [lia|]. split; [cbn [length]; lia|]. cbn [length].
        intros i Hi. destruct (Nat.lt_ge_cases i 8) as [G|G].
        -- rewrite bit_head, bit_255 by exact G. symmetry. apply Nat.ltb_lt. lia.
        -- replace i with (8 + (i - 8))%nat at 1 by lia. rewrite bit_tail, M by lia.
           destruct (Nat.ltb_spec (i - 8) k), (Nat.ltb_spec i (8 + k)); try reflexivity; lia.
      * intros k [L M]. cbn [length] in *. apply (IH (k - 8)%nat). split; [lia|]. intros i Hi.
        rewrite <- (bit_tail 255), M by lia.
        assert (K : (8 <= k)%nat).
        { destruct (Nat.le_gt_cases 8 k) as [?|G]; [assumption|]. specialize (M k ltac:(lia)).
          rewrite bit_head, bit_255 in M by lia. symmetry in M. apply Nat.ltb_lt in M. lia. }
        destruct (Nat.ltb_spec (8 + i) k), (Nat.ltb_spec i (k - 8)); try reflexivity; lia.
    + destruct (byte_ones v Hv Hne) as [(j & Hj & J)|(J & i0 & j0 & Hij & Bi & Bj)].
      * destruct (J n) as [-> Bits]. rewrite N.eqb_refl. cbn [negb].
        destruct (forallb (fun x => x =? 0) rest) eqn:Z.
        -- exists j. split; [reflexivity|]. split; [cbn [length]; lia|]. cbn [length]. intros i Hi.
           destruct (Nat.lt_ge_cases i 8) as [G|G].
           ++ rewrite bit_head by exact G. apply Bits, G.
           ++ replace i with (8 + (i - 8))%nat at 1 by lia. rewrite bit_tail.
              rewrite (proj1 (zeros_bits rest B) Z) by lia. symmetry. apply Nat.ltb_ge. lia.
        -- intros k [L M]. cbn [length] in *.
           assert (K : k = j).
           { specialize (M j ltac:(lia)) as Mj. rewrite bit_head, Bits in Mj by lia.
             rewrite Nat.ltb_irrefl in Mj. symmetry in Mj. apply Nat.ltb_ge in Mj.
             destruct (Nat.eq_dec k j); [assumption|]. specialize (M k ltac:(lia)).
             rewrite bit_head, Bits, Nat.ltb_irrefl in M by lia. apply Nat.ltb_ge in M. lia. }
           subst k. assert (forallb (fun x => x =? 0) rest = true); [|congruence].
           apply zeros_bits; [exact B|]. intros i Hi. rewrite <- (bit_tail v), M by lia. apply Nat.ltb_ge. lia.
      * specialize (J n). destruct (count_ones 8 v n) as [v' n']. cbn [fst] in J.
        rewrite (proj2 (N.eqb_neq _ _) J). cbn [negb]. intros k [L M]. cbn [length] in *.
        specialize (M i0 ltac:(lia)) as M1. specialize (M j0 ltac:(lia)) as M2.
        rewrite bit_head in M1, M2 by lia. rewrite Bi in M1. rewrite Bj in M2.
        symmetry in M1, M2. apply Nat.ltb_ge in M1. apply Nat.ltb_lt in M2. lia.
Qed.

Lemma mask_length_unique m a b : mask_of_length m a -> mask_of_length m b -> a = b.
Proof.
  intros [La Ma] [Lb Mb]. destruct (Nat.lt_trichotomy a b) as [L|[E|L]]; [|exact E|].
  - specialize (Ma a ltac:(lia)). rewrite Mb, Nat.ltb_irrefl in Ma by lia. apply Nat.ltb_ge in Ma. lia.
  - specialize (Mb b ltac:(lia)). rewrite Ma, Nat.ltb_irrefl in Mb by lia. apply Nat.ltb_ge in Mb. lia.
Qed.

Lemma MaskToByte_length m n : bytes_ok m -> mask_of_length m n -> MaskToByte m = N.of_nat n mod 256.
Proof.
  intros B M. unfold MaskToByte, Size. pose proof (simple_spec m B 0) as S.
  destruct (simpleMaskLength m 0) as [r|]; [|exfalso; apply (S n M)].
  destruct S as (k & -> & Mk). rewrite (mask_length_unique m n k M Mk). reflexivity.
Qed.
Lemma MaskToByte_other m : bytes_ok m -> (forall n, ~ mask_of_length m n) -> MaskToByte m = 0.
Proof.
  intros B M. unfold MaskToByte, Size. pose proof (simple_spec m B 0) as S.
  destruct (simpleMaskLength m 0) as [r|]; [|reflexivity].
  destruct S as (k & _ & Mk). exfalso. apply (M k Mk).
Qed.
Lemma MaskToByte_From b : b <= 32 -> MaskToByte (addr (2 ^ 32 - size b)) = b.
Proof.
  intros H. assert (S := sweep 33 (fun b => MaskToByte (addr (2 ^ 32 - size b)) =? b)).
  specialize (S ltac:(vm_compute; reflexivity) b ltac:(lia)). apply N.eqb_eq, S.
Qed.
Lemma mask_addr_length b : b <= 32 -> mask_of_length (addr (2 ^ 32 - size b)) (N.to_nat b).
Proof.
  intros H. assert (S := sweep 33 (fun b => forallb (fun i =>
     Bool.eqb (bit_of (addr (2 ^ 32 - size b)) i) (Nat.ltb i (N.to_nat b))) (seq 0 32))).
  specialize (S ltac:(vm_compute; reflexivity) b ltac:(lia)). cbv beta in S.
  rewrite forallb_forall in S. split; [rewrite addr_length; lia|]. intros i Hi. rewrite addr_length in Hi.
  apply Bool.eqb_prop, S, in_seq. lia.
Qed.

(** ** C36, C37 CIDRs *)

Lemma mask_lnot p : p <= 32 -> 2 ^ 32 - size p = N.lnot (N.ones (32 - p)) 32.
Proof.
  intros H. assert (S := sweep 33 (fun p => 2 ^ 32 - size p =? N.lnot (N.ones (32 - p)) 32)).
  apply N.eqb_eq, (S ltac:(vm_compute; reflexivity) p). lia.
Qed.
Lemma mask_small p : 2 ^ 32 - size p < 2 ^ 32.
Proof. assert (0 < size p) by (apply N.neq_0_lt_0, N.pow_nonzero; lia). assert (0 < 2 ^ 32) by reflexivity. lia. Qed.

Lemma land_mask x p : x < 2 ^ 32 -> p <= 32 -> N.land x (2 ^ 32 - size p) = x / size p * size p.
Proof.
  intros Hx Hp. rewrite mask_lnot by exact Hp. destruct (N.eq_0_gt_0_cases x) as [->|P]; [reflexivity|].
  rewrite <- N.ldiff_land_low by (apply N.log2_lt_pow2; assumption).
  rewrite N.ldiff_ones_r, N.shiftl_mul_pow2, N.shiftr_div_pow2. reflexivity.
Qed.

Lemma byt_land i u v : byt i (N.land u v) = N.land (byt i u) (byt i v).
Proof.
  unfold byt. apply N.bits_inj. intros n. rewrite !N.land_spec, !N.shiftr_spec by apply N.le_0_l.
  rewrite N.land_spec. destruct (N.testbit u (n + i)), (N.testbit v (n + i)), (N.testbit 255 n); reflexivity.
Qed.
Lemma byt_lor i u v : byt i (N.lor u v) = N.lor (byt i u) (byt i v).
Proof.
  unfold byt. apply N.bits_inj. intros n. rewrite N.lor_spec, !N.land_spec, !N.shiftr_spec by apply N.le_0_l.
  rewrite N.lor_spec. destruct (N.testbit u (n + i)), (N.testbit v (n + i)), (N.testbit 255 n); reflexivity.
Qed.

Lemma land_small u v : u < 2 ^ 32 -> N.land u v < 2 ^ 32.
Proof.
  intros H. destruct (N.eq_0_gt_0_cases (N.land u v)) as [->|P]; [reflexivity|].
  apply N.log2_lt_pow2; [exact P|]. eapply N.le_lt_trans; [apply N.log2_land|].
  apply N.min_lt_iff. left. apply N.log2_lt_pow2; [|exact H].
  destruct (N.eq_0_gt_0_cases u) as [->|]; [rewrite N.land_0_l in P; lia|assumption].
Qed.
Lemma lor_small u v : u < 2 ^ 32 -> v < 2 ^ 32 -> N.lor u v < 2 ^ 32.
Proof.
  intros H1 H2. destruct (N.eq_0_gt_0_cases u) as [->|P1]; [rewrite N.lor_0_l; exact H2|].
  destruct (N.eq_0_gt_0_cases v) as [->|P2]; [rewrite N.lor_0_r; exact H1|].
  assert (P : 0 < N.lor u v).
  { apply N.neq_0_lt_0. intros E. apply N.lor_eq_0_iff in E. lia. }
  apply N.log2_lt_pow2; [exact P|]. rewrite N.log2_lor.
  apply N.max_lub_lt; apply N.log2_lt_pow2; assumption.
Qed.

Lemma same_masked_addr u m x : u < 2 ^ 32 -> m < 2 ^ 32 -> x < 2 ^ 32 ->
  same_masked (addr u) (addr m) (addr x) = true <-> N.land u m = N.land x m.
Proof.
  intros Hu Hm Hx. rewrite !addr_byt by assumption. cbn [same_masked].
  rewrite <- !byt_land, !Bool.andb_true_iff, !N.eqb_eq. split.
  - intros (E1 & E2 & E3 & E4 & _). apply addr_inj; try (apply land_small; assumption).
    rewrite !addr_byt by (apply land_small; assumption). rewrite E1, E2, E3, E4. reflexivity.
  - intros ->. auto 10.
Qed.

Lemma Contains_cidr n u p ip x : is_cidr n u p -> is_addr ip x ->
  Contains n ip = true <-> in_net u p x.
Proof.
  intros (A & Hp & M) X. unfold Contains. rewrite (To4_addr ip x X). unfold networkNumberAndMask.
  rewrite (To4_addr (IP n) u A), M. cbn [length addr Nat.eqb orb andb].
  rewrite (same_masked_addr u (2 ^ 32 - size p) x) by (apply A || apply X || apply mask_small).
  rewrite !land_mask by (apply A || apply X || exact Hp). unfold in_net. split; [|intros ->; reflexivity].
  intros E. apply N.mul_cancel_r in E; [symmetry; exact E|]. apply N.pow_nonzero. lia.
Qed.
Lemma Contains_other n u p ip : is_cidr n u p -> bytes_ok ip -> (forall x, ~ is_addr ip x) -> Contains n ip = false.
Proof.
  intros (A & Hp & M) B X. unfold Contains. destruct (To4 ip) as [y|] eqn:E.
  { destruct (addr_of_To4 ip y B E) as (x & Hx & _). exfalso. apply (X x Hx). }
  unfold networkNumberAndMask. rewrite (To4_addr (IP n) u A), M. cbn [length addr Nat.eqb orb andb].
  destruct (Nat.eqb_spec (length ip) 4) as [L|L]; [|reflexivity].
  rewrite To4_4 in E by exact L. discriminate.
Qed.
Lemma net_of_cidr u p : u < 2 ^ 32 -> p <= 32 -> is_cidr (net_of u p) u p.
Proof. intros Hu Hp. split; [|split; [exact Hp|reflexivity]]. split; [exact Hu|]. left. reflexivity. Qed.

Lemma mask_inj p q : p <= 32 -> q <= 32 -> addr (2 ^ 32 - size p) = addr (2 ^ 32 - size q) -> p = q.
Proof.
  intros Hp Hq E. apply (f_equal MaskToByte) in E. rewrite !MaskToByte_From in E by assumption. exact E.
Qed.
Lemma cidr_fun n u p u' p' : is_cidr n u p -> is_cidr n u' p' -> u = u' /\ p = p'.
Proof.
  intros (A & Hp & M) (A' & Hp' & M'). split; [apply (is_addr_fun _ _ _ A A')|].
  apply mask_inj; congruence.
Qed.

Lemma CidrEqual_v4 a b u v : is_addr (IP a) u -> is_addr (IP b) v ->
  exists r, CidrEqual (Some a) (Some b) = Ret r /\ (r = true <-> Mask a = Mask b /\ u = v).
Proof.
  intros A B. cbn [CidrEqual]. rewrite (To4_addr _ _ A), (To4_addr _ _ B). unfold bytes_same.
  destruct (list_eq_dec N.eq_dec (Mask a) (Mask b)) as [E|E]; cbn [negb].
  - destruct (list_eq_dec N.eq_dec (addr u) (addr v)) as [F|F]; eexists; (split; [reflexivity|]).
    + split; [intros _|reflexivity]. split; [exact E|]. apply addr_inj; [apply A|apply B|exact F].
    + split; [discriminate|]. intros [_ ->]. contradiction.
  - eexists. split; [reflexivity|]. split; [discriminate|]. intros [? _]. contradiction.
Qed.

Lemma aligned_last u p : aligned u p -> u + size p <= 2 ^ 32.
Proof.
  intros (Hu & Hp & A). assert (S : size p <> 0) by (apply N.pow_nonzero; lia).
  assert (E : 2 ^ 32 = 2 ^ p * size p) by (unfold size; rewrite <- N.pow_add_r; f_equal; lia).
  apply N.mod_divide in A; [|exact S]. destruct A as [c ->]. rewrite E in *.
  assert (c < 2 ^ p) by (apply (N.mul_lt_mono_pos_r (size p)); lia).
  replace (c * size p + size p) with ((c + 1) * size p) by lia. apply N.mul_le_mono_r. lia.
Qed.
Lemma in_net_aligned u p x : aligned u p -> in_net u p x <-> u <= x <= u + size p - 1.
Proof.
  intros (Hu & Hp & A). assert (S : 0 < size p) by (apply N.neq_0_lt_0, N.pow_nonzero; lia).
  unfold in_net. pose proof (N.div_mod u (size p) ltac:(lia)) as D. rewrite A in D.
  split.
  - intros E. pose proof (N.div_mod x (size p) ltac:(lia)) as D2.
    pose proof (N.mod_lt x (size p) ltac:(lia)) as L. rewrite E in D2.
    revert D D2 L. generalize (size p * (u / size p)), (x mod size p). intros. lia.
  - intros H. symmetry. apply N.div_unique with (x - u); [lia|].
    revert D. generalize (size p * (u / size p)). intros. lia.
Qed.

Lemma LastIpv4_net u p : aligned u p -> LastIpv4 (Some (net_of u p)) = Ret (addr (u + size p - 1)).
Proof.
  intros H. destruct H as (Hu & Hp & A).
  assert (S : forall i, In i [24; 16; 8; 0] -> not8 (byt i (2 ^ 32 - size p)) = byt i (size p - 1)).
  { intros i Hi. assert (Sw := sweep 33 (fun p => forallb (fun i =>
      not8 (byt i (2 ^ 32 - size p)) =? byt i (size p - 1)) [24; 16; 8; 0])).
    specialize (Sw ltac:(vm_compute; reflexivity) p ltac:(lia)). cbv beta in Sw. rewrite forallb_forall in Sw.
    apply N.eqb_eq, Sw, Hi. }
  assert (P : 0 < size p) by (apply N.neq_0_lt_0, N.pow_nonzero; lia).
  assert (Ps : size p - 1 < 2 ^ 32).
  { assert (size p <= 2 ^ 32) by (apply N.pow_le_mono_r; lia). lia. }
  assert (E : u + size p - 1 = N.lor u (size p - 1)).
  { assert (D : N.land u (size p - 1) = 0).
    { unfold size. rewrite <- N.pred_sub, <- N.ones_equiv, N.land_ones. exact A. }
    rewrite <- N.lxor_lor by exact D. rewrite <- N.add_nocarry_lxor by exact D. lia. }
  rewrite E. unfold LastIpv4, net_of. cbn [IP Mask].
  rewrite !addr_byt by (first [exact Hu | apply mask_small | apply lor_small; assumption]).
  unfold idx. cbn [nth_error bind]. rewrite !S by (cbn [In]; auto). rewrite !byt_lor. reflexivity.
Qed.

Lemma CidrEqual_sets u p u' p' : aligned u p -> aligned u' p' ->
  exists r, CidrEqual (Some (net_of u p)) (Some (net_of u' p')) = Ret r
  /\ (r = true <-> forall x, x < 2 ^ 32 ->
        Contains (net_of u p) (addr x) = true <-> Contains (net_of u' p') (addr x) = true).
Proof.
  intros H H'. pose proof H as (Hu & Hp & A). pose proof H' as (Hu' & Hp' & A').
  assert (S : 0 < size p) by (apply N.neq_0_lt_0, N.pow_nonzero; lia).
  assert (S' : 0 < size p') by (apply N.neq_0_lt_0, N.pow_nonzero; lia).
  destruct (CidrEqual_v4 (net_of u p) (net_of u' p') u u') as (r & E & R);
    [split; auto|split; auto|].
  exists r. split; [exact E|]. rewrite R. cbn [net_of Mask]. split.
  - intros [M ->]. apply mask_inj in M; [|assumption|assumption]. subst. intros x _. reflexivity.
  - intros C. pose proof (aligned_last u p H). pose proof (aligned_last u' p' H').
    assert (Q : forall x, x < 2 ^ 32 -> u <= x <= u + size p - 1 <-> u' <= x <= u' + size p' - 1).
    { intros x Hx. specialize (C x Hx).
      assert (X : is_addr (addr x) x) by (split; auto).
      rewrite (Contains_cidr _ u p _ x (net_of_cidr u p Hu Hp) X),
              (Contains_cidr _ u' p' _ x (net_of_cidr u' p' Hu' Hp') X) in C.
      rewrite (in_net_aligned u p x H), (in_net_aligned u' p' x H') in C. exact C. }
    pose proof (proj1 (Q u Hu) ltac:(lia)). pose proof (proj2 (Q u' Hu') ltac:(lia)).
    assert (u = u') by lia. subst u'.
    pose proof (proj1 (Q (u + size p - 1) ltac:(lia)) ltac:(lia)).
    pose proof (proj2 (Q (u + size p' - 1) ltac:(lia)) ltac:(lia)).
    assert (E1 : size p = size p') by lia. rewrite E1. auto.
Qed.

Lemma first_last u p : aligned u p -> exists last,
  last = u + size p - 1
  /\ FirstIpv4 (Some (net_of u p)) = Ret (addr u) /\ LastIpv4 (Some (net_of u p)) = Ret (addr last)
  /\ Contains (net_of u p) (addr u) = true /\ Contains (net_of u p) (addr last) = true
  /\ (forall ip x, is_addr ip x -> Contains (net_of u p) ip = true <-> u <= x <= last)
  /\ (forall ip, bytes_ok ip -> (forall x, ~ is_addr ip x) -> Contains (net_of u p) ip = false).
Proof.
  intros H. pose proof H as (Hu & Hp & A). pose proof (aligned_last u p H).
  assert (S : 0 < size p) by (apply N.neq_0_lt_0, N.pow_nonzero; lia).
  pose proof (net_of_cidr u p Hu Hp) as N1.
  assert (Q : forall ip x, is_addr ip x -> Contains (net_of u p) ip = true <-> u <= x <= u + size p - 1).
  { intros ip x X. rewrite (Contains_cidr _ u p ip x N1 X). apply in_net_aligned, H. }
  exists (u + size p - 1). split; [reflexivity|]. split; [reflexivity|]. split; [apply LastIpv4_net, H|].
  split; [apply (Q _ u); [split; auto|lia]|]. split; [apply (Q _ (u + size p - 1)); [split; [lia|auto]|lia]|].
  split; [exact Q|]. intros ip B X. apply (Contains_other _ u p); assumption.
Qed.
