From Verif Require Import Base.Go Model.Hex Spec.HexSpec Proofs.Util.
From Coq Require DecimalPos DecimalN DecimalZ DecimalFacts.
Local Open Scope N_scope.

(** ** decode *)

Definition decode_check (bd : build) (c : N) : bool :=
  match decode bd c, digit_value c with
  | Ret v, Some w => (v =? w) && (w <? 16)
  | Ret v, None => (15 <? v) && (v <? 256) && negb (N.land v 0xF0 =? 0)
  | _, _ => false
  end.

Lemma decode_sweep bd c : c < 256 -> decode_check bd c = true.
Proof. revert c. apply sweep_byte. destruct bd; vm_compute; reflexivity. Qed.

Lemma decode_valid bd c v :
  c < 256 -> digit_value c = Some v -> decode bd c = Ret v /\ v < 16.
Proof.
  intros Hc Hv. pose proof (decode_sweep bd c Hc) as H. unfold decode_check in H.
  rewrite Hv in H. destruct (decode bd c); try discriminate.
  apply andb_true_iff in H. destruct H as [H1 H2].
  apply N.eqb_eq in H1. apply N.ltb_lt in H2. subst. auto.
Qed.

Lemma decode_invalid bd c :
  c < 256 -> digit_value c = None ->
  exists v, decode bd c = Ret v /\ 15 < v /\ v < 256 /\ N.land v 0xF0 <> 0.
Proof.
  intros Hc Hv. pose proof (decode_sweep bd c Hc) as H. unfold decode_check in H.
  rewrite Hv in H. destruct (decode bd c) as [v| |]; try discriminate.
  apply andb_true_iff in H. destruct H as [H H3].
  apply andb_true_iff in H. destruct H as [H1 H2].
  apply N.ltb_lt in H1. apply N.ltb_lt in H2.
  apply negb_true_iff, N.eqb_neq in H3. exists v. auto.
Qed.

Lemma land_F0_small v : v < 16 -> N.land v 0xF0 = 0.
Proof.
  intros H. cut (forallb (fun v => N.land v 0xF0 =? 0) (below 16) = true).
  - intros HH. apply N.eqb_eq. exact (sweep 16 (fun v => N.land v 0xF0 =? 0) HH v H).
  - vm_compute. reflexivity.
Qed.

Lemma land_lor_F0 a b :
  a < 256 -> b < 256 -> (N.land (N.lor a b) 0xF0 =? 0) =
  ((N.land a 0xF0 =? 0) && (N.land b 0xF0 =? 0)).
Proof.
  intros Ha Hb. rewrite N.land_lor_distr_l.
  destruct (N.eqb_spec (N.land a 240) 0) as [E1|E1];
    destruct (N.eqb_spec (N.land b 240) 0) as [E2|E2]; simpl.
  - rewrite E1, E2. reflexivity.
  - rewrite E1, N.lor_0_l. apply N.eqb_neq. exact E2.
  - rewrite E2, N.lor_0_r. apply N.eqb_neq. exact E1.
  - apply N.eqb_neq. intros H. apply N.lor_eq_0_iff in H. tauto.
Qed.

Definition nibble_pair_check (h : N) : bool :=
  forallb (fun l => N.lor (shl8 h 4) l =? 16 * h + l) (below 16).

Lemma lor_nibbles h l : h < 16 -> l < 16 -> N.lor (shl8 h 4) l = 16 * h + l.
Proof.
  intros Hh Hl.
  assert (H : forallb nibble_pair_check (below 16) = true) by (vm_compute; reflexivity).
  pose proof (sweep 16 _ H h Hh) as H1. unfold nibble_pair_check in H1.
  apply N.eqb_eq. exact (sweep 16 (fun l => N.lor (shl8 h 4) l =? 16 * h + l) H1 l Hl).
Qed.

(** ** Functional form of the decoders *)

(** Left-most non-hex character with its index, counting from [i]. *)
Fixpoint find_invalid (s : list N) (i : nat) : option (N * nat) :=
  match s with
  | [] => None
  | c :: s' => match digit_value c with
               | Some _ => find_invalid s' (S i)
               | None => Some (c, i)
               end
  end.

(** Values of consecutive pairs (a trailing single character is dropped). *)
Fixpoint pairs (s : list N) : list N :=
  match s with
  | a :: b :: s' =>
      match digit_value a, digit_value b with
      | Some x, Some y => 16 * x + y :: pairs s'
      | _, _ => []
      end
  | _ => []
  end.

Definition toBytes_fun (s : list N) : option (list N) * option hex_error :=
  match find_invalid s 0 with
  | Some (c, i) => (None, Some (InvalidHexAt c (Z.of_nat i)))
  | None => if Nat.even (length s) then (Some (pairs s), None) else (None, Some ErrLength)
  end.

Lemma even_mod n : Nat.eqb (Nat.modulo n 2) 1 = negb (Nat.even n).
Proof.
  pose proof (Nat.div_mod n 2). pose proof (Nat.mod_upper_bound n 2).
  destruct (Nat.even n) eqn:E.
  - apply Nat.even_spec in E. destruct E as [k E]. apply Nat.eqb_neq. simpl in *. lia.
  - assert (Nat.odd n = true) as O by (unfold Nat.odd; rewrite E; reflexivity).
    apply Nat.odd_spec in O. destruct O as [k O]. apply Nat.eqb_eq. simpl in *. lia.
Qed.

Lemma find_invalid_shift s i j :
  find_invalid s (i + j) =
  match find_invalid s i with Some (c, k) => Some (c, (k + j)%nat) | None => None end.
Proof.
  revert i; induction s as [|c s IH]; intros i; simpl; [reflexivity|].
  destruct (digit_value c); [|reflexivity].
  replace (S (i + j)) with (S i + j)%nat by lia. apply IH.
Qed.

(** Loop of ToBytes: [pre] has been consumed (even length), [out] written. *)
Lemma toBytes_loop_spec bd s pre out k fuel :
  bytes_ok s ->
  length out = Nat.div2 (length pre) -> Nat.even (length pre) = true ->
  (Nat.div2 (length s) <= k)%nat -> (length s < fuel)%nat ->
  toBytes_loop bd (pre ++ s) fuel (S (length pre)) (length out) (out ++ repeat 0 k) =
  Ret (match find_invalid s (length pre) with
       | Some (c, i) =>
           if Nat.ltb i (length pre + 2 * Nat.div2 (length s))
           then TbError (InvalidHexAt c (Z.of_nat i))
           else TbDone (length pre + 2 * Nat.div2 (length s) + 1)
                  (out ++ pairs s ++ repeat 0 (k - Nat.div2 (length s)))
       | None => TbDone (length pre + 2 * Nat.div2 (length s) + 1)
                  (out ++ pairs s ++ repeat 0 (k - Nat.div2 (length s)))
       end).
Proof.
  revert pre out k fuel. induction s as [|x|x y s IH] using list_pair_ind;
    intros pre out k fuel Hok Hout Hev Hk Hfuel.
  - destruct fuel as [|fuel]; [simpl in *; lia|]. simpl.
    rewrite app_nil_r. destruct (Nat.ltb_spec (S (length pre)) (length pre)) as [H|H]; [lia|].
    rewrite Nat.sub_0_r, Nat.add_0_r, Nat.add_1_r. reflexivity.
  - destruct fuel as [|fuel]; [simpl in *; lia|].
    cbn [toBytes_loop].
    replace (length (pre ++ [x])) with (S (length pre)) by (rewrite app_length; simpl; lia).
    rewrite Nat.ltb_irrefl.
    simpl. rewrite Nat.sub_0_r, Nat.add_0_r, Nat.add_1_r.
    destruct (digit_value x); [reflexivity|].
    rewrite Nat.ltb_irrefl. reflexivity.
  - destruct fuel as [|fuel]; [simpl in *; lia|].
    inversion Hok as [|? ? Hx Hok']; subst. inversion Hok' as [|? ? Hy Hok'']; subst.
    unfold is_byte in *.
    cbn [toBytes_loop].
    replace (length (pre ++ x :: y :: s)) with (length pre + 2 + length s)%nat
      by (rewrite app_length; simpl; lia).
    destruct (Nat.ltb_spec (S (length pre)) (length pre + 2 + length s)) as [H|H]; [|lia].
    rewrite (idx_app pre x (y :: s)) by lia. cbn [bind].
    replace (idx (pre ++ x :: y :: s) (S (length pre))) with (Ret y : outcome N).
    2:{ symmetry. change (x :: y :: s) with ([x] ++ y :: s). rewrite app_assoc.
        apply idx_app. rewrite app_length. simpl. lia. }
    cbn [find_invalid pairs].
    destruct (digit_value x) as [vx|] eqn:Ex.
    2:{ destruct (decode_invalid bd x Hx Ex) as (v & -> & _ & _ & Hv). cbn [bind].
        destruct (decode_sweep bd y Hy).
        assert (exists w, decode bd y = Ret w) as [w ->].
        { destruct (digit_value y) as [vy|] eqn:Ey.
          - destruct (decode_valid bd y vy Hy Ey) as [-> _]. eauto.
          - destruct (decode_invalid bd y Hy Ey) as (w & -> & _). eauto. }
        cbn [bind]. apply N.eqb_neq in Hv. rewrite Hv. cbn [negb].
        replace (Z.of_nat (S (length pre)) - 1)%Z with (Z.of_nat (length pre)) by lia.
        destruct (Nat.ltb_spec (length pre) (length pre + 2 * Nat.div2 (length (x :: y :: s))))
          as [H1|H1]; [reflexivity|simpl in H1; lia]. }
    destruct (decode_valid bd x vx Hx Ex) as [-> Hvx]. cbn [bind].
    rewrite (land_F0_small vx Hvx). cbn [N.eqb negb].
    destruct (digit_value y) as [vy|] eqn:Ey.
    2:{ destruct (decode_invalid bd y Hy Ey) as (v & -> & _ & _ & Hv). cbn [bind].
        apply N.eqb_neq in Hv. rewrite Hv. cbn [negb].
        destruct (Nat.ltb_spec (S (length pre)) (length pre + 2 * Nat.div2 (length (x :: y :: s))))
          as [H1|H1]; [reflexivity|simpl in H1; lia]. }
    destruct (decode_valid bd y vy Hy Ey) as [-> Hvy]. cbn [bind].
    rewrite (land_F0_small vy Hvy). cbn [N.eqb negb].
    rewrite lor_nibbles by assumption.
    destruct k as [|k]; [simpl in Hk; lia|]. cbn [repeat].
    rewrite upd_app. cbn [bind].
    specialize (IH (pre ++ [x; y]) (out ++ [16 * vx + vy]) k fuel Hok'').
    assert (EL : length (pre ++ [x; y]) = (length pre + 2)%nat)
      by (rewrite app_length; reflexivity).
    assert (Hd : Nat.div2 (length pre + 2) = S (Nat.div2 (length pre)))
      by (rewrite Nat.add_comm; reflexivity).
    rewrite EL in IH. rewrite Hd in IH.
    rewrite <- !app_assoc in IH. cbn [app] in IH.
    rewrite app_length in IH. cbn [length] in IH.
    replace (S (length pre) + 2)%nat with (S (length pre + 2)) by lia.
    rewrite IH; clear IH.
    + replace (S (S (length pre))) with (length pre + 2)%nat by lia.
      cbn [length Nat.div2].
      replace (length pre + 2 + 2 * Nat.div2 (length s))%nat
        with (length pre + 2 * S (Nat.div2 (length s)))%nat by lia.
      replace (S k - S (Nat.div2 (length s)))%nat with (k - Nat.div2 (length s))%nat by lia.
      reflexivity.
    + lia.
    + rewrite Nat.even_add, Hev. reflexivity.
    + simpl in Hk. lia.
    + simpl in Hfuel. lia.
Qed.

Lemma find_invalid_bounds s i c k :
  find_invalid s i = Some (c, k) -> (i <= k < i + length s)%nat.
Proof.
  revert i; induction s as [|x s IH]; intros i H; simpl in *; [discriminate|].
  destruct (digit_value x).
  - apply IH in H. lia.
  - inversion H; subst. lia.
Qed.

Lemma div2_even_len n : Nat.even n = true -> (2 * Nat.div2 n = n)%nat.
Proof. intros H. apply Nat.even_spec in H. destruct H as [k ->]. rewrite Nat.div2_double. lia. Qed.

Lemma div2_odd_len n : Nat.even n = false -> (S (2 * Nat.div2 n) = n)%nat.
Proof.
  intros H. assert (Nat.odd n = true) as O by (unfold Nat.odd; rewrite H; reflexivity).
  apply Nat.odd_spec in O. destruct O as [k ->].
  replace (2 * k + 1)%nat with (S (2 * k)) by lia. rewrite Nat.div2_succ_double. lia.
Qed.

Lemma make_half n : make_bytes (Z.of_nat n / 2) = Ret (repeat 0 (Nat.div2 n)).
Proof.
  rewrite make_bytes_nonneg by (apply Z.div_pos; lia).
  do 2 f_equal. rewrite Nat.div2_div. rewrite <- (Nat2Z.id (Nat.div n 2)).
  rewrite Nat2Z.inj_div. reflexivity.
Qed.

Lemma find_invalid_nth s i c k :
  find_invalid s i = Some (c, k) ->
  nth_error s (k - i) = Some c /\ digit_value c = None.
Proof.
  revert i; induction s as [|x s IH]; intros i H; simpl in *; [discriminate|].
  destruct (digit_value x) eqn:E.
  - pose proof (find_invalid_bounds _ _ _ _ H) as B.
    destruct (IH _ H) as [H1 H2]. split; [|exact H2].
    replace (k - i)%nat with (S (k - S i)) by lia. exact H1.
  - inversion H; subst. rewrite Nat.sub_diag. auto.
Qed.

Lemma nth_error_bytes s i c : bytes_ok s -> nth_error s i = Some c -> c < 256.
Proof.
  intros Hs H. apply nth_error_In in H. unfold bytes_ok in Hs. rewrite Forall_forall in Hs.
  apply Hs, H.
Qed.

Lemma find_invalid_none s i :
  find_invalid s i = None -> forall j d, nth_error s j = Some d -> digit_value d <> None.
Proof.
  revert i; induction s as [|x s IH]; intros i H j d Hj; simpl in *.
  - destruct j; discriminate.
  - destruct (digit_value x) eqn:E; [|discriminate].
    destruct j as [|j]; simpl in Hj; [inversion Hj; subst; congruence|].
    eapply IH; eauto.
Qed.

Theorem toBytes_correct bd s : bytes_ok s -> ToBytes bd s = Ret (toBytes_fun s).
Proof.
  intros Hok. unfold ToBytes, toBytes_fun.
  rewrite make_half. cbn [bind].
  pose proof (toBytes_loop_spec bd s [] [] (Nat.div2 (length s)) (length s + 1) Hok
                eq_refl eq_refl (Nat.le_refl _)) as L.
  simpl app in L. simpl length in L. rewrite L by lia. clear L. cbn [bind].
  rewrite even_mod. rewrite Nat.add_0_l, Nat.sub_diag. cbn [repeat]. rewrite app_nil_r.
  destruct (find_invalid s 0) as [[c i]|] eqn:EF.
  - pose proof (find_invalid_bounds _ _ _ _ EF) as B.
    destruct (find_invalid_nth _ _ _ _ EF) as [Hn Hd]. rewrite Nat.sub_0_r in Hn.
    destruct (Nat.ltb_spec i (2 * Nat.div2 (length s))) as [Hi|Hi]; [reflexivity|].
    destruct (Nat.even (length s)) eqn:EV.
    + rewrite div2_even_len in Hi by assumption. lia.
    + cbn [negb]. pose proof (div2_odd_len _ EV) as D.
      assert (i = 2 * Nat.div2 (length s))%nat as -> by lia.
      replace (2 * Nat.div2 (length s) + 1 - 1)%nat with (2 * Nat.div2 (length s))%nat by lia.
      rewrite (idx_nth _ _ _ Hn). cbn [bind].
      destruct (decode_invalid bd c (nth_error_bytes _ _ _ Hok Hn) Hd) as (v & -> & Hv & _).
      cbn [bind]. apply N.ltb_lt in Hv. rewrite Hv.
      do 5 f_equal. lia.
  - destruct (Nat.even (length s)) eqn:EV; [reflexivity|]. cbn [negb].
    pose proof (div2_odd_len _ EV) as D.
    replace (2 * Nat.div2 (length s) + 1 - 1)%nat with (2 * Nat.div2 (length s))%nat by lia.
    destruct (nth_error s (2 * Nat.div2 (length s))) as [c|] eqn:Hn.
    2:{ apply nth_error_None in Hn. lia. }
    rewrite (idx_nth _ _ _ Hn). cbn [bind].
    destruct (digit_value c) as [v|] eqn:Hd.
    2:{ exfalso. eapply find_invalid_none; eauto. }
    destruct (decode_valid bd c v (nth_error_bytes _ _ _ Hok Hn) Hd) as [-> Hv].
    cbn [bind]. destruct (N.ltb_spec 15 v); [lia|reflexivity].
Qed.

(** Loop of ToBytesFast. *)
Lemma toBytesFast_loop_spec bd s pre out k fuel :
  bytes_ok s ->
  length out = Nat.div2 (length pre) -> Nat.even (length pre) = true ->
  (Nat.div2 (length s) <= k)%nat -> (length s < fuel)%nat ->
  toBytesFast_loop bd (pre ++ s) fuel (S (length pre)) (length out) (out ++ repeat 0 k) =
  Ret (match find_invalid s (length pre) with
       | Some (c, i) =>
           if Nat.ltb i (length pre + 2 * Nat.div2 (length s))
           then None
           else Some (out ++ pairs s ++ repeat 0 (k - Nat.div2 (length s)))
       | None => Some (out ++ pairs s ++ repeat 0 (k - Nat.div2 (length s)))
       end).
Proof.
  revert pre out k fuel. induction s as [|x|x y s IH] using list_pair_ind;
    intros pre out k fuel Hok Hout Hev Hk Hfuel.
  - destruct fuel as [|fuel]; [simpl in *; lia|]. simpl.
    rewrite app_nil_r. destruct (Nat.ltb_spec (S (length pre)) (length pre)) as [H|H]; [lia|].
    rewrite Nat.sub_0_r. reflexivity.
  - destruct fuel as [|fuel]; [simpl in *; lia|].
    cbn [toBytesFast_loop].
    replace (length (pre ++ [x])) with (S (length pre)) by (rewrite app_length; simpl; lia).
    rewrite Nat.ltb_irrefl.
    simpl. rewrite Nat.sub_0_r, Nat.add_0_r.
    destruct (digit_value x); [reflexivity|].
    rewrite Nat.ltb_irrefl. reflexivity.
  - destruct fuel as [|fuel]; [simpl in *; lia|].
    inversion Hok as [|? ? Hx Hok']; subst. inversion Hok' as [|? ? Hy Hok'']; subst.
    unfold is_byte in *.
    cbn [toBytesFast_loop].
    replace (length (pre ++ x :: y :: s)) with (length pre + 2 + length s)%nat
      by (rewrite app_length; simpl; lia).
    destruct (Nat.ltb_spec (S (length pre)) (length pre + 2 + length s)) as [H|H]; [|lia].
    rewrite (idx_app pre x (y :: s)) by lia. cbn [bind].
    replace (idx (pre ++ x :: y :: s) (S (length pre))) with (Ret y : outcome N).
    2:{ symmetry. change (x :: y :: s) with ([x] ++ y :: s). rewrite app_assoc.
        apply idx_app. rewrite app_length. simpl. lia. }
    cbn [find_invalid pairs].
    destruct (digit_value x) as [vx|] eqn:Ex.
    2:{ destruct (decode_invalid bd x Hx Ex) as (v & -> & _ & Hv2 & Hv). cbn [bind].
        assert (exists w, decode bd y = Ret w /\ w < 256) as (w & -> & Hw).
        { destruct (digit_value y) as [vy|] eqn:Ey.
          - destruct (decode_valid bd y vy Hy Ey) as [-> ?]. exists vy. split; [auto|lia].
          - destruct (decode_invalid bd y Hy Ey) as (w & -> & _ & ? & _). eauto. }
        cbn [bind]. rewrite land_lor_F0 by assumption.
        apply N.eqb_neq in Hv. rewrite Hv. cbn [negb andb].
        destruct (Nat.ltb_spec (length pre) (length pre + 2 * Nat.div2 (length (x :: y :: s))))
          as [H1|H1]; [reflexivity|simpl in H1; lia]. }
    destruct (decode_valid bd x vx Hx Ex) as [-> Hvx]. cbn [bind].
    destruct (digit_value y) as [vy|] eqn:Ey.
    2:{ destruct (decode_invalid bd y Hy Ey) as (v & -> & _ & Hv2 & Hv). cbn [bind].
        rewrite land_lor_F0 by lia. rewrite (land_F0_small vx Hvx).
        apply N.eqb_neq in Hv. rewrite Hv. cbn [negb andb N.eqb].
        destruct (Nat.ltb_spec (S (length pre)) (length pre + 2 * Nat.div2 (length (x :: y :: s))))
          as [H1|H1]; [reflexivity|simpl in H1; lia]. }
    destruct (decode_valid bd y vy Hy Ey) as [-> Hvy]. cbn [bind].
    rewrite land_lor_F0 by lia.
    rewrite (land_F0_small vx Hvx), (land_F0_small vy Hvy). cbn [N.eqb negb andb].
    rewrite lor_nibbles by assumption.
    destruct k as [|k]; [simpl in Hk; lia|]. cbn [repeat].
    rewrite upd_app. cbn [bind].
    specialize (IH (pre ++ [x; y]) (out ++ [16 * vx + vy]) k fuel Hok'').
    assert (EL : length (pre ++ [x; y]) = (length pre + 2)%nat)
      by (rewrite app_length; reflexivity).
    assert (Hd : Nat.div2 (length pre + 2) = S (Nat.div2 (length pre)))
      by (rewrite Nat.add_comm; reflexivity).
    rewrite EL in IH. rewrite Hd in IH.
    rewrite <- !app_assoc in IH. cbn [app] in IH.
    rewrite app_length in IH. cbn [length] in IH.
    replace (S (length pre) + 2)%nat with (S (length pre + 2)) by lia.
    rewrite IH; clear IH.
    + replace (S (S (length pre))) with (length pre + 2)%nat by lia.
      cbn [length Nat.div2].
      replace (length pre + 2 + 2 * Nat.div2 (length s))%nat
        with (length pre + 2 * S (Nat.div2 (length s)))%nat by lia.
      replace (S k - S (Nat.div2 (length s)))%nat with (k - Nat.div2 (length s))%nat by lia.
      reflexivity.
    + lia.
    + rewrite Nat.even_add, Hev. reflexivity.
    + simpl in Hk. lia.
    + simpl in Hfuel. lia.
Qed.

Theorem toBytesFast_correct bd s :
  bytes_ok s -> ToBytesFast bd s = Ret (fst (toBytes_fun s)).
Proof.
  intros Hok. unfold ToBytesFast, toBytes_fun.
  rewrite make_half. cbn [bind].
  pose proof (toBytesFast_loop_spec bd s [] [] (Nat.div2 (length s)) (length s + 1) Hok
                eq_refl eq_refl (Nat.le_refl _)) as L.
  simpl app in L. simpl length in L. rewrite L by lia. clear L. cbn [bind].
  rewrite even_mod. rewrite Nat.add_0_l, Nat.sub_diag. cbn [repeat]. rewrite app_nil_r.
  destruct (find_invalid s 0) as [[c i]|] eqn:EF.
  - pose proof (find_invalid_bounds _ _ _ _ EF) as B.
    destruct (Nat.ltb_spec i (2 * Nat.div2 (length s))) as [Hi|Hi]; [reflexivity|].
    destruct (Nat.even (length s)) eqn:EV; [|reflexivity].
    rewrite div2_even_len in Hi by assumption. lia.
  - destruct (Nat.even (length s)) eqn:EV; reflexivity.
Qed.

(** ** FromBytes *)

Definition hex_table_check (v : N) : bool :=
  match idx hexTable (N.to_nat v) with
  | Ret c => (c =? upper_digit v) && (c <? 256)
             && match digit_value c with Some w => w =? v | None => false end
             && (to_upper c =? c)
  | _ => false
  end.

Lemma hexTable_ok v : v < 16 ->
  idx hexTable (N.to_nat v) = Ret (upper_digit v) /\ upper_digit v < 256
  /\ digit_value (upper_digit v) = Some v /\ to_upper (upper_digit v) = upper_digit v.
Proof.
  intros Hv. assert (H : forallb hex_table_check (below 16) = true) by (vm_compute; reflexivity).
  pose proof (sweep 16 _ H v Hv) as C. unfold hex_table_check in C.
  destruct (idx hexTable (N.to_nat v)) as [c| |]; try discriminate.
  apply andb_true_iff in C. destruct C as [C C4].
  apply andb_true_iff in C. destruct C as [C C3].
  apply andb_true_iff in C. destruct C as [C1 C2].
  apply N.eqb_eq in C1. subst c. apply N.ltb_lt in C2. apply N.eqb_eq in C4.
  destruct (digit_value (upper_digit v)); [|discriminate]. apply N.eqb_eq in C3. subst.
  auto.
Qed.

Lemma shiftr4 b : N.shiftr b 4 = b / 16.
Proof. rewrite N.shiftr_div_pow2. reflexivity. Qed.

Lemma land15 b : N.land b 0xF = b mod 16.
Proof. change 0xF with (N.ones 4). rewrite N.land_ones. reflexivity. Qed.

Lemma byte_nibbles b : b < 256 -> b / 16 < 16 /\ b mod 16 < 16.
Proof.
  intros H. split.
  - apply N.div_lt_upper_bound; lia.
  - apply N.mod_lt. lia.
Qed.

Lemma fromBytes_loop_spec src out k :
  bytes_ok src -> (2 * length src <= k)%nat ->
  fromBytes_loop src (length out) (out ++ repeat 0 k) =
  Ret (out ++ flat_map numeral src ++ repeat 0 (k - 2 * length src)).
Proof.
  revert out k; induction src as [|b src IH]; intros out k Hok Hk.
  - simpl. rewrite Nat.sub_0_r. reflexivity.
  - inversion Hok as [|? ? Hb Hok']; subst. unfold is_byte in Hb.
    destruct (byte_nibbles b Hb) as [H1 H2].
    cbn [fromBytes_loop]. rewrite shiftr4, land15.
    destruct (hexTable_ok _ H1) as [-> _]. destruct (hexTable_ok _ H2) as [-> _].
    cbn [bind].
    destruct k as [|[|k]]; [simpl in Hk; lia|simpl in Hk; lia|].
    cbn [repeat]. rewrite upd_app. cbn [bind].
    assert (E : forall u w r, out ++ u :: w :: r = (out ++ [u]) ++ w :: r)
      by (intros; rewrite <- app_assoc; reflexivity).
    rewrite E. rewrite upd_app' by (rewrite app_length; simpl; lia). cbn [bind].
    rewrite <- app_assoc. cbn [app].
    assert (E2 : forall u w r, out ++ u :: w :: r = (out ++ [u; w]) ++ r)
      by (intros; rewrite <- app_assoc; reflexivity).
    rewrite E2.
    replace (length out + 2)%nat
      with (length (out ++ [upper_digit (b / 16); upper_digit (b mod 16)]))
      by (rewrite app_length; reflexivity).
    rewrite IH; [|assumption|simpl in Hk; lia].
    rewrite <- !app_assoc. cbn [app flat_map numeral].
    replace (S (S k) - 2 * length (b :: src))%nat with (k - 2 * length src)%nat
      by (cbn [length]; lia).
    reflexivity.
Qed.

Theorem fromBytes_correct src :
  bytes_ok src -> FromBytes src = Ret (flat_map numeral src).
Proof.
  intros Hok. unfold FromBytes.
  replace (Z.of_nat (length src) * 2)%Z with (Z.of_nat (2 * length src)) by lia.
  rewrite make_bytes_nat. cbn [bind].
  pose proof (fromBytes_loop_spec src [] (2 * length src) Hok (Nat.le_refl _)) as L.
  cbn [app] in L. change (length (@nil N)) with O in L. rewrite L.
  rewrite Nat.sub_diag. cbn [repeat]. rewrite app_nil_r. reflexivity.
Qed.

Lemma numeral_length src : length (flat_map numeral src) = (2 * length src)%nat.
Proof. induction src as [|b src IH]; simpl in *; [reflexivity|]. rewrite IH. lia. Qed.

Lemma numeral_bytes src : bytes_ok src -> bytes_ok (flat_map numeral src).
Proof.
  induction src as [|b src IH]; intros H; [constructor|].
  inversion H as [|? ? Hb H']; subst. unfold is_byte in Hb.
  destruct (byte_nibbles b Hb) as [H1 H2].
  cbn [flat_map numeral app].
  destruct (hexTable_ok _ H1) as (_ & U1 & _). destruct (hexTable_ok _ H2) as (_ & U2 & _).
  constructor; [exact U1|]. constructor; [exact U2|]. apply IH, H'.
Qed.

Lemma numeral_valid src i : bytes_ok src -> find_invalid (flat_map numeral src) i = None.
Proof.
  revert i; induction src as [|b src IH]; intros i H; [reflexivity|].
  inversion H as [|? ? Hb H']; subst. unfold is_byte in Hb.
  destruct (byte_nibbles b Hb) as [H1 H2].
  cbn [flat_map numeral app find_invalid].
  destruct (hexTable_ok _ H1) as (_ & _ & -> & _).
  destruct (hexTable_ok _ H2) as (_ & _ & -> & _). auto.
Qed.

Lemma numeral_pairs src : bytes_ok src -> pairs (flat_map numeral src) = src.
Proof.
  induction src as [|b src IH]; intros H; [reflexivity|].
  inversion H as [|? ? Hb H']; subst. unfold is_byte in Hb.
  destruct (byte_nibbles b Hb) as [H1 H2].
  cbn [flat_map numeral app pairs].
  destruct (hexTable_ok _ H1) as (_ & _ & -> & _).
  destruct (hexTable_ok _ H2) as (_ & _ & -> & _).
  rewrite IH by assumption. f_equal. symmetry. apply N.div_mod. lia.
Qed.

Lemma toBytes_fun_numeral src :
  bytes_ok src -> toBytes_fun (flat_map numeral src) = (Some src, None).
Proof.
  intros H. unfold toBytes_fun. rewrite numeral_valid by assumption.
  rewrite numeral_length, Nat.even_mul. cbn [Nat.even orb].
  rewrite numeral_pairs by assumption. reflexivity.
Qed.

(** ** Statements used by the property file *)

Lemma roundtrip bd src :
  bytes_ok src ->
  exists s, FromBytes src = Ret s
    /\ ToBytes bd s = Ret (Some src, None)
    /\ ToBytesFast bd s = Ret (Some src).
Proof.
  intros H. exists (flat_map numeral src).
  assert (Hb := numeral_bytes src H).
  repeat split.
  - apply fromBytes_correct, H.
  - rewrite toBytes_correct by assumption. rewrite toBytes_fun_numeral by assumption. reflexivity.
  - rewrite toBytesFast_correct by assumption. rewrite toBytes_fun_numeral by assumption. reflexivity.
Qed.

Lemma fromBytes_injective a b :
  bytes_ok a -> bytes_ok b -> FromBytes a = FromBytes b -> a = b.
Proof.
  intros Ha Hb H. rewrite !fromBytes_correct in H by assumption. inversion H as [E].
  rewrite <- (numeral_pairs a Ha), <- (numeral_pairs b Hb), E. reflexivity.
Qed.

Lemma find_invalid_all s i :
  find_invalid s i = None <-> Forall is_hex_char s.
Proof.
  split.
  - intros H. apply Forall_forall. intros x Hx.
    apply In_nth_error in Hx. destruct Hx as [j Hj].
    unfold is_hex_char. eapply find_invalid_none; eauto.
  - revert i; induction s as [|x s IH]; intros i H; [reflexivity|].
    inversion H as [|? ? Hx H']; subst. simpl.
    unfold is_hex_char in Hx. destruct (digit_value x); [auto|congruence].
Qed.

Lemma find_invalid_first s i c k :
  find_invalid s i = Some (c, k) -> first_invalid s (k - i) c.
Proof.
  intros H. pose proof (find_invalid_bounds _ _ _ _ H) as B.
  destruct (find_invalid_nth _ _ _ _ H) as [H1 H2].
  split; [exact H1|]. split; [unfold is_hex_char; congruence|].
  revert i B H H1. induction s as [|x s IH]; intros i B H H1 j d Hj Hd;
    [destruct j; discriminate|].
  simpl in H. destruct (digit_value x) eqn:E.
  - pose proof (find_invalid_bounds _ _ _ _ H) as B'.
    destruct j as [|j]; simpl in Hd.
    + inversion Hd; subst. unfold is_hex_char. congruence.
    + apply (IH (S i) B' H) with (j := j); [|lia|exact Hd].
      replace (k - i)%nat with (S (k - S i)) in H1 by lia. exact H1.
  - inversion H; subst. rewrite Nat.sub_diag in Hj. lia.
Qed.

Lemma first_invalid_unique s i c j d :
  first_invalid s i c -> first_invalid s j d -> i = j /\ c = d.
Proof.
  intros (H1 & H2 & H3) (K1 & K2 & K3).
  destruct (Nat.lt_trichotomy i j) as [H|[H|H]].
  - exfalso. apply H2. eapply K3; eauto.
  - subst. split; congruence.
  - exfalso. apply K2. eapply H3; eauto.
Qed.

Lemma pairs_spec s :
  Forall is_hex_char s -> Nat.even (length s) = true ->
  length (pairs s) = Nat.div (length s) 2 /\
  (forall k, (k < length (pairs s))%nat ->
   exists a b va vb, nth_error s (2 * k) = Some a /\ nth_error s (2 * k + 1) = Some b
   /\ digit_value a = Some va /\ digit_value b = Some vb
   /\ nth_error (pairs s) k = Some (16 * va + vb)).
Proof.
  rewrite <- Nat.div2_div.
  induction s as [|x|x y s IH] using list_pair_ind; intros Hs He.
  - split; [reflexivity|]. simpl. intros; lia.
  - discriminate.
  - inversion Hs as [|? ? Hx Hs']; subst. inversion Hs' as [|? ? Hy Hs'']; subst.
    simpl in He. destruct (IH Hs'' He) as [IH1 IH2].
    unfold is_hex_char in *. simpl.
    destruct (digit_value x) as [vx|] eqn:Ex; [|congruence].
    destruct (digit_value y) as [vy|] eqn:Ey; [|congruence].
    simpl. split; [lia|].
    intros [|k] Hk.
    + exists x, y, vx, vy. simpl. auto.
    + destruct (IH2 k) as (a & b & va & vb & E1 & E2 & E3 & E4 & E5); [lia|].
      exists a, b, va, vb. repeat split; auto.
      * replace (S k + (S k + 0))%nat with (S (S (2 * k))) by lia. exact E1.
      * replace (S k + (S k + 0) + 1)%nat with (S (S (2 * k + 1))) by lia. exact E2.
Qed.

Lemma toBytes_accepts bd s :
  bytes_ok s ->
  (exists r e, ToBytes bd s = Ret (r, e)) /\
  ((exists r, ToBytes bd s = Ret (r, None)) <->
     Nat.even (length s) = true /\ Forall is_hex_char s) /\
  (forall r, ToBytes bd s = Ret (r, None) ->
     exists out, r = Some out /\ length out = Nat.div (length s) 2 /\
     forall k, (k < length out)%nat ->
       exists a b va vb, nth_error s (2 * k) = Some a /\ nth_error s (2 * k + 1) = Some b
       /\ digit_value a = Some va /\ digit_value b = Some vb
       /\ nth_error out k = Some (16 * va + vb)).
Proof.
  intros Hok. rewrite (toBytes_correct bd s Hok). unfold toBytes_fun.
  split; [destruct (find_invalid s 0) as [[c i]|]; [eauto|destruct (Nat.even (length s)); eauto]|].
  destruct (find_invalid s 0) as [[c i]|] eqn:EF.
  - split.
    + split; [intros [r H]; discriminate|].
      intros [_ H]. apply (find_invalid_all s 0) in H. congruence.
    + intros r H. discriminate.
  - pose proof (proj1 (find_invalid_all s 0) EF) as HF.
    destruct (Nat.even (length s)) eqn:EV.
    + split.
      * split; [auto|]. intros _. eauto.
      * intros r H. inversion H; subst. exists (pairs s). split; [reflexivity|].
        apply pairs_spec; assumption.
    + split.
      * split; [intros [r H]; discriminate|intros [H _]; discriminate].
      * intros r H. discriminate.
Qed.

Lemma toBytes_errors bd s :
  bytes_ok s ->
  (forall i c, first_invalid s i c ->
     ToBytes bd s = Ret (None, Some (InvalidHexAt c (Z.of_nat i)))) /\
  (Forall is_hex_char s -> Nat.even (length s) = false ->
     ToBytes bd s = Ret (None, Some ErrLength)) /\
  (forall r e, ToBytes bd s = Ret (r, Some e) -> r = None).
Proof.
  intros Hok. rewrite (toBytes_correct bd s Hok). unfold toBytes_fun. repeat split.
  - intros i c H. destruct (find_invalid s 0) as [[d j]|] eqn:EF.
    + apply find_invalid_first in EF. rewrite Nat.sub_0_r in EF.
      destruct (first_invalid_unique _ _ _ _ _ H EF) as [-> ->]. reflexivity.
    + apply find_invalid_all in EF. destruct H as (H1 & H2 & _).
      exfalso. apply H2. rewrite Forall_forall in EF. apply EF. eapply nth_error_In; eauto.
  - intros H1 H2. apply (find_invalid_all s 0) in H1. rewrite H1, H2. reflexivity.
  - intros r e H. destruct (find_invalid s 0) as [[d j]|]; [congruence|].
    destruct (Nat.even (length s)); congruence.
Qed.

Lemma toBytes_fun_shape s :
  (exists l, toBytes_fun s = (Some l, None)) \/ (exists e, toBytes_fun s = (None, Some e)).
Proof.
  unfold toBytes_fun. destruct (find_invalid s 0) as [[c i]|]; [eauto|].
  destruct (Nat.even (length s)); eauto.
Qed.

Lemma fast_agrees bd s :
  bytes_ok s ->
  (ToBytesFast bd s = Ret None <-> exists e, ToBytes bd s = Ret (None, Some e)) /\
  (forall out, ToBytesFast bd s = Ret (Some out) <-> ToBytes bd s = Ret (Some out, None)) /\
  (exists r, ToBytesFast bd s = Ret r).
Proof.
  intros Hok. rewrite toBytes_correct, toBytesFast_correct by assumption.
  destruct (toBytes_fun_shape s) as [[l ->]|[e ->]]; simpl.
  - split; [|split].
    + split; [intros H; discriminate|intros [e H]; discriminate].
    + intros out. split; intros H; inversion H; subst; reflexivity.
    + eauto.
  - split; [|split].
    + split; [eauto|reflexivity].
    + intros out. split; intros H; discriminate.
    + eauto.
Qed.

Lemma builds_agree s :
  bytes_ok s ->
  ToBytes Tiny s = ToBytes Default s /\ ToBytesFast Tiny s = ToBytesFast Default s.
Proof.
  intros H. rewrite !toBytes_correct, !toBytesFast_correct by assumption. auto.
Qed.

Definition same_letter (c d : N) : Prop := to_upper c = to_upper d.

Definition upper_check (c : N) : bool :=
  match digit_value c, digit_value (to_upper c) with
  | Some v, Some w => (v =? w) && (to_upper c =? upper_digit v)
  | None, None => true
  | None, Some _ => false
  | _, _ => false
  end.

Lemma upper_ok c : c < 256 -> digit_value (to_upper c) = digit_value c
  /\ (forall v, digit_value c = Some v -> to_upper c = upper_digit v).
Proof.
  intros Hc. assert (H : forallb upper_check all_bytes = true) by (vm_compute; reflexivity).
  pose proof (sweep_byte _ H c Hc) as C. unfold upper_check in C.
  destruct (digit_value c) as [v|]; destruct (digit_value (to_upper c)) as [w|];
    try discriminate; split; try congruence.
  - apply andb_true_iff in C. destruct C as [C _]. apply N.eqb_eq in C. congruence.
  - intros v' E. inversion E; subst. apply andb_true_iff in C. destruct C as [_ C].
    apply N.eqb_eq in C. exact C.
Qed.

Lemma digit_value_upper_eq c d :
  c < 256 -> d < 256 -> to_upper c = to_upper d -> digit_value c = digit_value d.
Proof.
  intros Hc Hd E. destruct (upper_ok c Hc) as [<- _]. destruct (upper_ok d Hd) as [<- _].
  rewrite E. reflexivity.
Qed.

Lemma case_insensitive bd s t :
  bytes_ok s -> bytes_ok t -> map to_upper s = map to_upper t ->
  (forall out, ToBytes bd s = Ret (Some out, None) <-> ToBytes bd t = Ret (Some out, None)).
Proof.
  intros Hs Ht E.
  assert (L : length s = length t)
    by (rewrite <- (map_length to_upper s), E, map_length; reflexivity).
  assert (D : Forall2 (fun c d => digit_value c = digit_value d) s t).
  { clear L. revert t Ht E. induction s as [|c s IH]; intros [|d t] Ht E; try discriminate;
      constructor.
    - inversion Hs; inversion Ht; subst. simpl in E. inversion E.
      apply digit_value_upper_eq; assumption.
    - inversion Hs; inversion Ht; subst. simpl in E. inversion E. apply IH; assumption. }
  assert (F : find_invalid s 0 = None <-> find_invalid t 0 = None).
  { rewrite !find_invalid_all. clear -D. induction D as [|c d s t E D IH]; [tauto|].
    split; intros H; inversion H; subst; constructor; try tauto;
      unfold is_hex_char in *; congruence. }
  assert (P : pairs s = pairs t).
  { clear -D. revert t D. induction s as [|x|x y s IH] using list_pair_ind; intros t D.
    - inversion D; reflexivity.
    - inversion D as [|? ? ? ? H1 D']; subst. inversion D'; subst. reflexivity.
    - inversion D as [|? ? ? ? H1 D']; subst. inversion D' as [|? ? ? ? H2 D'']; subst.
      simpl. rewrite H1, H2. destruct (digit_value y0); [|reflexivity].
      destruct (digit_value y1); [|reflexivity]. f_equal. auto. }
  intros out. rewrite !toBytes_correct by assumption. unfold toBytes_fun.
  rewrite P, L.
  destruct (find_invalid s 0) as [[c i]|]; destruct (find_invalid t 0) as [[d j]|];
    try tauto.
  - split; intros H; discriminate.
  - exfalso. destruct F as [_ F]. specialize (F eq_refl). discriminate.
  - exfalso. destruct F as [F _]. specialize (F eq_refl). discriminate.
Qed.

Lemma case_find s t : bytes_ok s -> bytes_ok t -> map to_upper s = map to_upper t -> forall i,
  match find_invalid s i, find_invalid t i with
  | None, None => True
  | Some (c, j), Some (d, k) => to_upper d = to_upper c /\ k = j
  | _, _ => False
  end.
Proof.
  revert t. induction s as [|c s IH]; intros [|d t] Hs Ht E i; try discriminate; [exact Logic.I|].
  inversion Hs; inversion Ht; subst. cbn [map] in E. injection E as E1 E2. cbn [find_invalid].
  rewrite <- (digit_value_upper_eq c d) by assumption. destruct (digit_value c); [apply IH; assumption|].
  split; [symmetry; exact E1|reflexivity].
Qed.

Lemma case_errors bd s t :
  bytes_ok s -> bytes_ok t -> map to_upper s = map to_upper t ->
  (ToBytes bd s = Ret (None, Some ErrLength) <-> ToBytes bd t = Ret (None, Some ErrLength)) /\
  forall c i, ToBytes bd s = Ret (None, Some (InvalidHexAt c i)) ->
    exists d, to_upper d = to_upper c /\ ToBytes bd t = Ret (None, Some (InvalidHexAt d i)).
Proof.
  intros Hs Ht E. rewrite !toBytes_correct by assumption. unfold toBytes_fun.
  assert (L : length s = length t)
    by (rewrite <- (map_length to_upper s), E, map_length; reflexivity).
  pose proof (case_find s t Hs Ht E 0) as F. rewrite L.
  destruct (find_invalid s 0) as [[c j]|], (find_invalid t 0) as [[d k]|]; try contradiction.
  - destruct F as [F ->]. split; [split; discriminate|]. intros c' i H. injection H as <- <-. exists d. auto.
  - destruct (Nat.even (length t)); (split; [split; intros X; (reflexivity || discriminate X)|intros c i X; discriminate X]).
Qed.

Lemma reencode bd s out :
  bytes_ok s -> ToBytes bd s = Ret (Some out, None) -> FromBytes out = Ret (map to_upper s).
Proof.
  intros Hok H. rewrite toBytes_correct in H by assumption. unfold toBytes_fun in H.
  destruct (find_invalid s 0) as [[c i]|] eqn:EF; [discriminate|].
  destruct (Nat.even (length s)) eqn:EV; [|discriminate].
  inversion H; subst; clear H.
  apply find_invalid_all in EF.
  assert (bytes_ok (pairs s) /\ flat_map numeral (pairs s) = map to_upper s) as [B E].
  { induction s as [|x|x y s IH] using list_pair_ind.
    - split; [constructor|reflexivity].
    - discriminate.
    - inversion EF as [|? ? Hx EF']; subst. inversion EF' as [|? ? Hy EF'']; subst.
      inversion Hok as [|? ? Bx Hok']; subst. inversion Hok' as [|? ? By Hok'']; subst.
      simpl in EV. destruct (IH Hok'' EF'' EV) as [IB IE].
      unfold is_hex_char in *. cbn [pairs].
      destruct (digit_value x) as [vx|] eqn:Ex; [|congruence].
      destruct (digit_value y) as [vy|] eqn:Ey; [|congruence].
      destruct (decode_valid Default x vx Bx Ex) as [_ Vx].
      destruct (decode_valid Default y vy By Ey) as [_ Vy].
      split.
      + constructor; [unfold is_byte; lia|assumption].
      + cbn [flat_map numeral app map].
        replace (16 * vx + vy) with (vy + vx * 16) by lia.
        rewrite N.div_add, N.mod_add, N.div_small, N.mod_small by lia.
        rewrite N.add_0_l. rewrite IE.
        rewrite (proj2 (upper_ok x Bx) vx Ex), (proj2 (upper_ok y By) vy Ey). reflexivity. }
  rewrite fromBytes_correct by assumption. rewrite E. reflexivity.
Qed.

(** ** Error text *)

Lemma uint_chars_inj u v : uint_chars u = uint_chars v -> u = v.
Proof.
  revert v; induction u as [|u IH|u IH|u IH|u IH|u IH|u IH|u IH|u IH|u IH|u IH];
    intros [|v|v|v|v|v|v|v|v|v|v] H; simpl in H; try discriminate; try reflexivity;
    injection H as H; f_equal; apply IH; exact H.
Qed.

Lemma uint_chars_digit u : Forall (fun c => 48 <= c <= 57) (uint_chars u).
Proof. induction u; simpl; constructor; auto; lia. Qed.

Lemma fmt_d_inj a b : fmt_d a = fmt_d b -> a = b.
Proof.
  unfold fmt_d. intros H.
  rewrite <- (DecimalZ.of_to a), <- (DecimalZ.of_to b). f_equal.
  destruct (Z.to_int a) as [u|u]; destruct (Z.to_int b) as [v|v].
  - f_equal. apply uint_chars_inj, H.
  - pose proof (uint_chars_digit u) as D. rewrite H in D. inversion D. lia.
  - pose proof (uint_chars_digit v) as D. rewrite <- H in D. inversion D. lia.
  - f_equal. injection H as H. apply uint_chars_inj, H.
Qed.

Definition utf8_check (b : N) : bool :=
  if b <? 128 then true
  else (N.lor 0xC0 (N.shiftr b 6) =? 192 + b / 64) && (N.lor 0x80 (N.land b 0x3F) =? 128 + b mod 64).

Lemma utf8_ok b : b < 256 -> 128 <= b ->
  string_of_byte b = [192 + b / 64; 128 + b mod 64].
Proof.
  intros H1 H2. assert (H : forallb utf8_check all_bytes = true) by (vm_compute; reflexivity).
  pose proof (sweep_byte _ H b H1) as C. unfold utf8_check in C. unfold string_of_byte.
  destruct (N.ltb_spec b 128) as [H3|H3]; [lia|].
  apply andb_true_iff in C. destruct C as [C1 C2].
  apply N.eqb_eq in C1. apply N.eqb_eq in C2. congruence.
Qed.

Lemma error_inj b i c j :
  b < 256 -> c < 256 -> Error (InvalidHexAt b i) = Error (InvalidHexAt c j) -> b = c /\ i = j.
Proof.
  intros Hb Hc H. unfold Error in H. apply app_inv_head in H.
  destruct (N.lt_ge_cases b 128) as [B|B]; destruct (N.lt_ge_cases c 128) as [C|C].
  - unfold string_of_byte in H. apply N.ltb_lt in B. apply N.ltb_lt in C. rewrite B, C in H.
    simpl in H. injection H as H1 H2. split; [exact H1|]. apply fmt_d_inj, H2.
  - rewrite (utf8_ok c Hc C) in H. unfold string_of_byte in H.
    pose proof B as B'. apply N.ltb_lt in B'. rewrite B' in H.
    simpl app in H. injection H as H1 H2. lia.
  - rewrite (utf8_ok b Hb B) in H. unfold string_of_byte in H.
    pose proof C as C'. apply N.ltb_lt in C'. rewrite C' in H.
    simpl app in H. injection H as H1 H2. lia.
  - rewrite (utf8_ok b Hb B), (utf8_ok c Hc C) in H. cbn [app] in H.
    assert (H1 : 192 + b / 64 = 192 + c / 64) by congruence.
    assert (H2 : 128 + b mod 64 = 128 + c mod 64) by congruence.
    assert (H3 : fmt_d i = fmt_d j) by congruence.
    split; [|apply fmt_d_inj, H3].
    assert (E : 64 <> 0) by discriminate.
    pose proof (N.div_mod b 64 E). pose proof (N.div_mod c 64 E). lia.
Qed.

Lemma error_text b pos : b < 256 ->
  exists ch, Error (InvalidHexAt b pos) =
    [73;110;118;97;108;105;100;32;104;101;120;58;32] ++ ch ++ [32;64;32] ++ fmt_d pos
  /\ (b < 128 -> ch = [b]) /\ (128 <= b -> ch = [192 + b / 64; 128 + b mod 64]).
Proof.
  intros Hb. exists (string_of_byte b). split; [reflexivity|]. split.
  - intros H. unfold string_of_byte. apply N.ltb_lt in H. rewrite H. reflexivity.
  - intros H. apply utf8_ok; assumption.
Qed.

Definition read_dec (l : list N) (acc : Z) : Z :=
  fold_left (fun a c => 10 * a + (Z.of_N c - 48))%Z l acc.

Lemma uint_chars_value_acc u p :
  read_dec (uint_chars u) (Zpos p) = Zpos (Pos.of_uint_acc u p).
Proof.
  revert p; induction u as [|u IH|u IH|u IH|u IH|u IH|u IH|u IH|u IH|u IH|u IH]; intros p;
    cbn [uint_chars Pos.of_uint_acc]; [reflexivity|..];
    unfold read_dec in *; cbn [fold_left]; rewrite <- IH; f_equal; lia.
Qed.

Lemma uint_chars_value u : read_dec (uint_chars u) 0 = Z.of_N (Pos.of_uint u).
Proof.
  induction u as [|u IH|u IH|u IH|u IH|u IH|u IH|u IH|u IH|u IH|u IH];
    cbn [uint_chars Pos.of_uint]; [reflexivity|exact IH|..];
    unfold Z.of_N; rewrite <- uint_chars_value_acc; reflexivity.
Qed.

Lemma fmt_d_value n : (0 <= n)%Z ->
  fold_left (fun acc c => 10 * acc + (Z.of_N c - 48))%Z (fmt_d n) 0%Z = n
  /\ Forall (fun c => 48 <= c <= 57) (fmt_d n)
  /\ (n <> 0%Z -> hd 48 (fmt_d n) <> 48) /\ fmt_d n <> [].
Proof.
  intros Hn. destruct n as [|p|p]; [ | | lia].
  { split; [reflexivity|]. split; [repeat constructor; discriminate|].
    split; [congruence|discriminate]. }
  unfold fmt_d. cbn [Z.to_int].
  change (fold_left _ ?l 0%Z) with (read_dec l 0).
  rewrite uint_chars_value, DecimalPos.Unsigned.of_to.
  split; [reflexivity|]. split; [apply uint_chars_digit|].
  assert (U : Pos.to_uint p = Decimal.unorm (Pos.to_uint p)).
  { rewrite <- DecimalPos.Unsigned.to_of, DecimalPos.Unsigned.of_to. reflexivity. }
  assert (Z0 := DecimalPos.Unsigned.to_uint_nonzero p).
  assert (N0 := DecimalPos.Unsigned.to_uint_nonnil p).
  split.
  - intros _. destruct (Pos.to_uint p) as [|u|u|u|u|u|u|u|u|u|u]; try discriminate; try congruence.
    exfalso. unfold Decimal.unorm in U. cbn [Decimal.nzhead] in U.
    destruct (Decimal.nzhead u) eqn:E; try discriminate U.
    + apply Z0. exact U.
    + eapply DecimalFacts.nzhead_nonzero. exact E.
  - destruct (Pos.to_uint p); discriminate || congruence.
Qed.
