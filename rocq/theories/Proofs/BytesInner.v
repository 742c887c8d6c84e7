(** Package bytes: the unexported adders, for every carry bit and every width. *)
From Verif Require Import Base.Go Base.Mem Spec.BytesSpec Model.Bytes Proofs.BytesProofs.
Local Open Scope N_scope.

(** ** addEq8, addEq16*, addEq32* *)

Lemma val_1 f : val f 1 = f 0%nat.
Proof. cbn [val]. change (256 ^ N.of_nat 0) with 1. lia. Qed.

Lemma land_mod2 c : N.land c 1 = c mod 2.
Proof. change 1 with (N.ones 1). rewrite N.land_ones. reflexivity. Qed.

Lemma addEq8_spec m s b c : (1 <= len s)%nat -> mem_ok m -> c <= 1 ->
  exists m' c', addEq8 m s b c = Ret (m', c') /\
    add_step 1 m m' s (fun m i => m (off s + i)%nat) (val (digit m b) 1) c c'.
Proof.
  intros L H Hc. unfold addEq8. rewrite load_ok by lia. cbn [bind].
  assert (X : (if Nat.ltb 0 (len b) then load m b 0 else Ret 0) = Ret (digit m b 0)).
  { unfold digit. bcase; [apply load_ok; lia|reflexivity]. }
  rewrite X. cbn [bind]. rewrite land_1 by exact Hc. rewrite val_1.
  rewrite Nat.add_0_r. set (A := m (off s)). set (B := digit m b 0).
  assert (HA : A < 256) by apply H. assert (HB : B < 256) by apply digit_lt, H.
  unfold u16. change (2 ^ 16) with 65536. rewrite (N.mod_small (A + B)), (N.mod_small (A + B + c)) by lia.
  rewrite store_ok by lia. rewrite Nat.add_0_r. cbn [bind]. eexists _, _. split; [reflexivity|].
  rewrite N.shiftr_div_pow2. change (2 ^ 8) with 256.
  assert (Q : (A + B + c) / 256 <= 1).
  { apply N.lt_succ_r, N.div_lt_upper_bound; [discriminate|]. lia. }
  unfold add_step, u8. change (2 ^ 8) with 256. rewrite (N.mod_small (_ / _)) by lia.
  split; [exact Q|]. split; [apply set_ok; [exact H|apply N.mod_lt; discriminate]|]. split.
  - intros x Hx. unfold within in Hx. apply set_other. lia.
  - rewrite !val_1, Nat.add_0_r, set_same. fold A. change (256 ^ N.of_nat 1) with 256.
    pose proof (N.div_mod (A + B + c) 256). lia.
Qed.

Lemma step_bit w f m s b c : In (w, f) le_steps \/ In (w, f) be_steps ->
  f m s b c = f m s b (c mod 2).
Proof.
  assert (X : N.land c 1 = N.land (c mod 2) 1).
  { rewrite !land_mod2. symmetry. apply N.mod_small, N.mod_lt. discriminate. }
  intros [Hf|Hf]; cbn [In le_steps be_steps] in Hf;
  repeat (destruct Hf as [Hf|Hf]; [injection Hf as <- <-|]); try contradiction;
  [unfold addEq8|unfold addEq16LE|unfold addEq32LE|unfold addEq8|unfold addEq16BE|unfold addEq32BE];
  rewrite X; reflexivity.
Qed.

Lemma step_le_ok w f m s b c : In (w, f) le_steps -> mem_ok m -> (w <= len s)%nat ->
  let T := le_value (firstn w (content m s)) + le_value (firstn w (content m b)) + c mod 2 in
  let W := 256 ^ N.of_nat w in
  exists m', f m s b c = Ret (m', T / W) /\ T / W <= 1
  /\ le_value (firstn w (content m' s)) = T mod W /\ only_changes m m' s w.
Proof.
  intros Hf H L T W. rewrite (step_bit w f) by auto.
  assert (C : c mod 2 <= 1) by (apply N.lt_succ_r, N.mod_lt; discriminate).
  assert (X : exists m' c', f m s b (c mod 2) = Ret (m', c') /\
     add_step w m m' s (fun m i => m (off s + i)%nat) (val (digit m b) w) (c mod 2) c').
  { cbn [In le_steps] in Hf.
    repeat (destruct Hf as [Hf|Hf]; [injection Hf as <- <-|]); try contradiction.
    - apply addEq8_spec; assumption.
    - apply addEq16LE_spec; assumption.
    - apply addEq32LE_spec; assumption. }
  destruct X as (m' & c' & E & C' & H' & F & V). subst T.
  rewrite content_val, val_digit by exact L. rewrite <- V in *.
  destruct (sum_split W _ c' _ ltac:(apply val_lt; intros; apply H') V) as [Ec Ev].
  exists m'. rewrite (content_val m' s w L). rewrite V, <- Ec. rewrite <- V in Ev |- *. auto.
Qed.

Lemma step_be_ok w f m s b c : In (w, f) be_steps -> mem_ok m -> (w <= len s)%nat ->
  let T := be_value (firstn w (content m s)) + be_value (firstn w (content m b)) + c mod 2 in
  let W := 256 ^ N.of_nat w in
  exists m', f m s b c = Ret (m', T / W) /\ T / W <= 1
  /\ be_value (firstn w (content m' s)) = T mod W /\ only_changes m m' s w.
Proof.
  intros Hf H L T W. rewrite (step_bit w f) by auto.
  assert (C : c mod 2 <= 1) by (apply N.lt_succ_r, N.mod_lt; discriminate).
  assert (X : exists m' c', f m s b (c mod 2) = Ret (m', c') /\
     add_step w m m' s (fun m i => m (off s + (w - 1 - i))%nat) (val (hdigit m b w) w) (c mod 2) c').
  { cbn [In be_steps] in Hf.
    repeat (destruct Hf as [Hf|Hf]; [injection Hf as <- <-|]); try contradiction.
    - destruct (addEq8_spec m s b (c mod 2) L H C) as (m' & c' & E & C' & H' & F & V).
      exists m', c'. split; [exact E|]. split; [exact C'|]. split; [exact H'|]. split; [exact F|].
      rewrite !val_1 in *. cbn [Nat.sub] in *. rewrite V. do 2 f_equal.
      unfold digit, hdigit, rdigit. cbn [off len]. destruct (len b) as [|k]; [reflexivity|].
      rewrite Nat.min_r by lia. cbn [Nat.ltb Nat.leb Nat.sub]. reflexivity.
    - apply addEq16BE_spec; assumption.
    - apply addEq32BE_spec; assumption. }
  destruct X as (m' & c' & E & C' & H' & F & V). subst T.
  rewrite content_bval, <- hdigit_value by exact L.
  destruct (sum_split W _ c' _ ltac:(apply val_lt; intros; apply H') V) as [Ec Ev].
  exists m'. rewrite (content_bval m' s w L). rewrite <- Ec. auto.
Qed.

Lemma step_short w f m s b c : In (w, f) le_steps \/ In (w, f) be_steps ->
  (len s < w)%nat -> f m s b c = Panic.
Proof.
  intros [Hf|Hf] L; cbn [In le_steps be_steps] in Hf;
  repeat (destruct Hf as [Hf|Hf]; [injection Hf as <- <-|]); try contradiction;
  [unfold addEq8|unfold addEq16LE, le_uint16|unfold addEq32LE, le_uint32
  |unfold addEq8|unfold addEq16BE, be_uint16|unfold addEq32BE, be_uint32];
  rewrite load_panic by lia; reflexivity.
Qed.

(** ** addAnyLE for every width *)

Lemma glue p w m0 m m' sum l D B c c' :
  val (fun i => m (off sum + i)%nat) p + c * 256 ^ N.of_nat p
    = val (fun i => m0 (off sum + i)%nat) p + val D p ->
  only_changes m0 m sum p ->
  add_step w m m' (mkSlice (off sum + p) l) (fun m i => m (off sum + p + i)%nat) B c c' ->
  B = val (fun i => D (p + i)%nat) w ->
  only_changes m0 m' sum (p + w) /\
  val (fun i => m' (off sum + i)%nat) (p + w) + c' * 256 ^ N.of_nat (p + w)
    = val (fun i => m0 (off sum + i)%nat) (p + w) + val D (p + w).
Proof.
  intros V F (_ & _ & F' & V') ->. unfold only_changes, within in *. cbn [off] in *. split.
  - intros x Hx. rewrite F' by lia. apply F. lia.
  - rewrite !val_add, Nat2N.inj_add, N.pow_add_r.
    rewrite (val_ext (fun i => m' (off sum + i)%nat) (fun i => m (off sum + i)%nat))
      by (intros; apply F'; lia).
    rewrite (val_ext (fun i => m' (off sum + (p + i))%nat) (fun i => m' (off sum + p + i)%nat))
      by (intros; f_equal; lia).
    rewrite (val_ext (fun i => m0 (off sum + (p + i))%nat) (fun i => m (off sum + p + i)%nat))
      by (intros; replace (off sum + (p + i))%nat with (off sum + p + i)%nat by lia;
          symmetry; apply F; lia).
    nia.
Qed.

Definition rest_of (b0 : slice) (p : nat) (b : slice) : Prop :=
  len b = (len b0 - p)%nat /\ ((0 < len b)%nat -> off b = (off b0 + p)%nat).

Lemma rest_digit m0 m sum n b0 p b w : apart sum n b0 (Nat.min (len b0) n) ->
  only_changes m0 m sum p -> (p + w <= n)%nat -> rest_of b0 p b ->
  val (digit m b) w = val (fun i => digit m0 b0 (p + i)) w.
Proof.
  intros AP F L [R1 R2]. apply val_ext. intros i Hi. unfold digit.
  destruct (Nat.ltb i (len b)) eqn:E1; destruct (Nat.ltb (p + i) (len b0)) eqn:E2; bools; try lia.
  rewrite R2 by lia. replace (off b0 + (p + i))%nat with (off b0 + p + i)%nat by lia. apply F.
  intros X. apply (AP (off b0 + p + i)%nat); unfold within in *; lia.
Qed.

Lemma words_le K m1 sum b n : (4 * K <= n)%nat -> (n <= len sum)%nat -> mem_ok m1 ->
  apart sum n b (Nat.min (len b) n) ->
  exists k m2 j b2 c2 k3 m3 j3 b3 c3 m' c,
   fullLE K 0 m1 sum b 0 = Ret (k, m2, j, b2, c2)
   /\ match k with
        | S k' =>
            if Nat.ltb 0 (len b2) then
              let! s := from sum (j * 4) in
              let! (m, carry) := addEq32LE m2 s b2 c2 in
              let! b := from b2 (len b2) in
              Ret (k', m, S j, b, carry)
            else Ret (k, m2, j, b2, c2)
        | O => Ret (k, m2, j, b2, c2)
        end = Ret (k3, m3, j3, b3, c3)
   /\ restLE k3 j3 m3 sum c3 = Ret (m', K, c)
   /\ mem_ok m' /\ only_changes m1 m' sum (4 * K) /\ c <= 1
   /\ val (fun i => m' (off sum + i)%nat) (4 * K) + c * 256 ^ N.of_nat (4 * K)
     = val (fun i => m1 (off sum + i)%nat) (4 * K) + val (digit m1 b) (4 * K)
   /\ rest_of b (4 * K) b3.
Proof.
  intros Kn L H AP0. assert (HK : (4 * K <= len sum)%nat) by lia.
  assert (AP : forall i, (i < Nat.min (len b) (4 * K))%nat -> ~ within sum (4 * (i / 4)) (off b + i)).
  { intros i Hi X. apply (AP0 (off b + i)%nat); unfold within in *; [|lia].
    assert (4 * (i / 4) <= i)%nat by apply Nat.mul_div_le, Nat.neq_succ_0. lia. }
  destruct (fullLE_spec K m1 sum b HK AP K 0 m1 b 0) as (k & m2 & j & b2 & c2 & E2 & I2 & Hj & Hk).
  { unfold invLE. split; [exact H|]. split; [lia|]. split; [intros ? _; reflexivity|].
    rewrite Nat.mul_0_r. cbn [val]. split; [lia|]. split; lia. }
  { reflexivity. }
  assert (X : exists k3 m3 j3 b3 c3,
     (match k with
        | S k' =>
            if Nat.ltb 0 (len b2) then
              let! s := from sum (j * 4) in
              let! (m, carry) := addEq32LE m2 s b2 c2 in
              let! b := from b2 (len b2) in
              Ret (k', m, S j, b, carry)
            else Ret (k, m2, j, b2, c2)
        | O => Ret (k, m2, j, b2, c2)
        end) = Ret (k3, m3, j3, b3, c3) /\ invLE m1 sum b j3 m3 b3 c3 /\ (j3 + k3 = K)%nat
     /\ (k3 = 0 \/ len b3 = 0)%nat).
  { destruct k as [|k].
    - exists O, m2, j, b2, c2. split; [reflexivity|]. auto.
    - bcase.
      + rewrite from_ok by lia. cbn [bind].
        destruct (invLE_step K m1 sum b HK AP j m2 b2 c2 b2 (mkSlice (off b2 + len b2) (len b2 - len b2)) I2)
          as (m3 & c3 & -> & I3); [lia|auto|cbn [len]; lia|cbn [len]; lia|].
        cbn [bind]. rewrite from_ok by lia. cbn [bind].
        eexists k, m3, (S j), _, c3. split; [reflexivity|]. split; [exact I3|].
        split; [lia|right; cbn [len]; lia].
      + exists (S k), m2, j, b2, c2. split; [reflexivity|]. split; [exact I2|]. split; [lia|]. right; lia. }
  destruct X as (k3 & m3 & j3 & b3 & c3 & E3 & I3 & Hj3 & Hk3).
  assert (Y : exists m' c', restLE k3 j3 m3 sum c3 = Ret (m', K, c') /\ invLE m1 sum b K m' b3 c').
  { destruct Hk3 as [->|Hz].
    - rewrite Nat.add_0_r in Hj3. subst j3. cbn [restLE]. eauto.
    - eapply restLE_spec; eauto. }
  destruct Y as (m' & c' & E4 & (A1 & A2 & A3 & A4 & A5)).
  exists k, m2, j, b2, c2, k3, m3, j3, b3, c3, m', c'. unfold rest_of. auto 10.
Qed.

Lemma addAnyLE_every n : LE_law n (fun m sum a b => addAnyLE m sum a b n).
Proof.
  intros m sum a b H L AP NA. unfold addAnyLE.
  destruct (padLE_spec m sum a n L H NA) as (m1 & -> & H1 & F1 & D1). cbn [bind].
  pose proof (Nat.div_mod_eq n 4) as En. pose proof (Nat.mod_upper_bound n 4 ltac:(lia)) as Er.
  set (K := (n / 4)%nat) in *. set (r := (n mod 4)%nat) in *.
  destruct (words_le K m1 sum b n) as (k & m2 & j & b2 & c2 & k3 & m3 & j3 & b3 & c3 & m4 & c4
    & E2 & E3 & E4 & H4 & F4 & C4 & V4 & R4); [lia|exact L|exact H1|exact AP|].
  rewrite E2. cbn [bind]. rewrite E3. cbn [bind]. rewrite E4. cbn [bind].
  (* the 16-bit step *)
  assert (S2 : exists m5 b5 c5 u, (if Nat.ltb 1 r then
          let! s := from sum (K * 4) in
          let! (m, carry) := addEq16LE m4 s b3 c4 in
          let! b := if Nat.eqb (len b3) 1 then from b3 1
                    else if Nat.leb 2 (len b3) then from b3 2 else Ret b3 in
          Ret (m, b, carry, 1%nat, (r - 2)%nat)
        else Ret (m4, b3, c4, O, r)) = Ret (m5, b5, c5, u, (r - 2 * u)%nat)
     /\ (r = 2 * u + (r - 2 * u))%nat /\ (r - 2 * u <= 1)%nat /\ mem_ok m5 /\ c5 <= 1
     /\ only_changes m1 m5 sum (4 * K + 2 * u)
     /\ val (fun i => m5 (off sum + i)%nat) (4 * K + 2 * u) + c5 * 256 ^ N.of_nat (4 * K + 2 * u)
        = val (fun i => m1 (off sum + i)%nat) (4 * K + 2 * u) + val (digit m1 b) (4 * K + 2 * u)
     /\ rest_of b (4 * K + 2 * u) b5).
  { bcase.
    - rewrite from_ok by lia. cbn [bind]. rewrite (Nat.mul_comm K 4).
      destruct (addEq16LE_spec m4 (mkSlice (off sum + 4 * K) (len sum - 4 * K)) b3 c4)
        as (m5 & c5 & -> & St); [cbn [len]; lia|exact H4|exact C4|]. cbn [bind].
      destruct (glue (4 * K) 2 m1 m4 m5 sum (len sum - 4 * K) (digit m1 b) _ c4 c5 V4 F4 St)
        as [F5 V5].
      { apply (rest_digit m1 m4 sum n b (4 * K) b3 2 AP F4); [lia|exact R4]. }
      destruct St as (C5 & H5 & _). destruct R4 as [R5 R6].
      assert (XB : exists b5, (if Nat.eqb (len b3) 1 then from b3 1
                    else if Nat.leb 2 (len b3) then from b3 2 else Ret b3) = Ret b5
                /\ rest_of b (4 * K + 2) b5).
      { unfold rest_of. bcase; [|bcase].
        - rewrite from_ok by lia. eexists; split; [reflexivity|]. cbn [len off]. lia.
        - rewrite from_ok by lia. eexists; split; [reflexivity|]. cbn [len off]. lia.
        - eexists; split; [reflexivity|]. lia. }
      destruct XB as (b5 & -> & R7). cbn [bind].
      exists m5, b5, c5, 1%nat. change (2 * 1)%nat with 2%nat. split; [reflexivity|].
      split; [lia|]. split; [lia|]. auto.
    - exists m4, b3, c4, 0%nat. rewrite Nat.mul_0_r, Nat.sub_0_r, Nat.add_0_r.
      split; [reflexivity|]. split; [lia|]. split; [lia|]. auto. }
  destruct S2 as (m5 & b5 & c5 & u & -> & Ru & Rle & H5 & C5 & F5 & V5 & R5). cbn [bind].
  set (q := (r - 2 * u)%nat) in *.
  assert (S1 : exists m6 c6, (if Nat.ltb 0 q then
          let! s := from sum (K * 4 + u * 2) in addEq8 m5 s b5 c5
        else Ret (m5, c5)) = Ret (m6, c6)
     /\ mem_ok m6 /\ c6 <= 1 /\ only_changes m1 m6 sum n
     /\ val (fun i => m6 (off sum + i)%nat) n + c6 * 256 ^ N.of_nat n
        = val (fun i => m1 (off sum + i)%nat) n + val (digit m1 b) n).
  { bcase.
    - rewrite from_ok by lia. cbn [bind]. replace (K * 4 + u * 2)%nat with (4 * K + 2 * u)%nat by lia.
      set (p := (4 * K + 2 * u)%nat) in *.
      destruct (addEq8_spec m5 (mkSlice (off sum + p) (len sum - p)) b5 c5)
        as (m6 & c6 & -> & St); [cbn [len]; lia|exact H5|exact C5|].
      destruct (glue p 1 m1 m5 m6 sum (len sum - p) (digit m1 b) _ c5 c6 V5 F5 St) as [F6 V6].
      { apply (rest_digit m1 m5 sum n b p b5 1 AP F5); [lia|exact R5]. }
      destruct St as (C6 & H6 & _). exists m6, c6. replace n with (p + 1)%nat by lia. auto.
    - exists m5, c5. replace (4 * K + 2 * u)%nat with n in * by lia. auto. }
  destruct S1 as (m6 & c6 & -> & H6 & C6 & F6 & V6). cbn [bind].
  exists m6, c6. split; [reflexivity|]. split; [exact H6|].
  split; [eapply only_changes_trans; eassumption|]. split; [exact C6|].
  rewrite V6, (digit_apart m m1 sum) by assumption. f_equal. apply val_ext. exact D1.
Qed.

Lemma any_le n m sum a b : mem_ok m -> (n <= len sum)%nat ->
  apart sum n b (Nat.min (len b) n) -> ~ (off sum = off a /\ 0 < len a < n)%nat ->
  let T := le_value (firstn n (content m a)) + le_value (firstn n (content m b)) in
  let W := 256 ^ N.of_nat n in
  exists m', addAnyLE m sum a b n = Ret (m', T / W, None) /\ T / W <= 1
  /\ le_value (firstn n (content m' sum)) = T mod W /\ only_changes m m' sum n.
Proof.
  intros H L AP NA T W.
  destruct (addAnyLE_every n m sum a b H L AP NA) as (m' & c & E & H' & F & C & V).
  subst T. rewrite !val_digit.
  destruct (sum_split W _ c _ ltac:(apply val_lt; intros; apply H') V) as [Ec Ev].
  exists m'. rewrite (content_val m' sum n L). rewrite <- Ec. auto.
Qed.

(** ** addAnyBE *)

Lemma any_be K m sum a b : mem_ok m -> (4 * K <= len sum)%nat ->
  let n := (4 * K)%nat in
  let w := Nat.max n (Nat.min (len sum) (len a)) in
  apart sum w b (len b) -> apart sum (n - len a) a (len a) ->
  let T := be_value (firstn n (content m a)) + be_value (lastn n (content m b)) in
  let W := 256 ^ N.of_nat n in
  exists m', addAnyBE m sum a b n = Ret (m', T / W, None) /\ T / W <= 1
  /\ be_value (firstn n (content m' sum)) = T mod W /\ only_changes m m' sum w.
Proof.
  intros H L n w AP APa T W.
  destruct (addAnyBE_law K m sum a b H L AP APa) as (m' & c & E & H' & F & C & V & O).
  subst T. fold n in V. rewrite hdigit_value, rdigit_value in V.
  destruct (sum_split W _ c _ ltac:(apply val_lt; intros; apply H') V) as [Ec Ev].
  exists m'. rewrite (content_bval m' sum n L). rewrite <- Ec. auto.
Qed.

(** One step of w bytes at position p, seen on the n-byte number. *)
Definition bval (n : nat) (sum : slice) (m : mem) : N := val (fun i => m (off sum + (n - 1 - i))%nat) n.

Lemma be_glue n p w m m' sum l D c c' : (p + w <= n)%nat ->
  add_step w m m' (mkSlice (off sum + p) l) (fun m i => m (off sum + p + (w - 1 - i))%nat) D c c' ->
  bval n sum m' + c' * 256 ^ N.of_nat (n - p) = bval n sum m + (D + c) * 256 ^ N.of_nat (n - p - w).
Proof.
  intros L (_ & _ & F & V). unfold bval, only_changes, within in *. cbn [off] in *.
  set (lo := (n - p - w)%nat) in *.
  assert (G : forall f, val f n = val f lo + 256 ^ N.of_nat lo * (val (fun i => f (lo + i)%nat) w
    + 256 ^ N.of_nat w * val (fun i => f (lo + (w + i))%nat) p)).
  { intros f. replace n with (lo + (w + p))%nat by lia. rewrite !val_add. reflexivity. }
  rewrite !G.
  rewrite (val_ext (fun i => m' (off sum + (n - 1 - i))%nat) (fun i => m (off sum + (n - 1 - i))%nat))
    by (intros; apply F; lia).
  rewrite (val_ext (fun i => m' (off sum + (n - 1 - (lo + (w + i))))%nat)
                   (fun i => m (off sum + (n - 1 - (lo + (w + i))))%nat))
    by (intros; apply F; lia).
  rewrite (val_ext (fun i => m' (off sum + (n - 1 - (lo + i)))%nat) (fun i => m' (off sum + p + (w - 1 - i))%nat))
    by (intros; f_equal; lia).
  rewrite (val_ext (fun i => m (off sum + (n - 1 - (lo + i)))%nat) (fun i => m (off sum + p + (w - 1 - i))%nat))
    by (intros; f_equal; lia).
  replace (n - p)%nat with (lo + w)%nat by lia. rewrite Nat2N.inj_add, N.pow_add_r.
  set (X1 := val (fun i => m' (off sum + p + (w - 1 - i))%nat) w) in *.
  set (X2 := val (fun i => m (off sum + p + (w - 1 - i))%nat) w) in *.
  set (P := 256 ^ N.of_nat lo) in *. set (Q := 256 ^ N.of_nat w) in *.
  set (Z := val _ lo). set (H := val _ p).
  replace (Z + P * (X1 + Q * H) + c' * (P * Q)) with (Z + P * (X1 + c' * Q + Q * H)) by lia.
  rewrite V. lia.
Qed.

Lemma addEq8_top n m sum b c : (1 <= n)%nat -> (n <= len sum)%nat -> mem_ok m -> c <= 1 ->
  exists m' c', addEq8 m sum b c = Ret (m', c') /\ c' <= 1 /\ mem_ok m' /\ only_changes m m' sum 1
  /\ bval n sum m' + c' * 256 ^ N.of_nat n
     = bval n sum m + (val (hdigit m b 1) 1 + c) * 256 ^ N.of_nat (n - 1).
Proof.
  intros N1 L H C. destruct (addEq8_spec m sum b c) as (m' & c' & E & (Z1 & Z2 & Z3 & Z4));
    [lia|exact H|exact C|].
  exists m', c'. split; [exact E|]. split; [exact Z1|]. split; [exact Z2|]. split; [exact Z3|].
  pose proof (be_glue n 0 1 m m' sum 0 (val (hdigit m b 1) 1) c c') as G. rewrite Nat.sub_0_r in G.
  apply G; [lia|]. split; [exact Z1|]. split; [exact Z2|].
  split; [intros x Hx; apply Z3; unfold within in *; cbn [off] in *; lia|].
  rewrite !val_1 in *. cbn [Nat.sub] in *. rewrite !Nat.add_0_r in *. rewrite Z4. do 2 f_equal.
  unfold digit, hdigit, rdigit. cbn [off len]. destruct (len b) as [|k]; [reflexivity|].
  rewrite Nat.min_r by lia. cbn [Nat.ltb Nat.leb Nat.sub]. reflexivity.
Qed.

Lemma hdigit_rest m b b3 k w : len b3 = (len b - k)%nat -> ((0 < len b3)%nat -> off b3 = off b) ->
  val (hdigit m b3 w) w = be_value (firstn w (firstn (len b - k) (content m b))).
Proof.
  intros L Of. rewrite hdigit_value. do 2 f_equal. unfold content. rewrite firstn_map, firstn_seq, L.
  rewrite Nat.min_l by lia. destruct (len b - k)%nat as [|j] eqn:E; [reflexivity|].
  rewrite Of by lia. reflexivity.
Qed.

Lemma words_be K m1 sum b : (4 * K <= len sum)%nat -> mem_ok m1 ->
  (forall i, (i < Nat.min (len b) (4 * K))%nat ->
    ~ (off sum + 4 * (K - i / 4) <= off b + (len b - 1 - i) < off sum + 4 * K)%nat) ->
  exists k m2 b2 c2 k3 m3 b3 c3 m' c,
   fullBE K m1 sum b 0 = Ret (k, m2, b2, c2)
   /\ match k with
        | S in32 =>
            if Nat.ltb 0 (len b2) then
              let! s := from sum (in32 * 4) in
              let! (m, carry) := addEq32BE m2 s b2 c2 in
              let! b := upto b2 0 in
              Ret (in32, m, b, carry)
            else Ret (k, m2, b2, c2)
        | O => Ret (k, m2, b2, c2)
        end = Ret (k3, m3, b3, c3)
   /\ restBE k3 m3 sum c3 = Ret (m', c)
   /\ mem_ok m' /\ only_changes m1 m' sum (4 * K) /\ c <= 1
   /\ val (sd K sum m') (4 * K) + c * 256 ^ N.of_nat (4 * K)
     = val (sd K sum m1) (4 * K) + val (rdigit m1 b) (4 * K)
   /\ len b3 = (len b - 4 * K)%nat /\ ((0 < len b3)%nat -> off b3 = off b).
Proof.
  intros HK H AP.
  destruct (fullBE_spec K m1 sum b HK AP K 0 m1 b 0) as (k & m2 & b2 & c2 & E2 & I2 & Hj & Hk).
  { unfold invBE. split; [exact H|]. split; [lia|]. split; [intros ? _; reflexivity|].
    rewrite Nat.mul_0_r. cbn [val]. split; [lia|]. split; lia. }
  { reflexivity. }
  assert (X : exists k3 m3 b3 c3,
     (match k with
        | S in32 =>
            if Nat.ltb 0 (len b2) then
              let! s := from sum (in32 * 4) in
              let! (m, carry) := addEq32BE m2 s b2 c2 in
              let! b := upto b2 0 in
              Ret (in32, m, b, carry)
            else Ret (k, m2, b2, c2)
        | O => Ret (k, m2, b2, c2)
        end) = Ret (k3, m3, b3, c3) /\ invBE K m1 sum b (K - k3) m3 b3 c3 /\ (k3 <= K)%nat
     /\ (k3 = 0 \/ len b3 = 0)%nat).
  { destruct k as [|k].
    - exists O, m2, b2, c2. split; [reflexivity|]. auto.
    - bcase.
      + rewrite from_ok by lia. cbn [bind].
        destruct (invBE_step K m1 sum b HK AP (K - S k) m2 b2 c2 b2 (mkSlice (off b2) 0) I2)
          as (m3 & c3 & E3 & I3); [lia|lia|lia|cbn [len]; lia|cbn [len]; lia|].
        replace (K - 1 - (K - S k))%nat with k in E3 by lia. rewrite E3.
        cbn [bind]. rewrite upto_ok by lia. cbn [bind].
        eexists k, m3, _, c3. split; [reflexivity|].
        replace (K - k)%nat with (S (K - S k)) by lia. split; [exact I3|].
        split; [lia|right; reflexivity].
      + exists (S k), m2, b2, c2. split; [reflexivity|]. split; [exact I2|]. split; [lia|]. right; lia. }
  destruct X as (k3 & m3 & b3 & c3 & E3 & I3 & Hj3 & Hk3).
  assert (Y : exists m' c', restBE k3 m3 sum c3 = Ret (m', c') /\ invBE K m1 sum b K m' b3 c').
  { destruct Hk3 as [->|Hz].
    - cbn [restBE]. rewrite Nat.sub_0_r in I3. eauto.
    - eapply restBE_spec; eauto. lia. }
  destruct Y as (m' & c' & E4 & (A1 & A2 & A3 & A4 & A5 & A6)).
  rewrite Nat.sub_diag, Nat.mul_0_r, Nat.add_0_r in A3.
  exists k, m2, b2, c2, k3, m3, b3, c3, m', c'. auto 12.
Qed.

Lemma any_be_odd n m sum a b : mem_ok m -> (n mod 4 <> 0)%nat -> (n <= len sum)%nat ->
  let w := Nat.max n (Nat.min (len sum) (len a)) in
  apart sum w b (len b) -> apart sum (n - len a) a (len a) ->
  let r := (n mod 4)%nat in
  let W := 256 ^ N.of_nat n in
  let B := content m b in
  let rest := firstn (length B - (n - r)) B in
  let U := be_value (firstn n (content m a)) + be_value (lastn (n - r) B) * 256 ^ N.of_nat r in
  let D := be_value (firstn (Nat.min r 2) rest)
           + (if Nat.eqb r 3 then be_value (firstn 1 (firstn (length rest - 2) rest)) * 65536 else 0) in
  let T := U mod W + (D + U / W) * 256 ^ N.of_nat (n - r) in
  exists m', addAnyBE m sum a b n = Ret (m', T / W, None) /\ T / W <= 1
  /\ be_value (firstn n (content m' sum)) = T mod W /\ only_changes m m' sum w.
Proof.
  intros H Hr L w AP APa r W B rest U D T. unfold addAnyBE.
  destruct (padBE_spec m sum a n L H APa) as (m1 & -> & H1 & F1 & D1 & _). cbn [bind].
  pose proof (Nat.div_mod_eq n 4) as En. pose proof (Nat.mod_upper_bound n 4 ltac:(lia)) as Er.
  fold r in En, Er, Hr |- *. set (K := (n / 4)%nat) in *.
  assert (EB : length B = len b) by apply content_length.
  destruct (words_be K m1 sum b ltac:(lia) H1) as (k & m2 & b2 & c2 & k3 & m3 & b3 & c3 & m4 & c4
    & E2 & E3 & E4 & H4 & F4 & C4 & V4 & Lb & Ob).
  { intros i Hi X. apply (AP (off b + (len b - 1 - i))%nat); unfold within, w in *; lia. }
  rewrite E2. cbn [bind]. rewrite E3. cbn [bind]. rewrite E4. cbn [bind].
  (* the words *)
  assert (W4 : bval n sum m4 + c4 * W = U).
  { assert (G : forall mm, bval n sum mm
        = val (fun i => mm (off sum + (n - 1 - i))%nat) r + 256 ^ N.of_nat r * val (sd K sum mm) (4 * K)).
    { intros mm. unfold bval.
      assert (G0 : forall f, val f n = val f r + 256 ^ N.of_nat r * val (fun i => f (r + i)%nat) (4 * K)).
      { intros f. rewrite <- val_add. f_equal. lia. }
      rewrite G0. do 2 f_equal. apply val_ext. intros i Hi. unfold sd. f_equal. lia. }
    assert (A1 : bval n sum m1 = be_value (firstn n (content m a))).
    { rewrite <- hdigit_value. unfold bval. apply val_ext. exact D1. }
    rewrite G in A1 |- *.
    rewrite (rdigit_apart m m1 sum w b (4 * K) F1 AP), rdigit_value in V4.
    subst U W. rewrite <- A1. replace (n - r)%nat with (4 * K)%nat by lia. fold B in V4.
    replace (N.of_nat n) with (N.of_nat r + N.of_nat (4 * K)) by lia. rewrite N.pow_add_r.
    rewrite (val_ext (fun i => m4 (off sum + (n - 1 - i))%nat) (fun i => m1 (off sum + (n - 1 - i))%nat)).
    2:{ intros i Hi. apply F4. unfold within. lia. }
    set (X1 := val (sd K sum m4) (4 * K)) in *. set (X2 := val (sd K sum m1) (4 * K)) in *.
    set (X3 := be_value (lastn (4 * K) B)) in *. nia. }
  assert (BL : forall mm, mem_ok mm -> bval n sum mm < W) by (intros mm Hm; apply val_lt; intros; apply Hm).
  destruct (sum_split W (bval n sum m4) c4 U (BL _ H4) W4) as [Ec Ev].
  (* what is left of b *)
  assert (ER : rest = firstn (len b - 4 * K) B).
  { unfold rest. rewrite EB. f_equal. lia. }
  assert (LR : length rest = len b3) by (rewrite ER, firstn_length, EB; lia).
  assert (F4' : only_changes m m4 sum w).
  { eapply only_changes_trans; [exact F1|]. eapply only_changes_wide; [|exact F4]. unfold wide, w; lia. }
  assert (SR : forall x b5 u q, only_changes m x sum w -> len b5 = (len b3 - q)%nat ->
     ((0 < len b5)%nat -> off b5 = off b3) ->
     val (hdigit x b5 u) u = be_value (firstn u (firstn (length rest - q) rest))).
  { intros x b5 u q Fx L5 O5.
    assert (AP5 : apart sum w b5 (len b5)).
    { intros y Y1 Y2. apply (AP y Y1). unfold within in *. rewrite O5, Ob in Y2 by lia. lia. }
    rewrite (hdigit_apart m x sum w b5 u u Fx AP5).
    rewrite (hdigit_rest m b b5 (4 * K + q) u) by (intros; try rewrite O5 by lia; try apply Ob; lia).
    rewrite LR, Lb, ER, !firstn_firstn. fold B. do 2 f_equal. lia. }
  assert (FIN : forall m6 c6, mem_ok m6 -> c6 <= 1 -> only_changes m m6 sum w ->
     bval n sum m6 + c6 * W = T ->
     exists m', Ret (m6, c6, None) = Ret (m', T / W, None) :> outcome (mem * N * option error)
       /\ T / W <= 1 /\ be_value (firstn n (content m' sum)) = T mod W /\ only_changes m m' sum w).
  { intros m6 c6 H6 C6 F6 V6. destruct (sum_split W (bval n sum m6) c6 T (BL _ H6) V6) as [<- E6].
    exists m6. rewrite (content_bval m6 sum n L). auto. }
  assert (R3 : r = 1%nat \/ r = 2%nat \/ r = 3%nat) by lia.
  destruct R3 as [R3|[R3|R3]]; rewrite R3 in *; cbn [Nat.ltb Nat.leb Nat.sub Nat.eqb Nat.min bind] in *.
  - destruct (addEq8_top n m4 sum b3 c4) as (m6 & c6 & -> & C6 & H6 & F6 & G); [lia|lia|exact H4|exact C4|].
    cbn [bind]. apply FIN; [exact H6|exact C6| |].
    + eapply only_changes_trans; [exact F4'|]. eapply only_changes_wide; [|exact F6]. unfold w; lia.
    + fold W in G. rewrite G, Ev, Ec, (SR m4 b3 1%nat 0%nat F4') by (auto; lia).
      subst T D. rewrite R3. cbn [Nat.eqb Nat.min]. rewrite Nat.sub_0_r, firstn_all, N.add_0_r. reflexivity.
  - rewrite from_ok by lia. cbn [bind].
    destruct (addEq16BE_spec m4 (mkSlice (off sum + 0) (len sum - 0)) b3 c4)
      as (m6 & c6 & -> & St); [cbn [len]; lia|exact H4|exact C4|]. cbn [bind].
    assert (XB : exists b5, (if Nat.eqb (len b3) 1 then upto b3 0
                  else if Nat.leb 2 (len b3) then upto b3 (len b3 - 2) else Ret b3) = Ret b5).
    { bcase; [|bcase]; try rewrite upto_ok by lia; eauto. }
    change (match len b3 with S (S _) => true | _ => false end) with (Nat.leb 2 (len b3)).
    destruct XB as (b5 & ->). cbn [bind].
    pose proof (be_glue n 0 2 m4 m6 sum _ _ c4 c6 ltac:(lia) St) as G.
    destruct St as (C6 & H6 & F6 & _). apply FIN; [exact H6|exact C6| |].
    + eapply only_changes_trans; [exact F4'|]. intros x Hx. apply F6. unfold within, w in *. cbn [off]. lia.
    + rewrite Nat.sub_0_r in G. fold W in G. rewrite G, Ev, Ec, (SR m4 b3 2%nat 0%nat F4') by (auto; lia).
      subst T D. rewrite R3. cbn [Nat.eqb Nat.min]. rewrite Nat.sub_0_r, firstn_all, N.add_0_r. reflexivity.
  - rewrite from_ok by lia. cbn [bind].
    destruct (addEq16BE_spec m4 (mkSlice (off sum + 1) (len sum - 1)) b3 c4)
      as (m5 & c5 & -> & St); [cbn [len]; lia|exact H4|exact C4|]. cbn [bind].
    assert (XB : exists b5, (if Nat.eqb (len b3) 1 then upto b3 0
                  else if Nat.leb 2 (len b3) then upto b3 (len b3 - 2) else Ret b3) = Ret b5
                /\ len b5 = (len b3 - 2)%nat /\ ((0 < len b5)%nat -> off b5 = off b3)).
    { bcase; [|bcase]; try rewrite upto_ok by lia; eexists; (split; [reflexivity|]); cbn [len off]; lia. }
    change (match len b3 with S (S _) => true | _ => false end) with (Nat.leb 2 (len b3)).
    destruct XB as (b5 & -> & L5 & O5). cbn [bind].
    pose proof (be_glue n 1 2 m4 m5 sum _ _ c4 c5 ltac:(lia) St) as G.
    destruct St as (C5 & H5 & F5 & _).
    assert (F5' : only_changes m m5 sum w).
    { eapply only_changes_trans; [exact F4'|]. intros x Hx. apply F5. unfold within, w in *. cbn [off]. lia. }
    destruct (addEq8_top n m5 sum b5 c5) as (m6 & c6 & -> & C6 & H6 & F6 & G6); [lia|lia|exact H5|exact C5|].
    cbn [bind]. apply FIN; [exact H6|exact C6| |].
    + eapply only_changes_trans; [exact F5'|]. eapply only_changes_wide; [|exact F6]. unfold w; lia.
    + fold W in G6. rewrite (SR m4 b3 2%nat 0%nat F4') in G by (auto; lia).
      rewrite (SR m5 b5 1%nat 2%nat F5') in G6 by (auto; lia).
      rewrite Nat.sub_0_r, firstn_all, Ev, Ec in G. subst T D. rewrite R3. cbn [Nat.eqb Nat.min].
      replace (n - 1 - 2)%nat with (n - 3)%nat in G by lia.
      assert (P : 256 ^ N.of_nat (n - 1) = 65536 * 256 ^ N.of_nat (n - 3)).
      { replace (N.of_nat (n - 1)) with (2 + N.of_nat (n - 3)) by lia. rewrite N.pow_add_r. reflexivity. }
      rewrite P in G, G6. lia.
Qed.

Lemma any_be_shift n m sum a b : mem_ok m -> (n mod 4 <> 0)%nat -> (n <= len sum)%nat ->
  let w := Nat.max n (Nat.min (len sum) (len a)) in
  apart sum w b (len b) -> apart sum (n - len a) a (len a) ->
  let r := (n mod 4)%nat in
  let U := be_value (firstn n (content m a)) + be_value (content m b) * 256 ^ N.of_nat r in
  (len b <= n - r)%nat -> U < 256 ^ N.of_nat n ->
  exists m', addAnyBE m sum a b n = Ret (m', 0, None)
  /\ be_value (firstn n (content m' sum)) = U /\ only_changes m m' sum w.
Proof.
  intros H Hr L w AP APa r U Lb Hu.
  destruct (any_be_odd n m sum a b H Hr L AP APa) as (m' & E & _ & V & F). fold r in E, V.
  assert (X : lastn (n - r) (content m b) = content m b).
  { unfold lastn. rewrite content_length. replace (len b - (n - r))%nat with 0%nat by lia. reflexivity. }
  rewrite X, content_length in E, V. replace (len b - (n - r))%nat with 0%nat in E, V by lia. fold U in E, V.
  cbn [firstn length Nat.sub] in E, V. rewrite !firstn_nil in E, V.
  assert (Y : be_value [] = 0) by reflexivity.
  rewrite (N.div_small U), (N.mod_small U) in E, V by exact Hu.
  replace (U + (be_value [] + (if Nat.eqb r 3 then be_value [] * 65536 else 0) + 0) * 256 ^ N.of_nat (n - r))
    with U in E, V by (destruct (Nat.eqb r 3); rewrite ?Y; lia).
  rewrite N.div_small in E by exact Hu. rewrite N.mod_small in V by exact Hu.
  exists m'. auto.
Qed.

(** Other widths from 5 on: nothing is added to the lowest byte. *)
Lemma any_be_low n m sum a b : mem_ok m -> (4 < n)%nat -> (n mod 4 <> 0)%nat -> (n <= len sum)%nat ->
  apart sum (Nat.max n (Nat.min (len sum) (len a))) b (len b) -> apart sum (n - len a) a (len a) ->
  exists m' c, addAnyBE m sum a b n = Ret (m', c, None)
  /\ m' (off sum + (n - 1))%nat = be_value (firstn n (content m a)) mod 256.
Proof.
  intros H Hn Hr L AP APa. unfold addAnyBE.
  destruct (padBE_spec m sum a n L H APa) as (m1 & -> & H1 & F1 & D1 & _). cbn [bind].
  pose proof (Nat.div_mod_eq n 4) as En. pose proof (Nat.mod_upper_bound n 4 ltac:(lia)) as Er.
  set (K := (n / 4)%nat) in *. set (r := (n mod 4)%nat) in *.
  assert (K0 : (1 <= K)%nat) by lia.
  destruct (addAnyBE_tail K m1 sum b ltac:(lia) H1) as (m4 & c4 & E & H4 & F4 & C4 & _).
  { intros i Hi X. apply (AP (off b + (len b - 1 - i))%nat); unfold within in *; lia. }
  destruct (fullBE K m1 sum b 0) as [[[[k2 m2] b2] c2]| |]; cbn [bind] in *; try discriminate.
  destruct (match k2 with O => _ | S _ => _ end) as [[[[k3 m3] b3] c3]| |];
    cbn [bind] in *; try discriminate.
  rewrite E. cbn [bind].
  assert (S2 : exists m5 b5 c5 q, (if Nat.ltb 1 r then
          let! s := from sum (r - 2) in
          let! (m, carry) := addEq16BE m4 s b3 c4 in
          let! b := if Nat.eqb (len b3) 1 then upto b3 0
                    else if Nat.leb 2 (len b3) then upto b3 (len b3 - 2) else Ret b3 in
          Ret (m, b, carry, (r - 2)%nat)
        else Ret (m4, b3, c4, r)) = Ret (m5, b5, c5, q)
     /\ mem_ok m5 /\ c5 <= 1 /\ only_changes m1 m5 sum (4 * K)).
  { bcase.
    - rewrite from_ok by lia. cbn [bind].
      destruct (addEq16BE_spec m4 (mkSlice (off sum + (r - 2)) (len sum - (r - 2))) b3 c4)
        as (m5 & c5 & -> & C5 & H5 & F5 & _); [cbn [len]; lia|exact H4|exact C4|]. cbn [bind].
      assert (XB : exists b5, (if Nat.eqb (len b3) 1 then upto b3 0
                    else if Nat.leb 2 (len b3) then upto b3 (len b3 - 2) else Ret b3) = Ret b5).
      { bcase; [|bcase]; try rewrite upto_ok by lia; eauto. }
      destruct XB as (b5 & ->). cbn [bind]. exists m5, b5, c5, (r - 2)%nat.
      split; [reflexivity|]. split; [exact H5|]. split; [exact C5|].
      intros x Hx. unfold only_changes, within in *. cbn [off] in *. rewrite F5 by lia. apply F4. lia.
    - exists m4, b3, c4, r. auto. }
  destruct S2 as (m5 & b5 & c5 & q & -> & H5 & C5 & F5). cbn [bind].
  assert (S1 : exists m6 c6, (if Nat.ltb 0 q then addEq8 m5 sum b5 c5 else Ret (m5, c5)) = Ret (m6, c6)
     /\ only_changes m1 m6 sum (4 * K)).
  { bcase.
    - destruct (addEq8_spec m5 sum b5 c5) as (m6 & c6 & -> & C6 & H6 & F6 & _); [lia|exact H5|exact C5|].
      exists m6, c6. split; [reflexivity|].
      intros x Hx. unfold only_changes, within in *. rewrite F6 by lia. apply F5. lia.
    - exists m5, c5. auto. }
  destruct S1 as (m6 & c6 & -> & F6). cbn [bind]. exists m6, c6. split; [reflexivity|].
  rewrite F6 by (unfold within; lia). specialize (D1 0%nat ltac:(lia)). rewrite Nat.sub_0_r in D1.
  rewrite D1, <- hdigit_value. replace n with (S (n - 1)) at 3 by lia. rewrite val_S.
  rewrite (N.mul_comm 256), N.mod_add by discriminate. symmetry. apply N.mod_small.
  unfold hdigit. apply rdigit_lt, H.
Qed.

Lemma any_be_small n m sum a b : (n = 1 \/ n = 2)%nat -> mem_ok m -> (n <= len sum)%nat ->
  let w := Nat.max n (Nat.min (len sum) (len a)) in
  apart sum w b (len b) -> apart sum (n - len a) a (len a) ->
  let T := be_value (firstn n (content m a)) + be_value (firstn n (content m b)) in
  let W := 256 ^ N.of_nat n in
  exists m', addAnyBE m sum a b n = Ret (m', T / W, None) /\ T / W <= 1
  /\ be_value (firstn n (content m' sum)) = T mod W /\ only_changes m m' sum w.
Proof.
  intros Hn H L w AP APa T W. unfold addAnyBE.
  destruct (padBE_spec m sum a n L H APa) as (m1 & -> & H1 & F1 & D1 & _). cbn [bind].
  assert (G : forall m' c, add_step n m1 m' sum (fun m i => m (off sum + (n - 1 - i))%nat)
       (val (hdigit m1 b n) n) 0 c ->
     T / W = c /\ c <= 1 /\ be_value (firstn n (content m' sum)) = T mod W /\ only_changes m m' sum w).
  { intros m' c (C & H' & F & V).
    rewrite (hdigit_apart m m1 sum w b n n F1 AP), hdigit_value, N.add_0_r in V.
    rewrite (val_ext (fun i => m1 (off sum + (n - 1 - i))%nat) (hdigit m a n)) in V by exact D1.
    rewrite hdigit_value in V. fold T in V.
    destruct (sum_split W _ c _ ltac:(apply val_lt; intros; apply H') V) as [Ec Ev].
    rewrite (content_bval m' sum n L). split; [congruence|]. split; [exact C|]. split; [exact Ev|].
    eapply only_changes_trans; [exact F1|]. eapply only_changes_wide; [|exact F]. unfold wide, w. lia. }
  destruct Hn as [-> | ->].
  - change (1 / 4)%nat with 0%nat. change (1 mod 4)%nat with 1%nat.
    cbn [fullBE restBE bind Nat.ltb Nat.leb].
    destruct (addEq8_spec m1 sum b 0 L H1) as (m' & c & -> & St); [lia|]. cbn [bind].
    destruct (G m' c) as (Ec & R).
    { destruct St as (C' & H' & F & V). split; [exact C'|]. split; [exact H'|]. split; [exact F|].
      rewrite !val_1 in *. cbn [Nat.sub] in *. rewrite V. do 2 f_equal.
      unfold digit, hdigit, rdigit. cbn [off len]. destruct (len b) as [|k]; [reflexivity|].
      rewrite Nat.min_r by lia. cbn [Nat.ltb Nat.leb Nat.sub]. reflexivity. }
    exists m'. rewrite Ec. auto.
  - change (2 / 4)%nat with 0%nat. change (2 mod 4)%nat with 2%nat.
    cbn [fullBE restBE bind Nat.ltb Nat.leb Nat.sub].
    rewrite from_ok by lia. cbn [bind]. rewrite Nat.add_0_r, Nat.sub_0_r.
    destruct (addEq16BE_spec m1 (mkSlice (off sum) (len sum)) b 0 L H1) as (m' & c & -> & St); [lia|].
    cbn [bind].
    assert (XB : exists b5, (if Nat.eqb (len b) 1 then upto b 0
                  else if Nat.leb 2 (len b) then upto b (len b - 2) else Ret b) = Ret b5).
    { bcase; [|bcase]; try rewrite upto_ok by lia; eauto. }
    change (match len b with S (S _) => true | _ => false end) with (Nat.leb 2 (len b)).
    destruct XB as (b5 & ->). cbn [bind]. destruct (G m' c) as (Ec & R); [exact St|].
    exists m'. rewrite Ec. auto.
Qed.

(** ** Padding *)

Lemma nth_seq_map (f : nat -> N) n i : (i < n)%nat -> nth i (map f (seq 0 n)) 0 = f i.
Proof.
  intros H. rewrite (nth_indep _ 0 (f 0%nat)) by (rewrite map_length, seq_length; exact H).
  rewrite map_nth, seq_nth by exact H. reflexivity.
Qed.

Lemma nth_firstn_content m s n i : (i < n)%nat -> nth i (firstn n (content m s)) 0 = digit m s i.
Proof.
  intros H. unfold content, digit. rewrite firstn_map, firstn_seq. bcase.
  - rewrite nth_seq_map by lia. reflexivity.
  - apply nth_overflow. rewrite map_length, seq_length. lia.
Qed.

Lemma list_eq_nth (l l' : list N) : length l = length l' ->
  (forall i, (i < length l)%nat -> nth i l 0 = nth i l' 0) -> l = l'.
Proof. intros E H. apply (nth_ext l l' 0 0 E H). Qed.

Lemma firstn_content_len m s n : length (firstn n (content m s)) = Nat.min n (len s).
Proof. rewrite firstn_length, content_length. reflexivity. Qed.

Lemma pad_le_list m dst src n : mem_ok m -> (n <= len dst)%nat ->
  ~ (off dst = off src /\ 0 < len src < n)%nat ->
  exists m', padLE m dst src n = Ret (m', None)
  /\ firstn n (content m' dst) = firstn n (content m src) ++ repeat 0 (n - len src)
  /\ only_changes m m' dst n.
Proof.
  intros H L NA. destruct (padLE_spec m dst src n L H NA) as (m' & E & _ & F & D).
  exists m'. split; [exact E|]. split; [|exact F].
  apply list_eq_nth.
  - rewrite app_length, !firstn_content_len, repeat_length. lia.
  - intros i Hi. rewrite firstn_content_len in Hi.
    rewrite nth_firstn_content by lia. unfold digit at 1. bcase; [|lia]. rewrite D by lia.
    destruct (Nat.lt_ge_cases i (Nat.min n (len src))) as [C|C].
    + rewrite app_nth1 by (rewrite firstn_content_len; exact C).
      rewrite nth_firstn_content by lia. reflexivity.
    + rewrite app_nth2 by (rewrite firstn_content_len; exact C).
      rewrite nth_repeat. unfold digit. bcase; [lia|reflexivity].
Qed.

Lemma pad_be_list m dst src n : mem_ok m -> (n <= len dst)%nat ->
  apart dst (n - len src) src (len src) ->
  let w := Nat.max n (Nat.min (len dst) (len src)) in
  exists m', padBE m dst src n = Ret (m', None)
  /\ firstn w (content m' dst) = repeat 0 (n - len src) ++ firstn w (content m src)
  /\ only_changes m m' dst w.
Proof.
  intros H L AP w. destruct (padBE_spec m dst src n L H AP) as (m' & E & _ & F & D & O).
  exists m'. split; [exact E|]. split; [|exact F].
  apply list_eq_nth.
  - rewrite app_length, !firstn_content_len, repeat_length. lia.
  - intros i Hi. rewrite firstn_content_len in Hi.
    rewrite nth_firstn_content by lia. unfold digit at 1. bcase; [|lia].
    destruct (Nat.lt_ge_cases i n) as [C|C].
    + specialize (D (n - 1 - i)%nat ltac:(lia)).
      replace (n - 1 - (n - 1 - i))%nat with i in D by lia. rewrite D.
      unfold hdigit, rdigit. cbn [off len].
      destruct (Nat.lt_ge_cases i (n - len src)) as [Z|Z].
      * rewrite app_nth1 by (rewrite repeat_length; exact Z). rewrite nth_repeat.
        bcase; [lia|reflexivity].
      * rewrite app_nth2 by (rewrite repeat_length; exact Z). rewrite repeat_length.
        rewrite nth_firstn_content by lia. unfold digit. bcase; bcase; try lia. f_equal. lia.
    + rewrite O by lia. rewrite app_nth2 by (rewrite repeat_length; lia). rewrite repeat_length.
      replace (n - len src)%nat with 0%nat by lia. rewrite Nat.sub_0_r.
      rewrite nth_firstn_content by lia. unfold digit. bcase; [reflexivity|lia].
Qed.

Lemma pad_short m dst src n : (len dst < n)%nat ->
  padLE m dst src n = Ret (m, Some NotEnoughSpace) /\ padBE m dst src n = Ret (m, Some NotEnoughSpace).
Proof. intros H. split; [apply padLE_short, H|apply padBE_short, H]. Qed.
