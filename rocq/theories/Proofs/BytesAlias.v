(** Package bytes: the Add functions under every overlap of their slices. *)
From Verif Require Import Base.Go Base.Mem Spec.BytesSpec Model.Bytes Proofs.BytesProofs.
Local Open Scope N_scope.

(** ** Little endian *)

(** [o i] is the i-th byte of b at the moment it is read. *)
Definition read_le (m1 m : mem) (sum b0 : slice) (o : nat -> N) (L : nat) : Prop :=
  forall i, (i < L)%nat ->
  ((i < len b0)%nat ->
     (within sum (4 * (i / 4)) (off b0 + i) -> o i = m (off b0 + i)%nat) /\
     (~ within sum (4 * (i / 4)) (off b0 + i) -> o i = m1 (off b0 + i)%nat)) /\
  ((len b0 <= i)%nat -> o i = 0).

Section LE.
Variables (K : nat) (m1 : mem) (sum b0 : slice).
Hypothesis HK : (4 * K <= len sum)%nat.

Definition inv_le (j : nat) (m : mem) (b : slice) (c : N) : Prop :=
  mem_ok m /\ c <= 1 /\ only_changes m1 m sum (4 * j)
  /\ (exists o, read_le m1 m sum b0 o (4 * j) /\
      val (fun i => m (off sum + i)%nat) (4 * j) + c * 256 ^ N.of_nat (4 * j)
      = val (fun i => m1 (off sum + i)%nat) (4 * j) + val o (4 * j))
  /\ len b = (len b0 - 4 * j)%nat /\ ((0 < len b)%nat -> off b = (off b0 + 4 * j)%nat).

Lemma inv_le_step j m b c b' b'' : inv_le j m b c -> (j < K)%nat ->
  b' = b \/ (len b = 0 /\ len b' = 0)%nat ->
  len b'' = (len b - 4)%nat -> ((0 < len b'')%nat -> off b'' = (off b + 4)%nat) ->
  exists m' c', addEq32LE m (mkSlice (off sum + j * 4) (len sum - j * 4)) b' c = Ret (m', c')
    /\ inv_le (S j) m' b'' c'.
Proof.
  intros (H & Hc & F & (o & R & V) & Lb & Ob) Hj Hb' Lb'' Ob''.
  destruct (addEq32LE_spec m (mkSlice (off sum + j * 4) (len sum - j * 4)) b' c)
    as (m' & c' & E & Hc' & H' & F' & V'); [cbn [len]; lia|exact H|exact Hc|].
  exists m', c'. split; [exact E|]. unfold inv_le.
  split; [exact H'|]. split; [exact Hc'|]. cbn [off] in *.
  unfold only_changes, within in F, F'. cbn [off] in F'.
  split; [|split; [|split]].
  - intros x Hx. unfold within in Hx. rewrite F' by lia. apply F. lia.
  - exists (fun i => if Nat.ltb i (4 * j) then o i else digit m b' (i - 4 * j)).
    split.
    + intros i Hi. destruct (Nat.ltb i (4 * j)) eqn:E1; bools.
      * destruct (R i E1) as [R1 R2]. split; [|exact R2]. intros Hlt.
        destruct (R1 Hlt) as [R3 R4]. split; [|exact R4]. intros W.
        rewrite (R3 W). symmetry. apply F'. unfold within in W.
        pose proof (Nat.mul_div_le i 4). lia.
      * assert (Q : (i / 4 = j)%nat) by (symmetry; apply Nat.div_unique with (i - 4 * j)%nat; lia).
        rewrite Q. split.
        -- intros Hlt.
           assert (EB : b' = b) by (destruct Hb' as [?|[? ?]]; [assumption|lia]). subst b'.
           assert (D : digit m b (i - 4 * j) = m (off b0 + i)%nat).
           { unfold digit. bcase; [|lia]. rewrite Ob by lia. f_equal. lia. }
           rewrite D. unfold within. split; intros W.
           ++ symmetry. apply F'. lia.
           ++ apply F. exact W.
        -- intros Hge. unfold digit. bcase; [|reflexivity]. destruct Hb' as [->|[? ?]]; lia.
    + replace (4 * S j)%nat with (4 * j + 4)%nat by lia. rewrite !val_add.
      rewrite (val_ext (fun i => m' (off sum + i)%nat) (fun i => m (off sum + i)%nat))
        by (intros; apply F'; lia).
      rewrite (val_ext (fun i => m' (off sum + (4 * j + i))%nat) (fun i => m' (off sum + j * 4 + i)%nat))
        by (intros; f_equal; lia).
      rewrite (val_ext (fun i => m1 (off sum + (4 * j + i))%nat) (fun i => m (off sum + j * 4 + i)%nat))
        by (intros; symmetry; replace (off sum + (4 * j + i))%nat with (off sum + j * 4 + i)%nat by lia;
            apply F; lia).
      rewrite (val_ext (fun i => if Nat.ltb i (4 * j) then o i else digit m b' (i - 4 * j)) o (4 * j))
        by (intros; bcase; [reflexivity|lia]).
      rewrite (val_ext (fun i => if Nat.ltb (4 * j + i) (4 * j) then o (4 * j + i)%nat
                                 else digit m b' (4 * j + i - 4 * j)) (digit m b') 4)
        by (intros; bcase; [lia|f_equal; lia]).
      rewrite Nat2N.inj_add, N.pow_add_r.
      change (256 ^ N.of_nat 4) with 4294967296 in *.
      set (X1 := val (fun i => m' (off sum + j * 4 + i)%nat) 4) in *.
      set (X2 := val (fun i => m (off sum + j * 4 + i)%nat) 4) in *.
      set (X3 := val (digit m b') 4) in *.
      set (P := 256 ^ N.of_nat (4 * j)) in *.
      set (Y1 := val (fun i => m (off sum + i)%nat) (4 * j)) in *.
      set (Y2 := val (fun i => m1 (off sum + i)%nat) (4 * j)) in *.
      set (Y3 := val o (4 * j)) in *.
      replace (Y1 + P * X1 + c' * (P * 4294967296)) with (Y1 + P * (X1 + c' * 4294967296)) by lia.
      rewrite V'. lia.
  - lia.
  - intros X. rewrite Ob'' by exact X. rewrite Ob by lia. lia.
Qed.

Lemma full_le k : forall j m b c, inv_le j m b c -> (j + k = K)%nat ->
  exists k' m' j' b' c', fullLE k j m sum b c = Ret (k', m', j', b', c')
   /\ inv_le j' m' b' c' /\ (j' + k' = K)%nat /\ (k' = 0 \/ len b' <= 4)%nat.
Proof.
  induction k as [|k IH]; intros j m b c I Hk; cbn [fullLE].
  - exists O, m, j, b, c. split; [reflexivity|]. auto.
  - bcase.
    + rewrite from_ok by lia. cbn [bind].
      destruct (inv_le_step j m b c b (mkSlice (off b + 4) (len b - 4)) I) as (m' & c' & -> & I');
        [lia|auto|reflexivity|reflexivity|].
      cbn [bind]. rewrite from_ok by lia. cbn [bind].
      destruct (IH (S j) m' _ c' I') as (k2 & m2 & j2 & b2 & c2 & E2 & I2 & R2); [lia|].
      exists k2, m2, j2, b2, c2. auto.
    + exists (S k), m, j, b, c. split; [reflexivity|]. split; [exact I|]. split; [exact Hk|]. right; lia.
Qed.

Lemma rest_le k : forall j m b c, inv_le j m b c -> (j + k = K)%nat -> (len b = 0)%nat ->
  exists m' c', restLE k j m sum c = Ret (m', K, c') /\ inv_le K m' b c'.
Proof.
  induction k as [|k IH]; intros j m b c I Hk Hb; cbn [restLE].
  - rewrite Nat.add_0_r in Hk. subst j. eauto.
  - rewrite from_ok by lia. cbn [bind].
    destruct (inv_le_step j m b c empty b I) as (m' & c' & -> & I'); [lia|auto|lia|lia|].
    cbn [bind]. apply (IH (S j) m' b c' I'); [lia|exact Hb].
Qed.
End LE.

Lemma tail_le K m1 sum b : (4 * K <= len sum)%nat -> mem_ok m1 ->
  exists m' c o,
   (let! (k, m, numU32, b, carry) := fullLE K 0 m1 sum b 0 in
      let! (k, m, numU32, b, carry) :=
        match k with
        | S k' =>
            if Nat.ltb 0 (len b) then
              let! s := from sum (numU32 * 4) in
              let! (m, carry) := addEq32LE m s b carry in
              let! b := from b (len b) in
              Ret (k', m, S numU32, b, carry)
            else Ret (k, m, numU32, b, carry)
        | O => Ret (k, m, numU32, b, carry)
        end in
      let! (m, numU32, carry) := restLE k numU32 m sum carry in
      Ret (m, carry)) = Ret (m', c)
  /\ mem_ok m' /\ only_changes m1 m' sum (4 * K) /\ c <= 1
  /\ read_le m1 m' sum b o (4 * K)
  /\ val (fun i => m' (off sum + i)%nat) (4 * K) + c * 256 ^ N.of_nat (4 * K)
     = val (fun i => m1 (off sum + i)%nat) (4 * K) + val o (4 * K).
Proof.
  intros HK H.
  destruct (full_le K m1 sum b HK K 0 m1 b 0) as (k & m2 & j & b2 & c2 & -> & I2 & Hj & Hk).
  { unfold inv_le. split; [exact H|]. split; [lia|]. split; [intros ? _; reflexivity|].
    rewrite Nat.mul_0_r. cbn [val]. split; [|split; lia].
    exists (fun _ => 0). split; [intros i Hi; lia|lia]. }
  { reflexivity. }
  cbn [bind].
  assert (X : exists k3 m3 j3 b3 c3,
     (match k with
        | S k' =>
            if Nat.ltb 0 (len b2) then
              let! s := from sum (j * 4) in
              let! (m, carry) := addEq32LE m2 s b2 c2 in
              let! b := from b2 (len b2) in
              Ret (k', m, S j, b, carry)
            else Ret (k, m2, j, b2, c2)
        | O => Ret (k, m2, j, b2, c2)
        end) = Ret (k3, m3, j3, b3, c3) /\ inv_le m1 sum b j3 m3 b3 c3 /\ (j3 + k3 = K)%nat
     /\ (k3 = 0 \/ len b3 = 0)%nat).
  { destruct k as [|k].
    - exists O, m2, j, b2, c2. split; [reflexivity|]. auto.
    - bcase.
      + rewrite from_ok by lia. cbn [bind].
        destruct (inv_le_step K m1 sum b HK j m2 b2 c2 b2 (mkSlice (off b2 + len b2) (len b2 - len b2)) I2)
          as (m3 & c3 & -> & I3); [lia|auto|cbn [len]; lia|cbn [len]; lia|].
        cbn [bind]. rewrite from_ok by lia. cbn [bind].
        eexists k, m3, (S j), _, c3. split; [reflexivity|]. split; [exact I3|].
        split; [lia|right; cbn [len]; lia].
      + exists (S k), m2, j, b2, c2. split; [reflexivity|]. split; [exact I2|]. split; [lia|]. right; lia. }
  destruct X as (k3 & m3 & j3 & b3 & c3 & -> & I3 & Hj3 & Hk3). cbn [bind].
  assert (Y : exists m' c', restLE k3 j3 m3 sum c3 = Ret (m', K, c') /\ inv_le m1 sum b K m' b3 c').
  { destruct Hk3 as [->|Hz].
    - rewrite Nat.add_0_r in Hj3. subst j3. cbn [restLE]. eauto.
    - eapply rest_le; eauto. }
  destruct Y as (m' & c' & -> & (A1 & A2 & A3 & (o & A4 & A5) & _)). cbn [bind].
  exists m', c', o. auto 6.
Qed.

(** What one word addition reads of b. *)
Lemma read_one_le m1 m' sum b n : (n <= 4)%nat -> read_le m1 m' sum b (digit m1 b) n.
Proof.
  intros Hn i Hi. assert (Q : (i / 4 = 0)%nat) by (apply Nat.div_small; lia). rewrite Q.
  unfold within, digit. split.
  - intros Hl. bcase; [|lia]. split; [lia|reflexivity].
  - intros Hl. bcase; [lia|reflexivity].
Qed.

(** After padding, every function. *)
Lemma after_pad_le n f m m1 sum a b : In (n, f) le_functions -> (n <= len sum)%nat ->
  padLE m sum a n = Ret (m1, None) -> mem_ok m1 ->
  exists m' c o, f m sum a b = Ret (m', c, None) /\ mem_ok m' /\ only_changes m1 m' sum n /\ c <= 1
  /\ read_le m1 m' sum b o n
  /\ val (fun i => m' (off sum + i)%nat) n + c * 256 ^ N.of_nat n
     = val (fun i => m1 (off sum + i)%nat) n + val o n.
Proof.
  intros Hf L P H1.
  assert (ANY : forall K, (0 < K)%nat -> n = (4 * K)%nat ->
    exists m' c o, addAnyLE m sum a b n = Ret (m', c, None) /\ mem_ok m' /\ only_changes m1 m' sum n
    /\ c <= 1 /\ read_le m1 m' sum b o n
    /\ val (fun i => m' (off sum + i)%nat) n + c * 256 ^ N.of_nat n
     = val (fun i => m1 (off sum + i)%nat) n + val o n).
  { intros K K0 ->. unfold addAnyLE. rewrite P. cbn [bind].
    replace (4 * K / 4)%nat with K by (rewrite Nat.mul_comm, Nat.div_mul; lia).
    replace ((4 * K) mod 4)%nat with 0%nat by (rewrite Nat.mul_comm, Nat.mod_mul; lia).
    destruct (tail_le K m1 sum b L H1) as (m' & c & o & E & H' & F' & C & R & V).
    destruct (fullLE K 0 m1 sum b 0) as [[[[[k2 m2] j2] b2] c2]| |]; cbn [bind] in *; try discriminate.
    destruct (match k2 with O => _ | S _ => _ end) as [[[[[k3 m3] j3] b3] c3]| |];
      cbn [bind] in *; try discriminate.
    destruct (restLE k3 j3 m3 sum c3) as [[[m4 j4] c4]| |]; cbn [bind] in *; try discriminate.
    inversion E; subst m4 c4. change (Nat.ltb 1 0) with false. change (Nat.ltb 0 0) with false.
    cbn [bind]. exists m', c, o. auto 6. }
  unfold le_functions in Hf. cbn [In] in Hf.
  repeat (destruct Hf as [Hf|Hf]; [inversion Hf; subst; clear Hf|]); try contradiction.
  - unfold Add16LE. rewrite P. cbn [bind].
    destruct (addEq16LE_spec m1 sum b 0 L H1) as (m' & c & -> & C & H' & F' & V); [lia|].
    cbn [bind]. exists m', c, (digit m1 b). rewrite N.add_0_r in V.
    repeat (split; [first [reflexivity|assumption|apply read_one_le; lia]|]). exact V.
  - unfold Add32LE. rewrite P. cbn [bind].
    destruct (addEq32LE_spec m1 sum b 0 L H1) as (m' & c & -> & C & H' & F' & V); [lia|].
    cbn [bind]. exists m', c, (digit m1 b). rewrite N.add_0_r in V.
    repeat (split; [first [reflexivity|assumption|apply read_one_le; lia]|]). exact V.
  - apply (ANY 2%nat); lia.
  - apply (ANY 4%nat); lia.
  - apply (ANY 8%nat); lia.
  - apply (ANY 16%nat); lia.
Qed.

Lemma le_functions_pos n f : In (n, f) le_functions -> (0 < n)%nat.
Proof. intros H. apply le_functions_law in H. tauto. Qed.

Lemma padLE_any m dst src n : (n <= len dst)%nat -> (0 < n)%nat -> mem_ok m ->
  exists m1, padLE m dst src n = Ret (m1, None) /\ mem_ok m1 /\ only_changes m m1 dst n
  /\ forall i, (i < n)%nat -> m1 (off dst + i)%nat =
       if (Nat.eqb (off dst) (off src) && Nat.ltb 0 (len src))%bool then m (off dst + i)%nat
       else if Nat.ltb i (len src) then m (off src + i)%nat else 0.
Proof.
  intros L N0 H. destruct (Nat.eqb (off dst) (off src) && Nat.ltb 0 (len src))%bool eqn:E.
  - apply andb_prop in E. destruct E as [E1 E2]. apply Nat.eqb_eq in E1. apply Nat.ltb_lt in E2.
    exists m. rewrite padLE_alias by auto. split; [reflexivity|]. split; [exact H|].
    split; [intros ? _; reflexivity|reflexivity].
  - destruct (padLE_spec m dst src n L H) as (m1 & P & H1 & F & D).
    { intros [X1 X2]. apply Bool.andb_false_iff in E. destruct E as [E|E];
        [apply Nat.eqb_neq in E; lia|apply Nat.ltb_ge in E; lia]. }
    exists m1. split; [exact P|]. split; [exact H1|]. split; [exact F|]. exact D.
Qed.

Lemma nth_map_seq (f : nat -> N) n i : (i < n)%nat -> nth i (map f (seq 0 n)) 0 = f i.
Proof.
  intros H. rewrite nth_indep with (d' := f O) by (rewrite map_length, seq_length; exact H).
  rewrite map_nth, seq_nth by exact H. reflexivity.
Qed.

Lemma val_cut (o : nat -> N) k n : (k <= n)%nat -> (forall i, (k <= i < n)%nat -> o i = 0) ->
  val o n = val o k.
Proof.
  intros H Z. replace n with (k + (n - k))%nat by lia. rewrite val_add.
  rewrite (val_zero (fun i => o (k + i)%nat)) by (intros; apply Z; lia). lia.
Qed.

Lemma le_any n f m sum a b : In (n, f) le_functions -> mem_ok m -> (n <= len sum)%nat ->
  exists m' A B, let T := le_value A + le_value B in
  f m sum a b = Ret (m', T / 256 ^ N.of_nat n, None) /\ T / 256 ^ N.of_nat n <= 1
  /\ le_value (firstn n (content m' sum)) = T mod 256 ^ N.of_nat n
  /\ only_changes m m' sum n
  /\ length A = n
  /\ (forall i, (i < n)%nat -> nth i A 0 =
        if (Nat.eqb (off sum) (off a) && Nat.ltb 0 (len a))%bool then m (off sum + i)%nat
        else if Nat.ltb i (len a) then m (off a + i)%nat else 0)
  /\ length B = Nat.min (len b) n
  /\ (forall i, (i < length B)%nat -> let x := (off b + i)%nat in
        (within sum (4 * (i / 4)) x -> nth i B 0 = m' x) /\
        (~ within sum (4 * (i / 4)) x -> within sum n x -> nth i B 0 = nth (x - off sum) A 0) /\
        (~ within sum n x -> nth i B 0 = m x)).
Proof.
  intros Hf H L. pose proof (le_functions_pos n f Hf) as N0.
  destruct (padLE_any m sum a n L N0 H) as (m1 & P & H1 & F1 & D1).
  destruct (after_pad_le n f m m1 sum a b Hf L P H1) as (m' & c & o & E & H' & F' & C & R & V).
  set (k := Nat.min (len b) n).
  exists m', (map (fun i => m1 (off sum + i)%nat) (seq 0 n)), (map o (seq 0 k)). cbv zeta.
  rewrite !le_value_map. rewrite (val_cut o k n) in V.
  2:{ subst k. lia. }
  2:{ intros i Hi. apply R; subst k; lia. }
  destruct (sum_split _ _ c _ ltac:(apply val_lt; intros; apply H') V) as [Ec Ev].
  rewrite <- Ec. split; [exact E|]. split; [exact C|].
  split; [rewrite content_val by exact L; exact Ev|].
  split; [eapply only_changes_trans; eassumption|].
  rewrite !map_length, !seq_length. split; [reflexivity|]. split.
  - intros i Hi. rewrite nth_map_seq by exact Hi. apply D1, Hi.
  - split; [reflexivity|]. intros i Hi. rewrite nth_map_seq by exact Hi.
    destruct (R i) as [R1 _]; [subst k; lia|]. destruct R1 as [R1 R2]; [subst k; lia|].
    split; [exact R1|]. split.
    + intros W1 W2. rewrite R2 by exact W1. unfold within in W2. rewrite nth_map_seq by lia.
      f_equal. lia.
    + intros W. rewrite R2.
      * apply F1, W.
      * intros X. apply W. unfold within in *.
        pose proof (Nat.mul_div_le i 4). subst k. lia.
Qed.

(** ** Big endian *)

(** [o i] is the i-th byte from the end of b at the moment it is read; the
    words of sum from the (i/4)-th last on have been written by then. *)
Definition written (n : nat) (sum : slice) (q x : nat) : Prop :=
  (off sum + (n - 4 * q) <= x < off sum + n)%nat.

Definition read_be (n : nat) (m1 m : mem) (sum b0 : slice) (o : nat -> N) (L : nat) : Prop :=
  forall i, (i < L)%nat ->
  ((i < len b0)%nat ->
     (written n sum (i / 4) (off b0 + (len b0 - 1 - i)) -> o i = m (off b0 + (len b0 - 1 - i))%nat) /\
     (~ written n sum (i / 4) (off b0 + (len b0 - 1 - i)) -> o i = m1 (off b0 + (len b0 - 1 - i))%nat)) /\
  ((len b0 <= i)%nat -> o i = 0).

Section BE.
Variables (K : nat) (m1 : mem) (sum b0 : slice).
Hypothesis HK : (4 * K <= len sum)%nat.

Definition inv_be (j : nat) (m : mem) (b : slice) (c : N) : Prop :=
  mem_ok m /\ c <= 1 /\ only_changes m1 m (mkSlice (off sum + 4 * (K - j)) 0) (4 * j)
  /\ (exists o, read_be (4 * K) m1 m sum b0 o (4 * j) /\
      val (sd K sum m) (4 * j) + c * 256 ^ N.of_nat (4 * j) = val (sd K sum m1) (4 * j) + val o (4 * j))
  /\ len b = (len b0 - 4 * j)%nat /\ ((0 < len b)%nat -> off b = off b0).

Lemma inv_be_step j m b c b' b'' : inv_be j m b c -> (j < K)%nat ->
  len b' = Nat.min (len b) 4 -> ((0 < len b)%nat -> off b' = (off b + (len b - 4))%nat) ->
  len b'' = (len b - 4)%nat -> ((0 < len b'')%nat -> off b'' = off b) ->
  exists m' c', addEq32BE m (mkSlice (off sum + (K - 1 - j) * 4) (len sum - (K - 1 - j) * 4)) b' c
      = Ret (m', c')
    /\ inv_be (S j) m' b'' c'.
Proof.
  intros (H & Hc & F & (o & R & V) & Lb & Ob) Hj Lb' Ob' Lb'' Ob''.
  destruct (addEq32BE_spec m (mkSlice (off sum + (K - 1 - j) * 4) (len sum - (K - 1 - j) * 4)) b' c)
    as (m' & c' & E & Hc' & H' & F' & V'); [cbn [len]; lia|exact H|exact Hc|].
  exists m', c'. split; [exact E|]. unfold inv_be.
  split; [exact H'|]. split; [exact Hc'|]. cbn [off] in *.
  unfold only_changes, within in F, F'. cbn [off] in F, F'.
  split; [|split; [|split]].
  - intros x Hx. unfold within in Hx. cbn [off] in Hx. rewrite F' by lia. apply F. lia.
  - exists (fun i => if Nat.ltb i (4 * j) then o i else hdigit m b' 4 (i - 4 * j)).
    split.
    + intros i Hi. destruct (Nat.ltb i (4 * j)) eqn:E1; bools.
      * destruct (R i E1) as [R1 R2]. split; [|exact R2]. intros Hlt.
        destruct (R1 Hlt) as [R3 R4]. split; [|exact R4]. intros W.
        rewrite (R3 W). symmetry. apply F'. unfold written in W.
        pose proof (Nat.mul_div_le i 4). lia.
      * assert (Q : (i / 4 = j)%nat) by (symmetry; apply Nat.div_unique with (i - 4 * j)%nat; lia).
        rewrite Q. split.
        -- intros Hlt.
           assert (D : hdigit m b' 4 (i - 4 * j) = m (off b0 + (len b0 - 1 - i))%nat).
           { unfold hdigit, rdigit. cbn [len off]. bcase; [|lia]. rewrite Ob' by lia. rewrite Ob by lia.
             f_equal. lia. }
           rewrite D. unfold written. split; intros W.
           ++ symmetry. apply F'. lia.
           ++ apply F. lia.
        -- intros Hge. unfold hdigit, rdigit. cbn [len off]. bcase; [lia|reflexivity].
    + replace (4 * S j)%nat with (4 * j + 4)%nat by lia. rewrite !val_add.
      rewrite (val_ext (sd K sum m') (sd K sum m)) by (intros; unfold sd; apply F'; lia).
      rewrite (val_ext (fun i => sd K sum m' (4 * j + i)) (fun i => m' (off sum + (K - 1 - j) * 4 + (3 - i))%nat))
        by (intros; unfold sd; f_equal; lia).
      rewrite (val_ext (fun i => sd K sum m1 (4 * j + i)) (fun i => m (off sum + (K - 1 - j) * 4 + (3 - i))%nat))
        by (intros; unfold sd; symmetry;
            replace (off sum + (4 * K - 1 - (4 * j + i)))%nat
              with (off sum + (K - 1 - j) * 4 + (3 - i))%nat by lia;
            apply F; lia).
      rewrite (val_ext (fun i => if Nat.ltb i (4 * j) then o i else hdigit m b' 4 (i - 4 * j)) o (4 * j))
        by (intros; bcase; [reflexivity|lia]).
      rewrite (val_ext (fun i => if Nat.ltb (4 * j + i) (4 * j) then o (4 * j + i)%nat
                                 else hdigit m b' 4 (4 * j + i - 4 * j)) (hdigit m b' 4) 4)
        by (intros; bcase; [lia|f_equal; lia]).
      rewrite Nat2N.inj_add, N.pow_add_r.
      change (256 ^ N.of_nat 4) with 4294967296 in *.
      set (X1 := val (fun i => m' (off sum + (K - 1 - j) * 4 + (3 - i))%nat) 4) in *.
      set (X2 := val (fun i => m (off sum + (K - 1 - j) * 4 + (3 - i))%nat) 4) in *.
      set (X3 := val (hdigit m b' 4) 4) in *.
      set (P := 256 ^ N.of_nat (4 * j)) in *.
      set (Y1 := val (sd K sum m) (4 * j)) in *.
      set (Y2 := val (sd K sum m1) (4 * j)) in *.
      set (Y3 := val o (4 * j)) in *.
      replace (Y1 + P * X1 + c' * (P * 4294967296)) with (Y1 + P * (X1 + c' * 4294967296)) by lia.
      rewrite V'. lia.
  - lia.
  - intros X. rewrite Ob'' by exact X. apply Ob. lia.
Qed.

Lemma full_be k : forall j m b c, inv_be j m b c -> (j + k = K)%nat ->
  exists k' m' b' c', fullBE k m sum b c = Ret (k', m', b', c')
   /\ inv_be (K - k') m' b' c' /\ (k' <= K)%nat /\ (k' = 0 \/ len b' <= 4)%nat.
Proof.
  induction k as [|k IH]; intros j m b c I Hk; cbn [fullBE].
  - exists O, m, b, c. split; [reflexivity|]. replace (K - 0)%nat with j by lia.
    split; [exact I|]. split; [lia|]. auto.
  - bcase.
    + rewrite from_ok by lia. cbn [bind]. rewrite from_ok by lia. cbn [bind].
      destruct (inv_be_step j m b c (mkSlice (off b + (len b - 4)) (len b - (len b - 4)))
                 (mkSlice (off b) (len b - 4)) I) as (m' & c' & E1 & I');
        [lia|cbn [len]; lia|reflexivity|reflexivity|reflexivity|].
      replace (K - 1 - j)%nat with k in E1 by lia. rewrite E1.
      cbn [bind]. rewrite upto_ok by lia. cbn [bind].
      destruct (IH (S j) m' _ c' I') as (k2 & m2 & b2 & c2 & E2 & I2 & R2); [lia|].
      exists k2, m2, b2, c2. auto.
    + exists (S k), m, b, c. split; [reflexivity|]. replace (K - S k)%nat with j by lia.
      split; [exact I|]. split; [lia|]. right; lia.
Qed.

Lemma rest_be k : forall j m b c, inv_be j m b c -> (j + k = K)%nat -> (len b = 0)%nat ->
  exists m' c', restBE k m sum c = Ret (m', c') /\ inv_be K m' b c'.
Proof.
  induction k as [|k IH]; intros j m b c I Hk Hb; cbn [restBE].
  - rewrite Nat.add_0_r in Hk. subst j. eauto.
  - rewrite from_ok by lia. cbn [bind].
    destruct (inv_be_step j m b c empty b I) as (m' & c' & E1 & I');
      [lia|cbn [len empty]; lia|lia|lia|lia|].
    replace (K - 1 - j)%nat with k in E1 by lia. rewrite E1.
    cbn [bind]. apply (IH (S j) m' b c' I'); [lia|exact Hb].
Qed.
End BE.

Lemma tail_be K m1 sum b : (4 * K <= len sum)%nat -> mem_ok m1 ->
  exists m' c o,
   (let! (k, m, b, carry) := fullBE K m1 sum b 0 in
      let! (k, m, b, carry) :=
        match k with
        | S in32 =>
            if Nat.ltb 0 (len b) then
              let! s := from sum (in32 * 4) in
              let! (m, carry) := addEq32BE m s b carry in
              let! b := upto b 0 in
              Ret (in32, m, b, carry)
            else Ret (k, m, b, carry)
        | O => Ret (k, m, b, carry)
        end in
      restBE k m sum carry) = Ret (m', c)
  /\ mem_ok m' /\ only_changes m1 m' sum (4 * K) /\ c <= 1
  /\ read_be (4 * K) m1 m' sum b o (4 * K)
  /\ val (sd K sum m') (4 * K) + c * 256 ^ N.of_nat (4 * K)
     = val (sd K sum m1) (4 * K) + val o (4 * K).
Proof.
  intros HK H.
  destruct (full_be K m1 sum b HK K 0 m1 b 0) as (k & m2 & b2 & c2 & -> & I2 & Hj & Hk).
  { unfold inv_be. split; [exact H|]. split; [lia|]. split; [intros ? _; reflexivity|].
    rewrite Nat.mul_0_r. cbn [val]. split; [|split; lia].
    exists (fun _ => 0). split; [intros i Hi; lia|lia]. }
  { reflexivity. }
  cbn [bind].
  assert (X : exists k3 m3 b3 c3,
     (match k with
        | S in32 =>
            if Nat.ltb 0 (len b2) then
              let! s := from sum (in32 * 4) in
              let! (m, carry) := addEq32BE m2 s b2 c2 in
              let! b := upto b2 0 in
              Ret (in32, m, b, carry)
            else Ret (k, m2, b2, c2)
        | O => Ret (k, m2, b2, c2)
        end) = Ret (k3, m3, b3, c3) /\ inv_be K m1 sum b (K - k3) m3 b3 c3 /\ (k3 <= K)%nat
     /\ (k3 = 0 \/ len b3 = 0)%nat).
  { destruct k as [|k].
    - exists O, m2, b2, c2. split; [reflexivity|]. auto.
    - bcase.
      + rewrite from_ok by lia. cbn [bind].
        destruct (inv_be_step K m1 sum b HK (K - S k) m2 b2 c2 b2 (mkSlice (off b2) 0) I2)
          as (m3 & c3 & E3 & I3); [lia|lia|lia|cbn [len]; lia|cbn [len]; lia|].
        replace (K - 1 - (K - S k))%nat with k in E3 by lia. rewrite E3.
        cbn [bind]. rewrite upto_ok by lia. cbn [bind].
        eexists k, m3, _, c3. split; [reflexivity|].
        replace (K - k)%nat with (S (K - S k)) by lia. split; [exact I3|].
        split; [lia|right; reflexivity].
      + exists (S k), m2, b2, c2. split; [reflexivity|]. split; [exact I2|]. split; [lia|]. right; lia. }
  destruct X as (k3 & m3 & b3 & c3 & -> & I3 & Hj3 & Hk3). cbn [bind].
  assert (Y : exists m' c', restBE k3 m3 sum c3 = Ret (m', c') /\ inv_be K m1 sum b K m' b3 c').
  { destruct Hk3 as [->|Hz].
    - cbn [restBE]. rewrite Nat.sub_0_r in I3. eauto.
    - eapply rest_be; eauto. lia. }
  destruct Y as (m' & c' & -> & (A1 & A2 & A3 & (o & A4 & A5) & _)).
  rewrite Nat.sub_diag, Nat.mul_0_r, Nat.add_0_r in A3.
  exists m', c', o. auto 6.
Qed.

(** The part of b a big-endian function uses: the first n bytes for the 16 and
    32 bit functions, the last n for the others. *)
Definition used_be (n : nat) (b : slice) : slice :=
  let k := Nat.min (len b) n in
  mkSlice (off b + if Nat.leb n 4 then 0 else len b - k) k.

Lemma read_one_be n m1 m' sum b : (n <= 4)%nat ->
  read_be n m1 m' sum (used_be n b) (hdigit m1 b n) n.
Proof.
  intros Hn i Hi. assert (Q : (i / 4 = 0)%nat) by (apply Nat.div_small; lia). rewrite Q.
  apply Nat.leb_le in Hn. unfold written, used_be, hdigit, rdigit. rewrite Hn. cbn [len off].
  rewrite Nat.add_0_r. split.
  - intros Hl. bcase; [|lia]. split; [lia|reflexivity].
  - intros Hl. bcase; [lia|reflexivity].
Qed.

Lemma read_be_used n m1 m' sum b o : (4 < n)%nat ->
  read_be n m1 m' sum b o n -> read_be n m1 m' sum (used_be n b) o n.
Proof.
  intros Hn R i Hi. destruct (R i Hi) as [R1 R2]. apply Nat.leb_gt in Hn. unfold used_be. rewrite Hn.
  cbn [len off]. split.
  - intros Hl. destruct R1 as [R3 R4]; [lia|].
    replace (off b + (len b - Nat.min (len b) n) + (Nat.min (len b) n - 1 - i))%nat
      with (off b + (len b - 1 - i))%nat by lia. split; assumption.
  - intros Hl. apply R2. lia.
Qed.

Lemma after_pad_be n f m m1 sum a b : In (n, f) be_functions -> (n <= len sum)%nat ->
  padBE m sum a n = Ret (m1, None) -> mem_ok m1 ->
  exists m' c o, f m sum a b = Ret (m', c, None) /\ mem_ok m' /\ only_changes m1 m' sum n /\ c <= 1
  /\ read_be n m1 m' sum (used_be n b) o n
  /\ val (fun i => m' (off sum + (n - 1 - i))%nat) n + c * 256 ^ N.of_nat n
     = val (fun i => m1 (off sum + (n - 1 - i))%nat) n + val o n.
Proof.
  intros Hf L P H1.
  assert (ANY : forall K, (1 < K)%nat -> n = (4 * K)%nat ->
    exists m' c o, addAnyBE m sum a b n = Ret (m', c, None) /\ mem_ok m' /\ only_changes m1 m' sum n
    /\ c <= 1 /\ read_be n m1 m' sum (used_be n b) o n
    /\ val (fun i => m' (off sum + (n - 1 - i))%nat) n + c * 256 ^ N.of_nat n
     = val (fun i => m1 (off sum + (n - 1 - i))%nat) n + val o n).
  { intros K K0 ->. unfold addAnyBE. rewrite P. cbn [bind].
    replace (4 * K / 4)%nat with K by (rewrite Nat.mul_comm, Nat.div_mul; lia).
    replace ((4 * K) mod 4)%nat with 0%nat by (rewrite Nat.mul_comm, Nat.mod_mul; lia).
    destruct (tail_be K m1 sum b L H1) as (m' & c & o & E & H' & F' & C & R & V).
    destruct (fullBE K m1 sum b 0) as [[[[k2 m2] b2] c2]| |]; cbn [bind] in *; try discriminate.
    destruct (match k2 with O => _ | S _ => _ end) as [[[[k3 m3] b3] c3]| |];
      cbn [bind] in *; try discriminate.
    destruct (restBE k3 m3 sum c3) as [[m4 c4]| |]; cbn [bind] in *; try discriminate.
    inversion E; subst m4 c4. change (Nat.ltb 1 0) with false. change (Nat.ltb 0 0) with false.
    cbn [bind]. exists m', c, o. apply read_be_used in R; [|lia]. auto 6. }
  unfold be_functions in Hf. cbn [In] in Hf.
  repeat (destruct Hf as [Hf|Hf]; [injection Hf as <- <-|]); try contradiction.
  - unfold Add16BE. rewrite P. cbn [bind].
    destruct (addEq16BE_spec m1 sum b 0 L H1) as (m' & c & -> & C & H' & F' & V); [lia|].
    cbn [bind]. exists m', c, (hdigit m1 b 2). rewrite N.add_0_r in V.
    repeat (split; [first [reflexivity|assumption|apply read_one_be; lia]|]). exact V.
  - unfold Add32BE. rewrite P. cbn [bind].
    destruct (addEq32BE_spec m1 sum b 0 L H1) as (m' & c & -> & C & H' & F' & V); [lia|].
    cbn [bind]. exists m', c, (hdigit m1 b 4). rewrite N.add_0_r in V.
    repeat (split; [first [reflexivity|assumption|apply read_one_be; lia]|]). exact V.
  - apply (ANY 2%nat); lia.
  - apply (ANY 4%nat); lia.
  - apply (ANY 8%nat); lia.
  - apply (ANY 16%nat); lia.
Qed.

(** Padding: the zeros are written first and can be read again through an
    overlapping src. *)
Lemma padBE_any m dst src n : (n <= len dst)%nat -> mem_ok m ->
  exists m1, padBE m dst src n = Ret (m1, None) /\ mem_ok m1
  /\ only_changes m m1 dst (Nat.max n (Nat.min (len dst) (len src)))
  /\ forall i, (i < Nat.max n (Nat.min (len dst) (len src)))%nat ->
       ((i < n - len src)%nat -> m1 (off dst + i)%nat = 0) /\
       ((n - len src <= i)%nat -> let y := (off src + (i - (n - len src)))%nat in
          (within dst (n - len src) y -> m1 (off dst + i)%nat = 0) /\
          (~ within dst (n - len src) y -> m1 (off dst + i)%nat = m y)).
Proof.
  intros L H. unfold padBE. bcase; [lia|]. rewrite if_min.
  set (sn := Nat.min (len src) n).
  assert (X : exists mz, (if Nat.ltb sn n then let! z := sub dst 0 (n - sn) in Zero m z else Ret m) = Ret mz
     /\ mem_ok mz /\ (forall x, within dst (n - sn) x -> mz x = 0) /\ only_changes m mz dst (n - sn)).
  { bcase.
    - rewrite sub_ok by lia. cbn [bind].
      destruct (Zero_spec m (mkSlice (off dst + 0) (n - sn - 0))) as (mz & -> & Z & F).
      rewrite Nat.add_0_r, Nat.sub_0_r in *.
      exists mz. split; [reflexivity|]. unfold within, only_changes, within in *. cbn [off len] in *.
      split; [|split; [exact Z|exact F]]. intros x.
      destruct (Nat.lt_ge_cases x (off dst)) as [X|X]; [rewrite F by lia; apply H|].
      destruct (Nat.lt_ge_cases x (off dst + (n - sn))) as [X2|X2]; [rewrite Z by lia; lia|].
      rewrite F by lia. apply H.
    - exists m. split; [reflexivity|]. split; [exact H|]. split; [|intros ? _; reflexivity].
      intros x Hx. unfold within in Hx. lia. }
  destruct X as (mz & -> & Hz & Z & F). cbn [bind].
  rewrite from_ok by lia. cbn [bind]. eexists; split; [reflexivity|].
  split; [apply copy_ok, Hz|]. unfold copy. cbn [off len].
  replace (n - len src)%nat with (n - sn)%nat by (subst sn; lia).
  split.
  - intros x Hx. unfold within in Hx. bcase; [subst sn; lia|]. apply F. unfold within. lia.
  - intros i Hi. split.
    + intros Hl. bcase; [lia|]. apply Z. unfold within. lia.
    + intros Hl. cbv zeta. set (y := (off src + (i - (n - sn)))%nat). bcase; [|subst sn; lia].
      replace (off src + (off dst + i - (off dst + (n - sn))))%nat with y by (subst y; lia).
      split; [apply Z|apply F].
Qed.

Lemma be_any n f m sum a b : In (n, f) be_functions -> mem_ok m -> (n <= len sum)%nat ->
  exists m' A B, let T := be_value (firstn n A) + be_value B in
  let w := Nat.max n (Nat.min (len sum) (len a)) in
  let k := Nat.min (len b) n in
  let start := if Nat.leb n 4 then off b else (off b + (len b - k))%nat in
  f m sum a b = Ret (m', T / 256 ^ N.of_nat n, None) /\ T / 256 ^ N.of_nat n <= 1
  /\ be_value (firstn n (content m' sum)) = T mod 256 ^ N.of_nat n
  /\ only_changes m m' sum w
  /\ (forall i, (n <= i < w)%nat -> m' (off sum + i)%nat = nth i A 0)
  /\ length A = w
  /\ (forall i, (i < w)%nat ->
        ((i < n - len a)%nat -> nth i A 0 = 0) /\
        ((n - len a <= i)%nat -> let y := (off a + (i - (n - len a)))%nat in
           (within sum (n - len a) y -> nth i A 0 = 0) /\
           (~ within sum (n - len a) y -> nth i A 0 = m y)))
  /\ length B = k
  /\ (forall i, (i < k)%nat -> let x := (start + i)%nat in
        let done := (off sum + (n - 4 * ((k - 1 - i) / 4)) <= x < off sum + n)%nat in
        (done -> nth i B 0 = m' x) /\
        (~ done -> within sum w x -> nth i B 0 = nth (x - off sum) A 0) /\
        (~ within sum w x -> nth i B 0 = m x)).
Proof.
  intros Hf H L.
  destruct (padBE_any m sum a n L H) as (m1 & P & H1 & F1 & D1).
  destruct (after_pad_be n f m m1 sum a b Hf L P H1) as (m' & c & o & E & H' & F' & C & R & V).
  set (w := Nat.max n (Nat.min (len sum) (len a))) in *.
  set (k := Nat.min (len b) n).
  assert (Hw : (n <= w)%nat) by (subst w; lia).
  exists m', (map (fun i => m1 (off sum + i)%nat) (seq 0 w)), (map (fun i => o (k - 1 - i)%nat) (seq 0 k)).
  cbv zeta. fold w. fold k.
  set (start := if Nat.leb n 4 then off b else (off b + (len b - k))%nat).
  assert (LB : len (used_be n b) = k) by reflexivity.
  assert (OB : off (used_be n b) = start).
  { unfold used_be, start. cbn [off]. destruct (Nat.leb n 4); fold k; lia. }
  assert (VB : be_value (map (fun i => o (k - 1 - i)%nat) (seq 0 k)) = val o k).
  { unfold be_value. rewrite <- (rev_map_seq o), rev_involutive. apply le_value_map. }
  assert (VA : be_value (firstn n (map (fun i => m1 (off sum + i)%nat) (seq 0 w)))
               = val (fun i => m1 (off sum + (n - 1 - i))%nat) n).
  { rewrite firstn_map, firstn_seq, Nat.min_l by exact Hw. unfold be_value.
    rewrite rev_map_seq, le_value_map. reflexivity. }
  rewrite VA, VB. rewrite (val_cut o k n) in V.
  2:{ subst k. lia. }
  2:{ intros i Hi. apply R; rewrite ?LB; lia. }
  destruct (sum_split _ _ c _ ltac:(apply val_lt; intros; apply H') V) as [Ec Ev].
  rewrite <- Ec. split; [exact E|]. split; [exact C|].
  split; [rewrite content_bval by exact L; exact Ev|].
  split; [eapply only_changes_trans; [exact F1|eapply only_changes_wide; [exact Hw|exact F']]|].
  rewrite !map_length, !seq_length.
  split; [intros i Hi; rewrite nth_map_seq by lia; apply F'; unfold within; lia|].
  split; [reflexivity|]. split.
  - intros i Hi. rewrite nth_map_seq by exact Hi. apply D1, Hi.
  - split; [reflexivity|]. intros i Hi. rewrite nth_map_seq by exact Hi.
    destruct (R (k - 1 - i)%nat) as [R1 _]; [subst k; lia|]. rewrite LB, OB in R1.
    destruct R1 as [R1 R2]; [lia|]. unfold written in R1, R2.
    replace (k - 1 - (k - 1 - i))%nat with i in R1, R2 by lia.
    split; [exact R1|]. split.
    + intros W1 W2. rewrite R2 by exact W1. unfold within in W2. rewrite nth_map_seq by lia.
      f_equal. lia.
    + intros W. rewrite R2.
      * apply F1, W.
      * intros X. apply W. unfold within. lia.
Qed.

(** ** Consequences *)

Lemma be_value_zeros j l : be_value (repeat 0 j ++ l) = be_value l.
Proof.
  unfold be_value. rewrite rev_app_distr, le_value_app.
  assert (Z : le_value (rev (repeat 0 j)) = 0).
  { induction j as [|j IH]; [reflexivity|]. cbn [repeat rev]. rewrite le_value_app, IH. cbn [le_value]. lia. }
  rewrite Z. lia.
Qed.

Lemma list_ext (l l' : list N) : length l = length l' ->
  (forall i, (i < length l)%nat -> nth i l 0 = nth i l' 0) -> l = l'.
Proof. intros H E. apply nth_ext with (d := 0) (d' := 0); assumption. Qed.

Lemma nth_content m s i : (i < len s)%nat -> nth i (content m s) 0 = m (off s + i)%nat.
Proof. intros H. unfold content. apply (nth_map_seq (fun i => m (off s + i)%nat)), H. Qed.

Lemma nth_skipn_N (l : list N) j i : nth i (skipn j l) 0 = nth (j + i) l 0.
Proof.
  revert l; induction j as [|j IH]; intros l; [reflexivity|].
  destruct l as [|x l]; [destruct i; reflexivity|]. apply IH.
Qed.

Lemma nth_firstn_N (l : list N) j i : (i < j)%nat -> nth i (firstn j l) 0 = nth i l 0.
Proof.
  revert l i; induction j as [|j IH]; intros l i H; [lia|].
  destruct l as [|x l]; [reflexivity|]. destruct i as [|i]; [reflexivity|]. cbn [firstn nth]. apply IH. lia.
Qed.

(** What is used of b when it does not meet the written part of sum. *)
Lemma used_apart n (m : mem) b B (Hn : length B = Nat.min (len b) n) :
  (forall i, (i < Nat.min (len b) n)%nat ->
     nth i B 0 = m ((if Nat.leb n 4 then off b else (off b + (len b - Nat.min (len b) n))%nat) + i)%nat) ->
  B = if Nat.leb n 4 then firstn n (content m b) else lastn n (content m b).
Proof.
  intros HB. destruct (Nat.leb n 4).
  - apply list_ext; [rewrite firstn_length, content_length; lia|]. intros i Hi.
    rewrite HB by lia. rewrite nth_firstn_N by lia. rewrite nth_content by lia. reflexivity.
  - unfold lastn. rewrite content_length. apply list_ext; [rewrite skipn_length, content_length; lia|].
    intros i Hi. rewrite HB by lia. rewrite nth_skipn_N, nth_content by lia. f_equal. lia.
Qed.

Lemma be_prefix n f m x k b : In (n, f) be_functions -> mem_ok m -> (n <= len x)%nat ->
  (k < n)%nat -> apart x n b (len b) ->
  let B := if Nat.leb n 4 then firstn n (content m b) else lastn n (content m b) in
  let T := be_value (skipn (n - k) (firstn k (content m x))) + be_value B in
  exists m', f m x (mkSlice (off x) k) b = Ret (m', T / 256 ^ N.of_nat n, None)
  /\ be_value (firstn n (content m' x)) = T mod 256 ^ N.of_nat n /\ only_changes m m' x n.
Proof.
  intros Hf H L Hk AP. cbv zeta.
  destruct (be_any n f m x (mkSlice (off x) k) b Hf H L) as (m' & A & B & X). cbv zeta in X.
  cbn [len off] in X. replace (Nat.max n (Nat.min (len x) k)) with n in X by lia.
  destruct X as (E & _ & V & F & _ & LA & DA & LB & DB).
  assert (EA : A = repeat 0 (n - k + Nat.min k (n - k)) ++ skipn (n - k) (firstn k (content m x))).
  { apply list_ext.
    - rewrite app_length, repeat_length, skipn_length, firstn_length, content_length. lia.
    - intros i Hi. rewrite LA in Hi. destruct (DA i Hi) as [D1 D2].
      destruct (Nat.lt_ge_cases i (n - k + Nat.min k (n - k))) as [C|C].
      + rewrite app_nth1 by (rewrite repeat_length; exact C). rewrite nth_repeat.
        destruct (Nat.lt_ge_cases i (n - k)) as [C2|C2]; [apply D1, C2|].
        apply (D2 C2). unfold within. lia.
      + rewrite app_nth2 by (rewrite repeat_length; exact C). rewrite repeat_length.
        rewrite nth_skipn_N, nth_firstn_N by lia. rewrite nth_content by lia.
        destruct (D2 ltac:(lia)) as [_ D3]. rewrite D3 by (unfold within; lia). f_equal. lia. }
  assert (EB : B = if Nat.leb n 4 then firstn n (content m b) else lastn n (content m b)).
  { apply used_apart; [exact LB|]. intros i Hi. apply (DB i Hi). intros W.
    apply (AP _ W). unfold within. destruct (Nat.leb n 4); lia. }
  rewrite EB, (firstn_all2 A) in E, V by lia. rewrite EA, be_value_zeros in E, V.
  exists m'. auto.
Qed.

Lemma be_digits_a n (m : mem) a A : (len a <= n)%nat -> length A = n ->
  (forall i, (i < n)%nat ->
     ((i < n - len a)%nat -> nth i A 0 = 0) /\
     ((n - len a <= i)%nat -> nth i A 0 = m (off a + (i - (n - len a)))%nat)) ->
  be_value A = be_value (content m a).
Proof.
  intros La LA D.
  assert (EA : A = repeat 0 (n - len a) ++ content m a).
  { apply list_ext; [rewrite app_length, repeat_length, content_length; lia|].
    intros i Hi. rewrite LA in Hi. destruct (D i Hi) as [D1 D2].
    destruct (Nat.lt_ge_cases i (n - len a)) as [C|C].
    - rewrite app_nth1 by (rewrite repeat_length; exact C). rewrite nth_repeat. apply D1, C.
    - rewrite app_nth2 by (rewrite repeat_length; exact C). rewrite repeat_length, nth_content by lia.
      apply D2, C. }
  rewrite EA. apply be_value_zeros.
Qed.

(** The second operand is the destination, longer than n. *)
Lemma be_second_long n f m x a : In (n, f) be_functions -> mem_ok m ->
  (n <= 4 /\ n <= len x \/ 2 * n <= len x)%nat -> (len a <= n)%nat -> apart x n a (len a) ->
  let A := be_value (content m a) in
  let T := A + (if Nat.leb n 4 then A else be_value (lastn n (content m x))) in
  exists m', f m x a x = Ret (m', T / 256 ^ N.of_nat n, None)
  /\ be_value (firstn n (content m' x)) = T mod 256 ^ N.of_nat n /\ only_changes m m' x n.
Proof.
  intros Hf H Hx La AP. cbv zeta.
  destruct (be_any n f m x a x Hf H) as (m' & A & B & X); [lia|]. cbv zeta in X.
  replace (Nat.max n (Nat.min (len x) (len a))) with n in X by lia.
  replace (Nat.min (len x) n) with n in X by lia.
  destruct X as (E & _ & V & F & _ & LA & DA & LB & DB).
  assert (EA : be_value A = be_value (content m a)).
  { apply (be_digits_a n); [exact La|exact LA|]. intros i Hi. destruct (DA i Hi) as [D1 D2].
    split; [exact D1|]. intros C. apply (D2 C). intros W. apply (AP (off a + (i - (n - len a)))%nat);
      unfold within in *; lia. }
  assert (EB : be_value B = if Nat.leb n 4 then be_value (content m a) else be_value (lastn n (content m x))).
  { destruct (Nat.leb n 4) eqn:N4.
    - rewrite <- EA. f_equal. apply list_ext; [lia|]. intros i Hi. rewrite LB in Hi.
      destruct (DB i Hi) as (_ & D & _). apply Nat.leb_le in N4.
      rewrite D.
      + f_equal. lia.
      + rewrite Nat.div_small by lia. lia.
      + unfold within. lia.
    - apply Nat.leb_gt in N4. f_equal. unfold lastn. rewrite content_length.
      apply list_ext; [rewrite skipn_length, content_length; lia|]. intros i Hi. rewrite LB in Hi.
      destruct (DB i Hi) as (_ & _ & D). rewrite D by (unfold within; lia).
      rewrite nth_skipn_N, nth_content by lia. f_equal. lia. }
  rewrite EB, (firstn_all2 A), EA in E, V by lia. exists m'. auto.
Qed.
