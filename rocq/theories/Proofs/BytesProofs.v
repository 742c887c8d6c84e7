(** Proofs about package bytes. *)
From Verif Require Import Base.Go Base.Mem Spec.BytesSpec Model.Bytes Proofs.Util.
Local Open Scope N_scope.

Ltac bools :=
  repeat match goal with
  | H : (_ && _)%bool = true |- _ => apply andb_true_iff in H; destruct H
  | H : (Nat.leb _ _ && Nat.ltb _ _)%bool = false |- _ =>
      apply andb_false_iff in H; rewrite Nat.leb_gt, Nat.ltb_ge in H
  | H : (Nat.ltb _ _ && Nat.eqb _ _)%bool = false |- _ =>
      apply andb_false_iff in H; rewrite Nat.ltb_ge, Nat.eqb_neq in H
  | H : Nat.ltb _ _ = true |- _ => apply Nat.ltb_lt in H
  | H : Nat.ltb _ _ = false |- _ => apply Nat.ltb_ge in H
  | H : Nat.leb _ _ = true |- _ => apply Nat.leb_le in H
  | H : Nat.leb _ _ = false |- _ => apply Nat.leb_gt in H
  | H : Nat.eqb _ _ = true |- _ => apply Nat.eqb_eq in H
  | H : Nat.eqb _ _ = false |- _ => apply Nat.eqb_neq in H
  end.

Ltac bcase :=
  match goal with
  | |- context [if ?c then _ else _] => let E := fresh "E" in destruct c eqn:E; bools
  end.

(** ** Slices *)

Lemma sub_ok s i j : (i <= j <= len s)%nat -> sub s i j = Ret (mkSlice (off s + i) (j - i)).
Proof.
  intros [H1 H2]. unfold sub. apply Nat.leb_le in H1, H2. rewrite H1, H2. reflexivity.
Qed.
Lemma from_ok s i : (i <= len s)%nat -> from s i = Ret (mkSlice (off s + i) (len s - i)).
Proof. intros H. apply sub_ok. lia. Qed.
Lemma upto_ok s j : (j <= len s)%nat -> upto s j = Ret (mkSlice (off s) j).
Proof. intros H. unfold upto. rewrite sub_ok by lia. do 2 f_equal; lia. Qed.
Lemma load_ok m s i : (i < len s)%nat -> load m s i = Ret (m (off s + i)%nat).
Proof. intros H. unfold load. apply Nat.ltb_lt in H. rewrite H. reflexivity. Qed.
Lemma load_panic m s i : (len s <= i)%nat -> load m s i = Panic.
Proof. intros H. unfold load. apply Nat.ltb_ge in H. rewrite H. reflexivity. Qed.
Lemma store_ok m s i v : (i < len s)%nat -> store m s i v = Ret (set m (off s + i) v).
Proof. intros H. unfold store. apply Nat.ltb_lt in H. rewrite H. reflexivity. Qed.

(** ** Zero *)

Lemma nth_z8 i : nth i z8 0 = 0.
Proof. do 9 (destruct i as [|i]; [reflexivity|]). reflexivity. Qed.

Lemma zero_loop_spec fuel : forall m t, (len t <= fuel)%nat ->
  exists m', zero_loop fuel m t = Ret m'
  /\ (forall x, within t (len t) x -> m' x = 0) /\ only_changes m m' t (len t).
Proof.
  induction fuel as [|fuel IH]; intros m t H.
  - cbn [zero_loop]. replace (Nat.ltb 8 (len t)) with false by (symmetry; apply Nat.ltb_ge; lia).
    eexists; split; [reflexivity|]. unfold within, only_changes, within. split; intros x Hx.
    + lia.
    + unfold copy_text. bcase; [|reflexivity]. exfalso. lia.
  - cbn [zero_loop]. bcase.
    + rewrite from_ok by lia. cbn [bind].
      destruct (IH (copy_text m t z8) (mkSlice (off t + 8) (len t - 8))) as (m' & E1 & Z & F);
        [cbn [len]; lia|].
      exists m'. split; [exact E1|]. unfold within, only_changes, within in *. cbn [off len] in *.
      split; intros x Hx.
      * destruct (Nat.lt_ge_cases x (off t + 8)) as [L|L].
        -- rewrite F by lia. unfold copy_text. bcase; [apply nth_z8|].
           change (length z8) with 8%nat in *. lia.
        -- apply Z. lia.
      * rewrite F by lia. unfold copy_text. bcase; [|reflexivity].
        change (length z8) with 8%nat in *. lia.
    + eexists; split; [reflexivity|]. unfold within, only_changes, within.
      unfold copy_text. change (length z8) with 8%nat. split; intros x Hx; bcase.
      * apply nth_z8.
      * lia.
      * lia.
      * reflexivity.
Qed.

Lemma Zero_spec m t : exists m', Zero m t = Ret m'
  /\ (forall x, within t (len t) x -> m' x = 0) /\ only_changes m m' t (len t).
Proof. apply zero_loop_spec. lia. Qed.

(** ** XorEq *)

Lemma xor_loop_spec dst other m0 k : forall i m,
  (i + k <= len dst)%nat -> (i + k <= len other)%nat ->
  (off dst <= off other \/ off other + (i + k) <= off dst)%nat ->
  (forall x, ~ within dst i x -> m x = m0 x) ->
  (forall j, (j < i)%nat -> m (off dst + j)%nat = N.lxor (m0 (off dst + j)%nat) (m0 (off other + j)%nat)) ->
  exists m', xor_loop k i m dst other = Ret m'
  /\ (forall x, ~ within dst (i + k) x -> m' x = m0 x)
  /\ (forall j, (j < i + k)%nat ->
        m' (off dst + j)%nat = N.lxor (m0 (off dst + j)%nat) (m0 (off other + j)%nat)).
Proof.
  induction k as [|k IH]; intros i m H1 H2 Hd F V; cbn [xor_loop].
  - exists m. rewrite Nat.add_0_r in *. auto.
  - rewrite !load_ok by lia. cbn [bind]. rewrite store_ok by lia. cbn [bind].
    destruct (IH (S i) (set m (off dst + i) (N.lxor (m (off dst + i)%nat) (m (off other + i)%nat))))
      as (m' & E & F' & V'); try lia.
    + intros x Hx. unfold set. bcase; [unfold within in *; lia|]. apply F. unfold within in *. lia.
    + intros j Hj. unfold set. bcase.
      * assert (j = i) by lia. subst j. f_equal; apply F; unfold within; lia.
      * apply V. lia.
    + exists m'. rewrite <- Nat.add_succ_comm. auto.
Qed.

Lemma XorEq_spec m dst other :
  let n := Nat.min (len dst) (len other) in
  (off dst <= off other \/ off other + n <= off dst)%nat ->
  exists m', XorEq m dst other = Ret (m', n)
  /\ only_changes m m' dst n
  /\ (forall j, (j < n)%nat ->
        m' (off dst + j)%nat = N.lxor (m (off dst + j)%nat) (m (off other + j)%nat)).
Proof.
  intros n Hd. unfold XorEq.
  replace (if Nat.ltb (len other) (len dst) then len other else len dst) with n
    by (subst n; bcase; lia).
  destruct (xor_loop_spec dst other m n 0 m) as (m' & -> & F & V); try (subst n; lia).
  exists m'. split; [reflexivity|]. split; assumption.
Qed.

Lemma XorEq_twice m dst other :
  let n := Nat.min (len dst) (len other) in
  (off dst + n <= off other \/ off other + n <= off dst)%nat ->
  exists m1 m2, XorEq m dst other = Ret (m1, n) /\ XorEq m1 dst other = Ret (m2, n)
  /\ forall x, m2 x = m x.
Proof.
  intros n Hd. destruct (XorEq_spec m dst other) as (m1 & E1 & F1 & V1); [subst n; lia|].
  destruct (XorEq_spec m1 dst other) as (m2 & E2 & F2 & V2); [subst n; lia|].
  exists m1, m2. split; [exact E1|]. split; [exact E2|]. intros x. fold n in F1, F2, V1, V2.
  destruct (Nat.lt_ge_cases x (off dst)) as [L|L];
    [rewrite F2, F1; unfold within; try reflexivity; lia|].
  destruct (Nat.lt_ge_cases x (off dst + n)) as [L2|L2];
    [|rewrite F2, F1; unfold within; try reflexivity; lia].
  replace x with (off dst + (x - off dst))%nat by lia.
  rewrite V2, V1 by lia. rewrite (F1 (off other + (x - off dst))%nat) by (unfold within; lia).
  rewrite N.lxor_assoc, N.lxor_nilpotent, N.lxor_0_r. reflexivity.
Qed.

(** ** Values *)

Fixpoint val (f : nat -> N) (k : nat) : N :=
  match k with
  | O => 0
  | S k' => val f k' + f k' * 256 ^ N.of_nat k'
  end.

Lemma val_ext f g k : (forall i, (i < k)%nat -> f i = g i) -> val f k = val g k.
Proof. induction k as [|k IH]; intros H; [reflexivity|]. cbn [val]. rewrite IH, H; auto. Qed.

Lemma val_add f j k : val f (j + k) = val f j + 256 ^ N.of_nat j * val (fun i => f (j + i)%nat) k.
Proof.
  induction k as [|k IH].
  - rewrite Nat.add_0_r. cbn [val]. lia.
  - rewrite Nat.add_succ_r. cbn [val]. rewrite IH, Nat2N.inj_add, N.pow_add_r. lia.
Qed.

Lemma val_zero f k : (forall i, (i < k)%nat -> f i = 0) -> val f k = 0.
Proof. induction k as [|k IH]; intros H; [reflexivity|]. cbn [val]. rewrite IH, H; auto; lia. Qed.

Lemma val_lt f k : (forall i, (i < k)%nat -> f i < 256) -> val f k < 256 ^ N.of_nat k.
Proof.
  induction k as [|k IH]; intros H; [reflexivity|]. cbn [val].
  assert (A := H k (Nat.lt_succ_diag_r k)). assert (B := IH (fun i Hi => H i (Nat.lt_lt_succ_r _ _ Hi))).
  rewrite Nat2N.inj_succ, N.pow_succ_r'. nia.
Qed.

Lemma le_value_app l1 l2 :
  le_value (l1 ++ l2) = le_value l1 + 256 ^ N.of_nat (length l1) * le_value l2.
Proof.
  induction l1 as [|x l1 IH]; cbn [app le_value length].
  - change (N.of_nat 0) with 0. rewrite N.pow_0_r. lia.
  - rewrite IH, Nat2N.inj_succ, N.pow_succ_r'. lia.
Qed.

Lemma le_value_map f k : le_value (map f (seq 0 k)) = val f k.
Proof.
  induction k as [|k IH]; [reflexivity|].
  rewrite seq_S, map_app, le_value_app, IH, map_length, seq_length. cbn [map le_value val Nat.add]. lia.
Qed.

Lemma firstn_seq n k : firstn n (seq 0 k) = seq 0 (Nat.min n k).
Proof.
  destruct (Nat.le_gt_cases k n) as [H|H].
  - rewrite firstn_all2 by (rewrite seq_length; lia). f_equal. lia.
  - replace k with (n + (k - n))%nat at 1 by lia. rewrite seq_app, firstn_app, seq_length, Nat.sub_diag.
    cbn [firstn]. rewrite app_nil_r, firstn_all2 by (rewrite seq_length; lia). f_equal. lia.
Qed.

Definition digit (m : mem) (s : slice) (i : nat) : N :=
  if Nat.ltb i (len s) then m (off s + i)%nat else 0.

Lemma val_digit m s n : le_value (firstn n (content m s)) = val (digit m s) n.
Proof.
  unfold content. rewrite firstn_map, firstn_seq, le_value_map.
  replace n with (Nat.min n (len s) + (n - Nat.min n (len s)))%nat at 2 by lia.
  rewrite val_add, (val_zero (fun i => digit m s (Nat.min n (len s) + i))).
  - rewrite N.mul_0_r, N.add_0_r. apply val_ext. intros i Hi. unfold digit. bcase; [reflexivity|lia].
  - intros i Hi. unfold digit. bcase; [lia|reflexivity].
Qed.

Lemma rev_map_seq {A} (f : nat -> A) k :
  rev (map f (seq 0 k)) = map (fun i => f (k - 1 - i)%nat) (seq 0 k).
Proof.
  induction k as [|k IH]; [reflexivity|].
  rewrite seq_S, map_app, rev_app_distr, IH.
  change (seq 0 k ++ [0 + k]%nat) with (seq 0 k ++ [0 + k]%nat). cbn [map rev app Nat.add].
  rewrite <- seq_S. cbn [seq map]. f_equal; [f_equal; lia|].
  rewrite <- seq_shift, map_map. apply map_ext. intros i. f_equal. lia.
Qed.

(** Digits counted from the end of a window. *)
Definition rdigit (m : mem) (s : slice) (i : nat) : N :=
  if Nat.ltb i (len s) then m (off s + (len s - 1 - i))%nat else 0.

Lemma be_value_rdigit m s n : (len s <= n)%nat -> be_value (content m s) = val (rdigit m s) n.
Proof.
  intros H. unfold be_value, content. rewrite rev_map_seq, le_value_map.
  replace n with (len s + (n - len s))%nat by lia. rewrite val_add.
  rewrite (val_zero (fun i => rdigit m s (len s + i))).
  - rewrite N.mul_0_r, N.add_0_r. apply val_ext. intros i Hi. unfold rdigit. bcase; [reflexivity|lia].
  - intros i Hi. unfold rdigit. bcase; [lia|reflexivity].
Qed.

Lemma content_firstn m s n : (n <= len s)%nat -> firstn n (content m s) = content m (mkSlice (off s) n).
Proof.
  intros H. unfold content. rewrite firstn_map, firstn_seq. cbn [off len]. do 2 f_equal. lia.
Qed.
Lemma content_length m s : length (content m s) = len s.
Proof. unfold content. rewrite map_length, seq_length. reflexivity. Qed.

Lemma content_lastn m s n : (n <= len s)%nat ->
  lastn n (content m s) = content m (mkSlice (off s + (len s - n)) n).
Proof.
  intros H. unfold lastn. rewrite content_length. unfold content. cbn [off len].
  rewrite skipn_map. replace (len s) with ((len s - n) + n)%nat at 2 by lia.
  rewrite seq_app, skipn_app, seq_length, Nat.sub_diag. cbn [skipn].
  rewrite skipn_all2 by (rewrite seq_length; lia). cbn [app].
  clear. generalize (len s - n)%nat. intros k. rewrite Nat.add_0_l.
  revert k. induction n as [|n IH]; intros k; [reflexivity|].
  rewrite !seq_S, !map_app, IH. cbn [map]. do 3 f_equal. lia.
Qed.

Lemma rdigit_lastn m s n : (n <= len s)%nat ->
  be_value (lastn n (content m s)) = val (rdigit m s) n.
Proof.
  intros H. rewrite content_lastn by exact H.
  rewrite (be_value_rdigit _ _ n) by (cbn [len]; lia).
  apply val_ext. intros i Hi. unfold rdigit. cbn [len off]. repeat bcase; try lia.
  f_equal. lia.
Qed.

(** ** Word access *)

Lemma val_S f k : val f (S k) = f O + 256 * val (fun i => f (S i)) k.
Proof.
  change (S k) with (1 + k)%nat. rewrite val_add. cbn [val Nat.add].
  change (N.of_nat 0) with 0. change (N.of_nat 1) with 1. rewrite N.pow_0_r, N.pow_1_r. lia.
Qed.

Lemma val_2 f : val f 2 = f 0%nat + f 1%nat * 256.
Proof. rewrite !val_S. cbn [val]. lia. Qed.
Lemma val_4 f : val f 4 = f 0%nat + f 1%nat * 256 + f 2%nat * 65536 + f 3%nat * 16777216.
Proof. rewrite !val_S. cbn [val]. lia. Qed.

Lemma lor_4 a b c d : a < 256 -> b < 256 -> c < 256 -> d < 256 ->
  N.lor a (N.lor (N.shiftl b 8) (N.lor (N.shiftl c 16) (N.shiftl d 24)))
  = a + b * 256 + c * 65536 + d * 16777216.
Proof.
  intros A B C D.
  replace (N.shiftl d 24) with (N.shiftl (N.shiftl d 8) 16) by (rewrite N.shiftl_shiftl; reflexivity).
  rewrite <- N.shiftl_lor. rewrite (lor_add_shiftl c d 8) by exact C. change (2 ^ 8) with 256.
  replace 16 with (8 + 8) by reflexivity. rewrite <- N.shiftl_shiftl, <- N.shiftl_lor.
  rewrite (lor_add_shiftl b _ 8) by exact B. rewrite (lor_add_shiftl a _ 8) by exact A.
  change (2 ^ 8) with 256. lia.
Qed.

Lemma lor_2 a b : a < 256 -> N.lor a (N.shiftl b 8) = a + b * 256.
Proof. intros A. apply (lor_add_shiftl a b 8), A. Qed.

Lemma le_uint32_val m s : (4 <= len s)%nat -> mem_ok m ->
  le_uint32 m s = Ret (val (fun i => m (off s + i)%nat) 4).
Proof.
  intros L H. unfold le_uint32. rewrite !load_ok by lia. cbn [bind].
  rewrite lor_4, val_4 by apply H. reflexivity.
Qed.
Lemma le_uint16_val m s : (2 <= len s)%nat -> mem_ok m ->
  le_uint16 m s = Ret (val (fun i => m (off s + i)%nat) 2).
Proof.
  intros L H. unfold le_uint16. rewrite !load_ok by lia. cbn [bind].
  rewrite lor_2, val_2 by apply H. reflexivity.
Qed.
Lemma be_uint32_val m s : (4 <= len s)%nat -> mem_ok m ->
  be_uint32 m s = Ret (val (fun i => m (off s + (3 - i))%nat) 4).
Proof.
  intros L H. unfold be_uint32. rewrite !load_ok by lia. cbn [bind].
  rewrite lor_4, val_4 by apply H. reflexivity.
Qed.
Lemma be_uint16_val m s : (2 <= len s)%nat -> mem_ok m ->
  be_uint16 m s = Ret (val (fun i => m (off s + (1 - i))%nat) 2).
Proof.
  intros L H. unfold be_uint16. rewrite !load_ok by lia. cbn [bind].
  rewrite lor_2, val_2 by apply H. reflexivity.
Qed.

Lemma bytes_4 v : v < 2 ^ 32 ->
  u8 v + u8 (N.shiftr v 8) * 256 + u8 (N.shiftr v 16) * 65536 + u8 (N.shiftr v 24) * 16777216 = v.
Proof.
  intros H. unfold u8. change (2 ^ 8) with 256. rewrite !N.shiftr_div_pow2.
  change (2 ^ 8) with 256. change (2 ^ 16) with (256 * 256). change (2 ^ 24) with (256 * 256 * 256).
  rewrite <- !N.div_div by discriminate. change (2 ^ 32) with 4294967296 in H.
  pose proof (N.div_mod v 256). pose proof (N.div_mod (v / 256) 256).
  pose proof (N.div_mod (v / 256 / 256) 256).
  assert (v / 256 / 256 / 256 < 256).
  { rewrite !N.div_div by discriminate. apply N.div_lt_upper_bound; [discriminate|exact H]. }
  rewrite (N.mod_small (v / 256 / 256 / 256)) by assumption. lia.
Qed.
Lemma bytes_2 v : v < 2 ^ 16 -> u8 v + u8 (N.shiftr v 8) * 256 = v.
Proof.
  intros H. unfold u8. change (2 ^ 8) with 256. rewrite !N.shiftr_div_pow2.
  change (2 ^ 8) with 256. change (2 ^ 16) with (256 * 256) in H.
  pose proof (N.div_mod v 256). assert (v / 256 < 256) by (apply N.div_lt_upper_bound; [discriminate|exact H]).
  rewrite (N.mod_small (v / 256)) by assumption. lia.
Qed.

Lemma u8_lt v : u8 v < 256.
Proof. apply N.mod_lt. discriminate. Qed.

Lemma set_ok m a v : mem_ok m -> v < 256 -> mem_ok (set m a v).
Proof. intros H Hv x. unfold set. bcase; [exact Hv|apply H]. Qed.

Lemma set_same m a v : set m a v a = v.
Proof. unfold set. rewrite Nat.eqb_refl. reflexivity. Qed.
Lemma set_other m a v x : x <> a -> set m a v x = m x.
Proof. intros H. unfold set. apply Nat.eqb_neq in H. rewrite H. reflexivity. Qed.

Ltac sets := repeat first [ rewrite set_same | rewrite set_other by lia ].

Lemma le_put32_spec m s v : (4 <= len s)%nat -> mem_ok m -> v < 2 ^ 32 ->
  exists m', le_put32 m s v = Ret m' /\ mem_ok m' /\ only_changes m m' s 4
  /\ val (fun i => m' (off s + i)%nat) 4 = v.
Proof.
  intros L H Hv. unfold le_put32. rewrite load_ok by lia. cbn [bind].
  rewrite !store_ok by lia. cbn [bind]. rewrite !store_ok by lia. cbn [bind].
  rewrite !store_ok by lia. cbn [bind]. rewrite !store_ok by lia.
  eexists; split; [reflexivity|]. split; [|split].
  - repeat apply set_ok; auto using u8_lt.
  - intros x Hx. unfold within in Hx. sets. reflexivity.
  - rewrite val_4. sets. apply bytes_4, Hv.
Qed.
Lemma le_put16_spec m s v : (2 <= len s)%nat -> mem_ok m -> v < 2 ^ 16 ->
  exists m', le_put16 m s v = Ret m' /\ mem_ok m' /\ only_changes m m' s 2
  /\ val (fun i => m' (off s + i)%nat) 2 = v.
Proof.
  intros L H Hv. unfold le_put16. rewrite load_ok by lia. cbn [bind].
  rewrite !store_ok by lia. cbn [bind]. rewrite !store_ok by lia.
  eexists; split; [reflexivity|]. split; [|split].
  - repeat apply set_ok; auto using u8_lt.
  - intros x Hx. unfold within in Hx. sets. reflexivity.
  - rewrite val_2. sets. apply bytes_2, Hv.
Qed.
Lemma be_put32_spec m s v : (4 <= len s)%nat -> mem_ok m -> v < 2 ^ 32 ->
  exists m', be_put32 m s v = Ret m' /\ mem_ok m' /\ only_changes m m' s 4
  /\ val (fun i => m' (off s + (3 - i))%nat) 4 = v.
Proof.
  intros L H Hv. unfold be_put32. rewrite load_ok by lia. cbn [bind].
  rewrite !store_ok by lia. cbn [bind]. rewrite !store_ok by lia. cbn [bind].
  rewrite !store_ok by lia. cbn [bind]. rewrite !store_ok by lia.
  eexists; split; [reflexivity|]. split; [|split].
  - repeat apply set_ok; auto using u8_lt.
  - intros x Hx. unfold within in Hx. sets. reflexivity.
  - rewrite val_4. cbn [Nat.sub]. sets. apply bytes_4, Hv.
Qed.
Lemma be_put16_spec m s v : (2 <= len s)%nat -> mem_ok m -> v < 2 ^ 16 ->
  exists m', be_put16 m s v = Ret m' /\ mem_ok m' /\ only_changes m m' s 2
  /\ val (fun i => m' (off s + (1 - i))%nat) 2 = v.
Proof.
  intros L H Hv. unfold be_put16. rewrite load_ok by lia. cbn [bind].
  rewrite !store_ok by lia. cbn [bind]. rewrite !store_ok by lia.
  eexists; split; [reflexivity|]. split; [|split].
  - repeat apply set_ok; auto using u8_lt.
  - intros x Hx. unfold within in Hx. sets. reflexivity.
  - rewrite val_2. cbn [Nat.sub]. sets. apply bytes_2, Hv.
Qed.

(** ** The operand accumulators *)

Lemma digit_lt m s i : mem_ok m -> digit m s i < 256.
Proof. intros H. unfold digit. bcase; [apply H|lia]. Qed.

Lemma pow8 i : 2 ^ (8 * i) = 256 ^ i.
Proof. rewrite N.pow_mul_r. reflexivity. Qed.

Lemma pow256_le i k : (i <= k)%nat -> 256 ^ N.of_nat i <= 256 ^ N.of_nat k.
Proof. intros H. apply N.pow_le_mono_r; [discriminate|lia]. Qed.

Lemma acc32LE_spec m b k : forall i, (i + k <= len b)%nat -> (i + k <= 4)%nat -> mem_ok m ->
  acc32LE k i m b (val (digit m b) i) = Ret (val (digit m b) (i + k)).
Proof.
  induction k as [|k IH]; intros i H1 H2 H; cbn [acc32LE].
  - rewrite Nat.add_0_r. reflexivity.
  - rewrite load_ok by lia. cbn [bind].
    replace (add64 (val (digit m b) i) (shl64 (m (off b + i)%nat) (8 * N.of_nat i)))
      with (val (digit m b) (S i)).
    + rewrite IH by (try assumption; lia). do 2 f_equal. lia.
    + assert (V : val (digit m b) (S i) < 256 ^ N.of_nat (S i))
        by (apply val_lt; intros; apply digit_lt, H).
      assert (P := pow256_le (S i) 4 ltac:(lia)). change (256 ^ N.of_nat 4) with 4294967296 in P.
      cbn [val] in *. unfold digit at 2. replace (Nat.ltb i (len b)) with true
        by (symmetry; apply Nat.ltb_lt; lia).
      unfold digit at 2 in V. replace (Nat.ltb i (len b)) with true in V
        by (symmetry; apply Nat.ltb_lt; lia).
      unfold add64, shl64, u64. rewrite N.shiftl_mul_pow2, pow8.
      change (2 ^ 64) with 18446744073709551616.
      rewrite (N.mod_small (m (off b + i)%nat * _)) by lia.
      rewrite N.mod_small by lia. reflexivity.
Qed.
Lemma acc16LE_spec m b k : forall i, (i + k <= len b)%nat -> (i + k <= 2)%nat -> mem_ok m ->
  acc16LE k i m b (val (digit m b) i) = Ret (val (digit m b) (i + k)).
Proof.
  induction k as [|k IH]; intros i H1 H2 H; cbn [acc16LE].
  - rewrite Nat.add_0_r. reflexivity.
  - rewrite load_ok by lia. cbn [bind].
    replace (add32 (val (digit m b) i) (shl32 (m (off b + i)%nat) (8 * N.of_nat i)))
      with (val (digit m b) (S i)).
    + rewrite IH by (try assumption; lia). do 2 f_equal. lia.
    + assert (V : val (digit m b) (S i) < 256 ^ N.of_nat (S i))
        by (apply val_lt; intros; apply digit_lt, H).
      assert (P := pow256_le (S i) 2 ltac:(lia)). change (256 ^ N.of_nat 2) with 65536 in P.
      cbn [val] in *. unfold digit at 2. replace (Nat.ltb i (len b)) with true
        by (symmetry; apply Nat.ltb_lt; lia).
      unfold digit at 2 in V. replace (Nat.ltb i (len b)) with true in V
        by (symmetry; apply Nat.ltb_lt; lia).
      unfold add32, shl32, u32. rewrite N.shiftl_mul_pow2, pow8.
      change (2 ^ 32) with 4294967296.
      rewrite (N.mod_small (m (off b + i)%nat * _)) by lia.
      rewrite N.mod_small by lia. reflexivity.
Qed.

(** Digits of the first [n] bytes (or of everything when shorter) counted from
    their end. *)
Definition hdigit (m : mem) (s : slice) (n : nat) (i : nat) : N :=
  rdigit m (mkSlice (off s) (Nat.min (len s) n)) i.

Lemma rdigit_lt m s i : mem_ok m -> rdigit m s i < 256.
Proof. intros H. unfold rdigit. bcase; [apply H|lia]. Qed.

Lemma be_step m b i : (i < len b)%nat ->
  val (rdigit m (mkSlice (off b) (S i))) (S i) =
  m (off b + i)%nat + 256 * val (rdigit m (mkSlice (off b) i)) i.
Proof.
  intros H. rewrite val_S. f_equal.
  - unfold rdigit. cbn [len off]. bcase; [|lia]. f_equal. lia.
  - f_equal. apply val_ext. intros j Hj. unfold rdigit. cbn [len off]. repeat bcase; try lia.
    f_equal. lia.
Qed.

Lemma acc32BE_spec m b k : forall i, (i + k <= len b)%nat -> (i + k <= 4)%nat -> mem_ok m ->
  acc32BE k i m b (val (rdigit m (mkSlice (off b) i)) i) =
  Ret (val (rdigit m (mkSlice (off b) (i + k))) (i + k)).
Proof.
  induction k as [|k IH]; intros i H1 H2 H; cbn [acc32BE].
  - rewrite Nat.add_0_r. reflexivity.
  - rewrite load_ok by lia. cbn [bind].
    replace (N.lor (shl64 (val (rdigit m (mkSlice (off b) i)) i) 8) (m (off b + i)%nat))
      with (val (rdigit m (mkSlice (off b) (S i))) (S i)).
    + rewrite IH by (try assumption; lia). rewrite <- Nat.add_succ_comm. reflexivity.
    + rewrite be_step by lia. set (v := val _ i).
      assert (V : v < 256 ^ N.of_nat i) by (apply val_lt; intros; apply rdigit_lt, H).
      assert (P := pow256_le i 3 ltac:(lia)). change (256 ^ N.of_nat 3) with 16777216 in P.
      unfold shl64, u64. rewrite N.mod_small.
      * rewrite lor_shiftl_add by apply H. change (2 ^ 8) with 256. lia.
      * rewrite N.shiftl_mul_pow2. change (2 ^ 8) with 256. change (2 ^ 64) with 18446744073709551616. lia.
Qed.
Lemma acc16BE_spec m b k : forall i, (i + k <= len b)%nat -> (i + k <= 2)%nat -> mem_ok m ->
  acc16BE k i m b (val (rdigit m (mkSlice (off b) i)) i) =
  Ret (val (rdigit m (mkSlice (off b) (i + k))) (i + k)).
Proof.
  induction k as [|k IH]; intros i H1 H2 H; cbn [acc16BE].
  - rewrite Nat.add_0_r. reflexivity.
  - rewrite load_ok by lia. cbn [bind].
    replace (N.lor (shl32 (val (rdigit m (mkSlice (off b) i)) i) 8) (m (off b + i)%nat))
      with (val (rdigit m (mkSlice (off b) (S i))) (S i)).
    + rewrite IH by (try assumption; lia). rewrite <- Nat.add_succ_comm. reflexivity.
    + rewrite be_step by lia. set (v := val _ i).
      assert (V : v < 256 ^ N.of_nat i) by (apply val_lt; intros; apply rdigit_lt, H).
      assert (P := pow256_le i 1 ltac:(lia)). change (256 ^ N.of_nat 1) with 256 in P.
      unfold shl32, u32. rewrite N.mod_small.
      * rewrite lor_shiftl_add by apply H. change (2 ^ 8) with 256. lia.
      * rewrite N.shiftl_mul_pow2. change (2 ^ 8) with 256. change (2 ^ 32) with 4294967296. lia.
Qed.

(** Padding a value with zero digits. *)
Lemma val_digit_min m b n : val (digit m b) n = val (digit m b) (Nat.min (len b) n).
Proof.
  replace n with (Nat.min (len b) n + (n - Nat.min (len b) n))%nat at 1 by lia.
  rewrite val_add, (val_zero (fun i => digit m b (Nat.min (len b) n + i))); [lia|].
  intros i Hi. unfold digit. bcase; [lia|reflexivity].
Qed.
Lemma val_hdigit_min m b n :
  val (hdigit m b n) n = val (rdigit m (mkSlice (off b) (Nat.min (len b) n))) (Nat.min (len b) n).
Proof.
  unfold hdigit. assert (Hk : (Nat.min (len b) n <= n)%nat) by lia.
  generalize dependent (Nat.min (len b) n). intros k Hk.
  replace n with (k + (n - k))%nat by lia.
  rewrite val_add, (val_zero (fun i => rdigit m _ (k + i))); [rewrite N.mul_0_r, N.add_0_r; reflexivity|].
  intros i Hi. unfold rdigit. cbn [len]. bcase; [lia|reflexivity].
Qed.

Lemma if_min a n : (if Nat.ltb a n then a else n) = Nat.min a n.
Proof. bcase; lia. Qed.

Lemma land_1 c : c <= 1 -> N.land c 1 = c.
Proof. intros H. assert (c = 0 \/ c = 1) as [->| ->] by lia; reflexivity. Qed.

(** One word addition: new word and carry out. *)
Definition add_step (w : nat) (m m' : mem) (s : slice) (f : mem -> nat -> N) (B c c' : N) : Prop :=
  c' <= 1 /\ mem_ok m' /\ only_changes m m' s w /\
  val (f m') w + c' * 256 ^ N.of_nat w = val (f m) w + B + c.

Lemma addEq32LE_spec m s b c : (4 <= len s)%nat -> mem_ok m -> c <= 1 ->
  exists m' c', addEq32LE m s b c = Ret (m', c') /\
    add_step 4 m m' s (fun m i => m (off s + i)%nat) (val (digit m b) 4) c c'.
Proof.
  intros L H Hc. unfold addEq32LE. rewrite le_uint32_val by assumption. cbn [bind].
  rewrite if_min. change 0 with (val (digit m b) 0) at 1.
  rewrite acc32LE_spec by (try assumption; lia). cbn [bind Nat.add].
  rewrite <- val_digit_min. rewrite land_1 by exact Hc.
  set (A := val (fun i => m (off s + i)%nat) 4). set (B := val (digit m b) 4).
  assert (HA : A < 2 ^ 32) by (apply (val_lt _ 4); intros; apply H).
  assert (HB : B < 2 ^ 32) by (apply (val_lt _ 4); intros; apply digit_lt, H).
  change (2 ^ 32) with 4294967296 in *.
  unfold add64, u64. change (2 ^ 64) with 18446744073709551616.
  rewrite (N.mod_small (A + B)) by lia. rewrite (N.mod_small (A + B + c)) by lia.
  destruct (le_put32_spec m s (u32 (A + B + c)) L H) as (m' & -> & H' & F & V).
  { apply N.mod_lt. discriminate. }
  cbn [bind]. eexists _, _. split; [reflexivity|]. unfold add_step.
  rewrite N.shiftr_div_pow2. change (256 ^ N.of_nat 4) with (2 ^ 32).
  assert (Q : (A + B + c) / 2 ^ 32 <= 1).
  { apply N.lt_succ_r, N.div_lt_upper_bound; [discriminate|]. change (2 ^ 32) with 4294967296. lia. }
  unfold u8. change (2 ^ 8) with 256. rewrite N.mod_small by lia.
  split; [exact Q|]. split; [exact H'|]. split; [exact F|]. cbv beta. rewrite V. unfold u32.
  pose proof (N.div_mod (A + B + c) (2 ^ 32)). lia.
Qed.

Lemma addEq32BE_spec m s b c : (4 <= len s)%nat -> mem_ok m -> c <= 1 ->
  exists m' c', addEq32BE m s b c = Ret (m', c') /\
    add_step 4 m m' s (fun m i => m (off s + (3 - i))%nat) (val (hdigit m b 4) 4) c c'.
Proof.
  intros L H Hc. unfold addEq32BE. rewrite be_uint32_val by assumption. cbn [bind].
  rewrite if_min. change 0 with (val (rdigit m (mkSlice (off b) 0)) 0) at 1.
  rewrite acc32BE_spec by (try assumption; lia). cbn [bind Nat.add].
  rewrite <- val_hdigit_min. rewrite land_1 by exact Hc.
  set (A := val (fun i => m (off s + (3 - i))%nat) 4). set (B := val (hdigit m b 4) 4).
  assert (HA : A < 2 ^ 32) by (apply (val_lt _ 4); intros; apply H).
  assert (HB : B < 2 ^ 32) by (apply (val_lt _ 4); intros; apply rdigit_lt, H).
  change (2 ^ 32) with 4294967296 in *.
  unfold add64, u64. change (2 ^ 64) with 18446744073709551616.
  rewrite (N.mod_small (A + B)) by lia. rewrite (N.mod_small (A + B + c)) by lia.
  destruct (be_put32_spec m s (u32 (A + B + c)) L H) as (m' & -> & H' & F & V).
  { apply N.mod_lt. discriminate. }
  cbn [bind]. eexists _, _. split; [reflexivity|]. unfold add_step.
  rewrite N.shiftr_div_pow2. change (256 ^ N.of_nat 4) with (2 ^ 32).
  assert (Q : (A + B + c) / 2 ^ 32 <= 1).
  { apply N.lt_succ_r, N.div_lt_upper_bound; [discriminate|]. change (2 ^ 32) with 4294967296. lia. }
  unfold u8. change (2 ^ 8) with 256. rewrite N.mod_small by lia.
  split; [exact Q|]. split; [exact H'|]. split; [exact F|]. cbv beta. rewrite V. unfold u32.
  pose proof (N.div_mod (A + B + c) (2 ^ 32)). lia.
Qed.

Lemma addEq16LE_spec m s b c : (2 <= len s)%nat -> mem_ok m -> c <= 1 ->
  exists m' c', addEq16LE m s b c = Ret (m', c') /\
    add_step 2 m m' s (fun m i => m (off s + i)%nat) (val (digit m b) 2) c c'.
Proof.
  intros L H Hc. unfold addEq16LE. rewrite le_uint16_val by assumption. cbn [bind].
  rewrite if_min. change 0 with (val (digit m b) 0) at 1.
  rewrite acc16LE_spec by (try assumption; lia). cbn [bind Nat.add].
  rewrite <- val_digit_min. rewrite land_1 by exact Hc.
  set (A := val (fun i => m (off s + i)%nat) 2). set (B := val (digit m b) 2).
  assert (HA : A < 2 ^ 16) by (apply (val_lt _ 2); intros; apply H).
  assert (HB : B < 2 ^ 16) by (apply (val_lt _ 2); intros; apply digit_lt, H).
  change (2 ^ 16) with 65536 in *.
  unfold add32, u32. change (2 ^ 32) with 4294967296.
  rewrite (N.mod_small (A + B)) by lia. rewrite (N.mod_small (A + B + c)) by lia.
  destruct (le_put16_spec m s (u16 (A + B + c)) L H) as (m' & -> & H' & F & V).
  { apply N.mod_lt. discriminate. }
  cbn [bind]. eexists _, _. split; [reflexivity|]. unfold add_step.
  rewrite N.shiftr_div_pow2. change (256 ^ N.of_nat 2) with (2 ^ 16).
  assert (Q : (A + B + c) / 2 ^ 16 <= 1).
  { apply N.lt_succ_r, N.div_lt_upper_bound; [discriminate|]. change (2 ^ 16) with 65536. lia. }
  unfold u8. change (2 ^ 8) with 256. rewrite N.mod_small by lia.
  split; [exact Q|]. split; [exact H'|]. split; [exact F|]. cbv beta. rewrite V. unfold u16.
  pose proof (N.div_mod (A + B + c) (2 ^ 16)). lia.
Qed.

Lemma addEq16BE_spec m s b c : (2 <= len s)%nat -> mem_ok m -> c <= 1 ->
  exists m' c', addEq16BE m s b c = Ret (m', c') /\
    add_step 2 m m' s (fun m i => m (off s + (1 - i))%nat) (val (hdigit m b 2) 2) c c'.
Proof.
  intros L H Hc. unfold addEq16BE. rewrite be_uint16_val by assumption. cbn [bind].
  rewrite if_min. change 0 with (val (rdigit m (mkSlice (off b) 0)) 0) at 1.
  rewrite acc16BE_spec by (try assumption; lia). cbn [bind Nat.add].
  rewrite <- val_hdigit_min. rewrite land_1 by exact Hc.
  set (A := val (fun i => m (off s + (1 - i))%nat) 2). set (B := val (hdigit m b 2) 2).
  assert (HA : A < 2 ^ 16) by (apply (val_lt _ 2); intros; apply H).
  assert (HB : B < 2 ^ 16) by (apply (val_lt _ 2); intros; apply rdigit_lt, H).
  change (2 ^ 16) with 65536 in *.
  unfold add32, u32. change (2 ^ 32) with 4294967296.
  rewrite (N.mod_small (A + B)) by lia. rewrite (N.mod_small (A + B + c)) by lia.
  destruct (be_put16_spec m s (u16 (A + B + c)) L H) as (m' & -> & H' & F & V).
  { apply N.mod_lt. discriminate. }
  cbn [bind]. eexists _, _. split; [reflexivity|]. unfold add_step.
  rewrite N.shiftr_div_pow2. change (256 ^ N.of_nat 2) with (2 ^ 16).
  assert (Q : (A + B + c) / 2 ^ 16 <= 1).
  { apply N.lt_succ_r, N.div_lt_upper_bound; [discriminate|]. change (2 ^ 16) with 65536. lia. }
  unfold u8. change (2 ^ 8) with 256. rewrite N.mod_small by lia.
  split; [exact Q|]. split; [exact H'|]. split; [exact F|]. cbv beta. rewrite V. unfold u16.
  pose proof (N.div_mod (A + B + c) (2 ^ 16)). lia.
Qed.

(** ** Padding *)

Lemma copy_ok m d s : mem_ok m -> mem_ok (copy m d s).
Proof. intros H x. unfold copy. bcase; apply H. Qed.

Lemma padLE_short m dst src n : (len dst < n)%nat -> padLE m dst src n = Ret (m, Some NotEnoughSpace).
Proof. intros H. unfold padLE. apply Nat.ltb_lt in H. rewrite H. reflexivity. Qed.
Lemma padBE_short m dst src n : (len dst < n)%nat -> padBE m dst src n = Ret (m, Some NotEnoughSpace).
Proof. intros H. unfold padBE. apply Nat.ltb_lt in H. rewrite H. reflexivity. Qed.

Lemma padLE_alias m dst src n : (n <= len dst)%nat -> (0 < n)%nat -> (0 < len src)%nat ->
  off dst = off src -> padLE m dst src n = Ret (m, None).
Proof.
  intros H1 H2 H3 H4. unfold padLE. bcase; [lia|].
  replace (Nat.ltb 0 (if Nat.ltb (len src) n then len src else n)) with true
    by (symmetry; apply Nat.ltb_lt; bcase; lia).
  rewrite H4, Nat.eqb_refl. reflexivity.
Qed.

Lemma padLE_spec m dst src n : (n <= len dst)%nat -> mem_ok m ->
  ~ (off dst = off src /\ 0 < len src < n)%nat ->
  exists m1, padLE m dst src n = Ret (m1, None) /\ mem_ok m1 /\ only_changes m m1 dst n
  /\ forall i, (i < n)%nat -> m1 (off dst + i)%nat = digit m src i.
Proof.
  intros L H NA. unfold padLE. bcase; [lia|]. rewrite if_min.
  set (sn := Nat.min (len src) n). destruct (Nat.ltb 0 sn && Nat.eqb (off dst) (off src))%bool eqn:E0; bools.
  - exists m. split; [reflexivity|]. split; [exact H|]. split; [intros ? _; reflexivity|].
    intros i Hi. unfold digit. bcase; [congruence|]. subst sn. lia.
  - rewrite upto_ok by (subst sn; lia). cbn [bind].
    assert (C : forall x, copy m dst (mkSlice (off src) sn) x =
       if (Nat.leb (off dst) x && Nat.ltb x (off dst + sn))%bool
       then m (off src + (x - off dst))%nat else m x).
    { intros x. unfold copy. cbn [len off]. replace (Nat.min (len dst) sn) with sn by (subst sn; lia).
      reflexivity. }
    bcase.
    + rewrite sub_ok by lia. cbn [bind].
      destruct (Zero_spec (copy m dst (mkSlice (off src) sn)) (mkSlice (off dst + sn) (n - sn)))
        as (m' & -> & Z & F). cbn [bind off len] in *.
      exists m'. split; [reflexivity|]. unfold within, only_changes, within in *. cbn [off len] in *.
      split; [|split].
      * intros x. destruct (Nat.lt_ge_cases x (off dst + sn)) as [X|X];
          [rewrite F by lia; apply copy_ok, H|].
        destruct (Nat.lt_ge_cases x (off dst + n)) as [X2|X2];
          [rewrite Z by lia; lia|rewrite F by lia; apply copy_ok, H].
      * intros x Hx. rewrite F by lia. rewrite C. bcase; [subst sn; lia|reflexivity].
      * intros i Hi. unfold digit. destruct (Nat.ltb i (len src)) eqn:EQ; bools.
        -- rewrite F by (subst sn; lia). rewrite C. bcase; [|subst sn; lia]. f_equal. lia.
        -- apply Z. subst sn. lia.
    + exists (copy m dst (mkSlice (off src) sn)). split; [reflexivity|].
      split; [apply copy_ok, H|]. split.
      * intros x Hx. unfold within in Hx. rewrite C. bcase; [subst sn; lia|reflexivity].
      * intros i Hi. unfold digit. bcase; [|subst sn; lia]. rewrite C. bcase; [|subst sn; lia].
        f_equal. lia.
Qed.

(** What padBE writes: [n] bytes, or more when both slices are longer. *)
Definition wide (n : nat) (dst src : slice) : nat := Nat.max n (Nat.min (len dst) (len src)).

Lemma padBE_spec m dst src n : (n <= len dst)%nat -> mem_ok m ->
  apart dst (n - len src) src (len src) ->
  exists m1, padBE m dst src n = Ret (m1, None) /\ mem_ok m1
  /\ only_changes m m1 dst (wide n dst src)
  /\ (forall i, (i < n)%nat -> m1 (off dst + (n - 1 - i))%nat = hdigit m src n i)
  /\ (forall i, (n <= i < Nat.min (len dst) (len src))%nat -> m1 (off dst + i)%nat = m (off src + i)%nat).
Proof.
  intros L H AP. unfold padBE, wide. bcase; [lia|]. rewrite if_min.
  set (sn := Nat.min (len src) n).
  assert (X : exists mz, (if Nat.ltb sn n then let! z := sub dst 0 (n - sn) in Zero m z else Ret m) = Ret mz
     /\ mem_ok mz /\ (forall x, within dst (n - sn) x -> mz x = 0) /\ only_changes m mz dst (n - sn)).
  { bcase.
    - rewrite sub_ok by lia. cbn [bind].
      destruct (Zero_spec m (mkSlice (off dst + 0) (n - sn - 0))) as (mz & -> & Z & F).
      rewrite Nat.add_0_r, Nat.sub_0_r in *.
      exists mz. split; [reflexivity|]. unfold within, only_changes, within in *. cbn [off len] in *.
      split; [|split; [exact Z|exact F]]. intros x.
      destruct (Nat.lt_ge_cases x (off dst)) as [X|X]; [rewrite F by lia; apply H|].
      destruct (Nat.lt_ge_cases x (off dst + (n - sn))) as [X2|X2]; [rewrite Z by lia; lia|].
      rewrite F by lia. apply H.
    - exists m. split; [reflexivity|]. split; [exact H|]. split; [|intros ? _; reflexivity].
      intros x Hx. unfold within in Hx. lia. }
  destruct X as (mz & -> & Hz & Z & F). cbn [bind].
  rewrite from_ok by lia. cbn [bind]. eexists; split; [reflexivity|].
  split; [apply copy_ok, Hz|]. unfold copy. cbn [off len].
  unfold apart, within, only_changes, within in *.
  assert (S1 : forall i, (i < len src)%nat -> mz (off src + i)%nat = m (off src + i)%nat).
  { intros i Hi. apply F. intros HX.
    destruct (Nat.le_gt_cases n (len src)) as [W|W].
    - subst sn. lia.
    - apply (AP (off src + i)%nat); [subst sn; lia|lia]. }
  split; [|split].
  - intros x Hx. bcase; [subst sn; lia|]. apply F. lia.
  - intros i Hi. unfold hdigit, rdigit. cbn [off len]. fold sn. bcase; bcase.
    + rewrite S1 by (subst sn; lia). f_equal. lia.
    + apply Z. lia.
    + subst sn; lia.
    + apply Z. lia.
  - intros i Hi. bcase; [|subst sn; lia]. rewrite S1 by (subst sn; lia). f_equal. subst sn. lia.
Qed.

(** ** The LE loops *)

Section LE.
Variables (K : nat) (m1 : mem) (sum b0 : slice).
Hypothesis HK : (4 * K <= len sum)%nat.
(** No byte of b is overwritten before it is read. *)
Hypothesis AP : forall i, (i < Nat.min (len b0) (4 * K))%nat -> ~ within sum (4 * (i / 4)) (off b0 + i).

Definition invLE (j : nat) (m : mem) (b : slice) (c : N) : Prop :=
  mem_ok m /\ c <= 1 /\ only_changes m1 m sum (4 * j)
  /\ val (fun i => m (off sum + i)%nat) (4 * j) + c * 256 ^ N.of_nat (4 * j)
     = val (fun i => m1 (off sum + i)%nat) (4 * j) + val (digit m1 b0) (4 * j)
  /\ len b = (len b0 - 4 * j)%nat /\ ((0 < len b)%nat -> off b = (off b0 + 4 * j)%nat).

Lemma invLE_step j m b c b' b'' : invLE j m b c -> (j < K)%nat ->
  b' = b \/ (len b = 0 /\ len b' = 0)%nat ->
  len b'' = (len b - 4)%nat -> ((0 < len b'')%nat -> off b'' = (off b + 4)%nat) ->
  exists m' c', addEq32LE m (mkSlice (off sum + j * 4) (len sum - j * 4)) b' c = Ret (m', c')
    /\ invLE (S j) m' b'' c'.
Proof.
  intros (H & Hc & F & V & Lb & Ob) Hj Hb' Lb'' Ob''.
  destruct (addEq32LE_spec m (mkSlice (off sum + j * 4) (len sum - j * 4)) b' c)
    as (m' & c' & E & Hc' & H' & F' & V'); [cbn [len]; lia|exact H|exact Hc|].
  exists m', c'. split; [exact E|]. unfold invLE.
  split; [exact H'|]. split; [exact Hc'|]. cbn [off] in *.
  assert (D : val (digit m b') 4 = val (fun i => digit m1 b0 (4 * j + i)) 4).
  { apply val_ext. intros i Hi. unfold digit.
    destruct (Nat.ltb (4 * j + i) (len b0)) eqn:E1; bools.
    - assert (b' = b) by (destruct Hb' as [?|[? ?]]; [assumption|lia]). subst b'.
      replace (Nat.ltb i (len b)) with true by (symmetry; apply Nat.ltb_lt; lia).
      rewrite Ob by lia. rewrite F.
      + f_equal. lia.
      + intros X. apply (AP (4 * j + i)%nat); [lia|].
        replace ((4 * j + i) / 4)%nat with j by (apply Nat.div_unique with i; lia).
        unfold within in *. lia.
    - bcase; [|reflexivity]. destruct Hb' as [->|[? ?]]; lia. }
  unfold only_changes, within in *. cbn [off] in *.
  split; [|split; [|split]].
  - intros x Hx. rewrite F' by lia. apply F. lia.
  - replace (4 * S j)%nat with (4 * j + 4)%nat by lia. rewrite !val_add, D in *.
    rewrite (val_ext (fun i => m' (off sum + i)%nat) (fun i => m (off sum + i)%nat))
      by (intros; apply F'; lia).
    rewrite (val_ext (fun i => m' (off sum + (4 * j + i))%nat) (fun i => m' (off sum + j * 4 + i)%nat))
      by (intros; f_equal; lia).
    rewrite (val_ext (fun i => m1 (off sum + (4 * j + i))%nat) (fun i => m (off sum + j * 4 + i)%nat))
      by (intros; symmetry; replace (off sum + (4 * j + i))%nat with (off sum + j * 4 + i)%nat by lia;
          apply F; lia).
    rewrite Nat2N.inj_add, N.pow_add_r.
    change (256 ^ N.of_nat 4) with 4294967296 in *.
    set (X1 := val (fun i => m' (off sum + j * 4 + i)%nat) 4) in *.
    set (X2 := val (fun i => m (off sum + j * 4 + i)%nat) 4) in *.
    set (X3 := val (fun i => digit m1 b0 (4 * j + i)) 4) in *.
    set (P := 256 ^ N.of_nat (4 * j)) in *.
    set (Y1 := val (fun i => m (off sum + i)%nat) (4 * j)) in *.
    set (Y2 := val (fun i => m1 (off sum + i)%nat) (4 * j)) in *.
    set (Y3 := val (digit m1 b0) (4 * j)) in *.
    replace (Y1 + P * X1 + c' * (P * 4294967296)) with (Y1 + P * (X1 + c' * 4294967296)) by lia.
    rewrite V'. lia.
  - lia.
  - intros X. rewrite Ob'' by exact X. rewrite Ob by lia. lia.
Qed.

Lemma fullLE_spec k : forall j m b c, invLE j m b c -> (j + k = K)%nat ->
  exists k' m' j' b' c', fullLE k j m sum b c = Ret (k', m', j', b', c')
   /\ invLE j' m' b' c' /\ (j' + k' = K)%nat /\ (k' = 0 \/ len b' <= 4)%nat.
Proof.
  induction k as [|k IH]; intros j m b c I Hk; cbn [fullLE].
  - exists O, m, j, b, c. split; [reflexivity|]. auto.
  - bcase.
    + rewrite from_ok by lia. cbn [bind].
      destruct (invLE_step j m b c b (mkSlice (off b + 4) (len b - 4)) I) as (m' & c' & -> & I');
        [lia|auto|reflexivity|reflexivity|].
      cbn [bind]. rewrite from_ok by lia. cbn [bind].
      destruct (IH (S j) m' _ c' I') as (k2 & m2 & j2 & b2 & c2 & E2 & I2 & R2); [lia|].
      exists k2, m2, j2, b2, c2. auto.
    + exists (S k), m, j, b, c. split; [reflexivity|]. split; [exact I|]. split; [exact Hk|]. right; lia.
Qed.

Lemma restLE_spec k : forall j m b c, invLE j m b c -> (j + k = K)%nat -> (len b = 0)%nat ->
  exists m' c', restLE k j m sum c = Ret (m', K, c') /\ invLE K m' b c'.
Proof.
  induction k as [|k IH]; intros j m b c I Hk Hb; cbn [restLE].
  - rewrite Nat.add_0_r in Hk. subst j. eauto.
  - rewrite from_ok by lia. cbn [bind].
    destruct (invLE_step j m b c empty b I) as (m' & c' & -> & I'); [lia|auto|lia|lia|].
    cbn [bind]. apply (IH (S j) m' b c' I'); [lia|exact Hb].
Qed.
End LE.

(** The law every LE function obeys. *)
Definition LE_law (n : nat) (f : mem -> slice -> slice -> slice -> outcome (mem * N * option error)) : Prop :=
  forall m sum a b, mem_ok m -> (n <= len sum)%nat ->
  apart sum n b (Nat.min (len b) n) ->
  ~ (off sum = off a /\ 0 < len a < n)%nat ->
  exists m' c, f m sum a b = Ret (m', c, None) /\ mem_ok m' /\ only_changes m m' sum n /\ c <= 1
  /\ val (fun i => m' (off sum + i)%nat) n + c * 256 ^ N.of_nat n
     = val (digit m a) n + val (digit m b) n.

Lemma digit_apart m m1 sum n b : only_changes m m1 sum n ->
  apart sum n b (Nat.min (len b) n) -> val (digit m1 b) n = val (digit m b) n.
Proof.
  intros F AP. apply val_ext. intros i Hi. unfold digit. bcase; [|reflexivity].
  apply F. intros X. apply (AP (off b + i)%nat X). unfold within. lia.
Qed.

Lemma only_changes_trans m m1 m2 s n : only_changes m m1 s n -> only_changes m1 m2 s n ->
  only_changes m m2 s n.
Proof. intros F1 F2 x Hx. rewrite F2, F1 by exact Hx. reflexivity. Qed.

(** The law after padding, for any starting memory. *)
Lemma addAnyLE_tail K m1 sum b : (4 * K <= len sum)%nat -> mem_ok m1 ->
  (forall i, (i < Nat.min (len b) (4 * K))%nat -> ~ within sum (4 * (i / 4)) (off b + i)) ->
  exists m' c,
   (let! (k, m, numU32, b, carry) := fullLE K 0 m1 sum b 0 in
      let! (k, m, numU32, b, carry) :=
        match k with
        | S k' =>
            if Nat.ltb 0 (len b) then
              let! s := from sum (numU32 * 4) in
              let! (m, carry) := addEq32LE m s b carry in
              let! b := from b (len b) in
              Ret (k', m, S numU32, b, carry)
            else Ret (k, m, numU32, b, carry)
        | O => Ret (k, m, numU32, b, carry)
        end in
      let! (m, numU32, carry) := restLE k numU32 m sum carry in
      Ret (m, carry)) = Ret (m', c)
  /\ mem_ok m' /\ only_changes m1 m' sum (4 * K) /\ c <= 1
  /\ val (fun i => m' (off sum + i)%nat) (4 * K) + c * 256 ^ N.of_nat (4 * K)
     = val (fun i => m1 (off sum + i)%nat) (4 * K) + val (digit m1 b) (4 * K).
Proof.
  intros HK H AP.
  destruct (fullLE_spec K m1 sum b HK AP K 0 m1 b 0) as (k & m2 & j & b2 & c2 & -> & I2 & Hj & Hk).
  { unfold invLE. split; [exact H|]. split; [lia|]. split; [intros ? _; reflexivity|].
    rewrite Nat.mul_0_r. cbn [val]. split; [lia|]. split; lia. }
  { reflexivity. }
  cbn [bind].
  assert (X : exists k3 m3 j3 b3 c3,
     (match k with
        | S k' =>
            if Nat.ltb 0 (len b2) then
              let! s := from sum (j * 4) in
              let! (m, carry) := addEq32LE m2 s b2 c2 in
              let! b := from b2 (len b2) in
              Ret (k', m, S j, b, carry)
            else Ret (k, m2, j, b2, c2)
        | O => Ret (k, m2, j, b2, c2)
        end) = Ret (k3, m3, j3, b3, c3) /\ invLE m1 sum b j3 m3 b3 c3 /\ (j3 + k3 = K)%nat
     /\ (k3 = 0 \/ len b3 = 0)%nat).
  { destruct k as [|k].
    - exists O, m2, j, b2, c2. split; [reflexivity|]. auto.
    - bcase.
      + rewrite from_ok by lia. cbn [bind].
        destruct (invLE_step K m1 sum b HK AP j m2 b2 c2 b2 (mkSlice (off b2 + len b2) (len b2 - len b2)) I2)
          as (m3 & c3 & -> & I3); [lia|auto|cbn [len]; lia|cbn [len]; lia|].
        cbn [bind]. rewrite from_ok by lia. cbn [bind].
        eexists k, m3, (S j), _, c3. split; [reflexivity|]. split; [exact I3|].
        split; [lia|right; cbn [len]; lia].
      + exists (S k), m2, j, b2, c2. split; [reflexivity|]. split; [exact I2|]. split; [lia|]. right; lia. }
  destruct X as (k3 & m3 & j3 & b3 & c3 & -> & I3 & Hj3 & Hk3). cbn [bind].
  assert (Y : exists m' c', restLE k3 j3 m3 sum c3 = Ret (m', K, c') /\ invLE m1 sum b K m' b3 c').
  { destruct Hk3 as [->|Hz].
    - rewrite Nat.add_0_r in Hj3. subst j3. cbn [restLE]. eauto.
    - eapply restLE_spec; eauto. }
  destruct Y as (m' & c' & -> & (A1 & A2 & A3 & A4 & _)). cbn [bind].
  exists m', c'. auto.
Qed.

Lemma addAnyLE_law K : (0 < K)%nat -> LE_law (4 * K) (fun m sum a b => addAnyLE m sum a b (4 * K)).
Proof.
  intros K0 m sum a b H L AP NA. unfold addAnyLE.
  destruct (padLE_spec m sum a (4 * K) L H NA) as (m1 & -> & H1 & F1 & D1). cbn [bind].
  replace (4 * K / 4)%nat with K by (rewrite Nat.mul_comm, Nat.div_mul; lia).
  replace ((4 * K) mod 4)%nat with 0%nat by (rewrite Nat.mul_comm, Nat.mod_mul; lia).
  destruct (addAnyLE_tail K m1 sum b L H1) as (m' & c & E & H' & F' & C & V).
  { intros i Hi X. apply (AP (off b + i)%nat); unfold within in *; [|lia].
    assert (4 * (i / 4) <= 4 * K)%nat; [|lia].
    pose proof (Nat.div_le_mono i (4 * K) 4). rewrite (Nat.mul_comm 4 K), Nat.div_mul in H0; lia. }
  destruct (fullLE K 0 m1 sum b 0) as [[[[[k2 m2] j2] b2] c2]| |]; cbn [bind] in *; try discriminate.
  destruct (match k2 with O => _ | S _ => _ end) as [[[[[k3 m3] j3] b3] c3]| |];
    cbn [bind] in *; try discriminate.
  destruct (restLE k3 j3 m3 sum c3) as [[[m4 j4] c4]| |]; cbn [bind] in *; try discriminate.
  inversion E; subst m4 c4. change (Nat.ltb 1 0) with false. change (Nat.ltb 0 0) with false.
  cbn [bind]. exists m', c. split; [reflexivity|]. split; [exact H'|].
  split; [eapply only_changes_trans; eassumption|]. split; [exact C|].
  rewrite V, (digit_apart m m1 sum) by assumption. f_equal. apply val_ext. exact D1.
Qed.

Lemma Add16LE_law : LE_law 2 Add16LE.
Proof.
  intros m sum a b H L AP NA. unfold Add16LE.
  destruct (padLE_spec m sum a 2 L H NA) as (m1 & -> & H1 & F1 & D1). cbn [bind].
  destruct (addEq16LE_spec m1 sum b 0 L H1) as (m' & c & -> & C & H' & F' & V); [lia|].
  cbn [bind]. exists m', c. split; [reflexivity|]. split; [exact H'|].
  split; [eapply only_changes_trans; eassumption|]. split; [exact C|].
  rewrite V, (digit_apart m m1 sum), N.add_0_r by assumption. f_equal. apply val_ext. exact D1.
Qed.
Lemma Add32LE_law : LE_law 4 Add32LE.
Proof.
  intros m sum a b H L AP NA. unfold Add32LE.
  destruct (padLE_spec m sum a 4 L H NA) as (m1 & -> & H1 & F1 & D1). cbn [bind].
  destruct (addEq32LE_spec m1 sum b 0 L H1) as (m' & c & -> & C & H' & F' & V); [lia|].
  cbn [bind]. exists m', c. split; [reflexivity|]. split; [exact H'|].
  split; [eapply only_changes_trans; eassumption|]. split; [exact C|].
  rewrite V, (digit_apart m m1 sum), N.add_0_r by assumption. f_equal. apply val_ext. exact D1.
Qed.

(** ** The BE loops *)

Section BE.
Variables (K : nat) (m1 : mem) (sum b0 : slice).
Hypothesis HK : (4 * K <= len sum)%nat.
Hypothesis AP : forall i, (i < Nat.min (len b0) (4 * K))%nat ->
  ~ (off sum + 4 * (K - i / 4) <= off b0 + (len b0 - 1 - i) < off sum + 4 * K)%nat.

Definition sd (m : mem) (i : nat) : N := m (off sum + (4 * K - 1 - i))%nat.

Definition invBE (j : nat) (m : mem) (b : slice) (c : N) : Prop :=
  mem_ok m /\ c <= 1 /\ only_changes m1 m (mkSlice (off sum + 4 * (K - j)) 0) (4 * j)
  /\ val (sd m) (4 * j) + c * 256 ^ N.of_nat (4 * j) = val (sd m1) (4 * j) + val (rdigit m1 b0) (4 * j)
  /\ len b = (len b0 - 4 * j)%nat /\ ((0 < len b)%nat -> off b = off b0).

(** [b'] is the slice handed to addEq32BE: the last 4 bytes of [b], or all of
    it when shorter. *)
Lemma invBE_step j m b c b' b'' : invBE j m b c -> (j < K)%nat ->
  len b' = Nat.min (len b) 4 -> ((0 < len b)%nat -> off b' = (off b + (len b - 4))%nat) ->
  len b'' = (len b - 4)%nat -> ((0 < len b'')%nat -> off b'' = off b) ->
  exists m' c', addEq32BE m (mkSlice (off sum + (K - 1 - j) * 4) (len sum - (K - 1 - j) * 4)) b' c
      = Ret (m', c')
    /\ invBE (S j) m' b'' c'.
Proof.
  intros (H & Hc & F & V & Lb & Ob) Hj Lb' Ob' Lb'' Ob''.
  destruct (addEq32BE_spec m (mkSlice (off sum + (K - 1 - j) * 4) (len sum - (K - 1 - j) * 4)) b' c)
    as (m' & c' & E & Hc' & H' & F' & V'); [cbn [len]; lia|exact H|exact Hc|].
  exists m', c'. split; [exact E|]. unfold invBE.
  split; [exact H'|]. split; [exact Hc'|]. cbn [off] in *.
  assert (D : val (hdigit m b' 4) 4 = val (fun i => rdigit m1 b0 (4 * j + i)) 4).
  { apply val_ext. intros i Hi. unfold hdigit, rdigit. cbn [off len].
    destruct (Nat.ltb (4 * j + i) (len b0)) eqn:EQ; bools.
    - bcase; [|lia]. rewrite Ob' by lia. rewrite Ob by lia. rewrite F.
      + f_equal. lia.
      + intros X. unfold within in *. cbn [off] in X.
        apply (AP (4 * j + i)%nat); [lia|].
        replace ((4 * j + i) / 4)%nat with j by (apply Nat.div_unique with i; lia). lia.
    - bcase; [lia|reflexivity]. }
  unfold only_changes, within in *. cbn [off] in *.
  split; [|split; [|split]].
  - intros x Hx. rewrite F' by lia. apply F. lia.
  - replace (4 * S j)%nat with (4 * j + 4)%nat by lia. rewrite !val_add, D in *.
    rewrite (val_ext (sd m') (sd m)) by (intros; unfold sd; apply F'; lia).
    rewrite (val_ext (fun i => sd m' (4 * j + i)) (fun i => m' (off sum + (K - 1 - j) * 4 + (3 - i))%nat))
      by (intros; unfold sd; f_equal; lia).
    rewrite (val_ext (fun i => sd m1 (4 * j + i)) (fun i => m (off sum + (K - 1 - j) * 4 + (3 - i))%nat))
      by (intros; unfold sd; symmetry;
          replace (off sum + (4 * K - 1 - (4 * j + i)))%nat
            with (off sum + (K - 1 - j) * 4 + (3 - i))%nat by lia;
          apply F; lia).
    rewrite Nat2N.inj_add, N.pow_add_r.
    change (256 ^ N.of_nat 4) with 4294967296 in *.
    set (X1 := val (fun i => m' (off sum + (K - 1 - j) * 4 + (3 - i))%nat) 4) in *.
    set (X2 := val (fun i => m (off sum + (K - 1 - j) * 4 + (3 - i))%nat) 4) in *.
    set (X3 := val (fun i => rdigit m1 b0 (4 * j + i)) 4) in *.
    set (P := 256 ^ N.of_nat (4 * j)) in *.
    set (Y1 := val (sd m) (4 * j)) in *.
    set (Y2 := val (sd m1) (4 * j)) in *.
    set (Y3 := val (rdigit m1 b0) (4 * j)) in *.
    replace (Y1 + P * X1 + c' * (P * 4294967296)) with (Y1 + P * (X1 + c' * 4294967296)) by lia.
    rewrite V'. lia.
  - lia.
  - intros X. rewrite Ob'' by exact X. apply Ob. lia.
Qed.

Lemma fullBE_spec k : forall j m b c, invBE j m b c -> (j + k = K)%nat ->
  exists k' m' b' c', fullBE k m sum b c = Ret (k', m', b', c')
   /\ invBE (K - k') m' b' c' /\ (k' <= K)%nat /\ (k' = 0 \/ len b' <= 4)%nat.
Proof.
  induction k as [|k IH]; intros j m b c I Hk; cbn [fullBE].
  - exists O, m, b, c. split; [reflexivity|]. replace (K - 0)%nat with j by lia.
    split; [exact I|]. split; [lia|]. auto.
  - bcase.
    + rewrite from_ok by lia. cbn [bind]. rewrite from_ok by lia. cbn [bind].
      destruct (invBE_step j m b c (mkSlice (off b + (len b - 4)) (len b - (len b - 4)))
                 (mkSlice (off b) (len b - 4)) I) as (m' & c' & E1 & I');
        [lia|cbn [len]; lia|reflexivity|reflexivity|reflexivity|].
      replace (K - 1 - j)%nat with k in E1 by lia. rewrite E1.
      cbn [bind]. rewrite upto_ok by lia. cbn [bind].
      destruct (IH (S j) m' _ c' I') as (k2 & m2 & b2 & c2 & E2 & I2 & R2); [lia|].
      exists k2, m2, b2, c2. auto.
    + exists (S k), m, b, c. split; [reflexivity|]. replace (K - S k)%nat with j by lia.
      split; [exact I|]. split; [lia|]. right; lia.
Qed.

Lemma restBE_spec k : forall j m b c, invBE j m b c -> (j + k = K)%nat -> (len b = 0)%nat ->
  exists m' c', restBE k m sum c = Ret (m', c') /\ invBE K m' b c'.
Proof.
  induction k as [|k IH]; intros j m b c I Hk Hb; cbn [restBE].
  - rewrite Nat.add_0_r in Hk. subst j. eauto.
  - rewrite from_ok by lia. cbn [bind].
    destruct (invBE_step j m b c empty b I) as (m' & c' & E1 & I');
      [lia|cbn [len empty]; lia|lia|lia|lia|].
    replace (K - 1 - j)%nat with k in E1 by lia. rewrite E1.
    cbn [bind]. apply (IH (S j) m' b c' I'); [lia|exact Hb].
Qed.
End BE.

(** The law every BE function obeys; [bd m b i] is the i-th digit, from the low
    end, of what is used of [b]. *)
Definition BE_law (n : nat) (bd : mem -> slice -> nat -> N)
    (f : mem -> slice -> slice -> slice -> outcome (mem * N * option error)) : Prop :=
  forall m sum a b, mem_ok m -> (n <= len sum)%nat ->
  apart sum (wide n sum a) b (len b) -> apart sum (n - len a) a (len a) ->
  exists m' c, f m sum a b = Ret (m', c, None) /\ mem_ok m'
  /\ only_changes m m' sum (wide n sum a) /\ c <= 1
  /\ val (fun i => m' (off sum + (n - 1 - i))%nat) n + c * 256 ^ N.of_nat n
     = val (hdigit m a n) n + val (bd m b) n
  /\ (forall i, (n <= i < Nat.min (len sum) (len a))%nat -> m' (off sum + i)%nat = m (off a + i)%nat).

Lemma apart_le s n n' t k k' : (n' <= n)%nat -> (k' <= k)%nat -> apart s n t k -> apart s n' t k'.
Proof. intros H1 H2 A x X1 X2. apply (A x); unfold within in *; lia. Qed.

Lemma addAnyBE_tail K m1 sum b : (4 * K <= len sum)%nat -> mem_ok m1 ->
  (forall i, (i < Nat.min (len b) (4 * K))%nat ->
    ~ (off sum + 4 * (K - i / 4) <= off b + (len b - 1 - i) < off sum + 4 * K)%nat) ->
  exists m' c,
   (let! (k, m, b, carry) := fullBE K m1 sum b 0 in
      let! (k, m, b, carry) :=
        match k with
        | S in32 =>
            if Nat.ltb 0 (len b) then
              let! s := from sum (in32 * 4) in
              let! (m, carry) := addEq32BE m s b carry in
              let! b := upto b 0 in
              Ret (in32, m, b, carry)
            else Ret (k, m, b, carry)
        | O => Ret (k, m, b, carry)
        end in
      restBE k m sum carry) = Ret (m', c)
  /\ mem_ok m' /\ only_changes m1 m' sum (4 * K) /\ c <= 1
  /\ val (sd K sum m') (4 * K) + c * 256 ^ N.of_nat (4 * K)
     = val (sd K sum m1) (4 * K) + val (rdigit m1 b) (4 * K).
Proof.
  intros HK H AP.
  destruct (fullBE_spec K m1 sum b HK AP K 0 m1 b 0) as (k & m2 & b2 & c2 & -> & I2 & Hj & Hk).
  { unfold invBE. split; [exact H|]. split; [lia|]. split; [intros ? _; reflexivity|].
    rewrite Nat.mul_0_r. cbn [val]. split; [lia|]. split; lia. }
  { reflexivity. }
  cbn [bind].
  assert (X : exists k3 m3 b3 c3,
     (match k with
        | S in32 =>
            if Nat.ltb 0 (len b2) then
              let! s := from sum (in32 * 4) in
              let! (m, carry) := addEq32BE m2 s b2 c2 in
              let! b := upto b2 0 in
              Ret (in32, m, b, carry)
            else Ret (k, m2, b2, c2)
        | O => Ret (k, m2, b2, c2)
        end) = Ret (k3, m3, b3, c3) /\ invBE K m1 sum b (K - k3) m3 b3 c3 /\ (k3 <= K)%nat
     /\ (k3 = 0 \/ len b3 = 0)%nat).
  { destruct k as [|k].
    - exists O, m2, b2, c2. split; [reflexivity|]. auto.
    - bcase.
      + rewrite from_ok by lia. cbn [bind].
        destruct (invBE_step K m1 sum b HK AP (K - S k) m2 b2 c2 b2 (mkSlice (off b2) 0) I2)
          as (m3 & c3 & E3 & I3); [lia|lia|lia|cbn [len]; lia|cbn [len]; lia|].
        replace (K - 1 - (K - S k))%nat with k in E3 by lia. rewrite E3.
        cbn [bind]. rewrite upto_ok by lia. cbn [bind].
        eexists k, m3, _, c3. split; [reflexivity|].
        replace (K - k)%nat with (S (K - S k)) by lia. split; [exact I3|].
        split; [lia|right; reflexivity].
      + exists (S k), m2, b2, c2. split; [reflexivity|]. split; [exact I2|]. split; [lia|]. right; lia. }
  destruct X as (k3 & m3 & b3 & c3 & -> & I3 & Hj3 & Hk3). cbn [bind].
  assert (Y : exists m' c', restBE k3 m3 sum c3 = Ret (m', c') /\ invBE K m1 sum b K m' b3 c').
  { destruct Hk3 as [->|Hz].
    - cbn [restBE]. rewrite Nat.sub_0_r in I3. eauto.
    - eapply restBE_spec; eauto. lia. }
  destruct Y as (m' & c' & -> & (A1 & A2 & A3 & A4 & _)).
  rewrite Nat.sub_diag, Nat.mul_0_r, Nat.add_0_r in A3.
  exists m', c'. auto.
Qed.

Lemma rdigit_apart m m1 sum n b k : only_changes m m1 sum n -> apart sum n b (len b) ->
  val (rdigit m1 b) k = val (rdigit m b) k.
Proof.
  intros F AP. apply val_ext. intros i Hi. unfold rdigit. bcase; [|reflexivity].
  apply F. intros X. apply (AP _ X). unfold within. lia.
Qed.
Lemma hdigit_apart m m1 sum n b k j : only_changes m m1 sum n -> apart sum n b (len b) ->
  val (hdigit m1 b j) k = val (hdigit m b j) k.
Proof.
  intros F AP. unfold hdigit. apply (rdigit_apart m m1 sum n); [exact F|].
  intros x X1 X2. apply (AP x X1). unfold within in *. cbn [off len] in *. lia.
Qed.

Lemma only_changes_wide m m' s n n' : (n <= n')%nat -> only_changes m m' s n -> only_changes m m' s n'.
Proof. intros H F x Hx. apply F. unfold within in *. lia. Qed.

Lemma addAnyBE_law K : BE_law (4 * K) rdigit (fun m sum a b => addAnyBE m sum a b (4 * K)).
Proof.
  intros m sum a b H L AP APa. unfold addAnyBE.
  destruct (padBE_spec m sum a (4 * K) L H APa) as (m1 & -> & H1 & F1 & D1 & O1). cbn [bind].
  replace (4 * K / 4)%nat with K by (rewrite Nat.mul_comm, Nat.div_mul; lia).
  replace ((4 * K) mod 4)%nat with 0%nat by (rewrite Nat.mul_comm, Nat.mod_mul; lia).
  destruct (addAnyBE_tail K m1 sum b L H1) as (m' & c & E & H' & F' & C & V).
  { intros i Hi X. apply (AP (off b + (len b - 1 - i))%nat); unfold within, wide in *; lia. }
  destruct (fullBE K m1 sum b 0) as [[[[k2 m2] b2] c2]| |]; cbn [bind] in *; try discriminate.
  destruct (match k2 with O => _ | S _ => _ end) as [[[[k3 m3] b3] c3]| |];
    cbn [bind] in *; try discriminate.
  destruct (restBE k3 m3 sum c3) as [[m4 c4]| |]; cbn [bind] in *; try discriminate.
  inversion E; subst m4 c4. change (Nat.ltb 1 0) with false. change (Nat.ltb 0 0) with false.
  cbn [bind]. exists m', c. split; [reflexivity|]. split; [exact H'|].
  split; [|split; [exact C|split]].
  - eapply only_changes_trans; [exact F1|]. eapply only_changes_wide; [|exact F']. unfold wide; lia.
  - change (fun i => m' (off sum + (4 * K - 1 - i))%nat) with (sd K sum m').
    rewrite V, (rdigit_apart m m1 sum (wide (4 * K) sum a)) by assumption. f_equal. apply val_ext. exact D1.
  - intros i Hi. rewrite <- O1 by exact Hi. apply F'. unfold within. lia.
Qed.

Lemma Add16BE_law : BE_law 2 (fun m b => hdigit m b 2) Add16BE.
Proof.
  intros m sum a b H L AP APa. unfold Add16BE.
  destruct (padBE_spec m sum a 2 L H APa) as (m1 & -> & H1 & F1 & D1 & O1). cbn [bind].
  destruct (addEq16BE_spec m1 sum b 0 L H1) as (m' & c & -> & C & H' & F' & V); [lia|].
  cbn [bind]. exists m', c. split; [reflexivity|]. split; [exact H'|].
  split; [|split; [exact C|split]].
  - eapply only_changes_trans; [exact F1|]. eapply only_changes_wide; [|exact F']. unfold wide; lia.
  - change (2 - 1)%nat with 1%nat in *.
    rewrite V, (hdigit_apart m m1 sum (wide 2 sum a)), N.add_0_r by assumption.
    f_equal. apply val_ext. exact D1.
  - intros i Hi. rewrite <- O1 by exact Hi. apply F'. unfold within. lia.
Qed.
Lemma Add32BE_law : BE_law 4 (fun m b => hdigit m b 4) Add32BE.
Proof.
  intros m sum a b H L AP APa. unfold Add32BE.
  destruct (padBE_spec m sum a 4 L H APa) as (m1 & -> & H1 & F1 & D1 & O1). cbn [bind].
  destruct (addEq32BE_spec m1 sum b 0 L H1) as (m' & c & -> & C & H' & F' & V); [lia|].
  cbn [bind]. exists m', c. split; [reflexivity|]. split; [exact H'|].
  split; [|split; [exact C|split]].
  - eapply only_changes_trans; [exact F1|]. eapply only_changes_wide; [|exact F']. unfold wide; lia.
  - change (4 - 1)%nat with 3%nat in *.
    rewrite V, (hdigit_apart m m1 sum (wide 4 sum a)), N.add_0_r by assumption.
    f_equal. apply val_ext. exact D1.
  - intros i Hi. rewrite <- O1 by exact Hi. apply F'. unfold within. lia.
Qed.

(** ** Function tables *)

Lemma le_functions_law n f : In (n, f) le_functions -> LE_law n f /\ (0 < n)%nat.
Proof.
  unfold le_functions. cbn [In]. intros H.
  repeat (destruct H as [H|H]; [inversion H; subst; clear H; (split; [|lia])|]); try contradiction.
  - apply Add16LE_law.
  - apply Add32LE_law.
  - apply (addAnyLE_law 2); lia.
  - apply (addAnyLE_law 4); lia.
  - apply (addAnyLE_law 8); lia.
  - apply (addAnyLE_law 16); lia.
Qed.

(** Which digits of b a BE function uses. *)
Definition bdig (n : nat) (m : mem) (b : slice) : nat -> N :=
  if Nat.leb n 4 then hdigit m b n else rdigit m b.

Lemma be_functions_law n f : In (n, f) be_functions -> BE_law n (bdig n) f /\ (0 < n)%nat.
Proof.
  unfold be_functions. cbn [In]. intros H.
  repeat (destruct H as [H|H]; [inversion H; subst; clear H; (split; [|lia])|]); try contradiction.
  - apply Add16BE_law.
  - apply Add32BE_law.
  - apply (addAnyBE_law 2); lia.
  - apply (addAnyBE_law 4); lia.
  - apply (addAnyBE_law 8); lia.
  - apply (addAnyBE_law 16); lia.
Qed.

(** ** From digit values to the specification *)

Lemma content_val m s n : (n <= len s)%nat ->
  le_value (firstn n (content m s)) = val (fun i => m (off s + i)%nat) n.
Proof.
  intros H. rewrite content_firstn by exact H. unfold content. cbn [off len]. apply le_value_map.
Qed.
Lemma content_bval m s n : (n <= len s)%nat ->
  be_value (firstn n (content m s)) = val (fun i => m (off s + (n - 1 - i))%nat) n.
Proof.
  intros H. rewrite content_firstn by exact H. unfold content, be_value. cbn [off len].
  rewrite rev_map_seq, le_value_map. apply val_ext. intros i Hi. f_equal.
Qed.

Lemma sum_split W v c T : v < W -> v + c * W = T -> c = T / W /\ v = T mod W.
Proof.
  intros Hv E. assert (W <> 0) by lia.
  split; [apply N.div_unique with v|apply N.mod_unique with c]; lia.
Qed.

Lemma le_add n f m sum a b : In (n, f) le_functions -> mem_ok m -> (n <= len sum)%nat ->
  apart sum n b (Nat.min (len b) n) -> ~ (off sum = off a /\ 0 < len a < n)%nat ->
  let T := le_value (firstn n (content m a)) + le_value (firstn n (content m b)) in
  let W := 256 ^ N.of_nat n in
  exists m', f m sum a b = Ret (m', T / W, None) /\ T / W <= 1 /\ mem_ok m'
  /\ le_value (firstn n (content m' sum)) = T mod W /\ only_changes m m' sum n.
Proof.
  intros Hf H L AP NA T W. destruct (le_functions_law n f Hf) as [Law _].
  destruct (Law m sum a b H L AP NA) as (m' & c & E & H' & F & C & V).
  subst T. rewrite !val_digit.
  destruct (sum_split W _ c _ ltac:(apply val_lt; intros; apply H') V) as [Ec Ev].
  exists m'. rewrite (content_val m' sum n L). rewrite <- Ec. auto.
Qed.

Lemma hdigit_value m a n : val (hdigit m a n) n = be_value (firstn n (content m a)).
Proof.
  unfold hdigit.
  replace (firstn n (content m a)) with (content m (mkSlice (off a) (Nat.min (len a) n))).
  - symmetry. apply be_value_rdigit. cbn [len]. lia.
  - unfold content. cbn [off len]. rewrite firstn_map, firstn_seq, Nat.min_comm. reflexivity.
Qed.

Lemma rdigit_value m b n : val (rdigit m b) n = be_value (lastn n (content m b)).
Proof.
  destruct (Nat.le_gt_cases n (len b)) as [H|H].
  - symmetry. apply rdigit_lastn, H.
  - unfold lastn. rewrite content_length. replace (len b - n)%nat with 0%nat by lia. cbn [skipn].
    symmetry. apply be_value_rdigit. lia.
Qed.

(** The exact behaviour of the BE functions, over-long operands included. *)
Lemma be_add_exact n f m sum a b : In (n, f) be_functions -> mem_ok m -> (n <= len sum)%nat ->
  let w := Nat.max n (Nat.min (len sum) (len a)) in
  apart sum w b (len b) -> apart sum (n - len a) a (len a) ->
  let B := if Nat.leb n 4 then firstn n (content m b) else lastn n (content m b) in
  let T := be_value (firstn n (content m a)) + be_value B in
  let W := 256 ^ N.of_nat n in
  exists m', f m sum a b = Ret (m', T / W, None) /\ T / W <= 1 /\ mem_ok m'
  /\ be_value (firstn n (content m' sum)) = T mod W /\ only_changes m m' sum w
  /\ (forall i, (n <= i < w)%nat -> m' (off sum + i)%nat = m (off a + i)%nat).
Proof.
  intros Hf H L w AP APa B T W. destruct (be_functions_law n f Hf) as [Law _].
  destruct (Law m sum a b H L AP APa) as (m' & c & E & H' & F & C & V & O).
  subst T.
  assert (EB : val (bdig n m b) n = be_value B).
  { unfold bdig, B. destruct (Nat.leb n 4); [apply hdigit_value|apply rdigit_value]. }
  rewrite EB, hdigit_value in V.
  destruct (sum_split W _ c _ ltac:(apply val_lt; intros; apply H') V) as [Ec Ev].
  exists m'. rewrite (content_bval m' sum n L). rewrite <- Ec. split; [exact E|]. split; [exact C|]. split; [exact H'|].
  split; [exact Ev|]. split; [exact F|]. intros i Hi. apply O. subst w. lia.
Qed.

Lemma be_add n f m sum a b : In (n, f) be_functions -> mem_ok m -> (n <= len sum)%nat ->
  (len a <= n)%nat -> (len b <= n)%nat -> apart sum n a (len a) -> apart sum n b (len b) ->
  let T := be_value (content m a) + be_value (content m b) in
  let W := 256 ^ N.of_nat n in
  exists m', f m sum a b = Ret (m', T / W, None) /\ T / W <= 1 /\ mem_ok m'
  /\ be_value (firstn n (content m' sum)) = T mod W /\ only_changes m m' sum n.
Proof.
  intros Hf H L La Lb Aa Ab T W.
  pose proof (be_add_exact n f m sum a b Hf H L) as X. cbv zeta in X.
  replace (Nat.max n (Nat.min (len sum) (len a))) with n in X by lia.
  assert (Ea : firstn n (content m a) = content m a)
    by (apply firstn_all2; rewrite content_length; exact La).
  assert (Eb : firstn n (content m b) = content m b)
    by (apply firstn_all2; rewrite content_length; exact Lb).
  assert (Eb' : lastn n (content m b) = content m b).
  { unfold lastn. rewrite content_length. replace (len b - n)%nat with 0%nat by lia. reflexivity. }
  rewrite Ea, Eb, Eb' in X. replace (if Nat.leb n 4 then _ else _) with (content m b) in X
    by (destruct (Nat.leb n 4); reflexivity).
  destruct X as (m' & E & C & H' & V & F & _); [exact Ab|eapply apart_le; [| |exact Aa]; lia|].
  exists m'. auto.
Qed.

(** ** Too small a destination *)

Lemma short_le n f m sum a b : In (n, f) le_functions -> (len sum < n)%nat ->
  f m sum a b = Ret (m, 0, Some NotEnoughSpace).
Proof.
  unfold le_functions. cbn [In]. intros H L.
  repeat (destruct H as [H|H]; [inversion H; subst; clear H|]); try contradiction;
    unfold Add16LE, Add32LE, Add64LE, Add128LE, Add256LE, Add512LE, addAnyLE;
    rewrite padLE_short by exact L; reflexivity.
Qed.
Lemma short_be n f m sum a b : In (n, f) be_functions -> (len sum < n)%nat ->
  f m sum a b = Ret (m, 0, Some NotEnoughSpace).
Proof.
  unfold be_functions. cbn [In]. intros H L.
  repeat (destruct H as [H|H]; [inversion H; subst; clear H|]); try contradiction;
    unfold Add16BE, Add32BE, Add64BE, Add128BE, Add256BE, Add512BE, addAnyBE;
    rewrite padBE_short by exact L; reflexivity.
Qed.
Lemma short_platform p n f m sum a b : In (n, f) (platform_functions p) -> (len sum < n)%nat ->
  (4 < n)%nat -> f m sum a b = Ret (m, 0, Some NotEnoughSpace).
Proof.
  intros H L N4. destruct p.
  - apply (short_le n f); [|exact L]. unfold platform_functions in H. cbn [In] in H.
    destruct H as [H|[H|H]]; try (inversion H; subst; lia). unfold le_functions. cbn [In]. auto.
  - apply (short_be n f); [|exact L]. unfold platform_functions in H. cbn [In] in H.
    destruct H as [H|[H|H]]; try (inversion H; subst; lia). unfold be_functions. cbn [In]. auto.
Qed.
Lemma short_platform_panic p n f m sum a b : In (n, f) (platform_functions p) -> (len sum < n)%nat ->
  (n <= 4)%nat -> f m sum a b = Panic.
Proof.
  intros H L N4. unfold platform_functions in H. cbn [In] in H.
  destruct H as [H|[H|H]]; [| |repeat (destruct H as [H|H]; [inversion H; subst; lia|]); contradiction].
  - inversion H; subst. unfold Add16. destruct p.
    + rewrite padLE_short by exact L. cbn [bind]. unfold addEq16LE, le_uint16.
      rewrite load_panic by lia. reflexivity.
    + rewrite padBE_short by exact L. cbn [bind]. unfold addEq16BE, be_uint16.
      rewrite load_panic by lia. reflexivity.
  - inversion H; subst. unfold Add32. destruct p.
    + rewrite padLE_short by exact L. cbn [bind]. unfold addEq32LE, le_uint32.
      rewrite load_panic by lia. reflexivity.
    + rewrite padBE_short by exact L. cbn [bind]. unfold addEq32BE, be_uint32.
      rewrite load_panic by lia. reflexivity.
Qed.

(** ** Platform functions *)

Lemma padLE_none m dst src n : (n <= len dst)%nat -> exists m1, padLE m dst src n = Ret (m1, None).
Proof.
  intros L. unfold padLE. bcase; [lia|]. rewrite if_min. bcase; [eauto|].
  rewrite upto_ok by lia. cbn [bind]. bcase; [|eauto]. rewrite sub_ok by lia. cbn [bind].
  destruct (Zero_spec (copy m dst (mkSlice (off src) (Nat.min (len src) n)))
    (mkSlice (off dst + Nat.min (len src) n) (n - Nat.min (len src) n))) as (m' & -> & _).
  cbn [bind]. eauto.
Qed.
Lemma padBE_none m dst src n : (n <= len dst)%nat -> exists m1, padBE m dst src n = Ret (m1, None).
Proof.
  intros L. unfold padBE. bcase; [lia|]. rewrite if_min. bcase.
  - rewrite sub_ok by lia. cbn [bind].
    destruct (Zero_spec m (mkSlice (off dst + 0) (n - Nat.min (len src) n - 0))) as (m' & -> & _).
    cbn [bind]. rewrite from_ok by lia. cbn [bind]. eauto.
  - cbn [bind]. rewrite from_ok by lia. cbn [bind]. eauto.
Qed.

Definition native_functions (p : byte_order) : list (nat * add_fn) :=
  match p with LittleEndian => le_functions | BigEndian => be_functions end.

Lemma platform_native p k n f g m sum a b :
  nth_error (platform_functions p) k = Some (n, f) -> nth_error (native_functions p) k = Some (n, g) ->
  (n <= len sum)%nat -> f m sum a b = g m sum a b.
Proof.
  intros Hf Hg L. unfold native_functions in Hg. destruct p;
  destruct k as [|[|[|[|[|[|k]]]]]];
  cbn [nth_error platform_functions le_functions be_functions] in Hf, Hg;
  try (destruct k; discriminate);
  inversion Hf; inversion Hg; subst; clear Hf Hg; try reflexivity.
  - unfold Add16, Add16LE. destruct (padLE_none m sum a 2 L) as (m1 & ->). reflexivity.
  - unfold Add32, Add32LE. destruct (padLE_none m sum a 4 L) as (m1 & ->). reflexivity.
  - unfold Add16, Add16BE. destruct (padBE_none m sum a 2 L) as (m1 & ->). reflexivity.
  - unfold Add32, Add32BE. destruct (padBE_none m sum a 4 L) as (m1 & ->). reflexivity.
Qed.

(** ** Commutativity *)

Lemma val_inj f g n : (forall i, (i < n)%nat -> f i < 256) -> (forall i, (i < n)%nat -> g i < 256) ->
  val f n = val g n -> forall i, (i < n)%nat -> f i = g i.
Proof.
  induction n as [|n IH]; intros Hf Hg E i Hi; [lia|]. cbn [val] in E.
  assert (A := val_lt f n (fun j Hj => Hf j (Nat.lt_lt_succ_r _ _ Hj))).
  assert (B := val_lt g n (fun j Hj => Hg j (Nat.lt_lt_succ_r _ _ Hj))).
  assert (E1 : f n = g n) by nia. assert (E2 : val f n = val g n) by nia.
  destruct (Nat.eq_dec i n) as [->|Hne]; [exact E1|].
  apply IH; auto. lia.
Qed.

Lemma le_same m m1 m2 sum n : (n <= len sum)%nat -> mem_ok m1 -> mem_ok m2 ->
  only_changes m m1 sum n -> only_changes m m2 sum n ->
  le_value (firstn n (content m1 sum)) = le_value (firstn n (content m2 sum)) -> forall x, m1 x = m2 x.
Proof.
  intros L H1 H2 F1 F2 E x. rewrite !content_val in E by exact L.
  destruct (Nat.lt_ge_cases x (off sum)) as [X|X];
    [rewrite F1, F2; unfold within; try lia; reflexivity|].
  destruct (Nat.lt_ge_cases x (off sum + n)) as [Y|Y];
    [|rewrite F1, F2; unfold within; try lia; reflexivity].
  pose proof (val_inj _ _ n (fun i _ => H1 _) (fun i _ => H2 _) E (x - off sum)) as G.
  cbv beta in G. replace (off sum + (x - off sum))%nat with x in G by lia. apply G. lia.
Qed.

Lemma be_same m m1 m2 sum n : (n <= len sum)%nat -> mem_ok m1 -> mem_ok m2 ->
  only_changes m m1 sum n -> only_changes m m2 sum n ->
  be_value (firstn n (content m1 sum)) = be_value (firstn n (content m2 sum)) -> forall x, m1 x = m2 x.
Proof.
  intros L H1 H2 F1 F2 E x. rewrite !content_bval in E by exact L.
  destruct (Nat.lt_ge_cases x (off sum)) as [X|X];
    [rewrite F1, F2; unfold within; try lia; reflexivity|].
  destruct (Nat.lt_ge_cases x (off sum + n)) as [Y|Y];
    [|rewrite F1, F2; unfold within; try lia; reflexivity].
  pose proof (val_inj _ _ n (fun i _ => H1 _) (fun i _ => H2 _) E (n - 1 - (x - off sum))) as G.
  cbv beta in G. replace (off sum + (n - 1 - (n - 1 - (x - off sum))))%nat with x in G by lia.
  apply G. lia.
Qed.

Lemma apart_not_same sum a n : apart sum n a (len a) -> ~ (off sum = off a /\ 0 < len a < n)%nat.
Proof. intros A [E [H1 H2]]. apply (A (off a)); unfold within; lia. Qed.

Lemma le_commutes n f m sum a b : In (n, f) le_functions -> mem_ok m -> (n <= len sum)%nat ->
  apart sum n a (len a) -> apart sum n b (len b) ->
  exists m1 m2 c, f m sum a b = Ret (m1, c, None) /\ f m sum b a = Ret (m2, c, None)
  /\ forall x, m1 x = m2 x.
Proof.
  intros Hf H L Aa Ab.
  destruct (le_add n f m sum a b Hf H L) as (m1 & E1 & _ & H1 & V1 & F1);
    [eapply apart_le; [| |exact Ab]; lia|apply apart_not_same, Aa|].
  destruct (le_add n f m sum b a Hf H L) as (m2 & E2 & _ & H2 & V2 & F2);
    [eapply apart_le; [| |exact Aa]; lia|apply apart_not_same, Ab|].
  exists m1, m2. eexists. split; [exact E1|]. split; [rewrite E2; do 4 f_equal; apply N.add_comm|].
  apply (le_same m m1 m2 sum n); auto. rewrite V1, V2. f_equal. apply N.add_comm.
Qed.

Lemma be_commutes n f m sum a b : In (n, f) be_functions -> mem_ok m -> (n <= len sum)%nat ->
  (len a <= n)%nat -> (len b <= n)%nat -> apart sum n a (len a) -> apart sum n b (len b) ->
  exists m1 m2 c, f m sum a b = Ret (m1, c, None) /\ f m sum b a = Ret (m2, c, None)
  /\ forall x, m1 x = m2 x.
Proof.
  intros Hf H L La Lb Aa Ab.
  destruct (be_add n f m sum a b Hf H L La Lb Aa Ab) as (m1 & E1 & _ & H1 & V1 & F1).
  destruct (be_add n f m sum b a Hf H L Lb La Ab Aa) as (m2 & E2 & _ & H2 & V2 & F2).
  exists m1, m2. eexists. split; [exact E1|]. split; [rewrite E2; do 4 f_equal; apply N.add_comm|].
  apply (be_same m m1 m2 sum n); auto. rewrite V1, V2. f_equal. apply N.add_comm.
Qed.

(** ** Over-long operands, LE *)

Lemma firstn_content_long m a n : (n <= len a)%nat ->
  firstn n (content m (mkSlice (off a) n)) = firstn n (content m a).
Proof.
  intros H. rewrite (content_firstn m a n H). apply firstn_all2. rewrite content_length. cbn [len]. lia.
Qed.

Lemma le_overlong n f m sum a b : In (n, f) le_functions -> mem_ok m ->
  (n <= len sum)%nat -> (n <= len a)%nat -> (n <= len b)%nat -> apart sum n b n ->
  exists m1 m2 c, f m sum a b = Ret (m1, c, None)
  /\ f m (mkSlice (off sum) n) (mkSlice (off a) n) (mkSlice (off b) n) = Ret (m2, c, None)
  /\ (forall x, m1 x = m2 x) /\ only_changes m m1 sum n.
Proof.
  intros Hf H Ls La Lb AP.
  destruct (le_add n f m sum a b Hf H Ls) as (m1 & E1 & _ & H1 & V1 & F1);
    [eapply apart_le; [| |exact AP]; lia|lia|].
  destruct (le_add n f m (mkSlice (off sum) n) (mkSlice (off a) n) (mkSlice (off b) n) Hf H)
    as (m2 & E2 & _ & H2 & V2 & F2); [cbn [len]; lia| |cbn [len]; lia|].
  { intros x X1 X2. apply (AP x); unfold within in *; cbn [off len] in *; lia. }
  rewrite (firstn_content_long m a n La), (firstn_content_long m b n Lb) in E2, V2.
  rewrite (firstn_content_long m2 sum n Ls) in V2.
  exists m1, m2. eexists. split; [exact E1|]. split; [exact E2|]. split; [|exact F1].
  apply (le_same m m1 m2 sum n); auto. rewrite V1, V2. reflexivity.
Qed.

(** ** In place *)

Lemma le_inplace n f m x b : In (n, f) le_functions -> mem_ok m -> (n <= len x)%nat ->
  apart x n b (Nat.min (len b) n) ->
  let T := le_value (firstn n (content m x)) + le_value (firstn n (content m b)) in
  exists m', f m x x b = Ret (m', T / 256 ^ N.of_nat n, None)
  /\ le_value (firstn n (content m' x)) = T mod 256 ^ N.of_nat n /\ only_changes m m' x n.
Proof.
  intros Hf H L AP T. destruct (le_add n f m x x b Hf H L AP) as (m' & E & _ & _ & V & F); [lia|].
  exists m'. auto.
Qed.

Lemma be_inplace n f m x b : In (n, f) be_functions -> mem_ok m -> (n <= len x)%nat ->
  (len b <= n)%nat -> apart x (len x) b (len b) ->
  let T := be_value (firstn n (content m x)) + be_value (content m b) in
  exists m', f m x x b = Ret (m', T / 256 ^ N.of_nat n, None)
  /\ be_value (firstn n (content m' x)) = T mod 256 ^ N.of_nat n /\ only_changes m m' x n.
Proof.
  intros Hf H L Lb AP T.
  pose proof (be_add_exact n f m x x b Hf H L) as X. cbv zeta in X.
  replace (Nat.max n (Nat.min (len x) (len x))) with (len x) in X by lia.
  destruct X as (m' & E & C & H' & V & F & O); [exact AP|intros ? ? ?; unfold within in *; lia|].
  assert (EB : (if Nat.leb n 4 then firstn n (content m b) else lastn n (content m b)) = content m b).
  { destruct (Nat.leb n 4); [apply firstn_all2; rewrite content_length; exact Lb|].
    unfold lastn. rewrite content_length. replace (len b - n)%nat with 0%nat by lia. reflexivity. }
  rewrite EB in E, V. exists m'. split; [exact E|]. split; [exact V|].
  intros y Hy. unfold within in *. destruct (Nat.lt_ge_cases y (off x + len x)) as [Y|Y].
  - destruct (Nat.lt_ge_cases y (off x)) as [Z|Z]; [apply F; unfold within; lia|].
    replace y with (off x + (y - off x))%nat by lia. apply O. lia.
  - apply F. unfold within. lia.
Qed.

(** Prefix aliasing, LE: the stale rest of the destination is added too. *)
Lemma le_prefix n f m x k b : In (n, f) le_functions -> mem_ok m -> (n <= len x)%nat ->
  (0 < k < n)%nat -> apart x n b (Nat.min (len b) n) ->
  let T := le_value (firstn n (content m x)) + le_value (firstn n (content m b)) in
  exists m', f m x (mkSlice (off x) k) b = Ret (m', T / 256 ^ N.of_nat n, None)
  /\ le_value (firstn n (content m' x)) = T mod 256 ^ N.of_nat n /\ only_changes m m' x n.
Proof.
  intros Hf H L Hk AP T. destruct (le_inplace n f m x b Hf H L AP) as (m' & E & V & F).
  exists m'. split; [|auto]. subst T. rewrite <- E. clear - Hf L Hk.
  assert (P : padLE m x (mkSlice (off x) k) n = padLE m x x n)
    by (rewrite !padLE_alias by (cbn [len off]; auto; lia); reflexivity).
  unfold le_functions in Hf. cbn [In] in Hf.
  repeat (destruct Hf as [Hf|Hf]; [inversion Hf; subst; clear Hf|]); try contradiction;
    unfold Add16LE, Add32LE, Add64LE, Add128LE, Add256LE, Add512LE, addAnyLE; rewrite P; reflexivity.
Qed.

(** ** Second operand aliased with the destination *)

Lemma le_second_tail n f m m1 x a : In (n, f) le_functions -> (n <= len x)%nat ->
  padLE m x a n = Ret (m1, None) -> mem_ok m1 ->
  exists m' c, f m x a x = Ret (m', c, None) /\ mem_ok m' /\ only_changes m1 m' x n
  /\ val (fun i => m' (off x + i)%nat) n + c * 256 ^ N.of_nat n
     = val (fun i => m1 (off x + i)%nat) n + val (digit m1 x) n.
Proof.
  intros Hf L P H1.
  assert (ANY : forall K, (0 < K)%nat -> n = (4 * K)%nat ->
    exists m' c, addAnyLE m x a x n = Ret (m', c, None) /\ mem_ok m' /\ only_changes m1 m' x n
    /\ val (fun i => m' (off x + i)%nat) n + c * 256 ^ N.of_nat n
     = val (fun i => m1 (off x + i)%nat) n + val (digit m1 x) n).
  { intros K K0 ->. unfold addAnyLE. rewrite P. cbn [bind].
    replace (4 * K / 4)%nat with K by (rewrite Nat.mul_comm, Nat.div_mul; lia).
    replace ((4 * K) mod 4)%nat with 0%nat by (rewrite Nat.mul_comm, Nat.mod_mul; lia).
    destruct (addAnyLE_tail K m1 x x L H1) as (m' & c & E & H' & F' & C & V).
    { intros i Hi X. unfold within in X. pose proof (Nat.mul_div_le i 4). lia. }
    destruct (fullLE K 0 m1 x x 0) as [[[[[k2 m2] j2] b2] c2]| |]; cbn [bind] in *; try discriminate.
    destruct (match k2 with O => _ | S _ => _ end) as [[[[[k3 m3] j3] b3] c3]| |];
      cbn [bind] in *; try discriminate.
    destruct (restLE k3 j3 m3 x c3) as [[[m4 j4] c4]| |]; cbn [bind] in *; try discriminate.
    inversion E; subst m4 c4. change (Nat.ltb 1 0) with false. change (Nat.ltb 0 0) with false.
    cbn [bind]. exists m', c. auto. }
  unfold le_functions in Hf. cbn [In] in Hf.
  repeat (destruct Hf as [Hf|Hf]; [inversion Hf; subst; clear Hf|]); try contradiction.
  - unfold Add16LE. rewrite P. cbn [bind].
    destruct (addEq16LE_spec m1 x x 0 L H1) as (m' & c & -> & C & H' & F' & V); [lia|].
    cbn [bind]. exists m', c. rewrite N.add_0_r in V. auto.
  - unfold Add32LE. rewrite P. cbn [bind].
    destruct (addEq32LE_spec m1 x x 0 L H1) as (m' & c & -> & C & H' & F' & V); [lia|].
    cbn [bind]. exists m', c. rewrite N.add_0_r in V. auto.
  - apply (ANY 2%nat); lia.
  - apply (ANY 4%nat); lia.
  - apply (ANY 8%nat); lia.
  - apply (ANY 16%nat); lia.
Qed.

Lemma le_second n f m x a : In (n, f) le_functions -> mem_ok m -> (n <= len x)%nat ->
  apart x n a (len a) ->
  let T := 2 * le_value (firstn n (content m a)) in
  exists m', f m x a x = Ret (m', T / 256 ^ N.of_nat n, None)
  /\ le_value (firstn n (content m' x)) = T mod 256 ^ N.of_nat n /\ only_changes m m' x n.
Proof.
  intros Hf H L AP T.
  destruct (padLE_spec m x a n L H (apart_not_same x a n AP)) as (m1 & P & H1 & F1 & D1).
  destruct (le_second_tail n f m m1 x a Hf L P H1) as (m' & c & E & H' & F' & V).
  assert (X : val (digit m1 x) n = val (digit m a) n).
  { apply val_ext. intros i Hi. rewrite <- D1 by exact Hi. unfold digit. bcase; [reflexivity|lia]. }
  rewrite X, (val_ext _ (digit m a) n D1) in V.
  subst T. rewrite val_digit.
  replace (2 * val (digit m a) n) with (val (digit m a) n + val (digit m a) n) by lia.
  destruct (sum_split _ _ c _ ltac:(apply val_lt; intros; apply H') V) as [Ec Ev].
  exists m'. rewrite (content_val m' x n L). rewrite <- Ec. split; [exact E|]. split; [exact Ev|].
  eapply only_changes_trans; eassumption.
Qed.

Lemma be_second_tail n f m m1 x a : In (n, f) be_functions -> len x = n ->
  padBE m x a n = Ret (m1, None) -> mem_ok m1 ->
  exists m' c, f m x a x = Ret (m', c, None) /\ mem_ok m' /\ only_changes m1 m' x n
  /\ val (fun i => m' (off x + (n - 1 - i))%nat) n + c * 256 ^ N.of_nat n
     = val (fun i => m1 (off x + (n - 1 - i))%nat) n + val (rdigit m1 x) n.
Proof.
  intros Hf Lx P H1.
  assert (ANY : forall K, (0 < K)%nat -> n = (4 * K)%nat ->
    exists m' c, addAnyBE m x a x n = Ret (m', c, None) /\ mem_ok m' /\ only_changes m1 m' x n
    /\ val (fun i => m' (off x + (n - 1 - i))%nat) n + c * 256 ^ N.of_nat n
     = val (fun i => m1 (off x + (n - 1 - i))%nat) n + val (rdigit m1 x) n).
  { intros K K0 ->. unfold addAnyBE. rewrite P. cbn [bind].
    replace (4 * K / 4)%nat with K by (rewrite Nat.mul_comm, Nat.div_mul; lia).
    replace ((4 * K) mod 4)%nat with 0%nat by (rewrite Nat.mul_comm, Nat.mod_mul; lia).
    destruct (addAnyBE_tail K m1 x x) as (m' & c & E & H' & F' & C & V); [lia|exact H1| |].
    { intros i Hi X. pose proof (Nat.mul_div_le i 4). lia. }
    destruct (fullBE K m1 x x 0) as [[[[k2 m2] b2] c2]| |]; cbn [bind] in *; try discriminate.
    destruct (match k2 with O => _ | S _ => _ end) as [[[[k3 m3] b3] c3]| |];
      cbn [bind] in *; try discriminate.
    destruct (restBE k3 m3 x c3) as [[m4 c4]| |]; cbn [bind] in *; try discriminate.
    inversion E; subst m4 c4. change (Nat.ltb 1 0) with false. change (Nat.ltb 0 0) with false.
    cbn [bind]. exists m', c. auto. }
  assert (HD : val (hdigit m1 x n) n = val (rdigit m1 x) n).
  { apply val_ext. intros i Hi. unfold hdigit, rdigit. cbn [len off].
    replace (Nat.min (len x) n) with (len x) by lia. reflexivity. }
  unfold be_functions in Hf. cbn [In] in Hf.
  repeat (destruct Hf as [Hf|Hf]; [injection Hf as <- <-|]); try contradiction.
  - unfold Add16BE. rewrite P. cbn [bind].
    destruct (addEq16BE_spec m1 x x 0) as (m' & c & -> & C & H' & F' & V); [lia|exact H1|lia|].
    cbn [bind]. exists m', c. rewrite N.add_0_r in V. rewrite <- HD. auto.
  - unfold Add32BE. rewrite P. cbn [bind].
    destruct (addEq32BE_spec m1 x x 0) as (m' & c & -> & C & H' & F' & V); [lia|exact H1|lia|].
    cbn [bind]. exists m', c. rewrite N.add_0_r in V. rewrite <- HD. auto.
  - apply (ANY 2%nat); lia.
  - apply (ANY 4%nat); lia.
  - apply (ANY 8%nat); lia.
  - apply (ANY 16%nat); lia.
Qed.

Lemma be_second n f m x a : In (n, f) be_functions -> mem_ok m -> len x = n -> (len a <= n)%nat ->
  apart x n a (len a) ->
  let T := 2 * be_value (content m a) in
  exists m', f m x a x = Ret (m', T / 256 ^ N.of_nat n, None)
  /\ be_value (content m' x) = T mod 256 ^ N.of_nat n /\ only_changes m m' x n.
Proof.
  intros Hf H Lx La AP T.
  destruct (padBE_spec m x a n) as (m1 & P & H1 & F1 & D1 & _);
    [lia|exact H|eapply apart_le; [| |exact AP]; lia|].
  replace (wide n x a) with n in F1 by (unfold wide; lia).
  destruct (be_second_tail n f m m1 x a Hf Lx P H1) as (m' & c & E & H' & F' & V).
  assert (X : val (rdigit m1 x) n = val (hdigit m a n) n).
  { apply val_ext. intros i Hi. rewrite <- D1 by exact Hi. unfold rdigit. rewrite Lx. bcase; [|lia]. reflexivity. }
  rewrite X, (val_ext _ (hdigit m a n) n D1), hdigit_value in V.
  assert (Ea : firstn n (content m a) = content m a)
    by (apply firstn_all2; rewrite content_length; exact La).
  rewrite Ea in V.
  subst T.
  replace (2 * be_value (content m a)) with (be_value (content m a) + be_value (content m a)) by lia.
  destruct (sum_split _ _ c _ ltac:(apply val_lt; intros; apply H') V) as [Ec Ev].
  exists m'. replace (content m' x) with (firstn n (content m' x))
    by (apply firstn_all2; rewrite content_length; lia).
  rewrite (content_bval m' x n) by lia. rewrite <- Ec. split; [exact E|]. split; [exact Ev|].
  eapply only_changes_trans; eassumption.
Qed.

(** ** XorEq under any overlap *)

Lemma xor_loop_any dst other m0 k : forall i m,
  (i + k <= len dst)%nat -> (i + k <= len other)%nat ->
  (forall x, ~ within dst i x -> m x = m0 x) ->
  (forall j, (j < i)%nat -> exists o, m (off dst + j)%nat = N.lxor (m0 (off dst + j)%nat) o
     /\ (within dst j (off other + j) -> o = m (off other + j)%nat)
     /\ (~ within dst j (off other + j) -> o = m0 (off other + j)%nat)) ->
  exists m', xor_loop k i m dst other = Ret m'
  /\ (forall x, ~ within dst (i + k) x -> m' x = m0 x)
  /\ (forall j, (j < i + k)%nat -> exists o, m' (off dst + j)%nat = N.lxor (m0 (off dst + j)%nat) o
     /\ (within dst j (off other + j) -> o = m' (off other + j)%nat)
     /\ (~ within dst j (off other + j) -> o = m0 (off other + j)%nat)).
Proof.
  induction k as [|k IH]; intros i m H1 H2 F V; cbn [xor_loop].
  - exists m. rewrite Nat.add_0_r in *. auto.
  - rewrite !load_ok by lia. cbn [bind]. rewrite store_ok by lia. cbn [bind].
    destruct (IH (S i) (set m (off dst + i) (N.lxor (m (off dst + i)%nat) (m (off other + i)%nat))))
      as (m' & E & F' & V'); try lia.
    + intros x Hx. unfold set. bcase; [unfold within in *; lia|]. apply F. unfold within in *. lia.
    + intros j Hj. destruct (Nat.eq_dec j i) as [->|Hne].
      * exists (m (off other + i)%nat). rewrite set_same. split; [|split].
        -- f_equal. apply F. unfold within. lia.
        -- intros W. rewrite set_other; [reflexivity|unfold within in W; lia].
        -- intros W. apply F, W.
      * destruct (V j) as (o & EQ & W1 & W2); [lia|]. exists o.
        rewrite set_other by lia. split; [exact EQ|]. split; [|exact W2].
        intros W. rewrite set_other; [apply W1, W|unfold within in W; lia].
    + exists m'. rewrite <- Nat.add_succ_comm. auto.
Qed.

Lemma XorEq_any m dst other :
  let n := Nat.min (len dst) (len other) in
  exists m', XorEq m dst other = Ret (m', n) /\ only_changes m m' dst n
  /\ forall j, (j < n)%nat -> exists o, m' (off dst + j)%nat = N.lxor (m (off dst + j)%nat) o
     /\ (within dst j (off other + j) -> o = m' (off other + j)%nat)
     /\ (~ within dst j (off other + j) -> o = m (off other + j)%nat).
Proof.
  intros n. unfold XorEq.
  replace (if Nat.ltb (len other) (len dst) then len other else len dst) with n
    by (subst n; bcase; lia).
  destruct (xor_loop_any dst other m n 0 m) as (m' & -> & F & V); try (subst n; lia).
  exists m'. split; [reflexivity|]. split; assumption.
Qed.

(** The exact behaviour of the BE functions in place, b of any length. *)
Lemma be_inplace_exact n f m x b : In (n, f) be_functions -> mem_ok m -> (n <= len x)%nat ->
  apart x (len x) b (len b) ->
  let B := if Nat.leb n 4 then firstn n (content m b) else lastn n (content m b) in
  let T := be_value (firstn n (content m x)) + be_value B in
  exists m', f m x x b = Ret (m', T / 256 ^ N.of_nat n, None)
  /\ be_value (firstn n (content m' x)) = T mod 256 ^ N.of_nat n /\ only_changes m m' x n.
Proof.
  intros Hf H L AP B T.
  pose proof (be_add_exact n f m x x b Hf H L) as X. cbv zeta in X.
  replace (Nat.max n (Nat.min (len x) (len x))) with (len x) in X by lia.
  destruct X as (m' & E & C & H' & V & F & O); [exact AP|intros ? ? ?; unfold within in *; lia|].
  exists m'. split; [exact E|]. split; [exact V|].
  intros y Hy. unfold within in *. destruct (Nat.lt_ge_cases y (off x + len x)) as [Y|Y].
  - destruct (Nat.lt_ge_cases y (off x)) as [Z|Z]; [apply F; unfold within; lia|].
    replace y with (off x + (y - off x))%nat by lia. apply O. lia.
  - apply F. unfold within. lia.
Qed.

Lemma short_both n f m sum a b : In (n, f) le_functions \/ In (n, f) be_functions ->
  (len sum < n)%nat -> f m sum a b = Ret (m, 0, Some NotEnoughSpace).
Proof. intros [H|H]; [apply short_le|apply short_be]; exact H. Qed.
