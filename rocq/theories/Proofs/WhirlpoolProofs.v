(** Proofs about package hash/whirlpool. *)
From Verif Require Import Base.Go Base.Mem Base.DigestApi Model.HashBlock Model.WhirlpoolTables Model.Whirlpool
  Spec.CodegenSpec Spec.DigestSpec Spec.WhirlpoolSpec Proofs.Util Proofs.CodegenProofs Proofs.DigestProofs.
Local Open Scope N_scope.

Definition word (x : N) : Prop := x < 2 ^ 64.
Definition words_ok (ws : list N) : Prop := length ws = 8%nat /\ Forall word ws.
Definition bytes_of (ws : list N) : list N := flat_map be64 ws.
Definition block_ok (b : list N) : Prop := length b = 64%nat /\ bytes_ok b.

Ltac eight l L :=
  let L' := fresh in pose proof L as L';
  destruct l as [|? [|? [|? [|? [|? [|? [|? [|? [|]]]]]]]]]; try discriminate L'; clear L'.
Ltac below8 i H :=
  let E := fresh in
  assert (E : (i = 0 \/ i = 1 \/ i = 2 \/ i = 3 \/ i = 4 \/ i = 5 \/ i = 6 \/ i = 7)%nat) by lia;
  destruct E as [->|[->|[->|[->|[->|[->|[->| ->]]]]]]].

(** ** Words as bytes *)

Lemma word_bits x i : word x -> 64 <= i -> N.testbit x i = false.
Proof.
  intros Hx Hi. destruct (N.eq_dec x 0) as [->|Z]; [apply N.bits_0|]. apply N.bits_above_log2.
  apply N.lt_le_trans with 64; [|exact Hi]. apply N.log2_lt_pow2; [lia|exact Hx].
Qed.
Lemma bits_word x : (forall i, 64 <= i -> N.testbit x i = false) -> word x.
Proof.
  intros H. unfold word. destruct (N.eq_dec x 0) as [->|Z]; [reflexivity|].
  apply N.log2_lt_pow2; [lia|]. destruct (N.lt_ge_cases (N.log2 x) 64) as [L|L]; [exact L|].
  specialize (H _ L). rewrite N.bit_log2 in H by exact Z. discriminate.
Qed.
Lemma lxor_word a b : word a -> word b -> word (N.lxor a b).
Proof. intros A B. apply bits_word. intros i H. rewrite N.lxor_spec, !word_bits by assumption. reflexivity. Qed.
Lemma lor_word a b : word a -> word b -> word (N.lor a b).
Proof. intros A B. apply bits_word. intros i H. rewrite N.lor_spec, !word_bits by assumption. reflexivity. Qed.
Lemma shl64_word a k : word (shl64 a k).
Proof. apply N.mod_lt. discriminate. Qed.
Lemma byte_bits b i : is_byte b -> 8 <= i -> N.testbit b i = false.
Proof.
  intros Hx Hi. destruct (N.eq_dec b 0) as [->|Z]; [apply N.bits_0|]. apply N.bits_above_log2.
  apply N.lt_le_trans with 8; [|exact Hi]. apply N.log2_lt_pow2; [lia|exact Hx].
Qed.
Lemma u8_bits x k : N.testbit (u8 x) k = ((k <? 8) && N.testbit x k)%bool.
Proof.
  unfold u8. destruct (N.ltb_spec k 8) as [L|L]; [apply N.mod_pow2_bits_low, L|apply N.mod_pow2_bits_high, L].
Qed.
Lemma u8_byte x : is_byte (u8 x).
Proof. apply N.mod_lt. discriminate. Qed.

Lemma be64_length v : length (be64 v) = 8%nat.
Proof. reflexivity. Qed.
Lemma be64_ok v : bytes_ok (be64 v).
Proof. repeat constructor; apply u8_byte. Qed.
Lemma be64_inj a b : word a -> word b -> be64 a = be64 b -> a = b.
Proof.
  intros A B E. unfold be64 in E. injection E as E7 E6 E5 E4 E3 E2 E1 E0.
  assert (C : forall k, u8 (N.shiftr a k) = u8 (N.shiftr b k) -> forall i, k <= i -> i < k + 8 -> N.testbit a i = N.testbit b i).
  { intros k H i L U. apply (f_equal (fun x => N.testbit x (i - k))) in H. rewrite !u8_bits in H.
    rewrite (proj2 (N.ltb_lt (i - k) 8)) in H by lia. cbn [andb] in H.
    rewrite !N.shiftr_spec in H by lia. replace (i - k + k) with i in H by lia. exact H. }
  apply N.bits_inj. intros i.
  destruct (N.lt_ge_cases i 64) as [L|L]; [|rewrite !word_bits by assumption; reflexivity].
  rewrite <- (N.shiftr_0_r a), <- (N.shiftr_0_r b) in E0.
  destruct (N.lt_ge_cases i 8); [apply (C 0 E0); lia|].
  destruct (N.lt_ge_cases i 16); [apply (C 8 E1); lia|].
  destruct (N.lt_ge_cases i 24); [apply (C 16 E2); lia|].
  destruct (N.lt_ge_cases i 32); [apply (C 24 E3); lia|].
  destruct (N.lt_ge_cases i 40); [apply (C 32 E4); lia|].
  destruct (N.lt_ge_cases i 48); [apply (C 40 E5); lia|].
  destruct (N.lt_ge_cases i 56); [apply (C 48 E6); lia|].
  apply (C 56 E7); lia.
Qed.
Lemma app_inj8 {A} (a b c d : list A) : length a = length b -> a ++ c = b ++ d -> a = b /\ c = d.
Proof.
  revert b. induction a as [|x a IH]; intros [|y b] L E; try discriminate L; [split; [reflexivity|exact E]|].
  cbn [app] in E. injection E as -> E. destruct (IH b) with (2 := E) as [-> ->]; [cbn in L; lia|]. split; reflexivity.
Qed.
Lemma bytes_of_inj a : forall b, Forall word a -> Forall word b -> bytes_of a = bytes_of b -> a = b.
Proof.
  unfold bytes_of. induction a as [|x a IH]; intros [|y b] A B E; try discriminate E; [reflexivity|].
  inversion A; inversion B; subst. cbn [flat_map] in E.
  apply app_inj8 in E; [|reflexivity]. destruct E as [E1 E2]. f_equal; [apply be64_inj; assumption|apply IH; assumption].
Qed.
Lemma bytes_of_ok ws : words_ok ws -> block_ok (bytes_of ws).
Proof.
  intros [L _]. eight ws L. split; [reflexivity|]. unfold bytes_of. cbn [flat_map].
  repeat (apply bytes_ok_app; split; [apply be64_ok|]). constructor.
Qed.

(** ** Exclusive or *)

Lemma xor_bytes_cons x y a b : xor_bytes (x :: a) (y :: b) = N.lxor x y :: xor_bytes a b.
Proof. reflexivity. Qed.
Lemma xor_bytes_comm a : forall b, xor_bytes a b = xor_bytes b a.
Proof.
  induction a as [|x a IH]; intros [|y b]; try reflexivity. rewrite !xor_bytes_cons, N.lxor_comm, IH. reflexivity.
Qed.
Lemma xor_bytes_assoc a : forall b c, xor_bytes a (xor_bytes b c) = xor_bytes (xor_bytes a b) c.
Proof.
  induction a as [|x a IH]; intros [|y b] [|z c]; try reflexivity.
  rewrite !xor_bytes_cons, N.lxor_assoc, IH. reflexivity.
Qed.
Lemma xor_bytes_app a c : forall b d, length a = length b -> xor_bytes (a ++ c) (b ++ d) = xor_bytes a b ++ xor_bytes c d.
Proof.
  induction a as [|x a IH]; intros [|y b] d L; try discriminate L; [reflexivity|].
  cbn [app]. rewrite !xor_bytes_cons, IH by (cbn in L; lia). reflexivity.
Qed.
Lemma xor_bytes_zero n a : length a = n -> xor_bytes a (repeat 0 n) = a.
Proof.
  revert n. induction a as [|x a IH]; intros [|n] L; try discriminate L; [reflexivity|].
  cbn [repeat]. rewrite xor_bytes_cons, N.lxor_0_r, IH by (cbn in L; lia). reflexivity.
Qed.
Lemma u8_lxor a b k : u8 (N.shiftr (N.lxor a b) k) = N.lxor (u8 (N.shiftr a k)) (u8 (N.shiftr b k)).
Proof.
  apply N.bits_inj. intros i. rewrite N.lxor_spec, !u8_bits, !N.shiftr_spec, N.lxor_spec by lia.
  destruct (i <? 8); reflexivity.
Qed.
Lemma be64_lxor a b : be64 (N.lxor a b) = xor_bytes (be64 a) (be64 b).
Proof.
  unfold be64. rewrite !xor_bytes_cons. rewrite !u8_lxor.
  rewrite <- (N.shiftr_0_r (N.lxor a b)), u8_lxor, !N.shiftr_0_r. reflexivity.
Qed.
Definition lxors (a b : list N) : list N := map (fun p => N.lxor (fst p) (snd p)) (combine a b).
Lemma bytes_of_lxors a : forall b, bytes_of (lxors a b) = xor_bytes (bytes_of a) (bytes_of b) \/ length a <> length b.
Proof.
  induction a as [|x a IH]; intros [|y b]; [left; reflexivity|right; discriminate..|].
  destruct (IH b) as [E|E]; [left|right; cbn; lia].
  change (lxors (x :: a) (y :: b)) with (N.lxor x y :: lxors a b). unfold bytes_of in *. cbn [flat_map].
  rewrite E, be64_lxor, xor_bytes_app by reflexivity. reflexivity.
Qed.
Lemma bytes_of_xor a b : words_ok a -> words_ok b -> bytes_of (lxors a b) = xor_bytes (bytes_of a) (bytes_of b).
Proof. intros [A _] [B _]. destruct (bytes_of_lxors a b); [assumption|lia]. Qed.
Lemma lxors_ok a b : words_ok a -> words_ok b -> words_ok (lxors a b).
Proof.
  intros [A FA] [B FB]. eight a A. eight b B. split; [reflexivity|].
  repeat match goal with H : Forall _ (_ :: _) |- _ => inversion H; subst; clear H end.
  repeat constructor; apply lxor_word; assumption.
Qed.

(** ** Bytes as words *)

Definition word_of (b0 b1 b2 b3 b4 b5 b6 b7 : N) : N :=
  N.lor (N.lor (N.lor (N.lor (N.lor (N.lor (N.lor
    (shl64 b0 56) (shl64 b1 48)) (shl64 b2 40)) (shl64 b3 32)) (shl64 b4 24)) (shl64 b5 16)) (shl64 b6 8)) b7.
Lemma shl_bit b s o k : is_byte b -> k < 8 -> s <= 56 -> s = o \/ o + 8 <= s \/ s + 8 <= o -> o <= 56 ->
  N.testbit (shl64 b s) (k + o) = if s =? o then N.testbit b k else false.
Proof.
  intros B K S D O. unfold shl64, u64. rewrite N.mod_pow2_bits_low by lia.
  destruct (N.eqb_spec s o) as [->|Ne].
  - rewrite N.shiftl_spec_high by lia. f_equal. lia.
  - destruct D as [D|[D|D]]; [contradiction|rewrite N.shiftl_spec_low by lia; reflexivity|].
    rewrite N.shiftl_spec_high by lia. apply byte_bits; [exact B|lia].
Qed.
Lemma be64_word_of b0 b1 b2 b3 b4 b5 b6 b7 : bytes_ok [b0; b1; b2; b3; b4; b5; b6; b7] ->
  be64 (word_of b0 b1 b2 b3 b4 b5 b6 b7) = [b0; b1; b2; b3; b4; b5; b6; b7].
Proof.
  intros H. unfold bytes_ok in H. repeat match goal with H : Forall _ (_ :: _) |- _ => inversion H; subst; clear H end.
  assert (T : b7 = shl64 b7 0).
  { unfold shl64, u64. rewrite N.shiftl_0_r, N.mod_small; [reflexivity|].
    match goal with H : is_byte b7 |- _ => unfold is_byte in H; apply N.lt_trans with 256; [exact H|reflexivity] end. }
  assert (C : forall o, o <= 56 -> o = 0 \/ o = 8 \/ o = 16 \/ o = 24 \/ o = 32 \/ o = 40 \/ o = 48 \/ o = 56 ->
     forall k, N.testbit (u8 (N.shiftr (word_of b0 b1 b2 b3 b4 b5 b6 b7) o)) k =
      ((k <? 8) && (if 56 =? o then N.testbit b0 k else if 48 =? o then N.testbit b1 k else if 40 =? o then N.testbit b2 k else
        if 32 =? o then N.testbit b3 k else if 24 =? o then N.testbit b4 k else if 16 =? o then N.testbit b5 k else
        if 8 =? o then N.testbit b6 k else N.testbit b7 k))%bool).
  { intros o O D k. rewrite u8_bits. destruct (N.ltb_spec k 8) as [L|L]; [|reflexivity]. cbn [andb].
    rewrite N.shiftr_spec by lia. unfold word_of. rewrite T at 1. rewrite !N.lor_spec.
    rewrite !shl_bit by (assumption || lia).
    destruct D as [->|[->|[->|[->|[->|[->|[->| ->]]]]]]]; cbn [N.eqb Pos.eqb orb]; rewrite ?orb_false_r; reflexivity. }
  assert (B : forall o b, o <= 56 -> o = 0 \/ o = 8 \/ o = 16 \/ o = 24 \/ o = 32 \/ o = 40 \/ o = 48 \/ o = 56 -> is_byte b ->
     (if 56 =? o then b0 else if 48 =? o then b1 else if 40 =? o then b2 else
        if 32 =? o then b3 else if 24 =? o then b4 else if 16 =? o then b5 else
        if 8 =? o then b6 else b7) = b ->
     u8 (N.shiftr (word_of b0 b1 b2 b3 b4 b5 b6 b7) o) = b).
  { intros o b O D Hb E. apply N.bits_inj. intros k. rewrite C by assumption.
    transitivity ((k <? 8) && N.testbit b k)%bool.
    - f_equal. rewrite <- E. destruct D as [->|[->|[->|[->|[->|[->|[->| ->]]]]]]]; reflexivity.
    - destruct (N.ltb_spec k 8) as [L|L]; [reflexivity|]. cbn [andb]. symmetry. apply byte_bits; assumption. }
  unfold be64. rewrite <- (N.shiftr_0_r (word_of b0 b1 b2 b3 b4 b5 b6 b7)) at 8.
  rewrite (B 56 b0), (B 48 b1), (B 40 b2), (B 32 b3), (B 24 b4), (B 16 b5), (B 8 b6), (B 0 b7) by (assumption || lia || reflexivity).
  reflexivity.
Qed.
Lemma word_of_word b0 b1 b2 b3 b4 b5 b6 b7 : is_byte b7 -> word (word_of b0 b1 b2 b3 b4 b5 b6 b7).
Proof.
  intros B. unfold word_of. repeat apply lor_word; try apply shl64_word.
  unfold word, is_byte in *. apply N.lt_trans with 256; [exact B|reflexivity].
Qed.

(** The words of a block. *)
Definition words_at (b : list N) (i : nat) : N :=
  word_of (nth (i * 8) b 0) (nth (i * 8 + 1) b 0) (nth (i * 8 + 2) b 0) (nth (i * 8 + 3) b 0)
    (nth (i * 8 + 4) b 0) (nth (i * 8 + 5) b 0) (nth (i * 8 + 6) b 0) (nth (i * 8 + 7) b 0).
Definition words_of (b : list N) : list N := map (words_at b) (seq 0 8).

Lemma idx_nth0 (l : list N) i : (i < length l)%nat -> idx l i = Ret (nth i l 0).
Proof. intros H. unfold idx. rewrite (nth_error_nth' l 0 H). reflexivity. Qed.
Lemma load_ok b i : length b = 64%nat -> (i < 8)%nat -> load b i = Ret (words_at b i).
Proof. intros L H. unfold load. rewrite !idx_nth0 by lia. reflexivity. Qed.
Lemma nth_byte b i : bytes_ok b -> is_byte (nth i b 0).
Proof.
  intros B. destruct (Nat.lt_ge_cases i (length b)) as [L|L].
  - unfold bytes_ok in B. rewrite Forall_forall in B. apply B, nth_In, L.
  - rewrite nth_overflow by exact L. reflexivity.
Qed.
Lemma be64_words_at b i : bytes_ok b -> be64 (words_at b i) =
  [nth (i * 8) b 0; nth (i * 8 + 1) b 0; nth (i * 8 + 2) b 0; nth (i * 8 + 3) b 0;
   nth (i * 8 + 4) b 0; nth (i * 8 + 5) b 0; nth (i * 8 + 6) b 0; nth (i * 8 + 7) b 0].
Proof. intros B. apply be64_word_of. repeat (constructor; [apply nth_byte, B|]). constructor. Qed.
Lemma bytes_of_words_of b : block_ok b -> bytes_of (words_of b) = b.
Proof.
  intros [L B]. unfold words_of. cbn [map seq bytes_of flat_map]. rewrite !be64_words_at by exact B.
  do 64 (destruct b as [|? b]; [discriminate L|]). destruct b; [reflexivity|discriminate L].
Qed.
Lemma words_of_ok b : bytes_ok b -> words_ok (words_of b).
Proof.
  intros B. split; [reflexivity|]. unfold words_of. cbn [map seq].
  repeat (constructor; [apply word_of_word, nth_byte, B|]). constructor.
Qed.
Lemma words_of_bytes_of ws : words_ok ws -> words_of (bytes_of ws) = ws.
Proof.
  intros H. pose proof (bytes_of_ok ws H) as B. apply bytes_of_inj; [apply words_of_ok, B|apply H|].
  apply bytes_of_words_of, B.
Qed.

(** ** The tables *)

Definition row (t : nat) (x : N) : list N := map (fun j => gmul (circ t j) (S_box x)) (seq 0 8).
Definition entry (t : nat) (x : N) : N := nth (256 * t + N.to_nat x) ct 0.
Definition same (a b : list N) : bool := if list_eq_dec N.eq_dec a b then true else false.
Lemma same_eq a b : same a b = true -> a = b.
Proof. unfold same. destruct (list_eq_dec N.eq_dec a b); [trivial|discriminate]. Qed.
Definition rows_ok : bool :=
  forallb (fun t => forallb (fun x => same (be64 (entry t x)) (row t x) && (entry t x <? 2 ^ 64))%bool (below 256)) (seq 0 8).
Lemma rows_checked : rows_ok = true.
Proof. vm_compute. reflexivity. Qed.
Lemma ct_length : length ct = 2048%nat.
Proof. reflexivity. Qed.
(** Keep conversion from looking into the table. *)
Local Opaque ct same.
Lemma entry_row t x : (t < 8)%nat -> x < 256 -> be64 (entry t x) = row t x /\ word (entry t x).
Proof.
  intros Ht Hx. pose proof rows_checked as R. unfold rows_ok in R. rewrite forallb_forall in R.
  specialize (R t (proj2 (in_seq 8 0 t) ltac:(lia))). pose proof (sweep 256 _ R x Hx) as P. cbv beta in P.
  apply andb_prop in P. destruct P as [P Q]. split; [apply same_eq, P|apply N.ltb_lt, Q].
Qed.
Lemma look_ok t w k : (t < 8)%nat -> look (256 * N.of_nat t) w k = Ret (entry t (u8 (N.shiftr w k))).
Proof.
  intros Ht. unfold look, entry. change 0xff with (N.ones 8). rewrite N.land_ones.
  change (N.shiftr w k mod 2 ^ 8) with (u8 (N.shiftr w k)). pose proof (u8_byte (N.shiftr w k)) as B. unfold is_byte in B.
  replace (256 * N.of_nat t) with (N.shiftl (N.of_nat t) 8) by (rewrite N.shiftl_mul_pow2; change (2 ^ 8) with 256; lia).
  rewrite lor_shiftl_add by exact B. change (2 ^ 8) with 256.
  replace (N.to_nat (N.of_nat t * 256 + u8 (N.shiftr w k))) with (256 * t + N.to_nat (u8 (N.shiftr w k)))%nat by lia.
  apply idx_nth0. rewrite ct_length. lia.
Qed.

(** ** Mixing *)

Local Opaque entry.
Definition from (i t : nat) : nat := ((i + 8 - t) mod 8)%nat.
Definition part (v : list N) (i t : nat) : N := entry t (u8 (N.shiftr (nth (from i t) v 0) (56 - 8 * N.of_nat t))).
Definition mixv (v : list N) (i : nat) : N :=
  N.lxor (N.lxor (N.lxor (N.lxor (N.lxor (N.lxor (N.lxor
    (part v i 0) (part v i 1)) (part v i 2)) (part v i 3)) (part v i 4)) (part v i 5)) (part v i 6)) (part v i 7).
Lemma mixed_ok v i : length v = 8%nat -> (i < 8)%nat -> mixed v i = Ret (mixv v i).
Proof.
  intros L H. unfold mixed.
  assert (B : forall t : nat, (t < 8)%nat -> back i (Z.of_nat t) = from i t).
  { intros t Ht. below8 i H; below8 t Ht; reflexivity. }
  assert (I : forall t : nat, (t < 8)%nat -> idx v (back i (Z.of_nat t)) = Ret (nth (from i t) v 0)).
  { intros t Ht. rewrite B by exact Ht. apply idx_nth0. rewrite L. apply Nat.mod_upper_bound. lia. }
  assert (I0 : idx v i = Ret (nth (from i 0) v 0)).
  { rewrite <- I by lia. f_equal. below8 i H; reflexivity. }
  rewrite I0. cbn [bind].
  pose proof (I 1%nat ltac:(lia)) as I1. pose proof (I 2%nat ltac:(lia)) as I2. pose proof (I 3%nat ltac:(lia)) as I3.
  pose proof (I 4%nat ltac:(lia)) as I4. pose proof (I 5%nat ltac:(lia)) as I5. pose proof (I 6%nat ltac:(lia)) as I6.
  pose proof (I 7%nat ltac:(lia)) as I7.
  cbn [Z.of_nat Pos.of_succ_nat Pos.succ] in I1, I2, I3, I4, I5, I6, I7.
  rewrite (look_ok 0 _ 56 ltac:(lia) : look 0 _ 56 = _). cbn [bind]. rewrite I1. cbn [bind].
  rewrite (look_ok 1 _ 48 ltac:(lia) : look 256 _ 48 = _). cbn [bind]. rewrite I2. cbn [bind].
  rewrite (look_ok 2 _ 40 ltac:(lia) : look 512 _ 40 = _). cbn [bind]. rewrite I3. cbn [bind].
  rewrite (look_ok 3 _ 32 ltac:(lia) : look 768 _ 32 = _). cbn [bind]. rewrite I4. cbn [bind].
  rewrite (look_ok 4 _ 24 ltac:(lia) : look 1024 _ 24 = _). cbn [bind]. rewrite I5. cbn [bind].
  rewrite (look_ok 5 _ 16 ltac:(lia) : look 1280 _ 16 = _). cbn [bind]. rewrite I6. cbn [bind].
  rewrite (look_ok 6 _ 8 ltac:(lia) : look 1536 _ 8 = _). cbn [bind]. rewrite I7. cbn [bind].
  rewrite (look_ok 7 _ 0 ltac:(lia) : look 1792 _ 0 = _). cbn [bind]. reflexivity.
Qed.
Lemma part_row v i t : (t < 8)%nat -> be64 (part v i t) = row t (u8 (N.shiftr (nth (from i t) v 0) (56 - 8 * N.of_nat t))) /\ word (part v i t).
Proof. intros H. apply entry_row; [exact H|apply u8_byte]. Qed.
Lemma mixv_word v i : word (mixv v i).
Proof. unfold mixv. repeat apply lxor_word; apply part_row; lia. Qed.

Lemma cell_matrix f i j : (i < 8)%nat -> (j < 8)%nat -> cell (matrix f) i j = f i j.
Proof. intros Hi Hj. below8 i Hi; below8 j Hj; reflexivity. Qed.
Lemma cell_map f (a : list N) i j : length a = 64%nat -> (i < 8)%nat -> (j < 8)%nat -> cell (map f a) i j = f (cell a i j).
Proof.
  intros L Hi Hj. unfold cell. rewrite (nth_indep _ 0 (f 0)) by (rewrite map_length; lia). apply map_nth.
Qed.
Lemma cell_bytes_of ws i j : length ws = 8%nat -> (i < 8)%nat -> (j < 8)%nat ->
  cell (bytes_of ws) i j = u8 (N.shiftr (nth i ws 0) (56 - 8 * N.of_nat j)).
Proof.
  intros L Hi Hj. eight ws L. below8 i Hi; below8 j Hj; try reflexivity;
  unfold cell, bytes_of; cbn [flat_map be64 app nth Nat.mul Nat.add]; change (56 - 8 * N.of_nat 7) with 0; rewrite N.shiftr_0_r; reflexivity.
Qed.
Definition theta (a : list N) : list N := MixRows (ShiftColumns (SubBytes a)).
Lemma theta_row ws i : words_ok ws -> (i < 8)%nat ->
  be64 (mixv ws i) = map (fun j => xor_all (map (fun t => gmul (circ t j) (cell (ShiftColumns (SubBytes (bytes_of ws))) i t)) (seq 0 8))) (seq 0 8).
Proof.
  intros H Hi. unfold mixv. rewrite !be64_lxor.
  assert (C : forall t, (t < 8)%nat -> S_box (u8 (N.shiftr (nth (from i t) ws 0) (56 - 8 * N.of_nat t)))
     = cell (ShiftColumns (SubBytes (bytes_of ws))) i t).
  { intros t Ht. unfold ShiftColumns. rewrite cell_matrix by assumption.
    assert ((i + 8 - t) mod 8 < 8)%nat by (apply Nat.mod_upper_bound; lia).
    unfold SubBytes. rewrite cell_map; [|apply bytes_of_ok, H|assumption|assumption].
    rewrite cell_bytes_of by (assumption || apply H). reflexivity. }
  rewrite !(fun t Ht => proj1 (part_row ws i t Ht)) by lia. unfold row. rewrite !C by lia.
  generalize (cell (ShiftColumns (SubBytes (bytes_of ws))) i). intros c.
  cbn [map seq]. rewrite !xor_bytes_cons. unfold xor_all. cbn [map fold_left]. rewrite !N.lxor_0_l. reflexivity.
Qed.
Definition mixall (ws : list N) : list N := map (mixv ws) (seq 0 8).
Lemma mixall_ok ws : words_ok (mixall ws).
Proof. split; [reflexivity|]. unfold mixall. cbn [map seq]. repeat (constructor; [apply mixv_word|]). constructor. Qed.
Lemma theta_ok ws : words_ok ws -> bytes_of (mixall ws) = theta (bytes_of ws).
Proof.
  intros H. unfold mixall, theta, MixRows, matrix, bytes_of. cbn [map seq flat_map]. f_equal; [|f_equal; [|f_equal; [|f_equal; [|f_equal; [|f_equal; [|f_equal; [|f_equal]]]]]]];
  (apply theta_row; [exact H|lia]).
Qed.

(** ** The rounds *)

Lemma key_loop_ok K L : length K = 8%nat -> length L = 8%nat -> key_loop 8 0 K L = Ret (mixall K).
Proof.
  intros HK HL. eight L HL. cbn [key_loop Nat.add]. rewrite !mixed_ok by (exact HK || lia). cbn [bind upd]. 
  repeat (rewrite mixed_ok by (exact HK || lia); cbn [bind upd]). reflexivity.
Qed.
Lemma state_loop_ok st K L : length st = 8%nat -> length K = 8%nat -> length L = 8%nat ->
  state_loop 8 0 st K L = Ret (L, lxors L (mixall st)).
Proof.
  intros HS HK HL. eight L HL. eight K HK. cbn [state_loop Nat.add].
  repeat (unfold idx at 1; cbn [nth_error bind upd]; rewrite mixed_ok by (exact HS || lia); cbn [bind upd]).
  reflexivity.
Qed.
Lemma copy_loop_ok L st : length L = 8%nat -> length st = 8%nat -> copy_loop 8 0 L st = Ret L.
Proof. intros HL HS. eight L HL. eight st HS. reflexivity. Qed.
Lemma final_loop_ok cs st x : length cs = 8%nat -> length st = 8%nat -> length x = 8%nat ->
  final_loop 8 0 cs st x = Ret (lxors cs (lxors st x)).
Proof. intros H1 H2 H3. eight cs H1. eight st H2. eight x H3. reflexivity. Qed.
Lemma init_loop_ok c x K st : length (block c) = 64%nat -> length (state c) = 8%nat ->
  length x = 8%nat -> length K = 8%nat -> length st = 8%nat ->
  init_loop 8 0 c x K st = Ret (words_of (block c), state c, lxors (words_of (block c)) (state c)).
Proof.
  intros HB HC HX HK HS. destruct c as [cs t b p]. cbn [block state] in *. eight cs HC. eight x HX. eight K HK. eight st HS.
  cbn [init_loop Nat.add block state].
  repeat (rewrite load_ok by (exact HB || lia); cbn [bind upd]; unfold idx at 1; cbn [nth_error bind upd]).
  reflexivity.
Qed.
Definition rc_word (r : nat) : N := nth r rc 0.
Lemma rc_ok r : (r < 10)%nat -> idx rc r = Ret (rc_word r) /\ word (rc_word r) /\ bytes_of (rc_word r :: repeat 0 7) = round_const (S r).
Proof.
  intros H. assert (Q : (r = 0 \/ r = 1 \/ r = 2 \/ r = 3 \/ r = 4 \/ r = 5 \/ r = 6 \/ r = 7 \/ r = 8 \/ r = 9)%nat) by lia.
  destruct Q as [->|[->|[->|[->|[->|[->|[->|[->|[->| ->]]]]]]]]]; (split; [reflexivity|split; [reflexivity|vm_compute; reflexivity]]).
Qed.
Lemma round_loop_ok h m n : forall r K st L, (r + n = 10)%nat -> words_ok K -> words_ok st -> length L = 8%nat ->
  bytes_of K = round_key h r -> bytes_of st = rounds_from h m r ->
  exists st', round_loop n r K st L = Ret st' /\ words_ok st' /\ bytes_of st' = rounds_from h m (r + n).
Proof.
  induction n as [|n IH]; intros r K st L E HK HS HL EK ES.
  - exists st. rewrite Nat.add_0_r. repeat split; try assumption; apply HS.
  - cbn [round_loop]. rewrite key_loop_ok by (apply HK || exact HL). cbn [bind].
    destruct (rc_ok r) as (I & RW & RB); [lia|].
    assert (U : exists l0, idx (mixall K) 0 = Ret l0 /\ upd (mixall K) 0 (N.lxor l0 (rc_word r)) = Ret (lxors (mixall K) (rc_word r :: repeat 0 7))).
    { unfold mixall. cbn [map seq]. eexists. split; [reflexivity|]. cbn [upd lxors combine map repeat fst snd].
      rewrite !N.lxor_0_r. reflexivity. }
    destruct U as (l0 & I0 & U). rewrite I0. cbn [bind]. rewrite I. cbn [bind]. rewrite U. cbn [bind].
    assert (Wr : words_ok (rc_word r :: repeat 0 7)) by (split; [reflexivity|repeat constructor; exact RW]).
    set (K' := lxors (mixall K) (rc_word r :: repeat 0 7)).
    assert (HK' : words_ok K') by (apply lxors_ok; [apply mixall_ok|exact Wr]).
    assert (EK' : bytes_of K' = round_key h (S r)).
    { unfold K'. rewrite bytes_of_xor by (apply mixall_ok || exact Wr). rewrite theta_ok by exact HK.
      rewrite EK, RB. reflexivity. }
    rewrite state_loop_ok by (apply HK' || apply HS || apply HK). cbn [bind].
    assert (HL' : words_ok (lxors K' (mixall st))) by (apply lxors_ok; [exact HK'|apply mixall_ok]).
    rewrite copy_loop_ok by (apply HL' || apply HS). cbn [bind].
    assert (EL' : bytes_of (lxors K' (mixall st)) = rounds_from h m (S r)).
    { rewrite bytes_of_xor by (exact HK' || apply mixall_ok). rewrite theta_ok by exact HS. rewrite ES, EK', xor_bytes_comm. reflexivity. }
    destruct (IH (r + 1)%nat K' (lxors K' (mixall st)) (lxors K' (mixall st))) as (st' & R & W' & B); try assumption.
    + lia.
    + apply HL'.
    + rewrite Nat.add_1_r. exact EK'.
    + rewrite Nat.add_1_r. exact EL'.
    + exists st'. split; [exact R|]. split; [exact W'|]. rewrite B. f_equal. lia.
Qed.

Lemma hash_words ws t blk pos : words_ok ws -> block_ok blk ->
  exists ws', hash (mkCtx ws t blk pos) = Ret (mkCtx ws' t blk 0) /\ words_ok ws' /\ bytes_of ws' = compress (bytes_of ws) blk.
Proof.
  intros H [L B]. unfold hash. rewrite init_loop_ok by (exact L || apply H || reflexivity). cbn [bind state block total].
  pose proof (words_of_ok blk B) as HX.
  assert (HX' : words_ok (lxors (words_of blk) ws)) by (apply lxors_ok; assumption).
  destruct (round_loop_ok (bytes_of ws) blk 10 0 ws (lxors (words_of blk) ws) (repeat 0 8)) as (st & R & W' & E);
    try assumption; try reflexivity.
  { rewrite bytes_of_xor, bytes_of_words_of by (assumption || (split; assumption)). reflexivity. }
  change rounds with 10%nat. rewrite R. cbn [bind].
  rewrite final_loop_ok by (apply H || apply W' || reflexivity). cbn [bind].
  eexists. split; [reflexivity|]. split; [apply lxors_ok; [exact H|apply lxors_ok; assumption]|].
  rewrite !bytes_of_xor, bytes_of_words_of by (assumption || (apply lxors_ok; assumption) || (split; assumption)).
  rewrite E. unfold compress. change (rounds_from (bytes_of ws) blk (0 + 10)) with (W_cipher (bytes_of ws) blk).
  rewrite xor_bytes_assoc. f_equal. apply xor_bytes_comm.
Qed.
Lemma compress_ok h blk : block_ok h -> block_ok blk -> block_ok (compress h blk).
Proof.
  intros Hh Hb. destruct (hash_words (words_of h) 0 blk 0) as (ws & _ & W' & E); [apply words_of_ok, Hh|exact Hb|].
  rewrite bytes_of_words_of in E by exact Hh. rewrite <- E. apply bytes_of_ok, W'.
Qed.
Theorem hash_ok h t blk pos : block_ok h -> length blk = 64%nat -> bytes_ok blk ->
  hash (mkCtx (words_of h) t blk pos) = Ret (mkCtx (words_of (compress h blk)) t blk 0).
Proof.
  intros Hh L B. destruct (hash_words (words_of h) t blk pos) as (ws & R & W' & E); [apply words_of_ok, Hh|split; assumption|].
  rewrite bytes_of_words_of in E by exact Hh. rewrite R, <- E, words_of_bytes_of by exact W'. reflexivity.
Qed.

(** ** Buffering and padding *)

Lemma write_loop_same fuel : forall c p n space, write_loop fuel c p n space = Ripemd.write_loop fuel hash c p n space.
Proof.
  induction fuel as [|fuel IH]; intros c p n space; cbn [write_loop Ripemd.write_loop]; [reflexivity|].
  destruct (Nat.ltb 0 n); [|reflexivity]. destruct (Nat.ltb n space); [reflexivity|].
  destruct (slice_of p 0 space); try reflexivity. cbn [bind]. destruct (copy_from (block c) (bPos c) a); try reflexivity. cbn [bind].
  destruct (hash _); try reflexivity. cbn [bind]. destruct (slice_of p space (length p)); try reflexivity. cbn [bind]. apply IH.
Qed.

Definition iv0 : list N := repeat 0 64.
Lemma iv0_ok : block_ok iv0.
Proof. split; [reflexivity|apply bytes_ok_repeat]. Qed.
Definition holds (c : ctx) (m : list N) : Prop :=
  absorbed compress words_of iv0 c m /\ total c = N.of_nat (length m) mod 2 ^ 64.
Lemma comp_ok' h blk : block_ok h -> length blk = 64%nat -> bytes_ok blk -> block_ok (compress h blk).
Proof. intros H L B. apply compress_ok; [exact H|split; assumption]. Qed.

Lemma Write_ok c m p : holds c m -> bytes_ok p ->
  exists c', Write c p = Ret (c', length p) /\ holds c' (m ++ p).
Proof.
  intros [A T] B. unfold Write. set (c0 := mkCtx _ _ _ _).
  destruct (write_loop_absorb hash compress words_of block_ok iv0 iv0_ok comp_ok' hash_ok (S (length p)) p c0 m) as (c' & E & A' & T').
  - lia.
  - exact B.
  - destruct A as (fs & t & rest & A). exists fs, t, rest. exact A.
  - rewrite write_loop_same, E. exists c'. cbn [bind]. split; [reflexivity|].
    split; [exact A'|]. rewrite T'. unfold c0. cbn [total]. rewrite T, app_length, Nat2N.inj_add.
    unfold add64, u64. rewrite <- N.add_mod by discriminate. reflexivity.
Qed.

Lemma upd9 (pre : list N) a0 a1 a2 a3 a4 a5 a6 a7 a8 b0 b1 b2 b3 b4 b5 b6 b7 b8 {A} (k : list N -> outcome A) :
  length pre = 55%nat ->
  (let! blk := upd (pre ++ [a0; a1; a2; a3; a4; a5; a6; a7; a8]) 63 b8 in
   let! blk := upd blk 62 b7 in let! blk := upd blk 61 b6 in let! blk := upd blk 60 b5 in
   let! blk := upd blk 59 b4 in let! blk := upd blk 58 b3 in let! blk := upd blk 57 b2 in
   let! blk := upd blk 56 b1 in let! blk := upd blk 55 b0 in k blk) = k (pre ++ [b0; b1; b2; b3; b4; b5; b6; b7; b8]).
Proof.
  intros H.
  assert (S : forall l r x v i, i = (length pre + length l)%nat -> upd (pre ++ l ++ x :: r) i v = Ret (pre ++ l ++ v :: r)).
  { intros l r x v i Hi. rewrite app_assoc, upd_app' by (rewrite app_length; lia). rewrite <- app_assoc. reflexivity. }
  rewrite (S [a0; a1; a2; a3; a4; a5; a6; a7] [] a8 b8 63%nat ltac:(cbn [length]; lia) : upd (pre ++ [a0; a1; a2; a3; a4; a5; a6; a7; a8]) _ _ = _). cbn [bind app].
  rewrite (S [a0; a1; a2; a3; a4; a5; a6] [b8] a7 b7 62%nat ltac:(cbn [length]; lia) : upd (pre ++ [a0; a1; a2; a3; a4; a5; a6; a7; b8]) _ _ = _). cbn [bind app].
  rewrite (S [a0; a1; a2; a3; a4; a5] [b7; b8] a6 b6 61%nat ltac:(cbn [length]; lia) : upd (pre ++ [a0; a1; a2; a3; a4; a5; a6; b7; b8]) _ _ = _). cbn [bind app].
  rewrite (S [a0; a1; a2; a3; a4] [b6; b7; b8] a5 b5 60%nat ltac:(cbn [length]; lia) : upd (pre ++ [a0; a1; a2; a3; a4; a5; b6; b7; b8]) _ _ = _). cbn [bind app].
  rewrite (S [a0; a1; a2; a3] [b5; b6; b7; b8] a4 b4 59%nat ltac:(cbn [length]; lia) : upd (pre ++ [a0; a1; a2; a3; a4; b5; b6; b7; b8]) _ _ = _). cbn [bind app].
  rewrite (S [a0; a1; a2] [b4; b5; b6; b7; b8] a3 b3 58%nat ltac:(cbn [length]; lia) : upd (pre ++ [a0; a1; a2; a3; b4; b5; b6; b7; b8]) _ _ = _). cbn [bind app].
  rewrite (S [a0; a1] [b3; b4; b5; b6; b7; b8] a2 b2 57%nat ltac:(cbn [length]; lia) : upd (pre ++ [a0; a1; a2; b3; b4; b5; b6; b7; b8]) _ _ = _). cbn [bind app].
  rewrite (S [a0] [b2; b3; b4; b5; b6; b7; b8] a1 b1 56%nat ltac:(cbn [length]; lia) : upd (pre ++ [a0; a1; b2; b3; b4; b5; b6; b7; b8]) _ _ = _). cbn [bind app].
  rewrite (S [] [b1; b2; b3; b4; b5; b6; b7; b8] a0 b0 55%nat ltac:(cbn [length]; lia) : upd (pre ++ [a0; b1; b2; b3; b4; b5; b6; b7; b8]) _ _ = _). cbn [bind app].
  reflexivity.
Qed.

(** The length field as the code sees it: the byte count wraps at 2^64. *)
Definition field (m : list N) : list N := big_endian 32 (8 * (N.of_nat (length m) mod 2 ^ 64)).
Definition wdigest (m : list N) : list N := iterate compress iv0 (padded (field m) m).

Lemma little_endian_zero n : little_endian n 0 = repeat 0 n.
Proof. induction n; [reflexivity|]. cbn [little_endian repeat]. rewrite <- IHn. reflexivity. Qed.
Lemma little_endian_split n k : forall v, little_endian (n + k) v = little_endian n v ++ little_endian k (v / 256 ^ N.of_nat n).
Proof.
  induction n as [|n IH]; intros v.
  - cbn [Nat.add little_endian app]. change (256 ^ N.of_nat 0) with 1. rewrite N.div_1_r. reflexivity.
  - cbn [Nat.add little_endian app]. rewrite IH. f_equal. f_equal. f_equal.
    rewrite N.div_div by (try discriminate; apply N.pow_nonzero; discriminate).
    f_equal. rewrite Nat2N.inj_succ, N.pow_succ_r'. reflexivity.
Qed.
Lemma field_bytes l : l < 2 ^ 64 ->
  repeat 0 23 ++ [u8 (N.shiftr l 61); u8 (N.shiftr l 53); u8 (N.shiftr l 45); u8 (N.shiftr l 37); u8 (N.shiftr l 29);
   u8 (N.shiftr l 21); u8 (N.shiftr l 13); u8 (N.shiftr l 5); u8 (shl64 l 3)]
  = big_endian 32 (8 * l).
Proof.
  intros H. unfold big_endian. change 32%nat with (9 + 23)%nat. rewrite little_endian_split.
  replace (8 * l / 256 ^ N.of_nat 9) with 0.
  2:{ symmetry. apply N.div_small. change (256 ^ N.of_nat 9) with (2 ^ 72). change (2 ^ 72) with (256 * 2 ^ 64). lia. }
  rewrite little_endian_zero, rev_app_distr. f_equal.
  assert (M : 8 * l = (8 * l) mod 2 ^ 72).
  { symmetry. apply N.mod_small. change (2 ^ 72) with (256 * 2 ^ 64). lia. }
  rewrite M. rewrite (low_byte l 72) by lia.
  change 5 with (8 * 1 - 3). change 13 with (8 * 2 - 3). change 21 with (8 * 3 - 3). change 29 with (8 * 4 - 3).
  change 37 with (8 * 5 - 3). change 45 with (8 * 6 - 3). change 53 with (8 * 7 - 3). change 61 with (8 * 8 - 3).
  rewrite !(fun i H => bits_byte l i 72 H) by lia.
  generalize ((8 * l) mod 2 ^ 72). intros v. cbn [little_endian rev app]. rewrite !N.div_div by discriminate. reflexivity.
Qed.
Lemma field_length m : length (field m) = 32%nat.
Proof. unfold field, big_endian. rewrite rev_length, little_endian_length. reflexivity. Qed.
Lemma field_ok m : bytes_ok (field m).
Proof. unfold field, big_endian. apply Forall_rev, little_endian_ok. Qed.

Lemma out_loop_ok ws : length ws = 8%nat -> out_loop 8 0 ws (repeat 0 64) = Ret (bytes_of ws).
Proof. intros L. eight ws L. reflexivity. Qed.

Lemma Sum_ok c m inp : holds c m -> Sum c inp = Ret (c, inp ++ wdigest m).
Proof.
  intros [(fs & t & rest & Em & F & Ht & Bm & Es & Eb & Lb & Bb & Ep) T].
  assert (Bft : bytes_ok (concat fs) /\ bytes_ok t) by (apply bytes_ok_app; rewrite <- Em; exact Bm).
  assert (H0 : block_ok (fold_left compress fs iv0)) by (apply (fold_ok compress block_ok iv0 iv0_ok comp_ok'); tauto).
  assert (Lr : length rest = (64 - length t)%nat) by (rewrite Eb, app_length in Lb; lia).
  assert (TL : total c < 2 ^ 64) by (rewrite T; apply N.mod_lt; discriminate).
  unfold Sum. rewrite Eb, Ep. destruct rest as [|x rest]; [cbn [length] in Lr; lia|]. cbn [length] in Lr.
  rewrite upd_app. cbn [bind bPos block state total].
  assert (Br : bytes_ok rest).
  { rewrite Eb in Bb. apply bytes_ok_app in Bb. destruct Bb as [_ Bb]. inversion Bb; assumption. }
  assert (Zm : zeros (length m) 32 = ((64 - (length t + 33) mod 64) mod 64)%nat).
  { unfold zeros. rewrite Em, app_length, (concat_length_const 64) by exact F.
    replace (64 * length fs + length t + 1 + 32)%nat with (length t + 33 + length fs * 64)%nat by lia.
    rewrite Nat.mod_add by lia. reflexivity. }
  assert (B128 : bytes_ok [128]) by (repeat constructor).
  (* the last step, common to both cases *)
  assert (Finish : forall h pre23 pos a0 a1 a2 a3 a4 a5 a6 a7 a8 gs, block_ok h -> length pre23 = 32%nat -> bytes_ok pre23 ->
     concat fs ++ concat gs = padded (field m) m -> Forall (fun b => length b = 64%nat) gs ->
     fold_left compress gs (fold_left compress fs iv0) = compress h (pre23 ++ field m) ->
     (let! blk := upd ((pre23 ++ repeat 0 23) ++ [a0; a1; a2; a3; a4; a5; a6; a7; a8]) 63 (u8 (shl64 (total c) 3)) in
      let! blk := upd blk 62 (u8 (N.shiftr (total c) 5)) in
      let! blk := upd blk 61 (u8 (N.shiftr (total c) 13)) in
      let! blk := upd blk 60 (u8 (N.shiftr (total c) 21)) in
      let! blk := upd blk 59 (u8 (N.shiftr (total c) 29)) in
      let! blk := upd blk 58 (u8 (N.shiftr (total c) 37)) in
      let! blk := upd blk 57 (u8 (N.shiftr (total c) 45)) in
      let! blk := upd blk 56 (u8 (N.shiftr (total c) 53)) in
      let! blk := upd blk 55 (u8 (N.shiftr (total c) 61)) in
      let! h := hash (mkCtx (words_of h) (total c) blk pos) in
      let! out := make_bytes 64 in
      let! out := out_loop 8 0 (state h) out in
      Ret (c, inp ++ out)) = Ret (c, inp ++ wdigest m)).
  { intros h pre pos a0 a1 a2 a3 a4 a5 a6 a7 a8 gs Hh Hp Bp Eg Fg Ef.
    rewrite upd9 by (rewrite app_length, Hp; reflexivity). rewrite <- (app_assoc pre), field_bytes by exact TL.
    rewrite T. change (big_endian 32 (8 * (N.of_nat (length m) mod 2 ^ 64))) with (field m).
    rewrite hash_ok; [|exact Hh|..].
    2:{ rewrite app_length, Hp, field_length. reflexivity. }
    2:{ apply bytes_ok_app. split; [exact Bp|apply field_ok]. }
    assert (CO : block_ok (compress h (pre ++ field m))).
    { apply compress_ok; [exact Hh|]. split; [rewrite app_length, Hp, field_length; reflexivity|].
      apply bytes_ok_app. split; [exact Bp|apply field_ok]. }
    cbn [bind state]. change (make_bytes 64) with (Ret (repeat 0 64)). cbn [bind].
    rewrite out_loop_ok by reflexivity. cbn [bind]. rewrite bytes_of_words_of by exact CO.
    unfold wdigest. rewrite <- Eg, iterate_app by assumption. rewrite Ef. reflexivity. }
  destruct (Nat.ltb_spec 32 (length t + 1)) as [L|L].
  - (* two blocks *)
    set (blk1 := t ++ [128] ++ repeat 0 (length rest)).
    assert (E1 : zero_range (t ++ 128 :: rest) (length t + 1) (length (t ++ 128 :: rest)) = Ret blk1).
    { pose proof (zero_range_from (length t + 1) (length (t ++ 128 :: rest)) (t ++ [128]) rest []) as Z.
      rewrite app_nil_r, <- !app_assoc, app_nil_r in Z. apply Z; rewrite !app_length; cbn [length]; lia. }
    rewrite E1. cbn [bind].
    assert (L1 : length blk1 = 64%nat) by (unfold blk1; rewrite !app_length, repeat_length; cbn [length]; lia).
    assert (B1 : bytes_ok blk1).
    { unfold blk1. apply bytes_ok_app. split; [tauto|]. apply bytes_ok_app. split; [exact B128|apply bytes_ok_repeat]. }
    rewrite Es, hash_ok by assumption. cbn [bind block bPos state total].
    assert (E2 : exists a0 a1 a2 a3 a4 a5 a6 a7 a8,
       zero_range blk1 0 55 = Ret ((repeat 0 32 ++ repeat 0 23) ++ [a0; a1; a2; a3; a4; a5; a6; a7; a8])).
    { pose proof (zero_range_from 0 55 [] (firstn 55 blk1) (skipn 55 blk1) eq_refl) as Z.
      rewrite firstn_length, L1 in Z. cbn [app length] in Z. rewrite firstn_skipn in Z.
      change (Nat.min 55 64) with 55%nat in Z. rewrite (Z eq_refl).
      assert (S8 : length (skipn 55 blk1) = 9%nat) by (rewrite skipn_length; lia).
      destruct (skipn 55 blk1) as [|a0 [|a1 [|a2 [|a3 [|a4 [|a5 [|a6 [|a7 [|a8 [|]]]]]]]]]]; try discriminate S8.
      exists a0, a1, a2, a3, a4, a5, a6, a7, a8. reflexivity. }
    destruct E2 as (a0 & a1 & a2 & a3 & a4 & a5 & a6 & a7 & a8 & E2). rewrite E2. cbn [bind].
    apply (Finish (compress (fold_left compress fs iv0) blk1) (repeat 0 32) 0%nat a0 a1 a2 a3 a4 a5 a6 a7 a8
             [blk1; repeat 0 32 ++ field m]).
    + apply compress_ok; [exact H0|split; assumption].
    + reflexivity.
    + apply bytes_ok_repeat.
    + unfold padded. rewrite field_length, Zm. generalize (field m). intros bl. rewrite Em, <- (app_assoc (concat fs) t). f_equal. cbn [concat]. rewrite app_nil_r. unfold blk1.
      rewrite <- !app_assoc. f_equal. cbn [app]. f_equal. rewrite app_assoc, <- repeat_app. f_equal. f_equal.
      replace (length t + 33)%nat with ((length t - 31) + 1 * 64)%nat by lia. rewrite Nat.mod_add by lia.
      rewrite (Nat.mod_small (length t - 31)) by lia. rewrite Nat.mod_small by lia. lia.
    + constructor; [exact L1|]. constructor; [|constructor]. rewrite app_length, field_length. reflexivity.
    + reflexivity.
  - (* one block *)
    cbn [bind block bPos state total].
    set (mid := firstn (54 - length t) rest). set (post := skipn (54 - length t) rest).
    assert (Lm : length mid = (54 - length t)%nat) by (unfold mid; rewrite firstn_length; lia).
    assert (Lp : length post = 9%nat) by (unfold post; rewrite skipn_length; lia).
    set (pre := t ++ [128] ++ repeat 0 (31 - length t)).
    assert (Lpre : length pre = 32%nat) by (unfold pre; rewrite !app_length, repeat_length; cbn [length]; lia).
    assert (E1 : zero_range (t ++ 128 :: rest) (length t + 1) 55 = Ret ((pre ++ repeat 0 23) ++ post)).
    { pose proof (zero_range_from (length t + 1) 55 (t ++ [128]) mid post) as Z.
      rewrite <- !app_assoc in Z. cbn [app] in Z.
      replace (mid ++ post) with rest in Z by (symmetry; apply firstn_skipn).
      rewrite Z by (rewrite ?app_length; cbn [length]; lia). f_equal. unfold pre. rewrite <- !app_assoc. f_equal. cbn [app]. f_equal.
      rewrite app_assoc, <- repeat_app, Lm. f_equal. f_equal. lia. }
    rewrite E1. cbn [bind]. rewrite Es.
    destruct post as [|a0 [|a1 [|a2 [|a3 [|a4 [|a5 [|a6 [|a7 [|a8 [|]]]]]]]]]]; try discriminate Lp.
    apply (Finish (fold_left compress fs iv0) pre (length t + 1)%nat a0 a1 a2 a3 a4 a5 a6 a7 a8 [pre ++ field m]).
    + exact H0.
    + exact Lpre.
    + unfold pre. apply bytes_ok_app. split; [tauto|]. apply bytes_ok_app. split; [exact B128|apply bytes_ok_repeat].
    + unfold padded. rewrite field_length, Zm. generalize (field m). intros bl. rewrite Em, <- (app_assoc (concat fs) t). f_equal. cbn [concat]. rewrite app_nil_r.
      unfold pre. rewrite <- !app_assoc. f_equal. f_equal. f_equal. f_equal.
      destruct (Nat.eq_dec (length t) 31) as [Q|Q]; [rewrite Q; reflexivity|].
      rewrite (Nat.mod_small (length t + 33)) by lia. rewrite Nat.mod_small by lia. lia.
    + constructor; [|constructor]. rewrite app_length, field_length, Lpre. reflexivity.
    + reflexivity.
Qed.

Theorem use_trace cs : hcalls_ok cs -> use cs = Ret (hash_trace wdigest 64 64 [] cs).
Proof.
  intros H. unfold use. change New with (Ret (mkCtx (words_of iv0) 0 (repeat 0 64) 0)). cbn [bind]. unfold hobserve.
  destruct (hrun_trace step wdigest 64 64 holds) with (cs := cs) (c := mkCtx (words_of iv0) 0 (repeat 0 64) 0) (m := @nil N)
    as (c' & E & _).
  - intros c m p Hc Bp. destruct (Write_ok c m p Hc Bp) as (c' & E & Hc'). exists c'. cbn [step]. rewrite E. split; [reflexivity|exact Hc'].
  - intros c m inp Hc. cbn [step]. rewrite (Sum_ok c m inp Hc). reflexivity.
  - intros c m [(fs & t & rest & Em & F & Ht & Bm & Es & Eb & Lb & Bb & Ep) T]. cbn [step].
    destruct c as [st tt blk pos]. cbn [state] in Es. subst st. exists (mkCtx (words_of iv0) 0 blk 0).
    split; [reflexivity|]. split; [|reflexivity].
    exists [], [], blk. cbn [state block bPos concat app length fold_left] in *. repeat split; try assumption; try lia; constructor.
  - intros c. reflexivity.
  - intros c. reflexivity.
  - split; [|reflexivity]. exists [], [], (repeat 0 64). cbn [state block bPos concat app length fold_left].
    repeat split; try lia; try constructor; try (apply bytes_ok_repeat); repeat constructor.
  - exact H.
  - rewrite E. reflexivity.
Qed.

(** ** Consequences *)

Lemma wdigest_published m : N.of_nat (length m) < 2 ^ 64 -> wdigest m = Whirlpool m.
Proof. intros H. unfold wdigest, Whirlpool, field, whirlpool_length. rewrite N.mod_small by exact H. reflexivity. Qed.
Lemma trace_published cs : forall m, N.of_nat (length m) + fed cs < 2 ^ 64 ->
  hash_trace wdigest 64 64 m cs = hash_trace Whirlpool 64 64 m cs.
Proof.
  induction cs as [|q cs IH]; intros m H; [reflexivity|]. destruct q; cbn [hash_trace fed] in *.
  - rewrite IH; [reflexivity|]. rewrite app_length, Nat2N.inj_add. lia.
  - rewrite IH, wdigest_published by lia. reflexivity.
  - rewrite IH; [reflexivity|]. cbn [length]. lia.
  - rewrite IH by lia. reflexivity.
  - rewrite IH by lia. reflexivity.
Qed.
Theorem published cs : hcalls_ok cs -> fed cs < 2 ^ 64 -> use cs = Ret (hash_trace Whirlpool 64 64 [] cs).
Proof. intros H L. rewrite use_trace by exact H. rewrite trace_published; [reflexivity|]. cbn [length]. lia. Qed.

Lemma trace_last d cs inp : forall m, exists rs,
  hash_trace d 64 64 m (cs ++ [HSum inp]) = rs ++ [Digest (inp ++ d (written m cs))].
Proof.
  induction cs as [|q cs IH]; intros m; [exists []; reflexivity|].
  destruct q as [p|i| | |]; cbn [hash_trace written app].
  - destruct (IH (m ++ p)) as [rs E]. rewrite E. eexists (_ :: rs). reflexivity.
  - destruct (IH m) as [rs E]. rewrite E. eexists (_ :: rs). reflexivity.
  - destruct (IH []) as [rs E]. rewrite E. eexists (_ :: rs). reflexivity.
  - destruct (IH m) as [rs E]. rewrite E. eexists (_ :: rs). reflexivity.
  - destruct (IH m) as [rs E]. rewrite E. eexists (_ :: rs). reflexivity.
Qed.
Theorem message cs inp : hcalls_ok cs -> bytes_ok inp -> N.of_nat (length (written [] cs)) < 2 ^ 64 ->
  exists rs, use (cs ++ [HSum inp]) = Ret (rs ++ [Digest (inp ++ Whirlpool (written [] cs))]).
Proof.
  intros H B L. rewrite use_trace.
  - destruct (trace_last wdigest cs inp []) as [rs E]. exists rs. rewrite E, wdigest_published by exact L. reflexivity.
  - apply Forall_app. split; [exact H|]. constructor; [exact B|constructor].
Qed.

Lemma padded_field_blocks f m : length f = 32%nat -> (length (padded f m) mod 64 = 0)%nat.
Proof.
  intros Hf. unfold padded. rewrite !app_length, repeat_length, Hf. cbn [length].
  unfold zeros. pose proof (Nat.div_mod (length m + 1 + 32) 64 ltac:(lia)) as D.
  pose proof (Nat.mod_upper_bound (length m + 1 + 32) 64 ltac:(lia)) as U.
  set (q := ((length m + 1 + 32) / 64)%nat) in *. set (x := ((length m + 1 + 32) mod 64)%nat) in *.
  destruct (Nat.eq_dec x 0) as [E|E].
  - rewrite E. change ((64 - 0) mod 64)%nat with 0%nat.
    replace (length m + (1 + (0 + 32)))%nat with (q * 64)%nat by lia. apply Nat.mod_mul. lia.
  - rewrite (Nat.mod_small (64 - x)) by lia.
    replace (length m + (1 + (64 - x + 32)))%nat with ((q + 1) * 64)%nat by lia. apply Nat.mod_mul. lia.
Qed.
Lemma iterate_ok text : bytes_ok text -> (length text mod 64 = 0)%nat -> block_ok (iterate compress iv0 text).
Proof.
  intros B M. unfold iterate. apply (fold_ok compress block_ok iv0 iv0_ok comp_ok').
  - apply pieces_length; [lia|exact M].
  - rewrite pieces_concat by lia. exact B.
Qed.
Lemma padded_ok f m : bytes_ok f -> bytes_ok m -> bytes_ok (padded f m).
Proof.
  intros F M. unfold padded. apply bytes_ok_app. split; [exact M|]. apply bytes_ok_app. split; [repeat constructor|].
  apply bytes_ok_app. split; [apply bytes_ok_repeat|exact F].
Qed.
Lemma wdigest_ok m : bytes_ok m -> block_ok (wdigest m).
Proof.
  intros B. apply iterate_ok; [apply padded_ok; [apply field_ok|exact B]|apply padded_field_blocks, field_length].
Qed.

Lemma written_ok cs : forall m, hcalls_ok cs -> bytes_ok m -> bytes_ok (written m cs).
Proof.
  induction cs as [|q cs IH]; intros m H B; [exact B|]. inversion H as [|? ? Hq Hc]; subst.
  destruct q; cbn [written]; apply IH; try assumption; [apply bytes_ok_app; split; assumption|constructor].
Qed.
Theorem concatenation cs : hcalls_ok cs -> bytes_ok (written [] cs) /\
  exists rs d, use (cs ++ [HSum []]) = Ret (rs ++ [Digest d])
  /\ use [HWrite (written [] cs); HSum []] = Ret [Wrote (length (written [] cs)); Digest d].
Proof.
  intros H. pose proof (written_ok cs [] H ltac:(constructor)) as B. split; [exact B|].
  exists (hash_trace wdigest 64 64 [] cs), (wdigest (written [] cs)). split.
  - rewrite use_trace; [|apply Forall_app; split; [exact H|repeat constructor]]. rewrite hash_trace_app. reflexivity.
  - rewrite use_trace; [reflexivity|]. constructor; [exact B|]. repeat constructor.
Qed.
Theorem sum_pure cs1 inp cs2 : hcalls_ok cs1 -> bytes_ok inp -> hcalls_ok cs2 ->
  exists r1 d r2, length r1 = length cs1 /\ length d = 64%nat /\ bytes_ok d
  /\ use (cs1 ++ HSum inp :: cs2) = Ret (r1 ++ Digest (inp ++ d) :: r2) /\ use (cs1 ++ cs2) = Ret (r1 ++ r2).
Proof.
  intros H1 Hi H2. exists (hash_trace wdigest 64 64 [] cs1), (wdigest (written [] cs1)),
    (hash_trace wdigest 64 64 (written [] cs1) cs2).
  assert (L : forall m cs, length (hash_trace wdigest 64 64 m cs) = length cs).
  { clear. intros m cs. revert m. induction cs as [|q cs IH]; intros m; [reflexivity|]. destruct q; cbn [hash_trace length]; rewrite IH; reflexivity. }
  pose proof (wdigest_ok _ (written_ok cs1 [] H1 ltac:(constructor))) as [WL WB].
  split; [apply L|]. split; [exact WL|]. split; [exact WB|]. split.
  - rewrite use_trace; [rewrite hash_trace_app; reflexivity|]. apply Forall_app. split; [exact H1|]. constructor; [exact Hi|exact H2].
  - rewrite use_trace; [rewrite hash_trace_app; reflexivity|]. apply Forall_app. split; assumption.
Qed.
Theorem shape cs : hcalls_ok cs -> exists rs, use cs = Ret rs /\
  Forall2 (fun c r => match c with
    | HWrite p => r = Wrote (length p)
    | HSum inp => exists d, r = Digest (inp ++ d) /\ length d = 64%nat /\ bytes_ok d
    | HReset => r = Done
    | HSize => r = Length 64
    | HBlockSize => r = Length 64 end) cs rs.
Proof.
  intros H. eexists. split; [apply use_trace, H|].
  assert (B : bytes_ok []) by constructor. revert B. generalize (@nil N).
  induction H as [|q cs Hq H IH]; intros m B; [constructor|].
  destruct q; cbn [hash_trace]; (constructor; [|apply IH; try assumption]); try reflexivity.
  - apply bytes_ok_app. split; assumption.
  - eexists. split; [reflexivity|]. apply wdigest_ok, B.
  - constructor.
Qed.

Local Transparent entry.
(** ** The tables *)

Definition generated_ok (o : outcome (list N)) (k : list N -> outcome (list N)) : bool :=
  match o with
  | Ret t => (same t ct && match k t with Ret r => same r rc | _ => false end)%bool
  | _ => false
  end.
Lemma generated_checked : generated_ok buildCirculantTable buildRoundConstants = true.
Proof. vm_compute. reflexivity. Qed.
Lemma generated_spec o k : generated_ok o k = true -> o = Ret ct /\ k ct = Ret rc.
Proof.
  unfold generated_ok. destruct o as [t| |]; [|discriminate..].
  intros G. apply andb_prop in G as [G1 G2]. apply same_eq in G1. subst t. split; [reflexivity|].
  destruct (k ct) as [r| |]; [|discriminate G2..]. apply same_eq in G2. congruence.
Qed.
Theorem generated : buildCirculantTable = Ret ct /\ buildRoundConstants ct = Ret rc.
Proof. exact (generated_spec _ _ generated_checked). Qed.
Theorem sbox x : x < 256 -> nth_error sBox (N.to_nat x) = Some (S_box x).
Proof.
  intros H.
  pose proof (sweep 256 (fun x => match nth_error sBox (N.to_nat x) with Some y => y =? S_box x | None => false end)
    ltac:(vm_compute; reflexivity) x H) as P. cbv beta in P.
  destruct (nth_error sBox (N.to_nat x)); [|discriminate P]. apply N.eqb_eq in P. congruence.
Qed.
Lemma be64_big v : be64 v = big_endian 8 v.
Proof.
  unfold be64, big_endian. cbn [little_endian rev app]. unfold u8. rewrite !N.shiftr_div_pow2, !N.div_div by lia.
  reflexivity.
Qed.
Theorem hash_big ws t blk pos : length ws = 8%nat -> Forall (fun w => w < 2 ^ 64) ws -> length blk = 64%nat -> bytes_ok blk ->
  exists ws', hash (mkCtx ws t blk pos) = Ret (mkCtx ws' t blk 0) /\ length ws' = 8%nat
  /\ Forall (fun w => w < 2 ^ 64) ws' /\ flat_map (big_endian 8) ws' = compress (flat_map (big_endian 8) ws) blk.
Proof.
  intros L F Lb Bb. destruct (hash_words ws t blk pos (conj L F) (conj Lb Bb)) as (ws' & E & [L' F'] & B).
  exists ws'. split; [exact E|]. split; [exact L'|]. split; [exact F'|].
  unfold bytes_of in B. rewrite !(flat_map_ext _ _ be64_big) in B. exact B.
Qed.
Theorem entries t x : (t < 8)%nat -> x < 256 ->
  exists e, nth_error ct (256 * t + N.to_nat x) = Some e /\ e < 2 ^ 64
  /\ forall j, (j < 8)%nat -> nth_error (big_endian 8 e) j = Some (gmul (circ t j) (S_box x)).
Proof.
  intros Ht Hx. exists (entry t x). destruct (entry_row t x Ht Hx) as [R W']. split; [|split; [exact W'|]].
  - unfold entry. apply nth_error_nth'. rewrite ct_length. lia.
  - intros j Hj. rewrite <- be64_big, R. unfold row. below8 j Hj; reflexivity.
Qed.
Theorem round_constants r : (r < 10)%nat -> exists c, nth_error rc r = Some c /\ c < 2 ^ 64
  /\ forall j, (j < 8)%nat -> nth_error (big_endian 8 c) j = Some (S_box (N.of_nat (8 * r + j))).
Proof.
  intros H. destruct (rc_ok r H) as (I & W' & B). exists (rc_word r). split; [|split; [exact W'|]].
  - unfold idx in I. destruct (nth_error rc r); [congruence|discriminate].
  - intros j Hj. rewrite <- be64_big. apply (f_equal (fun l => nth_error l j)) in B. unfold bytes_of, round_const, matrix in B.
    cbn [repeat flat_map seq map] in B. replace (S r - 1)%nat with r in B by lia.
    below8 j Hj; exact B.
Qed.
Definition S_images : list N := map S_box (below 256).
Lemma images_once : (let im := S_images in forallb (fun y => Nat.eqb (length (filter (N.eqb y) im)) 1) (below 256)) = true.
Proof. vm_compute. reflexivity. Qed.
Lemma filter_images y l : filter (N.eqb y) (map S_box l) = map S_box (filter (fun x => y =? S_box x) l).
Proof. induction l as [|x l IH]; [reflexivity|]. cbn [map filter]. destruct (y =? S_box x); cbn [map]; rewrite IH; reflexivity. Qed.
Theorem sbox_permutation y : y < 256 -> exists! x, x < 256 /\ S_box x = y.
Proof.
  intros H. pose proof (sweep 256 _ images_once y H) as P. cbv beta in P. unfold S_images in P.
  rewrite filter_images, map_length in P. apply Nat.eqb_eq in P.
  destruct (filter (fun x => y =? S_box x) (below 256)) as [|j [|]] eqn:F; try discriminate P.
  assert (I : forall x, In x [j] <-> In x (below 256) /\ S_box x = y).
  { intros x. rewrite <- F, filter_In, N.eqb_eq. intuition congruence. }
  assert (J : forall x, In x (below 256) -> x < 256).
  { intros x Hx. unfold below in Hx. apply in_map_iff in Hx. destruct Hx as (n & <- & Hn). apply in_seq in Hn. lia. }
  exists j. split.
  - destruct (proj1 (I j)) as [A B]; [left; reflexivity|]. split; [apply J, A|exact B].
  - intros x [Hx Ex]. assert (In x [j]) as K by (apply I; split; [apply in_below, Hx|exact Ex]). destruct K as [K|[]]. exact K.
Qed.
