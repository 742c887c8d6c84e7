(** Proofs about package hash/ripemd. *)
From Verif Require Import Base.Go Base.Mem Base.DigestApi Model.Bytes Model.Ripemd
  Spec.ChecksumSpec Spec.CodegenSpec Spec.DigestSpec Spec.RipemdSpec Proofs.Util Proofs.DigestProofs.
Local Open Scope N_scope.

Definition word (x : N) : Prop := x < W.

(** ** Word operations *)

Lemma plus_word a b : word (plus a b).
Proof. apply N.mod_lt. discriminate. Qed.
Lemma add32_plus a b : add32 a b = plus a b.
Proof. reflexivity. Qed.
Lemma plus_comm a b : plus a b = plus b a.
Proof. unfold plus. rewrite N.add_comm. reflexivity. Qed.

Lemma rotl32_rol x s : word x -> s <= 32 -> rotl32 x s = rol s x.
Proof.
  intros Hx Hs. unfold rotl32, rol, shl32, u32, word, W in *. rewrite N.shiftl_mul_pow2, N.shiftr_div_pow2.
  assert (E : 2 ^ 32 = 2 ^ (32 - s) * 2 ^ s) by (rewrite <- N.pow_add_r; f_equal; lia).
  assert (P : 2 ^ s <> 0) by (apply N.pow_nonzero; discriminate).
  assert (P' : 2 ^ (32 - s) <> 0) by (apply N.pow_nonzero; discriminate).
  rewrite E, N.mul_mod_distr_r by assumption.
  rewrite <- N.shiftl_mul_pow2. rewrite lor_shiftl_add; [rewrite N.shiftl_mul_pow2; reflexivity|].
  apply N.div_lt_upper_bound; [exact P'|]. rewrite <- E. exact Hx.
Qed.
Lemma rol_word s x : word x -> s <= 32 -> word (rol s x).
Proof.
  intros Hx Hs. unfold rol, word, W in *.
  assert (E : 2 ^ 32 = 2 ^ (32 - s) * 2 ^ s) by (rewrite <- N.pow_add_r; f_equal; lia).
  assert (P : 2 ^ s <> 0) by (apply N.pow_nonzero; discriminate).
  assert (P' : 2 ^ (32 - s) <> 0) by (apply N.pow_nonzero; discriminate).
  assert (D : x / 2 ^ (32 - s) < 2 ^ s) by (apply N.div_lt_upper_bound; [exact P'|rewrite <- E; exact Hx]).
  rewrite E at 1. rewrite N.mul_mod_distr_r by assumption.
  pose proof (N.mod_lt x (2 ^ (32 - s)) P') as M. rewrite E. nia.
Qed.

Lemma word_bits x i : word x -> 32 <= i -> N.testbit x i = false.
Proof.
  intros Hx Hi. destruct (N.eq_dec x 0) as [->|Z]; [apply N.bits_0|]. apply N.bits_above_log2.
  apply N.lt_le_trans with 32; [|exact Hi]. apply N.log2_lt_pow2; [lia|exact Hx].
Qed.
Lemma bits_word x : (forall i, 32 <= i -> N.testbit x i = false) -> word x.
Proof.
  intros H. unfold word, W. destruct (N.eq_dec x 0) as [->|Z]; [reflexivity|].
  apply N.log2_lt_pow2; [lia|]. destruct (N.lt_ge_cases (N.log2 x) 32) as [L|L]; [exact L|].
  specialize (H _ L). rewrite N.bit_log2 in H by exact Z. discriminate.
Qed.
Lemma ones32 i : N.testbit 0xffffffff i = (i <? 32).
Proof.
  change 0xffffffff with (N.ones 32). destruct (N.ltb_spec i 32) as [L|L];
  [apply N.ones_spec_low|apply N.ones_spec_high]; exact L.
Qed.
Lemma neg_bits x i : word x -> N.testbit (neg x) i = (negb (N.testbit x i) && (i <? 32))%bool.
Proof.
  intros Hx. assert (E : neg x = N.lxor x 0xffffffff).
  { unfold neg, W. change (2 ^ 32 - 1) with (N.ones 32).
    rewrite N.sub_nocarry_ldiff.
    - apply N.bits_inj. intros j. rewrite N.ldiff_spec, N.lxor_spec. change (N.ones 32) with 0xffffffff.
      rewrite ones32. destruct (N.ltb_spec j 32) as [L|L]; [destruct (N.testbit x j); reflexivity|].
      rewrite (word_bits x j Hx L). reflexivity.
    - apply N.bits_inj. intros j. rewrite N.ldiff_spec, N.bits_0. change (N.ones 32) with 0xffffffff. rewrite ones32.
      destruct (N.ltb_spec j 32) as [L|L]; [rewrite Bool.andb_comm; reflexivity|].
      rewrite (word_bits x j Hx L). reflexivity. }
  rewrite E, N.lxor_spec, ones32. destruct (N.ltb_spec i 32) as [L|L].
  - destruct (N.testbit x i); reflexivity.
  - rewrite (word_bits x i Hx L). reflexivity.
Qed.
Lemma not32_bits x i : word x -> N.testbit (not32 x) i = (negb (N.testbit x i) && (i <? 32))%bool.
Proof.
  intros Hx. unfold not32. rewrite N.lxor_spec, ones32. destruct (N.ltb_spec i 32) as [L|L].
  - destruct (N.testbit x i); reflexivity.
  - rewrite (word_bits x i Hx L). reflexivity.
Qed.

Lemma f_bool_fn i : (i < 5)%nat -> exists g, idx f i = Ret g /\
  forall x y z, word x -> word y -> word z -> g x y z = bool_fn i x y z /\ word (bool_fn i x y z).
Proof.
  intros Hi. assert (H : (i = 0 \/ i = 1 \/ i = 2 \/ i = 3 \/ i = 4)%nat) by lia.
  destruct H as [->|[->|[->|[->| ->]]]]; (eexists; split; [reflexivity|]); intros x y z Hx Hy Hz;
  (split; [apply N.bits_inj; intros j|apply bits_word; intros j Hj]);
  unfold f0, f1, f2, f3, f4, bool_fn;
  repeat (rewrite N.lxor_spec || rewrite N.lor_spec || rewrite N.land_spec ||
          (rewrite not32_bits by assumption) || (rewrite neg_bits by assumption)).
  all: try (destruct (N.testbit x j), (N.testbit y j), (N.testbit z j); reflexivity).
  all: destruct (N.ltb_spec j 32) as [L|L];
    [try lia; destruct (N.testbit x j), (N.testbit y j), (N.testbit z j); reflexivity
    |rewrite ?(word_bits x j), ?(word_bits y j), ?(word_bits z j) by assumption; reflexivity].
Qed.

(** ** Tables *)

Definition all_ij (P : nat -> nat -> bool) : bool :=
  forallb (fun i => forallb (P i) (seq 0 16)) (seq 0 5).
Lemma all_ij_spec P : all_ij P = true -> forall i j, (i < 5)%nat -> (j < 16)%nat -> P i j = true.
Proof.
  intros H i j Hi Hj. unfold all_ij in H. rewrite forallb_forall in H. specialize (H i (proj2 (in_seq 5 0 i) ltac:(lia))).
  rewrite forallb_forall in H. apply H, in_seq. lia.
Qed.
Definition entry (t : list N) (n : nat) (v : N) : bool :=
  match nth_error t n with Some w => w =? v | None => false end.
Lemma entry_idx t n v : entry t n v = true -> idx t n = Ret v.
Proof.
  unfold entry, idx. destruct (nth_error t n) as [w|]; [|discriminate]. intros E. apply N.eqb_eq in E. congruence.
Qed.

Lemma r_table i j : (i < 5)%nat -> (j < 16)%nat -> idx r (i * 16 + j) = Ret (N.of_nat (left_word i j)).
Proof.
  intros Hi Hj. apply entry_idx.
  exact (all_ij_spec (fun i j => entry r (i * 16 + j) (N.of_nat (left_word i j))) ltac:(vm_compute; reflexivity) i j Hi Hj).
Qed.
Lemma rr_table i j : (i < 5)%nat -> (j < 16)%nat -> idx rr (i * 16 + j) = Ret (N.of_nat (right_word i j)).
Proof.
  intros Hi Hj. apply entry_idx.
  exact (all_ij_spec (fun i j => entry rr (i * 16 + j) (N.of_nat (right_word i j))) ltac:(vm_compute; reflexivity) i j Hi Hj).
Qed.
Lemma s_table i j : (i < 5)%nat -> (j < 16)%nat -> idx s (i * 16 + j) = Ret (shift i (left_word i j)).
Proof.
  intros Hi Hj. apply entry_idx.
  exact (all_ij_spec (fun i j => entry s (i * 16 + j) (shift i (left_word i j))) ltac:(vm_compute; reflexivity) i j Hi Hj).
Qed.
Lemma ss_table i j : (i < 5)%nat -> (j < 16)%nat -> idx ss (i * 16 + j) = Ret (shift i (right_word i j)).
Proof.
  intros Hi Hj. apply entry_idx.
  exact (all_ij_spec (fun i j => entry ss (i * 16 + j) (shift i (right_word i j))) ltac:(vm_compute; reflexivity) i j Hi Hj).
Qed.
Lemma left_word_lt i j : (i < 5)%nat -> (j < 16)%nat -> (left_word i j < 16)%nat.
Proof.
  intros Hi Hj. apply Nat.ltb_lt.
  exact (all_ij_spec (fun i j => Nat.ltb (left_word i j) 16) ltac:(vm_compute; reflexivity) i j Hi Hj).
Qed.
Lemma right_word_lt i j : (i < 5)%nat -> (j < 16)%nat -> (right_word i j < 16)%nat.
Proof.
  intros Hi Hj. apply Nat.ltb_lt.
  exact (all_ij_spec (fun i j => Nat.ltb (right_word i j) 16) ltac:(vm_compute; reflexivity) i j Hi Hj).
Qed.
Lemma shift_le i w : (i < 5)%nat -> (w < 16)%nat -> shift i w <= 32.
Proof.
  intros Hi Hw. apply N.leb_le.
  exact (all_ij_spec (fun i w => shift i w <=? 32) ltac:(vm_compute; reflexivity) i w Hi Hw).
Qed.
Ltac small_nat i H :=
  let E := fresh in
  assert (E : (i = 0 \/ i = 1 \/ i = 2 \/ i = 3 \/ i = 4)%nat) by lia;
  destruct E as [->|[->|[->|[->| ->]]]]; try lia.
Lemma k_table i : (i < 5)%nat -> be_at k i = Ret (left_K i).
Proof. intros H. small_nat i H; vm_compute; reflexivity. Qed.
Lemma kk_table i : (i < 5)%nat -> be_at kk i = Ret (right_K 4 i).
Proof. intros H. small_nat i H; vm_compute; reflexivity. Qed.
Lemma kk128_table i : (i < 4)%nat -> be_at kk128 i = Ret (right_K 3 i).
Proof. intros H. small_nat i H; vm_compute; reflexivity. Qed.

(** ** Message words *)

Lemma get_le32_word a b c d l : a < 256 -> b < 256 -> c < 256 -> d < 256 ->
  get_le32 (a :: b :: c :: d :: l) = Ret (a + 256 * b + 65536 * c + 16777216 * d).
Proof.
  intros Ha Hb Hc Hd. unfold get_le32, shl32, u32. rewrite !N.shiftl_mul_pow2.
  rewrite !N.mod_small by (change (2 ^ 8) with 256; change (2 ^ 16) with 65536; change (2 ^ 24) with 16777216;
    change (2 ^ 32) with 4294967296; lia).
  rewrite <- !N.shiftl_mul_pow2. f_equal.
  assert (E1 : N.lor (N.shiftl c 16) (N.shiftl d 24) = N.shiftl (c + 256 * d) 16).
  { change 24 with (8 + 16). rewrite <- N.shiftl_shiftl, <- N.shiftl_lor. f_equal.
    rewrite lor_add_shiftl by exact Hc. change (2 ^ 8) with 256. lia. }
  rewrite E1.
  assert (E2 : N.lor (N.shiftl b 8) (N.shiftl (c + 256 * d) 16) = N.shiftl (b + 256 * (c + 256 * d)) 8).
  { change 16 with (8 + 8). rewrite <- N.shiftl_shiftl, <- N.shiftl_lor. f_equal.
    rewrite lor_add_shiftl by exact Hb. change (2 ^ 8) with 256. lia. }
  rewrite E2, lor_add_shiftl by exact Ha. change (2 ^ 8) with 256. lia.
Qed.

Lemma getX_loop_words n : forall i pre blk done, length pre = (4 * i)%nat -> length blk = (4 * n)%nat -> bytes_ok blk ->
  length done = i -> getX_loop n i (pre ++ blk) (done ++ repeat 0 n) = Ret (done ++ words32 blk).
Proof.
  induction n as [|n IH]; intros i pre blk done Hp Hb B Hd.
  - destruct blk; [|discriminate]. reflexivity.
  - destruct blk as [|a [|b [|c [|d blk]]]]; try (cbn [length] in Hb; lia).
    inversion B as [|? ? Ba B1]; subst. inversion B1 as [|? ? Bb B2]; subst.
    inversion B2 as [|? ? Bc B3]; subst. inversion B3 as [|? ? Bd B4]; subst.
    cbn [getX_loop repeat words32]. unfold slice_of.
    rewrite (proj2 (Nat.leb_le _ _)) by (rewrite app_length; lia). rewrite Nat.leb_refl. cbn [andb bind].
    replace (length done * 4)%nat with (length pre) by lia.
    rewrite skipn_app, skipn_all, Nat.sub_diag, skipn_O. cbn [app].
    rewrite firstn_all2 by (rewrite app_length; cbn [length]; lia).
    rewrite get_le32_word by assumption. cbn [bind]. rewrite upd_app. cbn [bind].
    set (w := a + 256 * b + 65536 * c + 16777216 * d).
    specialize (IH (length done + 1)%nat (pre ++ [a; b; c; d]) blk (done ++ [w])).
    rewrite <- !app_assoc in IH. cbn [app] in IH. rewrite IH; [reflexivity|..].
    + rewrite app_length. cbn [length]. lia.
    + cbn [length] in Hb. lia.
    + exact B4.
    + rewrite app_length. cbn [length]. lia.
Qed.
Lemma getX_words c : length (block c) = 64%nat -> bytes_ok (block c) -> getX c = Ret (words32 (block c)).
Proof. intros L B. exact (getX_loop_words 16 0 [] (block c) [] eq_refl L B eq_refl). Qed.

Lemma words32_length n : forall l, length l = (4 * n)%nat -> length (words32 l) = n.
Proof.
  induction n as [|n IH]; intros l H; [destruct l; [reflexivity|discriminate]|].
  destruct l as [|a [|b [|c [|d l]]]]; try (cbn [length] in H; lia). cbn [words32 length].
  rewrite IH; [reflexivity|]. cbn [length] in H. lia.
Qed.
Lemma idx_nth_default (x : list N) n : (n < length x)%nat -> idx x n = Ret (nth n x 0).
Proof. intros H. unfold idx. rewrite (nth_error_nth' x 0 H). reflexivity. Qed.

(** ** Four-word lines *)

Definition ok4 (l : line4) : Prop := let '(a, b, c, d) := l in word a /\ word b /\ word c /\ word d.

Lemma step4_ok g w k s l : s <= 32 -> ok4 l -> ok4 (step4 g w k s l).
Proof.
  destruct l as [[[a b] c] d]. intros Hs (Ha & Hb & Hc & Hd). cbn [step4 ok4].
  repeat split; try assumption. apply rol_word; [apply plus_word|exact Hs].
Qed.
Lemma round4_ok x g wd k i l : (i < 5)%nat -> (forall j, (j < 16)%nat -> (wd j < 16)%nat) -> ok4 l ->
  ok4 (round4 x g wd k i l).
Proof.
  intros Hi Hw. unfold round4. assert (G : forall js l, (forall j, In j js -> (j < 16)%nat) -> ok4 l ->
    ok4 (fold_left (fun l j => step4 g (nth (wd j) x 0) k (shift i (wd j)) l) js l)).
  { induction js as [|j js IH]; intros l' H O; [exact O|]. cbn [fold_left]. apply IH; [intros q Hq; apply H; right; exact Hq|].
    apply step4_ok; [|exact O]. apply shift_le; [exact Hi|]. apply Hw, H. left. reflexivity. }
  apply G. intros j Hj. apply in_seq in Hj. lia.
Qed.

Lemma loop4_rounds x i : (i < 4)%nat -> length x = 16%nat -> forall n j l l', (j + n <= 16)%nat -> ok4 l -> ok4 l' ->
  loop4 n (i * 16 + j) i (left_K i) (right_K 3 i) x (l, l')
  = Ret (fold_left (fun l j => step4 (bool_fn i) (nth (left_word i j) x 0) (left_K i) (shift i (left_word i j)) l) (seq j n) l,
         fold_left (fun l j => step4 (bool_fn (3 - i)) (nth (right_word i j) x 0) (right_K 3 i) (shift i (right_word i j)) l) (seq j n) l').
Proof.
  intros Hi Hx. induction n as [|n IH]; intros j l l' Hn O O'; [reflexivity|].
  assert (Hi5 : (i < 5)%nat) by lia. assert (Hj : (j < 16)%nat) by lia.
  pose proof (step4_ok (bool_fn i) (nth (left_word i j) x 0) (left_K i) (shift i (left_word i j)) l
    (shift_le i _ Hi5 (left_word_lt i j Hi5 Hj)) O) as S.
  pose proof (step4_ok (bool_fn (3 - i)) (nth (right_word i j) x 0) (right_K 3 i) (shift i (right_word i j)) l'
    (shift_le i _ Hi5 (right_word_lt i j Hi5 Hj)) O') as S'.
  cbn [seq fold_left]. rewrite <- IH by (lia || assumption). clear IH S S'.
  destruct l as [[[a b] c] d], l' as [[[a' b'] c'] d'].
  destruct O as (Ha & Hb & Hc & Hd), O' as (Ha' & Hb' & Hc' & Hd'). cbn [loop4].
  destruct (f_bool_fn i Hi5) as (g & -> & G). destruct (f_bool_fn (3 - i) ltac:(lia)) as (g' & -> & G').
  rewrite r_table, rr_table, s_table, ss_table by assumption. cbn [bind]. rewrite !Nat2N.id.
  rewrite !idx_nth_default by (rewrite Hx; first [apply left_word_lt; assumption|apply right_word_lt; assumption]). cbn [bind].
  rewrite (proj1 (G b c d Hb Hc Hd)), (proj1 (G' b' c' d' Hb' Hc' Hd')).
  rewrite !add32_plus.
  rewrite !rotl32_rol by (apply plus_word || (apply shift_le; [exact Hi5|first [apply left_word_lt; assumption|apply right_word_lt; assumption]])).
  cbn [step4]. rewrite <- Nat.add_assoc, Nat.add_1_r. reflexivity.
Qed.
Lemma loop4_round x i l l' : (i < 4)%nat -> length x = 16%nat -> ok4 l -> ok4 l' ->
  loop4 16 (i * 16) i (left_K i) (right_K 3 i) x (l, l') = Ret (left4 x i l, right4 x i l').
Proof.
  intros Hi Hx O O'. pose proof (loop4_rounds x i Hi Hx 16 0 l l' (le_n _) O O') as L. rewrite Nat.add_0_r in L. exact L.
Qed.
Lemma left4_ok x i l : (i < 4)%nat -> ok4 l -> ok4 (left4 x i l).
Proof. intros Hi O. apply round4_ok; [lia| |exact O]. intros j Hj. apply left_word_lt; lia. Qed.
Lemma right4_ok x i l : (i < 4)%nat -> ok4 l -> ok4 (right4 x i l).
Proof. intros Hi O. apply round4_ok; [lia| |exact O]. intros j Hj. apply right_word_lt; lia. Qed.

Lemma rounds128_lines x : length x = 16%nat -> forall n i l l', (i + n <= 4)%nat -> ok4 l -> ok4 l' ->
  rounds128 n i x (l, l') = Ret (fold_left (fun l i => left4 x i l) (seq i n) l, fold_left (fun l i => right4 x i l) (seq i n) l')
  /\ ok4 (fold_left (fun l i => left4 x i l) (seq i n) l) /\ ok4 (fold_left (fun l i => right4 x i l) (seq i n) l').
Proof.
  intros Hx. induction n as [|n IH]; intros i l l' Hn O O'; [repeat split; assumption|].
  cbn [rounds128 seq fold_left]. rewrite k_table, kk128_table by lia. cbn [bind].
  rewrite loop4_round by (lia || assumption). cbn [bind]. rewrite Nat.add_1_r. apply IH; [lia|..].
  - apply left4_ok; [lia|exact O].
  - apply right4_ok; [lia|exact O'].
Qed.

Definition words_ok (n : nat) (h : list N) : Prop := length h = n /\ Forall word h.
Ltac destruct_words H :=
  repeat match type of H with
  | words_ok _ ?h => let L := fresh "L" in let F := fresh "F" in destruct H as [L F];
      repeat (destruct h as [|? h]; try discriminate L); clear L;
      repeat match type of F with Forall _ (_ :: _) => let Hw := fresh "Hw" in let F' := fresh "F" in
         inversion F as [|? ? Hw F']; subst; clear F; rename F' into F end; clear F
  end.

Lemma hash128_ok h t blk pos : words_ok 4 h -> length blk = 64%nat -> bytes_ok blk ->
  hash128 (mkCtx (h ++ repeat 0 6) t blk pos) = Ret (mkCtx (compress128 h blk ++ repeat 0 6) t blk 0).
Proof.
  intros Hh L B. destruct Hh as [Lh Fh].
  destruct h as [|h0 [|h1 [|h2 [|h3 [|]]]]]; try discriminate Lh.
  inversion Fh as [|? ? W0 F1]; subst. inversion F1 as [|? ? W1 F2]; subst. inversion F2 as [|? ? W2 F3]; subst.
  inversion F3 as [|? ? W3 _]; subst.
  unfold hash128. cbn [state app idx nth_error bind]. rewrite getX_words by assumption. cbn [bind block].
  destruct (rounds128_lines (words32 blk) (words32_length 16 blk L) 4 0 (h0, h1, h2, h3) (h0, h1, h2, h3)
    ltac:(lia) ltac:(repeat split; assumption) ltac:(repeat split; assumption)) as (E & _ & _).
  unfold line4 in E. rewrite E. clear E.
  cbn [bind]. unfold compress128.
  unfold line4.
  do 2 match goal with |- context [fold_left ?f (seq 0 4) ?z] => destruct (fold_left f (seq 0 4) z) as [[[? ?] ?] ?] end.
  reflexivity.
Qed.
Lemma compress128_ok h blk : words_ok 4 h -> words_ok 4 (compress128 h blk).
Proof.
  intros [Lh Fh]. destruct h as [|h0 [|h1 [|h2 [|h3 [|]]]]]; try discriminate Lh. unfold compress128.
  unfold line4.
  do 2 match goal with |- context [fold_left ?f (seq 0 4) ?z] => destruct (fold_left f (seq 0 4) z) as [[[? ?] ?] ?] end.
  split; [reflexivity|]. repeat constructor; apply plus_word.
Qed.

Lemma swap4_ok i l l' : ok4 l -> ok4 l' -> ok4 (fst (swap4 i (l, l'))) /\ ok4 (snd (swap4 i (l, l'))).
Proof.
  destruct l as [[[a b] c] d], l' as [[[a' b'] c'] d']. intros (?&?&?&?) (?&?&?&?).
  destruct i as [|[|[|i]]]; repeat split; assumption.
Qed.

Lemma hash256_ok h t blk pos : words_ok 8 h -> length blk = 64%nat -> bytes_ok blk ->
  hash256 (mkCtx (h ++ repeat 0 2) t blk pos) = Ret (mkCtx (compress256 h blk ++ repeat 0 2) t blk 0).
Proof.
  intros [Lh Fh] L B.
  destruct h as [|h0 [|h1 [|h2 [|h3 [|h4 [|h5 [|h6 [|h7 [|]]]]]]]]]; try discriminate Lh.
  inversion Fh as [|? ? W0 F1]; subst. inversion F1 as [|? ? W1 F2]; subst. inversion F2 as [|? ? W2 F3]; subst.
  inversion F3 as [|? ? W3 F4]; subst. inversion F4 as [|? ? W4 F5]; subst. inversion F5 as [|? ? W5 F6]; subst.
  inversion F6 as [|? ? W6 F7]; subst. inversion F7 as [|? ? W7 _]; subst.
  unfold hash256. cbn [state app idx nth_error bind]. rewrite getX_words by assumption. cbn [bind block].
  pose proof (words32_length 16 blk L) as Hx. remember (words32 blk) as x eqn:Ex.
  assert (O : ok4 (h0, h1, h2, h3)) by (repeat split; assumption).
  assert (O' : ok4 (h4, h5, h6, h7)) by (repeat split; assumption).
  unfold compress256. rewrite <- Ex. cbn [seq fold_left fst snd].
  rewrite (k_table 0), (kk128_table 0) by lia. cbn [bind].
  pose proof (loop4_round x 0 _ _ ltac:(lia) Hx O O') as E. change (0 * 16)%nat with 0%nat in E. unfold line4, line5 in E. rewrite E. clear E. cbn [bind].
  pose proof (swap4_ok 0 _ _ (left4_ok x 0 _ ltac:(lia) O) (right4_ok x 0 _ ltac:(lia) O')) as S.
  destruct (left4 x 0 (h0, h1, h2, h3)) as [[[a b] c] d], (right4 x 0 (h4, h5, h6, h7)) as [[[a' b'] c'] d'].
  cbn [swap4 fst snd] in *. clear O O'. destruct S as [O O'].
  rewrite (k_table 1), (kk128_table 1) by lia. cbn [bind].
  pose proof (loop4_round x 1 _ _ ltac:(lia) Hx O O') as E. change (1 * 16)%nat with 16%nat in E. unfold line4, line5 in E. rewrite E. clear E. cbn [bind].
  pose proof (swap4_ok 1 _ _ (left4_ok x 1 _ ltac:(lia) O) (right4_ok x 1 _ ltac:(lia) O')) as S.
  destruct (left4 x 1 _) as [[[a1 b1] c1] d1], (right4 x 1 _) as [[[a1' b1'] c1'] d1'].
  cbn [swap4 fst snd] in *. clear O O'. destruct S as [O O'].
  rewrite (k_table 2), (kk128_table 2) by lia. cbn [bind].
  pose proof (loop4_round x 2 _ _ ltac:(lia) Hx O O') as E. change (2 * 16)%nat with 32%nat in E. unfold line4, line5 in E. rewrite E. clear E. cbn [bind].
  pose proof (swap4_ok 2 _ _ (left4_ok x 2 _ ltac:(lia) O) (right4_ok x 2 _ ltac:(lia) O')) as S.
  destruct (left4 x 2 _) as [[[a2 b2] c2] d2], (right4 x 2 _) as [[[a2' b2'] c2'] d2'].
  cbn [swap4 fst snd] in *. clear O O'. destruct S as [O O'].
  rewrite (k_table 3), (kk128_table 3) by lia. cbn [bind].
  pose proof (loop4_round x 3 _ _ ltac:(lia) Hx O O') as E. change (3 * 16)%nat with 48%nat in E. unfold line4, line5 in E. rewrite E. clear E. cbn [bind].
  destruct (left4 x 3 _) as [[[a3 b3] c3] d3], (right4 x 3 _) as [[[a3' b3'] c3'] d3'].
  reflexivity.
Qed.
Lemma compress256_ok h blk : words_ok 8 h -> words_ok 8 (compress256 h blk).
Proof.
  intros [Lh Fh].
  destruct h as [|h0 [|h1 [|h2 [|h3 [|h4 [|h5 [|h6 [|h7 [|]]]]]]]]]; try discriminate Lh. unfold compress256.
  match goal with |- context [fold_left ?f (seq 0 4) ?z] => destruct (fold_left f (seq 0 4) z) as [[[[? ?] ?] ?] [[[? ?] ?] ?]] end.
  split; [reflexivity|]. repeat constructor; apply plus_word.
Qed.

(** ** Five-word lines *)

Definition ok5 (l : line5) : Prop := let '(a, b, c, d, e) := l in word a /\ word b /\ word c /\ word d /\ word e.

Lemma step5_ok g w k s l : s <= 32 -> ok5 l -> ok5 (step5 g w k s l).
Proof.
  destruct l as [[[[a b] c] d] e]. intros Hs (Ha & Hb & Hc & Hd & He). cbn [step5 ok5].
  repeat split; try assumption; [apply plus_word|]. apply rol_word; [exact Hc|lia].
Qed.
Lemma round5_ok x g wd k i l : (i < 5)%nat -> (forall j, (j < 16)%nat -> (wd j < 16)%nat) -> ok5 l ->
  ok5 (round5 x g wd k i l).
Proof.
  intros Hi Hw. unfold round5. assert (G : forall js l, (forall j, In j js -> (j < 16)%nat) -> ok5 l ->
    ok5 (fold_left (fun l j => step5 g (nth (wd j) x 0) k (shift i (wd j)) l) js l)).
  { induction js as [|j js IH]; intros l' H O; [exact O|]. cbn [fold_left]. apply IH; [intros q Hq; apply H; right; exact Hq|].
    apply step5_ok; [|exact O]. apply shift_le; [exact Hi|]. apply Hw, H. left. reflexivity. }
  apply G. intros j Hj. apply in_seq in Hj. lia.
Qed.

Lemma loop5_rounds x i : (i < 5)%nat -> length x = 16%nat -> forall n j l l', (j + n <= 16)%nat -> ok5 l -> ok5 l' ->
  loop5 n (i * 16 + j) i (left_K i) (right_K 4 i) x (l, l')
  = Ret (fold_left (fun l j => step5 (bool_fn i) (nth (left_word i j) x 0) (left_K i) (shift i (left_word i j)) l) (seq j n) l,
         fold_left (fun l j => step5 (bool_fn (4 - i)) (nth (right_word i j) x 0) (right_K 4 i) (shift i (right_word i j)) l) (seq j n) l').
Proof.
  intros Hi5 Hx. induction n as [|n IH]; intros j l l' Hn O O'; [reflexivity|].
  assert (Hj : (j < 16)%nat) by lia.
  pose proof (step5_ok (bool_fn i) (nth (left_word i j) x 0) (left_K i) (shift i (left_word i j)) l
    (shift_le i _ Hi5 (left_word_lt i j Hi5 Hj)) O) as S.
  pose proof (step5_ok (bool_fn (4 - i)) (nth (right_word i j) x 0) (right_K 4 i) (shift i (right_word i j)) l'
    (shift_le i _ Hi5 (right_word_lt i j Hi5 Hj)) O') as S'.
  cbn [seq fold_left]. rewrite <- IH by (lia || assumption). clear IH S S'.
  destruct l as [[[[a b] c] d] e], l' as [[[[a' b'] c'] d'] e'].
  destruct O as (Ha & Hb & Hc & Hd & He), O' as (Ha' & Hb' & Hc' & Hd' & He'). cbn [loop5].
  destruct (f_bool_fn i Hi5) as (g & -> & G). destruct (f_bool_fn (4 - i) ltac:(lia)) as (g' & -> & G').
  rewrite r_table, rr_table, s_table, ss_table by assumption. cbn [bind]. rewrite !Nat2N.id.
  rewrite !idx_nth_default by (rewrite Hx; first [apply left_word_lt; assumption|apply right_word_lt; assumption]). cbn [bind].
  rewrite (proj1 (G b c d Hb Hc Hd)), (proj1 (G' b' c' d' Hb' Hc' Hd')).
  rewrite !add32_plus.
  rewrite (rotl32_rol c 10), (rotl32_rol c' 10) by (assumption || lia).
  rewrite !rotl32_rol by (apply plus_word || (apply shift_le; [exact Hi5|first [apply left_word_lt; assumption|apply right_word_lt; assumption]])).
  rewrite (plus_comm e), (plus_comm e').
  cbn [step5]. rewrite <- Nat.add_assoc, Nat.add_1_r. reflexivity.
Qed.
Lemma loop5_round x i l l' : (i < 5)%nat -> length x = 16%nat -> ok5 l -> ok5 l' ->
  loop5 16 (i * 16) i (left_K i) (right_K 4 i) x (l, l') = Ret (left5 x i l, right5 x i l').
Proof.
  intros Hi Hx O O'. pose proof (loop5_rounds x i Hi Hx 16 0 l l' (le_n _) O O') as L. rewrite Nat.add_0_r in L. exact L.
Qed.
Lemma left5_ok x i l : (i < 5)%nat -> ok5 l -> ok5 (left5 x i l).
Proof. intros Hi O. apply round5_ok; [lia| |exact O]. intros j Hj. apply left_word_lt; lia. Qed.
Lemma right5_ok x i l : (i < 5)%nat -> ok5 l -> ok5 (right5 x i l).
Proof. intros Hi O. apply round5_ok; [lia| |exact O]. intros j Hj. apply right_word_lt; lia. Qed.

Lemma rounds160_lines x : length x = 16%nat -> forall n i l l', (i + n <= 5)%nat -> ok5 l -> ok5 l' ->
  rounds160 n i x (l, l') = Ret (fold_left (fun l i => left5 x i l) (seq i n) l, fold_left (fun l i => right5 x i l) (seq i n) l').
Proof.
  intros Hx. induction n as [|n IH]; intros i l l' Hn O O'; [reflexivity|].
  cbn [rounds160 seq fold_left]. rewrite k_table, kk_table by lia. cbn [bind].
  rewrite loop5_round by (lia || assumption). cbn [bind]. rewrite Nat.add_1_r. apply IH; [lia|..].
  - apply left5_ok; [lia|exact O].
  - apply right5_ok; [lia|exact O'].
Qed.

Lemma hash160_ok h t blk pos : words_ok 5 h -> length blk = 64%nat -> bytes_ok blk ->
  hash160 (mkCtx (h ++ repeat 0 5) t blk pos) = Ret (mkCtx (compress160 h blk ++ repeat 0 5) t blk 0).
Proof.
  intros [Lh Fh] L B. destruct h as [|h0 [|h1 [|h2 [|h3 [|h4 [|]]]]]]; try discriminate Lh.
  inversion Fh as [|? ? W0 F1]; subst. inversion F1 as [|? ? W1 F2]; subst. inversion F2 as [|? ? W2 F3]; subst.
  inversion F3 as [|? ? W3 F4]; subst. inversion F4 as [|? ? W4 _]; subst.
  unfold hash160. cbn [state app idx nth_error bind]. rewrite getX_words by assumption. cbn [bind block].
  pose proof (rounds160_lines (words32 blk) (words32_length 16 blk L) 5 0 (h0, h1, h2, h3, h4) (h0, h1, h2, h3, h4)
    ltac:(lia) ltac:(repeat split; assumption) ltac:(repeat split; assumption)) as E.
  unfold line5 in E. rewrite E. clear E.
  cbn [bind]. unfold compress160.
  unfold line5.
  do 2 match goal with |- context [fold_left ?f (seq 0 5) ?z] => destruct (fold_left f (seq 0 5) z) as [[[[? ?] ?] ?] ?] end.
  reflexivity.
Qed.
Lemma compress160_ok h blk : words_ok 5 h -> words_ok 5 (compress160 h blk).
Proof.
  intros [Lh Fh]. destruct h as [|h0 [|h1 [|h2 [|h3 [|h4 [|]]]]]]; try discriminate Lh. unfold compress160.
  unfold line5.
  do 2 match goal with |- context [fold_left ?f (seq 0 5) ?z] => destruct (fold_left f (seq 0 5) z) as [[[[? ?] ?] ?] ?] end.
  split; [reflexivity|]. repeat constructor; apply plus_word.
Qed.

Lemma swap5_ok i l l' : ok5 l -> ok5 l' -> ok5 (fst (swap5 i (l, l'))) /\ ok5 (snd (swap5 i (l, l'))).
Proof.
  destruct l as [[[[a b] c] d] e], l' as [[[[a' b'] c'] d'] e']. intros (?&?&?&?&?) (?&?&?&?&?).
  destruct i as [|[|[|[|i]]]]; repeat split; assumption.
Qed.

Lemma hash320_ok h t blk pos : words_ok 10 h -> length blk = 64%nat -> bytes_ok blk ->
  hash320 (mkCtx (h ++ repeat 0 0) t blk pos) = Ret (mkCtx (compress320 h blk ++ repeat 0 0) t blk 0).
Proof.
  intros [Lh Fh] L B.
  destruct h as [|h0 [|h1 [|h2 [|h3 [|h4 [|h5 [|h6 [|h7 [|h8 [|h9 [|]]]]]]]]]]]; try discriminate Lh.
  inversion Fh as [|? ? W0 F1]; subst. inversion F1 as [|? ? W1 F2]; subst. inversion F2 as [|? ? W2 F3]; subst.
  inversion F3 as [|? ? W3 F4]; subst. inversion F4 as [|? ? W4 F5]; subst. inversion F5 as [|? ? W5 F6]; subst.
  inversion F6 as [|? ? W6 F7]; subst. inversion F7 as [|? ? W7 F8]; subst. inversion F8 as [|? ? W8 F9]; subst.
  inversion F9 as [|? ? W9 _]; subst.
  unfold hash320. cbn [state app idx nth_error bind]. rewrite getX_words by assumption. cbn [bind block].
  pose proof (words32_length 16 blk L) as Hx. remember (words32 blk) as x eqn:Ex.
  assert (O : ok5 (h0, h1, h2, h3, h4)) by (repeat split; assumption).
  assert (O' : ok5 (h5, h6, h7, h8, h9)) by (repeat split; assumption).
  unfold compress320. rewrite <- Ex. cbn [seq fold_left fst snd].
  rewrite (k_table 0), (kk_table 0) by lia. cbn [bind].
  pose proof (loop5_round x 0 _ _ ltac:(lia) Hx O O') as E. change (0 * 16)%nat with 0%nat in E. unfold line4, line5 in E. rewrite E. clear E. cbn [bind].
  pose proof (swap5_ok 0 _ _ (left5_ok x 0 _ ltac:(lia) O) (right5_ok x 0 _ ltac:(lia) O')) as S.
  destruct (left5 x 0 _) as [[[[a b] c] d] e], (right5 x 0 _) as [[[[a' b'] c'] d'] e'].
  cbn [swap5 fst snd] in *. clear O O'. destruct S as [O O'].
  rewrite (k_table 1), (kk_table 1) by lia. cbn [bind].
  pose proof (loop5_round x 1 _ _ ltac:(lia) Hx O O') as E. change (1 * 16)%nat with 16%nat in E. unfold line4, line5 in E. rewrite E. clear E. cbn [bind].
  pose proof (swap5_ok 1 _ _ (left5_ok x 1 _ ltac:(lia) O) (right5_ok x 1 _ ltac:(lia) O')) as S.
  destruct (left5 x 1 _) as [[[[a1 b1] c1] d1] e1], (right5 x 1 _) as [[[[a1' b1'] c1'] d1'] e1'].
  cbn [swap5 fst snd] in *. clear O O'. destruct S as [O O'].
  rewrite (k_table 2), (kk_table 2) by lia. cbn [bind].
  pose proof (loop5_round x 2 _ _ ltac:(lia) Hx O O') as E. change (2 * 16)%nat with 32%nat in E. unfold line4, line5 in E. rewrite E. clear E. cbn [bind].
  pose proof (swap5_ok 2 _ _ (left5_ok x 2 _ ltac:(lia) O) (right5_ok x 2 _ ltac:(lia) O')) as S.
  destruct (left5 x 2 _) as [[[[a2 b2] c2] d2] e2], (right5 x 2 _) as [[[[a2' b2'] c2'] d2'] e2'].
  cbn [swap5 fst snd] in *. clear O O'. destruct S as [O O'].
  rewrite (k_table 3), (kk_table 3) by lia. cbn [bind].
  pose proof (loop5_round x 3 _ _ ltac:(lia) Hx O O') as E. change (3 * 16)%nat with 48%nat in E. unfold line4, line5 in E. rewrite E. clear E. cbn [bind].
  pose proof (swap5_ok 3 _ _ (left5_ok x 3 _ ltac:(lia) O) (right5_ok x 3 _ ltac:(lia) O')) as S.
  destruct (left5 x 3 _) as [[[[a3 b3] c3] d3] e3], (right5 x 3 _) as [[[[a3' b3'] c3'] d3'] e3'].
  cbn [swap5 fst snd] in *. clear O O'. destruct S as [O O'].
  rewrite (k_table 4), (kk_table 4) by lia. cbn [bind].
  pose proof (loop5_round x 4 _ _ ltac:(lia) Hx O O') as E. change (4 * 16)%nat with 64%nat in E. unfold line4, line5 in E. rewrite E. clear E. cbn [bind].
  destruct (left5 x 4 _) as [[[[a4 b4] c4] d4] e4], (right5 x 4 _) as [[[[a4' b4'] c4'] d4'] e4'].
  reflexivity.
Qed.
Lemma compress320_ok h blk : words_ok 10 h -> words_ok 10 (compress320 h blk).
Proof.
  intros [Lh Fh].
  destruct h as [|h0 [|h1 [|h2 [|h3 [|h4 [|h5 [|h6 [|h7 [|h8 [|h9 [|]]]]]]]]]]]; try discriminate Lh. unfold compress320.
  match goal with |- context [fold_left ?f (seq 0 5) ?z] => destruct (fold_left f (seq 0 5) z) as [[[[[? ?] ?] ?] ?] [[[[? ?] ?] ?] ?]] end.
  split; [reflexivity|]. repeat constructor; apply plus_word.
Qed.

(** ** Sum *)

Lemma length_bytes l :
  [u8 (shl64 l 3); u8 (N.shiftr l 5); u8 (N.shiftr l 13); u8 (N.shiftr l 21);
   u8 (N.shiftr l 29); u8 (N.shiftr l 37); u8 (N.shiftr l 45); u8 (N.shiftr l 53)]
  = little_endian 8 ((8 * l) mod 2 ^ 64).
Proof.
  rewrite (low_byte l 64) by lia.
  change 5 with (8 * 1 - 3). change 13 with (8 * 2 - 3). change 21 with (8 * 3 - 3). change 29 with (8 * 4 - 3).
  change 37 with (8 * 5 - 3). change 45 with (8 * 6 - 3). change 53 with (8 * 7 - 3).
  rewrite !(fun i H => bits_byte l i 64 H) by lia.
  generalize ((8 * l) mod 2 ^ 64). intros v. cbn [little_endian]. rewrite !N.div_div by discriminate. reflexivity.
Qed.

Lemma out_loop_words n : forall i pre ws tl done, length pre = i -> length ws = n -> length done = (i * 4)%nat ->
  out_loop n i (pre ++ ws ++ tl) (done ++ repeat 0 (n * 4)) = Ret (done ++ flat_map (little_endian 4) ws).
Proof.
  induction n as [|n IH]; intros i pre ws tl done Hp Hw Hd.
  - destruct ws; [|discriminate]. reflexivity.
  - destruct ws as [|w ws]; [discriminate|]. cbn [out_loop].
    rewrite (idx_app pre w (ws ++ tl)) by (symmetry; exact Hp). cbn [bind].
    rewrite (proj2 (Nat.leb_le _ _)) by (rewrite app_length, repeat_length; lia).
    replace (repeat 0 (S n * 4)) with (repeat 0 4 ++ repeat 0 (n * 4)) by (rewrite <- repeat_app; reflexivity).
    rewrite <- Hd, copy_at_app by reflexivity. rewrite le32_little_endian.
    specialize (IH (i + 1)%nat (pre ++ [w]) ws tl (done ++ little_endian 4 w)).
    rewrite <- !app_assoc in IH. cbn [app] in IH |- *. rewrite IH; [reflexivity|..].
    + rewrite app_length. cbn [length]. lia.
    + cbn [length] in Hw. lia.
    + rewrite app_length, little_endian_length. lia.
Qed.

Lemma upd8 (pre : list N) a0 a1 a2 a3 a4 a5 a6 a7 b0 b1 b2 b3 b4 b5 b6 b7 {A} (k : list N -> outcome A) :
  length pre = 56%nat ->
  (let! blk := upd (pre ++ [a0; a1; a2; a3; a4; a5; a6; a7]) 56 b0 in
   let! blk := upd blk 57 b1 in let! blk := upd blk 58 b2 in let! blk := upd blk 59 b3 in
   let! blk := upd blk 60 b4 in let! blk := upd blk 61 b5 in let! blk := upd blk 62 b6 in
   let! blk := upd blk 63 b7 in k blk) = k (pre ++ [b0; b1; b2; b3; b4; b5; b6; b7]).
Proof.
  intros H.
  rewrite upd_app' by lia. cbn [bind].
  replace (pre ++ b0 :: [a1; a2; a3; a4; a5; a6; a7]) with ((pre ++ [b0]) ++ [a1; a2; a3; a4; a5; a6; a7]) by (rewrite <- app_assoc; reflexivity).
  rewrite upd_app' by (rewrite app_length; cbn [length]; lia). cbn [bind]. rewrite <- app_assoc. cbn [app].
  replace (pre ++ b0 :: b1 :: [a2; a3; a4; a5; a6; a7]) with ((pre ++ [b0; b1]) ++ [a2; a3; a4; a5; a6; a7]) by (rewrite <- app_assoc; reflexivity).
  rewrite upd_app' by (rewrite app_length; cbn [length]; lia). cbn [bind]. rewrite <- app_assoc. cbn [app].
  replace (pre ++ b0 :: b1 :: b2 :: [a3; a4; a5; a6; a7]) with ((pre ++ [b0; b1; b2]) ++ [a3; a4; a5; a6; a7]) by (rewrite <- app_assoc; reflexivity).
  rewrite upd_app' by (rewrite app_length; cbn [length]; lia). cbn [bind]. rewrite <- app_assoc. cbn [app].
  replace (pre ++ b0 :: b1 :: b2 :: b3 :: [a4; a5; a6; a7]) with ((pre ++ [b0; b1; b2; b3]) ++ [a4; a5; a6; a7]) by (rewrite <- app_assoc; reflexivity).
  rewrite upd_app' by (rewrite app_length; cbn [length]; lia). cbn [bind]. rewrite <- app_assoc. cbn [app].
  replace (pre ++ b0 :: b1 :: b2 :: b3 :: b4 :: [a5; a6; a7]) with ((pre ++ [b0; b1; b2; b3; b4]) ++ [a5; a6; a7]) by (rewrite <- app_assoc; reflexivity).
  rewrite upd_app' by (rewrite app_length; cbn [length]; lia). cbn [bind]. rewrite <- app_assoc. cbn [app].
  replace (pre ++ b0 :: b1 :: b2 :: b3 :: b4 :: b5 :: [a6; a7]) with ((pre ++ [b0; b1; b2; b3; b4; b5]) ++ [a6; a7]) by (rewrite <- app_assoc; reflexivity).
  rewrite upd_app' by (rewrite app_length; cbn [length]; lia). cbn [bind]. rewrite <- app_assoc. cbn [app].
  replace (pre ++ b0 :: b1 :: b2 :: b3 :: b4 :: b5 :: b6 :: [a7]) with ((pre ++ [b0; b1; b2; b3; b4; b5; b6]) ++ [a7]) by (rewrite <- app_assoc; reflexivity).
  rewrite upd_app' by (rewrite app_length; cbn [length]; lia). cbn [bind]. rewrite <- app_assoc. cbn [app]. reflexivity.
Qed.

Section Variant.
Variables (hash : ctx -> outcome ctx) (comp : list N -> list N -> list N) (iv0 : list N) (n : nat).
Definition embed (h : list N) : list N := h ++ repeat 0 (10 - n).
Hypothesis iv_ok : words_ok n iv0.
Hypothesis comp_ok : forall h blk, words_ok n h -> words_ok n (comp h blk).
Hypothesis hash_ok : forall h t blk pos, words_ok n h -> length blk = 64%nat -> bytes_ok blk ->
  hash (mkCtx (embed h) t blk pos) = Ret (mkCtx (embed (comp h blk)) t blk 0).
Hypothesis reset_ok : forall h t blk pos, words_ok n h -> Reset n (mkCtx (embed h) t blk pos) = Ret (mkCtx (embed iv0) 0 blk 0).
Hypothesis new_ok : New n = Ret (mkCtx (embed iv0) 0 (repeat 0 64) 0).

Definition holds (c : ctx) (m : list N) : Prop :=
  absorbed comp embed iv0 c m /\ total c = N.of_nat (length m) mod 2 ^ 64.

Lemma Write_ok c m p : holds c m -> bytes_ok p ->
  exists c', Write hash c p = Ret (c', length p) /\ holds c' (m ++ p).
Proof.
  intros [A T] B. unfold Write. set (c0 := mkCtx _ _ _ _).
  destruct (write_loop_absorb hash comp embed (words_ok n) iv0 iv_ok
    (fun h blk Hh _ _ => comp_ok h blk Hh) hash_ok (S (length p)) p c0 m) as (c' & E & A' & T').
  - lia.
  - exact B.
  - destruct A as (fs & t & rest & A). exists fs, t, rest. exact A.
  - rewrite E. exists c'. cbn [bind]. split; [reflexivity|].
    split; [exact A'|]. rewrite T'. unfold c0. cbn [total]. rewrite T, app_length, Nat2N.inj_add.
    unfold add64, u64. rewrite <- N.add_mod by discriminate. reflexivity.
Qed.

Lemma Sum_ok c m inp : holds c m ->
  Sum hash n c inp = Ret (c, inp ++ ripemd comp iv0 m).
Proof.
  intros [(fs & t & rest & Em & F & Ht & Bm & Es & Eb & Lb & Bb & Ep) T].
  assert (Bft : bytes_ok (concat fs) /\ bytes_ok t) by (apply bytes_ok_app; rewrite <- Em; exact Bm).
  assert (H0 : words_ok n (fold_left comp fs iv0)).
  { apply (fold_ok comp (words_ok n) iv0 iv_ok (fun h blk Hh _ _ => comp_ok h blk Hh)); tauto. }
  assert (Lr : length rest = (64 - length t)%nat) by (rewrite Eb, app_length in Lb; lia).
  assert (EL : (8 * total c) mod 2 ^ 64 = (8 * N.of_nat (length m)) mod 2 ^ 64).
  { rewrite T. rewrite N.mul_mod_idemp_r by discriminate. reflexivity. }
  unfold Sum. rewrite Eb, Ep. destruct rest as [|x rest]; [cbn [length] in Lr; lia|]. cbn [length] in Lr.
  rewrite upd_app. cbn [bind bPos block state total].
  assert (Br : bytes_ok rest).
  { rewrite Eb in Bb. apply bytes_ok_app in Bb. destruct Bb as [_ Bb]. inversion Bb; assumption. }
  assert (Zm : zeros (length m) 8 = ((64 - (length t + 9) mod 64) mod 64)%nat).
  { unfold zeros. rewrite Em, app_length, (concat_length_const 64) by exact F.
    replace (64 * length fs + length t + 1 + 8)%nat with (length t + 9 + length fs * 64)%nat by lia.
    rewrite Nat.mod_add by lia. reflexivity. }
  assert (B128 : bytes_ok [128]) by (repeat constructor).
  (* the last step, common to both cases *)
  assert (Finish : forall h pre a0 a1 a2 a3 a4 a5 a6 a7 gs, words_ok n h -> length pre = 56%nat -> bytes_ok pre ->
     concat fs ++ concat gs = padded (bit_length m) m -> Forall (fun b => length b = 64%nat) gs ->
     fold_left comp gs (fold_left comp fs iv0) = comp h (pre ++ bit_length m) ->
     (let! blk := upd (pre ++ [a0; a1; a2; a3; a4; a5; a6; a7]) 56 (u8 (shl64 (total c) 3)) in
      let! blk := upd blk 57 (u8 (N.shiftr (total c) 5)) in
      let! blk := upd blk 58 (u8 (N.shiftr (total c) 13)) in
      let! blk := upd blk 59 (u8 (N.shiftr (total c) 21)) in
      let! blk := upd blk 60 (u8 (N.shiftr (total c) 29)) in
      let! blk := upd blk 61 (u8 (N.shiftr (total c) 37)) in
      let! blk := upd blk 62 (u8 (N.shiftr (total c) 45)) in
      let! blk := upd blk 63 (u8 (N.shiftr (total c) 53)) in
      let! h := hash (mkCtx (embed h) (total c) blk 64) in
      let! out := make_bytes (Z.of_nat (n * 4)) in
      let! out := out_loop n 0 (state h) out in
      Ret (c, inp ++ out)) = Ret (c, inp ++ ripemd comp iv0 m)).
  { intros h pre a0 a1 a2 a3 a4 a5 a6 a7 gs Hh Hp Bp Eg Fg Ef.
    rewrite upd8 by exact Hp. rewrite length_bytes, EL.
    change (little_endian 8 ((8 * N.of_nat (length m)) mod 2 ^ 64)) with (bit_length m).
    rewrite hash_ok; [|exact Hh|..].
    2:{ rewrite app_length, Hp. unfold bit_length. rewrite little_endian_length. reflexivity. }
    2:{ apply bytes_ok_app. split; [exact Bp|apply little_endian_ok]. }
    cbn [bind state]. rewrite make_bytes_nat. cbn [bind]. unfold embed.
    pose proof (out_loop_words n 0 [] (comp h (pre ++ bit_length m)) (repeat 0 (10 - n)) [] eq_refl
      (proj1 (comp_ok h _ Hh)) eq_refl) as O. cbn [app] in O. rewrite O. cbn [bind].
    unfold ripemd. rewrite <- Eg, iterate_app by assumption. rewrite Ef. reflexivity. }
  assert (Lbit : length (bit_length m) = 8%nat) by (apply little_endian_length).
  destruct (Nat.ltb_spec 56 (length t + 1)) as [L|L].
  - (* two blocks *)
    set (blk1 := t ++ [128] ++ repeat 0 (length rest)).
    assert (E1 : zero_range (t ++ 128 :: rest) (length t + 1) (length (t ++ 128 :: rest)) = Ret blk1).
    { pose proof (zero_range_from (length t + 1) (length (t ++ 128 :: rest)) (t ++ [128]) rest []) as Z.
      rewrite app_nil_r, <- !app_assoc, app_nil_r in Z. apply Z; rewrite !app_length; cbn [length]; lia. }
    rewrite E1. cbn [bind].
    assert (L1 : length blk1 = 64%nat) by (unfold blk1; rewrite !app_length, repeat_length; cbn [length]; lia).
    assert (B1 : bytes_ok blk1).
    { unfold blk1. apply bytes_ok_app. split; [tauto|]. apply bytes_ok_app. split; [exact B128|apply bytes_ok_repeat]. }
    rewrite Es, hash_ok by assumption. cbn [bind block bPos state total].
    assert (E2 : exists a0 a1 a2 a3 a4 a5 a6 a7,
       zero_range blk1 0 56 = Ret (repeat 0 56 ++ [a0; a1; a2; a3; a4; a5; a6; a7])).
    { pose proof (zero_range_from 0 56 [] (firstn 56 blk1) (skipn 56 blk1) eq_refl) as Z.
      rewrite firstn_length, L1 in Z. cbn [app length] in Z. rewrite firstn_skipn in Z.
      change (Nat.min 56 64) with 56%nat in Z. rewrite (Z eq_refl).
      assert (S8 : length (skipn 56 blk1) = 8%nat) by (rewrite skipn_length; lia).
      destruct (skipn 56 blk1) as [|a0 [|a1 [|a2 [|a3 [|a4 [|a5 [|a6 [|a7 [|]]]]]]]]]; try discriminate S8.
      exists a0, a1, a2, a3, a4, a5, a6, a7. reflexivity. }
    destruct E2 as (a0 & a1 & a2 & a3 & a4 & a5 & a6 & a7 & E2). rewrite E2. cbn [bind].
    apply (Finish (comp (fold_left comp fs iv0) blk1) (repeat 0 56) a0 a1 a2 a3 a4 a5 a6 a7
             [blk1; repeat 0 56 ++ bit_length m]).
    + apply comp_ok, H0.
    + reflexivity.
    + apply bytes_ok_repeat.
    + unfold padded. rewrite Lbit, Zm. generalize (bit_length m). intros bl. rewrite Em, <- (app_assoc (concat fs) t). f_equal. cbn [concat]. rewrite app_nil_r. unfold blk1.
      rewrite <- !app_assoc. f_equal. cbn [app]. f_equal. rewrite app_assoc, <- repeat_app. f_equal. f_equal.
      assert (Q : (length t = 56 \/ length t = 57 \/ length t = 58 \/ length t = 59 \/ length t = 60 \/ length t = 61
                 \/ length t = 62 \/ length t = 63)%nat) by lia.
      destruct Q as [Q|[Q|[Q|[Q|[Q|[Q|[Q|Q]]]]]]]; rewrite Q in *; cbn; lia.
    + constructor; [exact L1|]. constructor; [|constructor]. rewrite app_length, Lbit. reflexivity.
    + reflexivity.
  - (* one block *)
    cbn [bind block bPos state total].
    set (mid := firstn (55 - length t) rest). set (post := skipn (55 - length t) rest).
    assert (Lm : length mid = (55 - length t)%nat) by (unfold mid; rewrite firstn_length; lia).
    assert (Lp : length post = 8%nat) by (unfold post; rewrite skipn_length; lia).
    assert (E1 : zero_range (t ++ 128 :: rest) (length t + 1) 56 = Ret ((t ++ [128] ++ repeat 0 (length mid)) ++ post)).
    { pose proof (zero_range_from (length t + 1) 56 (t ++ [128]) mid post) as Z.
      rewrite <- !app_assoc in Z. cbn [app] in Z.
      replace (mid ++ post) with rest in Z by (symmetry; apply firstn_skipn).
      rewrite <- app_assoc. cbn [app]. apply Z; rewrite ?app_length; cbn [length]; lia. }
    rewrite E1. cbn [bind]. rewrite Es.
    destruct post as [|a0 [|a1 [|a2 [|a3 [|a4 [|a5 [|a6 [|a7 [|]]]]]]]]]; try discriminate Lp.
    apply (Finish (fold_left comp fs iv0) (t ++ [128] ++ repeat 0 (length mid)) a0 a1 a2 a3 a4 a5 a6 a7
             [(t ++ [128] ++ repeat 0 (length mid)) ++ bit_length m]).
    + exact H0.
    + rewrite !app_length, repeat_length. cbn [length]. lia.
    + apply bytes_ok_app. split; [tauto|]. apply bytes_ok_app. split; [exact B128|apply bytes_ok_repeat].
    + unfold padded. rewrite Lbit, Zm. generalize (bit_length m). intros bl. rewrite Em, <- (app_assoc (concat fs) t). f_equal. cbn [concat]. rewrite app_nil_r.
      rewrite <- !app_assoc. f_equal. f_equal. f_equal. f_equal. rewrite Lm.
      destruct (Nat.eq_dec (length t) 55) as [Q|Q]; [rewrite Q; reflexivity|].
      rewrite (Nat.mod_small (length t + 9)) by lia. rewrite Nat.mod_small by lia. lia.
    + constructor; [|constructor]. rewrite !app_length, repeat_length, Lbit. cbn [length]. lia.
    + reflexivity.
Qed.

Theorem history cs : hcalls_ok cs ->
  (let! c := New n in hobserve (step hash n) c cs) = Ret (hash_trace (ripemd comp iv0) (4 * n) 64 [] cs).
Proof.
  intros H. rewrite new_ok. cbn [bind]. unfold hobserve.
  destruct (hrun_trace (step hash n) (ripemd comp iv0) (4 * n) 64 holds) with (cs := cs) (c := mkCtx (embed iv0) 0 (repeat 0 64) 0) (m := @nil N)
    as (c' & E & _).
  - intros c m p Hc Bp. destruct (Write_ok c m p Hc Bp) as (c' & E & Hc'). exists c'. cbn [step]. rewrite E. split; [reflexivity|exact Hc'].
  - intros c m inp Hc. cbn [step]. rewrite (Sum_ok c m inp Hc). reflexivity.
  - intros c m [(fs & t & rest & Em & F & Ht & Bm & Es & Eb & Lb & Bb & Ep) T]. cbn [step].
    assert (Bft : bytes_ok (concat fs) /\ bytes_ok t) by (apply bytes_ok_app; rewrite <- Em; exact Bm).
    assert (H0 : words_ok n (fold_left comp fs iv0)).
    { apply (fold_ok comp (words_ok n) iv0 iv_ok (fun h blk Hh _ _ => comp_ok h blk Hh)); tauto. }
    destruct c as [st tt blk pos]. cbn [state] in Es. subst st. rewrite (reset_ok _ tt blk pos H0). cbn [bind].
    eexists. split; [reflexivity|]. split; [|reflexivity].
    exists [], [], blk. cbn [state block bPos concat app length fold_left] in *. repeat split; try assumption; try lia; constructor.
  - intros c. cbn [step]. unfold Size. rewrite Nat.mul_comm. reflexivity.
  - intros c. reflexivity.
  - split; [|reflexivity]. exists [], [], (repeat 0 64). cbn [state block bPos concat app length fold_left].
    repeat split; try lia; try constructor; try (apply bytes_ok_repeat); repeat constructor.
  - exact H.
  - rewrite E. reflexivity.
Qed.
End Variant.

Ltac words_tac := split; [reflexivity|repeat constructor].
Ltac reset_tac := intros h t blk pos [L F]; repeat (destruct h as [|? h]; try discriminate L); reflexivity.

Theorem history128 cs : hcalls_ok cs ->
  (let! c := New 4 in hobserve (step hash128 4) c cs) = Ret (hash_trace RIPEMD128 16 64 [] cs).
Proof.
  apply (history hash128 compress128 iv128 4); [words_tac|exact compress128_ok|exact hash128_ok|reset_tac|reflexivity].
Qed.
Theorem history160 cs : hcalls_ok cs ->
  (let! c := New 5 in hobserve (step hash160 5) c cs) = Ret (hash_trace RIPEMD160 20 64 [] cs).
Proof.
  apply (history hash160 compress160 iv160 5); [words_tac|exact compress160_ok|exact hash160_ok|reset_tac|reflexivity].
Qed.
Theorem history256 cs : hcalls_ok cs ->
  (let! c := New 8 in hobserve (step hash256 8) c cs) = Ret (hash_trace RIPEMD256 32 64 [] cs).
Proof.
  apply (history hash256 compress256 iv256 8); [words_tac|exact compress256_ok|exact hash256_ok|reset_tac|reflexivity].
Qed.
Theorem history320 cs : hcalls_ok cs ->
  (let! c := New 10 in hobserve (step hash320 10) c cs) = Ret (hash_trace RIPEMD320 40 64 [] cs).
Proof.
  apply (history hash320 compress320 iv320 10); [words_tac|exact compress320_ok|exact hash320_ok|reset_tac|reflexivity].
Qed.

(** ** All variants *)

Definition spec_of (v : variant) : list N -> list N :=
  match v with V128 => RIPEMD128 | V160 => RIPEMD160 | V256 => RIPEMD256 | V320 => RIPEMD320 end.

Theorem use_trace v cs : hcalls_ok cs -> use v cs = Ret (hash_trace (spec_of v) (4 * state_len v) 64 [] cs).
Proof. destruct v; [apply history128|apply history160|apply history256|apply history320]. Qed.

Lemma compress_length {B} comp n (H : forall h (blk : B), words_ok n h -> words_ok n (comp h blk)) bs :
  forall h, words_ok n h -> words_ok n (fold_left comp bs h).
Proof. induction bs as [|b bs IH]; intros h Hh; [exact Hh|]. cbn [fold_left]. apply IH, H, Hh. Qed.
Lemma spec_length v m : length (spec_of v m) = (4 * state_len v)%nat.
Proof.
  destruct v; unfold spec_of, RIPEMD128, RIPEMD160, RIPEMD256, RIPEMD320, ripemd, iterate; rewrite flat_length; f_equal.
  - apply (compress_length compress128 4 compress128_ok). words_tac.
  - apply (compress_length compress160 5 compress160_ok). words_tac.
  - apply (compress_length compress256 8 compress256_ok). words_tac.
  - apply (compress_length compress320 10 compress320_ok). words_tac.
Qed.

Theorem concatenation v cs : hcalls_ok cs -> bytes_ok (written [] cs) /\
  exists rs d, use v (cs ++ [HSum []]) = Ret (rs ++ [Digest d])
  /\ use v [HWrite (written [] cs); HSum []] = Ret [Wrote (length (written [] cs)); Digest d].
Proof.
  intros H.
  assert (B : forall cs m, hcalls_ok cs -> bytes_ok m -> bytes_ok (written m cs)).
  { clear. induction cs as [|q cs IH]; intros m H B; [exact B|]. inversion H as [|? ? Hq Hc]; subst.
    destruct q; cbn [written]; apply IH; try assumption; [apply bytes_ok_app; split; assumption|constructor]. }
  specialize (B cs [] H ltac:(constructor)). split; [exact B|].
  exists (hash_trace (spec_of v) (4 * state_len v) 64 [] cs), (spec_of v (written [] cs)). split.
  - rewrite use_trace; [|apply Forall_app; split; [exact H|repeat constructor]]. rewrite hash_trace_app. reflexivity.
  - rewrite use_trace; [reflexivity|]. constructor; [exact B|]. repeat constructor.
Qed.

Theorem sum_pure v cs1 inp cs2 : hcalls_ok cs1 -> bytes_ok inp -> hcalls_ok cs2 ->
  exists r1 d r2, length r1 = length cs1 /\ length d = (4 * state_len v)%nat
  /\ use v (cs1 ++ HSum inp :: cs2) = Ret (r1 ++ Digest (inp ++ d) :: r2) /\ use v (cs1 ++ cs2) = Ret (r1 ++ r2).
Proof.
  intros H1 Hi H2. exists (hash_trace (spec_of v) (4 * state_len v) 64 [] cs1), (spec_of v (written [] cs1)),
    (hash_trace (spec_of v) (4 * state_len v) 64 (written [] cs1) cs2).
  assert (L : forall m cs, length (hash_trace (spec_of v) (4 * state_len v) 64 m cs) = length cs).
  { clear. intros m cs. revert m. induction cs as [|q cs IH]; intros m; [reflexivity|]. destruct q; cbn [hash_trace length]; rewrite IH; reflexivity. }
  split; [apply L|]. split; [apply spec_length|]. split.
  - rewrite use_trace; [rewrite hash_trace_app; reflexivity|]. apply Forall_app. split; [exact H1|]. constructor; [exact Hi|exact H2].
  - rewrite use_trace; [rewrite hash_trace_app; reflexivity|]. apply Forall_app. split; assumption.
Qed.

Theorem shape v cs : hcalls_ok cs -> exists rs, use v cs = Ret rs /\
  Forall2 (fun c r => match c with
    | HWrite p => r = Wrote (length p)
    | HSum inp => exists d, r = Digest (inp ++ d) /\ length d = (4 * state_len v)%nat
    | HReset => r = Done
    | HSize => r = Length (4 * state_len v)
    | HBlockSize => r = Length 64 end) cs rs.
Proof.
  intros H. eexists. split; [apply use_trace, H|]. generalize (@nil N). clear H.
  induction cs as [|q cs IH]; intros m; [constructor|]. destruct q; cbn [hash_trace]; (constructor; [|apply IH]); try reflexivity.
  eexists. split; [reflexivity|]. apply spec_length.
Qed.

(** ** Statements about padding and tables *)

Theorem padded_blocks m : exists z, (z < 64)%nat /\
  padded (bit_length m) m = m ++ 128 :: repeat 0 z ++ bit_length m
  /\ (length (padded (bit_length m) m) mod 64 = 0)%nat.
Proof.
  exists (zeros (length m) (length (bit_length m))). split; [apply Nat.mod_upper_bound; lia|]. split; [reflexivity|].
  unfold padded. rewrite !app_length, repeat_length. unfold bit_length. rewrite little_endian_length. cbn [length].
  unfold zeros. pose proof (Nat.div_mod (length m + 1 + 8) 64 ltac:(lia)) as D.
  pose proof (Nat.mod_upper_bound (length m + 1 + 8) 64 ltac:(lia)) as U.
  set (q := ((length m + 1 + 8) / 64)%nat) in *. set (x := ((length m + 1 + 8) mod 64)%nat) in *.
  destruct (Nat.eq_dec x 0) as [E|E].
  - rewrite E. change ((64 - 0) mod 64)%nat with 0%nat.
    replace (length m + (1 + (0 + 8)))%nat with (q * 64)%nat by lia. apply Nat.mod_mul. lia.
  - rewrite (Nat.mod_small (64 - x)) by lia.
    replace (length m + (1 + (64 - x + 8)))%nat with ((q + 1) * 64)%nat by lia. apply Nat.mod_mul. lia.
Qed.

Lemma idx_some {A} (l : list A) n v : idx l n = Ret v -> nth_error l n = Some v.
Proof. unfold idx. destruct (nth_error l n); intros E; [congruence|discriminate]. Qed.
Theorem word_order i j : (i < 5)%nat -> (j < 16)%nat ->
  nth_error r (i * 16 + j) = Some (N.of_nat (left_word i j))
  /\ nth_error rr (i * 16 + j) = Some (N.of_nat (right_word i j)).
Proof. intros Hi Hj. split; apply idx_some; [apply r_table|apply rr_table]; assumption. Qed.
Theorem rotations i j : (i < 5)%nat -> (j < 16)%nat ->
  nth_error s (i * 16 + j) = Some (shift i (left_word i j))
  /\ nth_error ss (i * 16 + j) = Some (shift i (right_word i j)).
Proof. intros Hi Hj. split; apply idx_some; [apply s_table|apply ss_table]; assumption. Qed.
Lemma k_spec i : (i < 5)%nat -> exists c, be_at k i = Ret c /\ firstn 4 (skipn (4 * i) k) = big_endian 4 c.
Proof. intros H. small_nat i H; (eexists; split; [vm_compute; reflexivity|vm_compute; reflexivity]). Qed.
Lemma kk_spec i : (i < 5)%nat -> exists c, be_at kk i = Ret c /\ firstn 4 (skipn (4 * i) kk) = big_endian 4 c.
Proof. intros H. small_nat i H; (eexists; split; [vm_compute; reflexivity|vm_compute; reflexivity]). Qed.
Lemma kk128_spec i : (i < 4)%nat -> exists c, be_at kk128 i = Ret c /\ firstn 4 (skipn (4 * i) kk128) = big_endian 4 c.
Proof. intros H. small_nat i H; (eexists; split; [vm_compute; reflexivity|vm_compute; reflexivity]). Qed.
Theorem constants :
  (forall i, (i < 5)%nat -> exists c, firstn 4 (skipn (4 * i) k) = big_endian 4 c /\
     let p := nth i [0; 2; 3; 5; 7] 0 in c ^ 2 <= 2 ^ 60 * p < (c + 1) ^ 2)
  /\ (forall i, (i < 5)%nat -> exists c, firstn 4 (skipn (4 * i) kk) = big_endian 4 c /\
     let p := nth i [2; 3; 5; 7; 0] 0 in c ^ 3 <= 2 ^ 90 * p < (c + 1) ^ 3)
  /\ (forall i, (i < 4)%nat -> exists c, firstn 4 (skipn (4 * i) kk128) = big_endian 4 c /\
     let p := nth i [2; 3; 5; 0] 0 in c ^ 3 <= 2 ^ 90 * p < (c + 1) ^ 3).
Proof.
  split; [|split]; intros i H.
  - destruct (k_spec i H) as (c & E & B). exists c. split; [exact B|].
    small_nat i H; vm_compute in E; injection E as <-; vm_compute; split; (discriminate || reflexivity).
  - destruct (kk_spec i H) as (c & E & B). exists c. split; [exact B|].
    small_nat i H; vm_compute in E; injection E as <-; vm_compute; split; (discriminate || reflexivity).
  - destruct (kk128_spec i H) as (c & E & B). exists c. split; [exact B|].
    small_nat i H; vm_compute in E; injection E as <-; vm_compute; split; (discriminate || reflexivity).
Qed.

Definition unique_in (g : nat -> nat) (w : nat) : bool :=
  Nat.eqb (length (filter (fun j => Nat.eqb (g j) w) (seq 0 16))) 1.
Lemma unique_in_spec g w : unique_in g w = true -> exists! j, (j < 16)%nat /\ g j = w.
Proof.
  unfold unique_in. intros E. apply Nat.eqb_eq in E.
  destruct (filter (fun j => Nat.eqb (g j) w) (seq 0 16)) as [|j [|]] eqn:F; try discriminate E.
  assert (I : forall x, In x [j] <-> (x < 16)%nat /\ g x = w).
  { intros x. rewrite <- F, filter_In, in_seq, Nat.eqb_eq. intuition lia. }
  exists j. split; [apply I; left; reflexivity|]. intros x Hx. apply I in Hx. destruct Hx as [Hx|[]]. exact Hx.
Qed.
Theorem permutations i w : (i < 5)%nat -> (w < 16)%nat ->
  (exists! j, (j < 16)%nat /\ left_word i j = w) /\ (exists! j, (j < 16)%nat /\ right_word i j = w).
Proof.
  intros Hi Hw. split; apply unique_in_spec.
  - exact (all_ij_spec (fun i w => unique_in (left_word i) w) ltac:(vm_compute; reflexivity) i w Hi Hw).
  - exact (all_ij_spec (fun i w => unique_in (right_word i) w) ltac:(vm_compute; reflexivity) i w Hi Hw).
Qed.
