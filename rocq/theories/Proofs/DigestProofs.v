(** Buffering, padding and iteration, for any block hash. *)
From Verif Require Import Base.Go Base.Mem Base.DigestApi Model.Bytes Model.Ripemd Spec.BytesSpec Spec.CodegenSpec Spec.DigestSpec
  Proofs.Util Proofs.BytesProofs.
Local Open Scope N_scope.

(** ** Histories *)

Section Trace.
Variables (step : ctx -> hcall -> outcome (ctx * hresult)) (digest : list N -> list N) (size bsize : nat).
Variable R : ctx -> list N -> Prop.
Hypothesis write_ok : forall c m p, R c m -> bytes_ok p ->
  exists c', step c (HWrite p) = Ret (c', Wrote (length p)) /\ R c' (m ++ p).
Hypothesis sum_ok : forall c m inp, R c m -> step c (HSum inp) = Ret (c, Digest (inp ++ digest m)).
Hypothesis reset_ok : forall c m, R c m -> exists c', step c HReset = Ret (c', Done) /\ R c' [].
Hypothesis size_ok : forall c, step c HSize = Ret (c, Length size).
Hypothesis bsize_ok : forall c, step c HBlockSize = Ret (c, Length bsize).

Lemma hrun_trace cs : forall c m, R c m -> hcalls_ok cs ->
  exists c', hrun step c cs = Ret (c', hash_trace digest size bsize m cs) /\ R c' (written m cs).
Proof.
  induction cs as [|q cs IH]; intros c m HR Hok.
  - exists c. split; [reflexivity|exact HR].
  - inversion Hok as [|? ? Hq Hcs]; subst. cbn [hrun hash_trace written].
    destruct q as [p|inp| | |].
    + destruct (write_ok c m p HR Hq) as (c1 & E & R1). rewrite E. cbn [bind].
      destruct (IH c1 _ R1 Hcs) as (c2 & E2 & R2). rewrite E2. cbn [bind]. exists c2. split; [reflexivity|exact R2].
    + rewrite (sum_ok c m inp HR). cbn [bind].
      destruct (IH c _ HR Hcs) as (c2 & E2 & R2). rewrite E2. cbn [bind]. exists c2. split; [reflexivity|exact R2].
    + destruct (reset_ok c m HR) as (c1 & E & R1). rewrite E. cbn [bind].
      destruct (IH c1 _ R1 Hcs) as (c2 & E2 & R2). rewrite E2. cbn [bind]. exists c2. split; [reflexivity|exact R2].
    + rewrite size_ok. cbn [bind].
      destruct (IH c _ HR Hcs) as (c2 & E2 & R2). rewrite E2. cbn [bind]. exists c2. split; [reflexivity|exact R2].
    + rewrite bsize_ok. cbn [bind].
      destruct (IH c _ HR Hcs) as (c2 & E2 & R2). rewrite E2. cbn [bind]. exists c2. split; [reflexivity|exact R2].
Qed.
End Trace.

(** ** Blocks *)

Lemma pieces_fuel_concat {A} k (fs : list (list A)) : (0 < k)%nat -> Forall (fun b => length b = k) fs ->
  forall n, (length fs <= n)%nat -> pieces_fuel n k (concat fs) = fs.
Proof.
  intros Hk H. induction H as [|b fs Hb H IH]; intros n Hn.
  - destruct n; reflexivity.
  - destruct n as [|n]; [cbn in Hn; lia|]. cbn [concat pieces_fuel].
    destruct (b ++ concat fs) as [|x l] eqn:E.
    { apply app_eq_nil in E. destruct E as [-> _]. cbn in Hb. lia. }
    rewrite <- E. rewrite firstn_app, skipn_app, firstn_all2, skipn_all2 by lia.
    rewrite Hb, Nat.sub_diag, firstn_O, skipn_O, app_nil_r. cbn [app].
    rewrite IH by (cbn [length] in Hn; lia). reflexivity.
Qed.
Lemma concat_length_const {A} k (fs : list (list A)) : Forall (fun b => length b = k) fs ->
  length (concat fs) = (k * length fs)%nat.
Proof.
  intros H. induction H as [|b fs Hb H IH]; cbn [concat length]; [lia|]. rewrite app_length, IH, Hb. lia.
Qed.
Lemma pieces_concat_id {A} k (fs : list (list A)) : (0 < k)%nat -> Forall (fun b => length b = k) fs ->
  pieces k (concat fs) = fs.
Proof.
  intros Hk H. unfold pieces. apply pieces_fuel_concat; [exact Hk|exact H|].
  rewrite (concat_length_const k) by exact H. nia.
Qed.
Lemma iterate_app {St} (comp : St -> list N -> St) iv fs gs :
  Forall (fun b => length b = 64%nat) fs -> Forall (fun b => length b = 64%nat) gs ->
  iterate comp iv (concat fs ++ concat gs) = fold_left comp gs (fold_left comp fs iv).
Proof.
  intros F G. unfold iterate. rewrite <- concat_app, pieces_concat_id; [apply fold_left_app|lia|].
  apply Forall_app. split; assumption.
Qed.

Lemma copy_at_app t u rest p : length u = length p ->
  copy_at (t ++ u ++ rest) (length t) p = t ++ p ++ rest.
Proof.
  intros E. unfold copy_at. rewrite !app_length, E.
  replace (Nat.min (length t + (length p + length rest) - length t) (length p)) with (length p) by lia.
  rewrite firstn_all. rewrite firstn_app, firstn_all, Nat.sub_diag, firstn_O, app_nil_r.
  f_equal. f_equal. rewrite (app_assoc t u rest), skipn_app, skipn_all2 by (rewrite app_length; lia).
  rewrite app_length, E, Nat.sub_diag, skipn_O. reflexivity.
Qed.

Section Absorb.
Variables (hash : ctx -> outcome ctx) (comp : list N -> list N -> list N) (enc : list N -> list N).
Variable okst : list N -> Prop.
Variable iv : list N.
Hypothesis iv_ok : okst iv.
Hypothesis comp_ok : forall h blk, okst h -> length blk = 64%nat -> bytes_ok blk -> okst (comp h blk).
Hypothesis hash_ok : forall h t blk pos, okst h -> length blk = 64%nat -> bytes_ok blk ->
  hash (mkCtx (enc h) t blk pos) = Ret (mkCtx (enc (comp h blk)) t blk 0).

Definition absorbed (c : ctx) (m : list N) : Prop :=
  exists fs t rest, m = concat fs ++ t /\ Forall (fun b => length b = 64%nat) fs /\ (length t < 64)%nat
  /\ bytes_ok m /\ state c = enc (fold_left comp fs iv) /\ block c = t ++ rest
  /\ length (block c) = 64%nat /\ bytes_ok (block c) /\ bPos c = length t.

Lemma fold_ok fs : Forall (fun b => length b = 64%nat) fs -> bytes_ok (concat fs) -> okst (fold_left comp fs iv).
Proof.
  intros H. revert iv iv_ok. induction H as [|b fs Hb H IH]; intros h Hh B; [exact Hh|].
  cbn [concat fold_left] in *. apply bytes_ok_app in B. apply IH; [apply comp_ok; tauto|tauto].
Qed.

Lemma write_loop_absorb fuel : forall p c m, (length p < fuel)%nat -> bytes_ok p -> absorbed c m ->
  exists c', write_loop fuel hash c p (length p) (64 - bPos c) = Ret c' /\ absorbed c' (m ++ p) /\ total c' = total c.
Proof.
  induction fuel as [|fuel IH]; intros p c m Hf Bp (fs & t & rest & Em & F & Ht & Bm & Es & Eb & Lb & Bb & Ep); [lia|].
  cbn [write_loop]. destruct (Nat.ltb_spec 0 (length p)) as [P|P].
  2:{ destruct p; [|cbn in P; lia]. exists c. rewrite app_nil_r. split; [reflexivity|]. split; [|reflexivity].
      exists fs, t, rest. repeat split; assumption. }
  assert (Lr : length rest = (64 - length t)%nat) by (rewrite Eb, app_length in Lb; lia).
  assert (C : forall q, (length q <= length rest)%nat ->
     copy_from (block c) (bPos c) q = Ret (t ++ q ++ skipn (length q) rest)).
  { intros q Hq. unfold copy_from. rewrite (proj2 (Nat.leb_le _ _)) by lia. rewrite Eb, Ep.
    rewrite <- (firstn_skipn (length q) rest) at 1. rewrite copy_at_app; [reflexivity|]. rewrite firstn_length. lia. }
  destruct (Nat.ltb_spec (length p) (64 - bPos c)) as [L|L].
  - rewrite C by lia. cbn [bind]. eexists. split; [reflexivity|]. split; [|reflexivity].
    exists fs, (t ++ p), (skipn (length p) rest). cbn [state block bPos].
    repeat split; try assumption.
    + rewrite Em, app_assoc. reflexivity.
    + rewrite app_length. lia.
    + apply bytes_ok_app. split; assumption.
    + rewrite app_assoc. reflexivity.
    + rewrite !app_length, skipn_length. lia.
    + rewrite Eb in Bb. apply bytes_ok_app in Bb. destruct Bb as [Bt Br].
      rewrite <- (firstn_skipn (length p) rest) in Br. apply bytes_ok_app in Br.
      apply bytes_ok_app. split; [exact Bt|]. apply bytes_ok_app. tauto.
    + rewrite app_length. lia.
  - unfold slice_of at 1. rewrite (proj2 (Nat.leb_le 0 _)), (proj2 (Nat.leb_le _ (length p))) by lia. cbn [andb bind].
    rewrite Nat.sub_0_r, skipn_O. set (sp := (64 - bPos c)%nat) in *.
    assert (Lf : length (firstn sp p) = sp) by (rewrite firstn_length; lia).
    rewrite C by (rewrite Lf; lia). cbn [bind]. rewrite Lf, skipn_all2, app_nil_r by lia.
    assert (Bfs : bytes_ok (concat fs) /\ bytes_ok t) by (apply bytes_ok_app; rewrite <- Em; exact Bm).
    assert (Bpp : bytes_ok (firstn sp p) /\ bytes_ok (skipn sp p))
      by (apply bytes_ok_app; rewrite firstn_skipn; exact Bp).
    assert (Bblk : bytes_ok (t ++ firstn sp p)) by (apply bytes_ok_app; tauto).
    assert (Lblk : length (t ++ firstn sp p) = 64%nat) by (rewrite app_length, Lf; lia).
    rewrite Es, hash_ok; [|apply fold_ok; tauto|exact Lblk|exact Bblk]. cbn [bind].
    unfold slice_of. rewrite (proj2 (Nat.leb_le _ (length p))), Nat.leb_refl by lia. cbn [andb bind].
    rewrite (firstn_all2 (skipn sp p)) by (rewrite skipn_length; lia).
    set (c1 := mkCtx _ _ _ _).
    destruct (IH (skipn sp p) c1 (m ++ firstn sp p)) as (c' & E & A & T).
    + rewrite skipn_length. lia.
    + tauto.
    + exists (fs ++ [t ++ firstn sp p]), [], (t ++ firstn sp p). unfold c1. cbn [state block bPos app length].
      repeat split; try assumption.
      * rewrite concat_app. cbn [concat]. rewrite !app_nil_r, Em, app_assoc. reflexivity.
      * apply Forall_app. split; [exact F|]. constructor; [exact Lblk|constructor].
      * lia.
      * apply bytes_ok_app. tauto.
      * rewrite fold_left_app. reflexivity.
    + exists c'. rewrite skipn_length in E. change (64 - bPos c1)%nat with 64%nat in E. split; [exact E|].
      rewrite <- app_assoc, firstn_skipn in A. split; [exact A|exact T].
Qed.
End Absorb.

(** ** bytes.Zero on a block *)

Lemma zero_range_app pre mid post : (* zero the middle *)
  zero_range (pre ++ mid ++ post) (length pre) (length pre + length mid)
  = Ret (pre ++ repeat 0 (length mid) ++ post).
Proof.
  unfold zero_range, sub. cbn [len off]. rewrite (proj2 (Nat.leb_le (length pre) _)) by lia.
  rewrite (proj2 (Nat.leb_le _ _)) by (rewrite !app_length; lia). cbn [andb bind Nat.add].
  replace (length pre + length mid - length pre)%nat with (length mid) by lia.
  destruct (Zero_spec (fun a => nth a (pre ++ mid ++ post) 0) (mkSlice (length pre) (length mid))) as (m' & -> & Z).
  cbn [bind off len] in *. f_equal.
  apply (nth_ext _ _ 0 0).
  - rewrite map_length, seq_length, !app_length, repeat_length. lia.
  - intros n Hn. rewrite map_length, seq_length in Hn.
    rewrite (nth_indep _ 0 (m' O)) by (rewrite map_length, seq_length; exact Hn). rewrite map_nth, seq_nth by exact Hn.
    cbn [Nat.add]. rewrite !app_length in Hn.
    destruct Z as [Z F]. unfold within, only_changes, within in *. cbn [off len] in *.
    destruct (Nat.lt_ge_cases n (length pre)) as [L|L].
    + rewrite F by lia. rewrite !app_nth1 by exact L. reflexivity.
    + rewrite (app_nth2 pre) by exact L. destruct (Nat.lt_ge_cases n (length pre + length mid)) as [L'|L'].
      * rewrite Z by lia. rewrite app_nth1 by (rewrite repeat_length; lia). symmetry. apply nth_repeat.
      * rewrite F by lia. rewrite !app_nth2 by (rewrite ?repeat_length; lia). rewrite repeat_length. reflexivity.
Qed.
Lemma zero_range_from i j pre mid post : i = length pre -> j = (length pre + length mid)%nat ->
  zero_range (pre ++ mid ++ post) i j = Ret (pre ++ repeat 0 (length mid) ++ post).
Proof. intros -> ->. apply zero_range_app. Qed.

(** ** Traces *)

Lemma hash_trace_app digest size bsize cs1 cs2 : forall m,
  hash_trace digest size bsize m (cs1 ++ cs2) =
  hash_trace digest size bsize m cs1 ++ hash_trace digest size bsize (written m cs1) cs2.
Proof.
  induction cs1 as [|q cs1 IH]; intros m; [reflexivity|]. cbn [app hash_trace written].
  destruct q; rewrite IH; reflexivity.
Qed.

(** ** Little-endian bytes *)

Lemma le32_little_endian v : le32 v = little_endian 4 v.
Proof.
  unfold le32, u8. cbn [little_endian]. rewrite !N.shiftr_div_pow2, !N.div_div by discriminate. reflexivity.
Qed.
Lemma little_endian_length n : forall v, length (little_endian n v) = n.
Proof. induction n; intros v; [reflexivity|]. cbn [little_endian length]. rewrite IHn. reflexivity. Qed.
Lemma little_endian_ok n : forall v, bytes_ok (little_endian n v).
Proof. induction n; intros v; constructor; [apply N.mod_lt; discriminate|apply IHn]. Qed.
Lemma flat_length n (l : list N) : length (flat_map (little_endian n) l) = (n * length l)%nat.
Proof.
  induction l as [|x l IH]; cbn [flat_map length]; [lia|]. rewrite app_length, little_endian_length, IH. lia.
Qed.

(** Byte [i] of the bit count, cut from the byte count. *)
Lemma bits_byte l i w : 8 * i + 8 <= w -> 1 <= i ->
  u8 (N.shiftr l (8 * i - 3)) = ((8 * l) mod 2 ^ w / 2 ^ (8 * i)) mod 256.
Proof.
  intros H Hi. unfold u8. change 256 with (2 ^ 8). apply N.bits_inj. intros j.
  destruct (N.lt_ge_cases j 8) as [L|L].
  - rewrite !N.mod_pow2_bits_low by exact L. rewrite N.shiftr_spec by lia.
    rewrite N.div_pow2_bits. rewrite N.mod_pow2_bits_low by lia.
    replace (8 * l) with (l * 2 ^ 3) by (change (2 ^ 3) with 8; lia).
    rewrite N.mul_pow2_bits_high by lia. f_equal. lia.
  - rewrite !N.mod_pow2_bits_high by exact L. reflexivity.
Qed.
Lemma low_byte l w : 8 <= w -> u8 (shl64 l 3) = ((8 * l) mod 2 ^ w) mod 256.
Proof.
  intros H. unfold u8, shl64, u64. rewrite N.shiftl_mul_pow2. change 256 with (2 ^ 8). apply N.bits_inj. intros j.
  destruct (N.lt_ge_cases j 8) as [L|L].
  - rewrite !N.mod_pow2_bits_low by lia. change (2 ^ 3) with 8. rewrite (N.mul_comm 8). reflexivity.
  - rewrite !N.mod_pow2_bits_high by exact L. reflexivity.
Qed.
