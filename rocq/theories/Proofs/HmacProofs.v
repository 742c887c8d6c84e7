(** crypto/hmac over the hashes: every call keeps its promises. *)
From Verif Require Import Base.Go Base.Mem Base.Heap Base.HashUse Base.HmacUse Spec.DigestSpec Spec.HashUseSpec Spec.HmacSpec.
From Verif Require Import Model.HashMem Model.Hmac Proofs.HashUseProofs.
From Verif Require Spec.WhirlpoolSpec Spec.CodegenSpec Proofs.BytesProofs Proofs.RipemdProofs Proofs.DigestProofs Proofs.CollisionProofs Proofs.ChecksumProofs.
Local Open Scope N_scope.

(** ** Lengths of digests *)

Lemma cut64 n : forall text : list N, length text = (n * 64)%nat ->
  exists fs, text = concat fs /\ Forall (fun b => length b = 64%nat) fs.
Proof.
  induction n as [|n IH]; intros text L.
  - exists []. destruct text; [auto|discriminate].
  - destruct (IH (skipn 64 text)) as (fs & E & F); [rewrite skipn_length; lia|].
    exists (firstn 64 text :: fs). cbn [concat]. rewrite <- E, firstn_skipn. split; [reflexivity|].
    constructor; [rewrite firstn_length; lia|exact F].
Qed.
Lemma padded_64 f m : exists n, length (padded f m) = (n * 64)%nat.
Proof.
  rewrite CollisionProofs.padded_length. unfold zeros.
  set (k := (length m + 1 + length f)%nat).
  pose proof (Nat.div_mod_eq k 64) as E. pose proof (Nat.mod_upper_bound k 64 ltac:(lia)) as B.
  destruct (Nat.eq_dec (k mod 64) 0) as [Z|Z].
  - exists (k / 64)%nat. rewrite Z. change ((64 - 0) mod 64)%nat with 0%nat. lia.
  - exists (k / 64 + 1)%nat. rewrite (Nat.mod_small (64 - k mod 64)) by lia. lia.
Qed.
Lemma matrix_length f : length (WhirlpoolSpec.matrix f) = 64%nat.
Proof. reflexivity. Qed.
Lemma xor_bytes_length a b : length (WhirlpoolSpec.xor_bytes a b) = Nat.min (length a) (length b).
Proof. unfold WhirlpoolSpec.xor_bytes. rewrite map_length. apply combine_length. Qed.
Lemma rho_length k a : length k = 64%nat -> length (WhirlpoolSpec.rho k a) = 64%nat.
Proof. intros H. unfold WhirlpoolSpec.rho. rewrite xor_bytes_length, H. unfold WhirlpoolSpec.MixRows. rewrite matrix_length. reflexivity. Qed.
Lemma key_length k r : length k = 64%nat -> length (WhirlpoolSpec.round_key k r) = 64%nat.
Proof. destruct r; intros H; [exact H|]. cbn [WhirlpoolSpec.round_key]. apply rho_length. apply matrix_length. Qed.
Lemma compress_length h m : length h = 64%nat -> length m = 64%nat -> length (WhirlpoolSpec.compress h m) = 64%nat.
Proof.
  intros H M. unfold WhirlpoolSpec.compress, WhirlpoolSpec.W_cipher. rewrite !xor_bytes_length, H, M.
  cbn [WhirlpoolSpec.rounds_from]. rewrite rho_length by (apply key_length, H). reflexivity.
Qed.
Lemma Whirlpool_length m : length (WhirlpoolSpec.Whirlpool m) = 64%nat.
Proof.
  unfold WhirlpoolSpec.Whirlpool, iterate. destruct (padded_64 (WhirlpoolSpec.whirlpool_length m) m) as (n & L).
  destruct (cut64 n _ L) as (fs & -> & F). rewrite DigestProofs.pieces_concat_id by (assumption || lia).
  assert (G : forall h, length h = 64%nat -> length (fold_left WhirlpoolSpec.compress fs h) = 64%nat).
  { clear L. induction F as [|b fs Hb F IH]; intros h Hh; [exact Hh|]. cbn [fold_left]. apply IH, compress_length; assumption. }
  apply G. reflexivity.
Qed.

Definition size (k : kind) : nat :=
  match k with KRipemd128 => 16 | KRipemd160 => 20 | KRipemd256 => 32 | KRipemd320 => 40 | _ => 64 end.
Lemma size_le k : (size k <= 64)%nat.
Proof. destruct k; cbn [size]; lia. Qed.
Lemma H_length k m : block_hash k -> length (H_of k m) = size k.
Proof.
  destruct k; intros B; try contradiction; unfold H_of, digest_of.
  - apply (RipemdProofs.spec_length Ripemd.V128).
  - apply (RipemdProofs.spec_length Ripemd.V160).
  - apply (RipemdProofs.spec_length Ripemd.V256).
  - apply (RipemdProofs.spec_length Ripemd.V320).
  - apply Whirlpool_length.
Qed.
Lemma digest_concat k ws : block_hash k -> digest_of k ws = H_of k (concat ws).
Proof. destruct k; intros B; try contradiction; unfold H_of, digest_of; cbn [concat]; rewrite app_nil_r; reflexivity. Qed.
Lemma block_size_64 k : block_size k = 64%nat.
Proof. destruct k; reflexivity. Qed.

(** ** The calls *)

Definition kept (v : view) (w w' : world) : Prop := forall a, owned v a -> cells (hp w') a = cells (hp w) a.
Lemma kept_trans v w1 w2 w3 : kept v w1 w2 -> kept v w2 w3 -> kept v w1 w3.
Proof. intros A B a Ha. rewrite B, A by exact Ha. reflexivity. Qed.
Lemma kept_sub v v' w w' : (forall a, owned v a -> owned v' a) -> kept v' w w' -> kept v w w'.
Proof. intros H K a Ha. apply K, H, Ha. Qed.
Lemma eta v : mkView (owned v) (hashes v) = v.
Proof. destruct v; reflexivity. Qed.

Lemma new_hash_ok w v k : Inv w v ->
  exists w', new_hash w k = Ret (w', length (hashes v)) /\ Inv w' (mkView (owned v) (hashes v ++ [(k, [])])) /\ kept v w w'.
Proof.
  intros Iv. destruct (step_ok w v (New k) Iv Logic.I) as (w' & a & E & (-> & U) & I').
  exists w'. unfold new_hash. rewrite E. cbn [bind]. split; [reflexivity|]. split; [exact I'|].
  intros a Ha. apply U; [exact Ha|exact (fun x => x)].
Qed.
Lemma write_ok w v i p k ws : Inv w v -> has v p -> nth_error (hashes v) i = Some (k, ws) ->
  can_take k ws (bytes_in (cells (hp w)) p) ->
  exists w', step w (HashUse.Write i p) = Ret (w', AWrote (blen p)) /\ write w i p = Ret w'
    /\ Inv w' (mkView (owned v) (replace i (k, ws ++ [bytes_in (cells (hp w)) p]) (hashes v))) /\ kept v w w'.
Proof.
  intros Iv Hp Hi Ht.
  destruct (step_ok w v (HashUse.Write i p) Iv) as (w' & a & E & (-> & U) & I').
  { split; [exact Hp|]. exists k, ws. auto. }
  exists w'. unfold write. rewrite E. cbn [bind]. split; [reflexivity|]. split; [reflexivity|]. split.
  - unfold after, with_writes in I'. rewrite Hi in I'. exact I'.
  - intros a Ha. apply U; [exact Ha|exact (fun x => x)].
Qed.
Lemma reset_ok w v i k ws : Inv w v -> nth_error (hashes v) i = Some (k, ws) ->
  exists w', reset w i = Ret w' /\ Inv w' (mkView (owned v) (replace i (k, []) (hashes v))) /\ kept v w w'.
Proof.
  intros Iv Hi.
  destruct (step_ok w v (Reset i) Iv) as (w' & a & E & (-> & U) & I').
  { exists k, ws. exact Hi. }
  exists w'. unfold reset. rewrite E. cbn [bind]. split; [reflexivity|]. split.
  - unfold after, with_writes in I'. rewrite Hi in I'. exact I'.
  - intros a Ha. apply U; [exact Ha|exact (fun x => x)].
Qed.
Lemma sum_ok w v i inp room k ws : Inv w v -> has v inp -> nth_error (hashes v) i = Some (k, ws) ->
  let d := digest_of k ws in
  exists w' s, sum w i inp room = Ret (w', s) /\ Inv w' (mkView (fun x => owned v x \/ covers s x) (hashes v))
    /\ bytes_in (cells (hp w')) s = bytes_in (cells (hp w)) inp ++ d
    /\ (if Nat.leb (blen inp + length d) (bcap inp)
        then at_ s = at_ inp /\ bcap s = bcap inp
          /\ changes_only (fun a => (at_ inp + blen inp <= a < at_ inp + blen inp + length d)%nat) (cells (hp w)) v (cells (hp w'))
        else (blen s <= bcap s)%nat /\ fresh v s /\ unchanged (cells (hp w)) v (cells (hp w'))).
Proof.
  intros Iv Hp Hi d.
  destruct (step_ok w v (Sum i inp room) Iv) as (w' & a & E & P & I').
  { split; [exact Hp|]. exists k, ws. exact Hi. }
  destruct (P k ws Hi) as (s & -> & B & C). exists w', s. unfold sum. rewrite E. cbn [bind]. auto.
Qed.
Lemma make_ok w v n : Inv w v ->
  exists w' s, make w n = Ret (w', s) /\ blen s = n /\ bcap s = n /\ fresh v s
    /\ (forall x, covers s x -> cells (hp w') x = 0) /\ kept v w w'
    /\ Inv w' (mkView (fun x => owned v x \/ covers s x) (hashes v)).
Proof.
  intros Iv. destruct (step_ok w v (Make n n) Iv (le_n n)) as (w' & a & E & (s & -> & B1 & B2 & F & Z & U) & I').
  exists w', s. unfold make. rewrite E. cbn [bind]. split; [reflexivity|]. split; [exact B1|]. split; [exact B2|].
  split; [exact F|]. split; [exact Z|]. split; [|exact I']. intros a Ha. apply U; [exact Ha|exact (fun x => x)].
Qed.
Lemma set_ok w v s j x : Inv w v -> has v s -> (j < blen s)%nat -> x < 256 ->
  exists w', set w s j x = Ret w' /\ Inv w' v /\ cells (hp w') (at_ s + j)%nat = x
    /\ forall a, owned v a -> a <> (at_ s + j)%nat -> cells (hp w') a = cells (hp w) a.
Proof.
  intros Iv Hs Hj Hx. destruct (step_ok w v (Store s j x) Iv) as (w' & a & E & (-> & V & U) & I').
  { split; [exact Hs|]. split; assumption. }
  exists w'. unfold set. rewrite E. cbn [bind]. split; [reflexivity|].
  unfold after in I'. rewrite eta in I'. auto.
Qed.

Lemma Inv_ok w v : Inv w v -> mem_ok (cells (hp w)).
Proof. intros H. apply H. Qed.

Lemma copy_loop_ok v dst key : has v dst -> has v key ->
  (forall x y, (x < blen dst)%nat -> (y < blen key)%nat -> at_ dst + x <> at_ key + y)%nat ->
  forall cnt j w, Inv w v -> (j + cnt <= blen dst)%nat -> (j + cnt <= blen key)%nat ->
  exists w', copy_loop cnt j w dst key = Ret w' /\ Inv w' v
    /\ (forall i, (j <= i < j + cnt)%nat -> cells (hp w') (at_ dst + i)%nat = cells (hp w) (at_ key + i)%nat)
    /\ forall a, owned v a -> ~ (at_ dst + j <= a < at_ dst + j + cnt)%nat -> cells (hp w') a = cells (hp w) a.
Proof.
  intros Hd Hk D. induction cnt as [|cnt IH]; intros j w Iv L1 L2; cbn [copy_loop].
  - exists w. split; [reflexivity|]. split; [exact Iv|]. split; [lia|]. auto.
  - rewrite BytesProofs.load_ok by (cbn [window len]; lia). cbn [window off bind].
    destruct (set_ok w v dst j (cells (hp w) (at_ key + j)%nat) Iv Hd) as (w1 & E1 & I1 & V1 & K1);
      [lia|apply (Inv_ok _ _ Iv)|].
    rewrite E1. cbn [bind]. destruct (IH (j + 1)%nat w1 I1) as (w2 & E2 & I2 & V2 & K2); [lia|lia|].
    assert (OD : forall i, (i < blen dst)%nat -> owned v (at_ dst + i)%nat).
    { intros i Hi. apply Hd. unfold covers. destruct Hd. lia. }
    assert (OK : forall i, (i < blen key)%nat -> owned v (at_ key + i)%nat).
    { intros i Hi. apply Hk. unfold covers. destruct Hk. lia. }
    exists w2. split; [exact E2|]. split; [exact I2|]. split.
    + intros i Hi. destruct (Nat.eq_dec i j) as [->|N].
      * rewrite K2 by (apply OD || idtac; lia). exact V1.
      * rewrite V2 by lia. apply K1; [apply OK; lia|]. intros Ea. apply (D j i); lia.
    + intros a Ha Na. rewrite K2 by (assumption || lia). apply K1; [exact Ha|lia].
Qed.
Lemma xor_loop_ok v s c : has v s -> c < 256 ->
  forall cnt j w, Inv w v -> (j + cnt <= blen s)%nat ->
  exists w', xor_loop cnt j w s c = Ret w' /\ Inv w' v
    /\ (forall i, (j <= i < j + cnt)%nat -> cells (hp w') (at_ s + i)%nat = N.lxor c (cells (hp w) (at_ s + i)%nat))
    /\ forall a, owned v a -> ~ (at_ s + j <= a < at_ s + j + cnt)%nat -> cells (hp w') a = cells (hp w) a.
Proof.
  intros Hd Hc. induction cnt as [|cnt IH]; intros j w Iv L1; cbn [xor_loop].
  - exists w. split; [reflexivity|]. split; [exact Iv|]. split; [lia|]. auto.
  - rewrite BytesProofs.load_ok by (cbn [window len]; lia). cbn [window off bind].
    destruct (set_ok w v s j (N.lxor (cells (hp w) (at_ s + j)%nat) c) Iv Hd) as (w1 & E1 & I1 & V1 & K1);
      [lia|apply ChecksumProofs.lxor_byte; [apply (Inv_ok _ _ Iv)|exact Hc]|].
    rewrite E1. cbn [bind]. destruct (IH (j + 1)%nat w1 I1) as (w2 & E2 & I2 & V2 & K2); [lia|].
    assert (OD : forall i, (i < blen s)%nat -> owned v (at_ s + i)%nat).
    { intros i Hi. apply Hd. unfold covers. destruct Hd. lia. }
    exists w2. split; [exact E2|]. split; [exact I2|]. split.
    + intros i Hi. destruct (Nat.eq_dec i j) as [->|N].
      * rewrite K2 by (apply OD || idtac; lia). rewrite V1. apply N.lxor_comm.
      * rewrite V2 by lia. f_equal. apply K1; [apply OD; lia|lia].
    + intros a Ha Na. rewrite K2 by (assumption || lia). apply K1; [exact Ha|lia].
Qed.

(** ** New *)

Lemma bytes_in_length m s : length (bytes_in m s) = blen s.
Proof. unfold bytes_in. rewrite map_length. apply seq_length. Qed.
Lemma bytes_in_nth m s j : (j < blen s)%nat -> nth j (bytes_in m s) 0 = m (at_ s + j)%nat.
Proof.
  intros H. unfold bytes_in. rewrite (nth_indep _ 0 (m (at_ s + 0)%nat)) by (rewrite map_length, seq_length; exact H).
  rewrite (map_nth (fun j => m (at_ s + j)%nat)), seq_nth by exact H. reflexivity.
Qed.
Lemma bytes_in_eq m s l : length l = blen s -> (forall j, (j < blen s)%nat -> m (at_ s + j)%nat = nth j l 0) -> bytes_in m s = l.
Proof.
  intros L H. apply (nth_ext _ _ 0 0); [rewrite bytes_in_length; auto|]. intros j Hj. rewrite bytes_in_length in Hj.
  rewrite bytes_in_nth by exact Hj. apply H, Hj.
Qed.
Lemma bytes_in_same m m' s : (forall j, (j < blen s)%nat -> m' (at_ s + j)%nat = m (at_ s + j)%nat) -> bytes_in m' s = bytes_in m s.
Proof. intros H. apply bytes_in_eq; [apply bytes_in_length|]. intros j Hj. rewrite bytes_in_nth by exact Hj. apply H, Hj. Qed.

Lemma block_key_length k K : block_hash k -> length (block_key (H_of k) 64 K) = 64%nat.
Proof.
  intros B. unfold block_key. pose proof (size_le k). destruct (Nat.ltb_spec 64 (length K)) as [L|L];
  rewrite app_length, repeat_length; [rewrite H_length by exact B|]; lia.
Qed.

Definition pad_is (v : view) (m : mem) (s : bslice) (l : list N) : Prop :=
  has v s /\ blen s = 64%nat /\ bcap s = 64%nat /\ bytes_in m s = l.

Lemma nth_padded (K : list N) n j : nth j (K ++ repeat 0 n) 0 = nth j K 0.
Proof.
  destruct (Nat.lt_ge_cases j (length K)) as [H|H]; [apply app_nth1, H|].
  rewrite app_nth2 by exact H. rewrite nth_repeat. symmetry. apply nth_overflow, H.
Qed.

Lemma new_mac_ok w v k key room : Inv w v -> block_hash k -> has v key -> counted k (blen key) ->
  let BK := block_key (H_of k) 64 (bytes_in (cells (hp w)) key) in
  let n := length (hashes v) in
  exists w' ip op v', new_mac w k key room = Ret (w', mkMac n (S n) ip op)
    /\ Inv w' v' /\ (forall a, owned v a -> owned v' a) /\ kept v w w'
    /\ length (hashes v') = S (S n) /\ (forall i, (i < n)%nat -> nth_error (hashes v') i = nth_error (hashes v) i)
    /\ (exists ws, nth_error (hashes v') n = Some (k, ws))
    /\ nth_error (hashes v') (S n) = Some (k, [map (N.lxor 0x36) BK])
    /\ pad_is v' (cells (hp w')) ip (map (N.lxor 0x36) BK) /\ (forall a, covers ip a -> ~ owned v a)
    /\ pad_is v' (cells (hp w')) op (map (N.lxor 0x5c) BK) /\ (forall a, covers op a -> ~ owned v a).
Proof.
  intros Iv Bk Hk Ck BK n. unfold new_mac.
  destruct (new_hash_ok w v k Iv) as (w1 & -> & I1 & K1). cbn [bind]. fold n.
  destruct (new_hash_ok w1 _ k I1) as (w2 & -> & I2 & K2). cbn [bind hashes owned] in *.
  rewrite app_length. cbn [length]. fold n. replace (n + 1)%nat with (S n) by lia.
  rewrite block_size_64.
  set (v2 := mkView (owned v) ((hashes v ++ [(k, [])]) ++ [(k, [])])) in *.
  destruct (make_ok w2 v2 64 I2) as (w3 & ip & -> & Li & Ci & Fi & Zi & K3 & I3). cbn [bind].
  set (v3 := mkView (fun x => owned v2 x \/ covers ip x) (hashes v2)) in *.
  destruct (make_ok w3 v3 64 I3) as (w4 & op & -> & Lo & Co & Fo & Zo & K4 & I4). cbn [bind].
  set (v4 := mkView (fun x => owned v3 x \/ covers op x) (hashes v3)) in *.
  assert (O3 : forall a, owned v a -> owned v3 a) by (intros a Ha; left; exact Ha).
  assert (O4 : forall a, owned v a -> owned v4 a) by (intros a Ha; left; left; exact Ha).
  assert (K04 : kept v w w4).
  { intros a Ha. rewrite K4 by (apply O3, Ha). rewrite K3 by exact Ha. rewrite K2 by exact Ha. apply K1, Ha. }
  assert (Hip3 : forall a, covers ip a -> owned v3 a) by (intros a Ha; right; exact Ha).
  assert (Zip : forall a, covers ip a -> cells (hp w4) a = 0).
  { intros a Ha. rewrite K4 by (apply Hip3, Ha). apply Zi, Ha. }
  assert (Nh : nth_error (hashes v4) n = Some (k, [])).
  { cbn [v4 v3 v2 hashes]. rewrite nth_error_app1 by (rewrite app_length; cbn [length]; lia).
    rewrite nth_error_app2 by lia. rewrite Nat.sub_diag. reflexivity. }
  assert (Ns : nth_error (hashes v4) (S n) = Some (k, [])).
  { cbn [v4 v3 v2 hashes]. rewrite nth_error_app2 by (rewrite app_length; cbn [length]; lia).
    rewrite app_length. cbn [length]. replace (S n - (length (hashes v) + 1))%nat with 0%nat by (subst n; lia). reflexivity. }
  assert (Nl : length (hashes v4) = S (S n)) by (cbn [v4 v3 v2 hashes]; rewrite !app_length; cbn [length]; lia).
  assert (Nk : forall i, (i < n)%nat -> nth_error (hashes v4) i = nth_error (hashes v) i).
  { intros i Hi. cbn [v4 v3 v2 hashes]. rewrite !nth_error_app1 by (rewrite ?app_length; cbn [length]; lia). reflexivity. }
  set (kb := bytes_in (cells (hp w)) key) in *.
  set (K := if Nat.ltb 64 (length kb) then H_of k kb else kb).
  assert (Lkb : length kb = blen key) by apply bytes_in_length.
  (* the key *)
  assert (X : exists w5 key' v5,
     (if Nat.ltb 64 (blen key) then let! w := write w4 n key in sum w n nil_slice room else Ret (w4, key)) = Ret (w5, key')
     /\ Inv w5 v5 /\ (forall a, owned v4 a -> owned v5 a) /\ kept v4 w4 w5 /\ has v5 key'
     /\ bytes_in (cells (hp w5)) key' = K /\ (length K <= 64)%nat
     /\ (forall j, (j < blen key')%nat -> ~ covers ip (at_ key' + j) /\ ~ covers op (at_ key' + j))
     /\ length (hashes v5) = S (S n) /\ (forall i, (i < n)%nat -> nth_error (hashes v5) i = nth_error (hashes v) i)
     /\ (exists ws, nth_error (hashes v5) n = Some (k, ws)) /\ nth_error (hashes v5) (S n) = Some (k, [])).
  { assert (Hk4 : has v4 key) by (split; [apply Hk|intros a Ha; apply O4, Hk, Ha]).
    assert (Bk4 : bytes_in (cells (hp w4)) key = kb).
    { apply bytes_in_same. intros j Hj. apply K04, Hk. unfold covers. destruct Hk. lia. }
    destruct (Nat.ltb_spec 64 (blen key)) as [L|L].
    - destruct (write_ok w4 v4 n key k [] I4 Hk4 Nh) as (w5 & _ & E5 & I5 & K5).
      { rewrite Bk4. destruct k; try exact Logic.I; try contradiction. cbn [can_take concat app]. rewrite Lkb. apply Ck. reflexivity. }
      rewrite E5. cbn [bind]. cbn [app] in I5. rewrite Bk4 in I5. set (v5 := mkView (owned v4) _) in I5.
      assert (N5 : nth_error (hashes v5) n = Some (k, [kb])).
      { cbn [v5 hashes]. rewrite nth_replace, Nat.eqb_refl, Nh. reflexivity. }
      destruct (sum_ok w5 v5 n nil_slice room k [kb] I5) as (w6 & s & E6 & I6 & B6 & C6); [|exact N5|].
      { split; [apply Nat.le_refl|]. intros a Ha. unfold covers, nil_slice in Ha. cbn [at_ bcap] in Ha. lia. }
      change (digest_of k [kb]) with (H_of k kb) in *. rewrite (H_length k kb Bk) in C6.
      assert (S0 : (0 < size k)%nat) by (destruct k; cbn [size]; lia).
      destruct (Nat.leb_spec (blen nil_slice + size k) (bcap nil_slice)) as [Y|Y]; [cbn [blen bcap nil_slice] in Y; lia|].
      destruct C6 as (Ls & Fs & Us). cbn [app bytes_in nil_slice blen seq map] in B6.
      rewrite E6. exists w6, s. eexists. split; [reflexivity|]. split; [exact I6|]. cbn [owned hashes].
      split; [intros a Ha; left; exact Ha|].
      split. { intros a Ha. rewrite <- (K5 a Ha). apply Us; [exact Ha|exact (fun x => x)]. }
      split; [split; [exact Ls|intros a Ha; right; exact Ha]|].
      assert (EK : K = H_of k kb). { unfold K. rewrite Lkb. destruct (Nat.ltb_spec 64 (blen key)); [reflexivity|lia]. }
      rewrite EK. split; [exact B6|]. split; [rewrite (H_length k kb Bk); apply size_le|].
      split.
      { intros j Hj. assert (Cj : covers s (at_ s + j)) by (unfold covers; lia). pose proof (Fs _ Cj) as Nw. cbn [v5 owned v4 v3] in Nw. tauto. }
      unfold v5; cbn [hashes]. rewrite length_replace. split; [exact Nl|]. split.
      { intros i Hi. rewrite nth_replace. destruct (Nat.eqb_spec n i); [lia|]. apply Nk, Hi. }
      split; [exists [kb]; exact N5|]. rewrite nth_replace. destruct (Nat.eqb_spec n (S n)); [lia|]. exact Ns.
    - exists w4, key, v4. split; [reflexivity|]. split; [exact I4|]. split; [auto|]. split; [intros a _; reflexivity|].
      assert (EK : K = kb). { unfold K. rewrite Lkb. destruct (Nat.ltb_spec 64 (blen key)); [lia|reflexivity]. }
      rewrite EK. split; [exact Hk4|]. split; [exact Bk4|]. split; [lia|]. split; [|eauto 10].
      intros j Hj. assert (Oj : owned v (at_ key + j)%nat) by (apply Hk; unfold covers; destruct Hk; lia). split; intros Cx.
      + apply (Fi _ Cx). exact Oj.
      + apply (Fo _ Cx). apply O3, Oj. }
  destruct X as (w5 & key' & v5 & -> & I5 & O5 & K5 & Hk' & Bk' & LK & Dk & H5l & H5k & H5n & H5s). cbn [bind].
  assert (Lk' : blen key' = length K) by (rewrite <- Bk'; symmetry; apply bytes_in_length).
  assert (Hip : has v5 ip) by (split; [lia|intros a Ha; apply O5; left; right; exact Ha]).
  assert (Hop : has v5 op) by (split; [lia|intros a Ha; apply O5; right; exact Ha]).
  assert (Dio : forall a, covers ip a -> ~ covers op a) by (intros a H1 H2; apply (Fo _ H2); right; exact H1).
  assert (CI : forall i, (i < 64)%nat <-> covers ip (at_ ip + i)) by (intros i; unfold covers; lia).
  assert (CO : forall i, (i < 64)%nat <-> covers op (at_ op + i)) by (intros i; unfold covers; lia).
  assert (Kn : forall j, (j < length K)%nat -> cells (hp w5) (at_ key' + j)%nat = nth j K 0).
  { intros j Hj. rewrite <- Bk', bytes_in_nth by lia. reflexivity. }
  unfold copy_key, xor_pad. rewrite Li, Lo, Lk', Nat.min_r by exact LK.
  destruct (copy_loop_ok v5 ip key' Hip Hk') with (cnt := length K) (j := 0%nat) (w := w5) as (w6 & -> & I6 & V6 & U6);
    [intros x y Hx Hy Ea; apply (proj1 (Dk y Hy)); rewrite <- Ea; apply CI; lia|exact I5|lia|lia|]. cbn [bind].
  destruct (copy_loop_ok v5 op key' Hop Hk') with (cnt := length K) (j := 0%nat) (w := w6) as (w7 & -> & I7 & V7 & U7);
    [intros x y Hx Hy Ea; apply (proj2 (Dk y Hy)); rewrite <- Ea; apply CO; lia|exact I6|lia|lia|]. cbn [bind].
  destruct (xor_loop_ok v5 ip 0x36 Hip ltac:(reflexivity) 64%nat 0%nat w7 I7 ltac:(lia)) as (w8 & -> & I8 & V8 & U8). cbn [bind].
  destruct (xor_loop_ok v5 op 0x5c Hop ltac:(reflexivity) 64%nat 0%nat w8 I8 ltac:(lia)) as (w9 & -> & I9 & V9 & U9). cbn [bind].
  (* the values *)
  assert (Oi : forall i, (i < 64)%nat -> owned v5 (at_ ip + i)%nat) by (intros i Hi; apply Hip, CI, Hi).
  assert (Oo : forall i, (i < 64)%nat -> owned v5 (at_ op + i)%nat) by (intros i Hi; apply Hop, CO, Hi).
  assert (NIO : forall i j, (i < 64)%nat -> (j < 64)%nat -> (at_ ip + i <> at_ op + j)%nat).
  { intros i j Hi Hj Ea. apply (Dio (at_ ip + i)%nat); [apply CI, Hi|]. rewrite Ea. apply CO, Hj. }
  assert (Out : forall (P : nat -> nat) q i c, (i < 64)%nat -> (c <= 64)%nat -> (forall j, (j < 64)%nat -> P i <> q + j)%nat -> ~ (q + 0 <= P i < q + 0 + c)%nat).
  { intros P q i c Hi Hc Hn [Q1 Q2]. apply (Hn (P i - q)%nat); lia. }
  assert (Ni : forall i, (i < 64)%nat -> ~ (at_ op + 0 <= at_ ip + i < at_ op + 0 + 64)%nat).
  { intros i Hi [Q1 Q2]. apply (NIO i (at_ ip + i - at_ op)%nat); lia. }
  assert (No : forall i, (i < 64)%nat -> ~ (at_ ip + 0 <= at_ op + i < at_ ip + 0 + 64)%nat).
  { intros i Hi [Q1 Q2]. apply (NIO (at_ op + i - at_ ip)%nat i); lia. }
  assert (EBK : BK = K ++ repeat 0 (64 - length K)) by reflexivity.
  assert (LBK : length BK = 64%nat) by (rewrite EBK, app_length, repeat_length; lia).
  assert (Vi : forall i, (i < 64)%nat -> cells (hp w7) (at_ ip + i)%nat = nth i BK 0).
  { intros i Hi. rewrite EBK, nth_padded. rewrite U7 by (try apply Oi; try (specialize (Ni i); lia); exact Hi).
    destruct (Nat.lt_ge_cases i (length K)) as [L|L].
    - rewrite V6 by lia. apply Kn, L.
    - rewrite U6 by (try apply Oi; lia). rewrite K5 by (left; right; apply CI, Hi).
      rewrite Zip by (apply CI, Hi). symmetry. apply nth_overflow, L. }
  assert (Vo : forall i, (i < 64)%nat -> cells (hp w7) (at_ op + i)%nat = nth i BK 0).
  { intros i Hi. rewrite EBK, nth_padded. 
    destruct (Nat.lt_ge_cases i (length K)) as [L|L].
    - rewrite V7 by lia. rewrite U6.
      + apply Kn, L.
      + apply Hk'. unfold covers. destruct Hk'. lia.
      + intros Q. apply (proj1 (Dk i ltac:(lia))). unfold covers. lia.
    - rewrite U7 by (try apply Oo; lia). rewrite U6 by (try apply Oo; try (specialize (No i); lia); exact Hi).
      rewrite K5 by (right; apply CO, Hi). rewrite Zo by (apply CO, Hi). symmetry. apply nth_overflow, L. }
  assert (Nm : forall c i, (i < 64)%nat -> nth i (map (N.lxor c) BK) 0 = N.lxor c (nth i BK 0)).
  { intros c i Hi. rewrite (nth_indep _ 0 (N.lxor c 0)) by (rewrite map_length; lia). apply (map_nth (N.lxor c)). }
  assert (Bi : bytes_in (cells (hp w9)) ip = map (N.lxor 0x36) BK).
  { apply bytes_in_eq; [rewrite map_length; lia|]. rewrite Li. intros i Hi. rewrite Nm by exact Hi.
    rewrite U9 by (try apply Oi; try apply Ni; exact Hi). rewrite V8 by lia. f_equal. apply Vi, Hi. }
  assert (Bo : bytes_in (cells (hp w9)) op = map (N.lxor 0x5c) BK).
  { apply bytes_in_eq; [rewrite map_length; lia|]. rewrite Lo. intros i Hi. rewrite Nm by exact Hi.
    rewrite V9 by lia. f_equal. rewrite U8 by (try apply Oo; try apply No; exact Hi). apply Vo, Hi. }
  destruct (write_ok w9 v5 (S n) ip k [] I9 Hip H5s) as (w10 & _ & -> & I10 & K10).
  { rewrite Bi. destruct k; try exact Logic.I; try contradiction. cbn [can_take concat app]. rewrite map_length, LBK. reflexivity. }
  cbn [bind]. rewrite Bi in I10. cbn [app] in I10. exists w10, ip, op. eexists. split; [reflexivity|]. split; [exact I10|]. cbn [owned hashes].
  split; [intros a Ha; apply O5, O4, Ha|].
  split.
  { intros a Ha. assert (O5a : owned v5 a) by (apply O5, O4, Ha).
    assert (Xi : ~ (at_ ip + 0 <= a < at_ ip + 0 + 64)%nat) by (intros Q; apply (Fi a); [unfold covers; lia|exact Ha]).
    assert (Xo : ~ (at_ op + 0 <= a < at_ op + 0 + 64)%nat) by (intros Q; apply (Fo a); [unfold covers; lia|apply O3, Ha]).
    rewrite K10 by exact O5a. rewrite U9 by (assumption || lia). rewrite U8 by (assumption || lia).
    rewrite U7 by (assumption || lia). rewrite U6 by (assumption || lia). rewrite K5 by (apply O4, Ha). apply K04, Ha. }
  rewrite length_replace. split; [exact H5l|]. split.
  { intros i Hi. rewrite nth_replace. destruct (Nat.eqb_spec (S n) i); [lia|]. apply H5k, Hi. }
  split. { destruct H5n as (ws & E). exists ws. rewrite nth_replace. destruct (Nat.eqb_spec (S n) n); [lia|]. exact E. }
  split. { rewrite nth_replace, Nat.eqb_refl, H5s. reflexivity. }
  split. { split; [exact Hip|]. split; [exact Li|]. split; [exact Ci|]. rewrite <- Bi. apply bytes_in_same. intros j Hj. apply K10, Oi. lia. }
  split; [exact Fi|].
  split. { split; [exact Hop|]. split; [exact Lo|]. split; [exact Co|]. rewrite <- Bo. apply bytes_in_same. intros j Hj. apply K10, Oo. lia. }
  intros a Ha Ho. apply (Fo a Ha). apply O3, Ho.
Qed.

(** ** Sum and Reset *)

Lemma can_take_small k ws p : block_hash k -> N.of_nat (length (concat ws) + length p) < 2 ^ 64 -> can_take k ws p.
Proof. destruct k; intros B H; try exact Logic.I; try contradiction. cbn [can_take]. rewrite app_length. exact H. Qed.

Definition same_but (i : nat) (k : kind) (l l' : list (kind * list (list N))) : Prop :=
  length l' = length l /\ (exists ws, nth_error l' i = Some (k, ws)) /\ forall j, j <> i -> nth_error l' j = nth_error l j.

Lemma sum_mac_ok w v (own : nat -> Prop) k h inp room room' wi wo PO : Inv w v -> block_hash k ->
  (forall a, own a -> owned v a) -> has (mkView own []) inp ->
  nth_error (hashes v) (inner h) = Some (k, wi) -> nth_error (hashes v) (outer h) = Some (k, wo) -> inner h <> outer h ->
  pad_is v (cells (hp w)) (opad h) PO -> (forall a, covers (opad h) a -> ~ own a) ->
  let d := H_of k (PO ++ H_of k (concat wi)) in
  exists w' s v', sum_mac w h inp room room' = Ret (w', s) /\ Inv w' v'
    /\ (forall a, owned v' a <-> owned v a \/ covers s a) /\ same_but (outer h) k (hashes v) (hashes v')
    /\ bytes_in (cells (hp w')) s = bytes_in (cells (hp w)) inp ++ d
    /\ (if Nat.leb (blen inp + length d) (bcap inp)
        then at_ s = at_ inp /\ bcap s = bcap inp
          /\ changes_only (fun a => (at_ inp + blen inp <= a < at_ inp + blen inp + length d)%nat) (cells (hp w)) v (cells (hp w'))
        else (blen s <= bcap s)%nat /\ fresh v s /\ unchanged (cells (hp w)) v (cells (hp w'))).
Proof.
  intros Iv Bk Ov [Hl Hc] Ni No Nd (Hop & Lo & Co & Bo) Do d. cbn [owned] in Hc. unfold sum_mac.
  assert (Hi : has v inp) by (split; [exact Hl|intros a Ha; apply Ov, Hc, Ha]).
  pose proof (size_le k) as Sz.
  destruct (sum_ok w v (inner h) inp room k wi Iv Hi Ni) as (w1 & s1 & -> & I1 & B1 & C1). cbn [bind].
  rewrite (digest_concat k wi Bk) in B1, C1. set (di := H_of k (concat wi)) in *.
  assert (Ldi : length di = size k) by (apply H_length, Bk). rewrite Ldi in C1.
  assert (Ld : length d = size k) by (apply H_length, Bk). rewrite Ld.
  assert (L1 : blen s1 = (blen inp + size k)%nat).
  { rewrite <- (bytes_in_length (cells (hp w1))), B1, app_length, bytes_in_length, Ldi. reflexivity. }
  assert (L1c : (blen s1 <= bcap s1)%nat).
  { destruct (Nat.leb_spec (blen inp + size k) (bcap inp)) as [Y|Y]; [destruct C1 as (_ & -> & _); lia|apply C1]. }
  assert (Bo1 : bytes_in (cells (hp w1)) (opad h) = PO).
  { rewrite <- Bo. apply bytes_in_same. intros j Hj. assert (Cj : covers (opad h) (at_ (opad h) + j)%nat) by (unfold covers; lia).
    destruct (Nat.leb_spec (blen inp + size k) (bcap inp)) as [Y|Y].
    - destruct C1 as (_ & _ & C1). apply C1; [apply Hop, Cj|]. intros Q. apply (Do _ Cj). apply Hc. unfold covers. lia.
    - destruct C1 as (_ & _ & C1). apply C1; [apply Hop, Cj|exact (fun x => x)]. }
  set (v1 := mkView (fun x => owned v x \/ covers s1 x) (hashes v)) in *.
  destruct (reset_ok w1 v1 (outer h) k wo I1 No) as (w2 & -> & I2 & K2). cbn [bind].
  set (v2 := mkView (owned v1) _) in I2.
  assert (N2 : nth_error (hashes v2) (outer h) = Some (k, [])).
  { unfold v2, v1; cbn [hashes]. rewrite nth_replace, Nat.eqb_refl, No. reflexivity. }
  assert (H2op : has v2 (opad h)) by (split; [lia|intros a Ha; left; apply Hop, Ha]).
  assert (Bo2 : bytes_in (cells (hp w2)) (opad h) = PO).
  { rewrite <- Bo1. apply bytes_in_same. intros j Hj. apply K2. left. apply Hop. unfold covers. lia. }
  assert (LPO : length PO = 64%nat) by (rewrite <- Bo, bytes_in_length; exact Lo).
  destruct (write_ok w2 v2 (outer h) (opad h) k [] I2 H2op N2) as (w3 & _ & -> & I3 & K3).
  { apply can_take_small; [exact Bk|]. rewrite Bo2, LPO. reflexivity. }
  cbn [bind]. rewrite Bo2 in I3. cbn [app] in I3. set (v3 := mkView (owned v2) _) in I3.
  assert (N3 : nth_error (hashes v3) (outer h) = Some (k, [PO])).
  { unfold v3; cbn [hashes]. rewrite nth_replace, Nat.eqb_refl, N2. reflexivity. }
  unfold from. destruct (Nat.leb_spec (blen inp) (blen s1)) as [_|Y]; [|lia]. cbn [bind].
  set (dd := mkB (at_ s1 + blen inp) (blen s1 - blen inp) (bcap s1 - blen inp)).
  assert (Hdd : has v3 dd).
  { split; [cbn [dd blen bcap]; lia|]. intros a Ha. right. unfold covers, dd in Ha. cbn [at_ bcap] in Ha. unfold covers. lia. }
  assert (K13 : forall a, covers s1 a -> cells (hp w3) a = cells (hp w1) a).
  { intros a Ha. rewrite K3 by (right; exact Ha). apply K2. right; exact Ha. }
  assert (Bdd : bytes_in (cells (hp w3)) dd = di).
  { apply bytes_in_eq; [cbn [dd blen]; lia|]. cbn [dd blen at_]. intros j Hj. rewrite K13 by (unfold covers; lia).
    rewrite <- Nat.add_assoc, <- bytes_in_nth by lia. rewrite B1, app_nth2 by (rewrite bytes_in_length; lia).
    rewrite bytes_in_length. f_equal. lia. }
  destruct (write_ok w3 v3 (outer h) dd k [PO] I3 Hdd N3) as (w4 & _ & -> & I4 & K4).
  { apply can_take_small; [exact Bk|]. rewrite Bdd. cbn [concat]. rewrite app_nil_r, LPO, Ldi. lia. }
  cbn [bind]. rewrite Bdd in I4. cbn [app] in I4. set (v4 := mkView (owned v3) _) in I4.
  assert (N4 : nth_error (hashes v4) (outer h) = Some (k, [PO; di])).
  { unfold v4; cbn [hashes]. rewrite nth_replace, Nat.eqb_refl, N3. reflexivity. }
  unfold upto. destruct (Nat.leb_spec (blen inp) (bcap s1)) as [_|Y]; [|lia]. cbn [bind].
  set (u := mkB (at_ s1) (blen inp) (bcap s1)).
  assert (Hu : has v4 u) by (split; [cbn [u blen bcap]; lia|intros a Ha; right; exact Ha]).
  destruct (sum_ok w4 v4 (outer h) u room' k [PO; di] I4 Hu N4) as (w5 & s & -> & I5 & B5 & C5).
  rewrite (digest_concat k _ Bk) in B5, C5. cbn [concat] in B5, C5. rewrite app_nil_r in B5, C5. fold d in B5, C5. rewrite Ld in C5.
  cbn [u blen bcap at_] in C5. destruct (Nat.leb_spec (blen inp + size k) (bcap s1)) as [_|Y]; [|lia].
  destruct C5 as (A5 & P5 & U5).
  assert (Cv : forall a, covers s a <-> covers s1 a) by (intros a; unfold covers; rewrite A5, P5; tauto).
  eexists w5, s, _. split; [reflexivity|]. split; [exact I5|]. split.
  { intros a. cbn [owned v4 v3 v2 v1]. rewrite (Cv a). tauto. }
  split.
  { unfold v4, v3, v2, v1; cbn [hashes]. split; [rewrite !length_replace; reflexivity|]. split; [eexists; exact N4|].
    intros j Hj. rewrite !nth_replace. destruct (Nat.eqb_spec (outer h) j) as [Ej|_]; [exfalso; apply Hj; symmetry; exact Ej|reflexivity]. }
  split.
  { rewrite B5. f_equal. apply (nth_ext _ _ 0 0); [rewrite !bytes_in_length; reflexivity|]. rewrite bytes_in_length. cbn [u blen].
    intros j Hj. rewrite bytes_in_nth by exact Hj. cbn [u at_].
    assert (Cj : covers s1 (at_ s1 + j)%nat) by (unfold covers; lia).
    rewrite K4 by (right; exact Cj). rewrite K13 by exact Cj. rewrite <- bytes_in_nth by lia.
    rewrite B1. apply app_nth1. rewrite bytes_in_length. exact Hj. }
  assert (K14 : forall a, owned v a -> cells (hp w4) a = cells (hp w1) a).
  { intros a Ha. rewrite K4 by (left; exact Ha). rewrite K3 by (left; exact Ha). apply K2. left; exact Ha. }
  destruct (Nat.leb_spec (blen inp + size k) (bcap inp)) as [Y|Y].
  - destruct C1 as (A1 & P1 & U1). split; [lia|]. split; [lia|]. intros a Ha Na.
    rewrite U5 by (try (left; exact Ha); rewrite A1; exact Na). rewrite K14 by exact Ha. apply U1; assumption.
  - destruct C1 as (_ & F1 & U1). split.
    { assert (X : length (bytes_in (cells (hp w5)) s) = (blen inp + size k)%nat).
      { rewrite B5, app_length, bytes_in_length, Ld. reflexivity. }
      rewrite bytes_in_length in X. lia. }
    split; [intros a Ha; apply F1, Cv, Ha|]. intros a Ha Na.
    rewrite U5; [rewrite K14 by exact Ha; apply U1; assumption|left; exact Ha|].
    intros Q. apply (F1 a); [unfold covers; lia|exact Ha].
Qed.

Lemma reset_mac_ok w v k h wi PI : Inv w v -> block_hash k -> nth_error (hashes v) (inner h) = Some (k, wi) ->
  pad_is v (cells (hp w)) (ipad h) PI ->
  exists w', reset_mac w h = Ret w' /\ kept v w w'
    /\ exists v', Inv w' v' /\ owned v' = owned v /\ length (hashes v') = length (hashes v)
    /\ nth_error (hashes v') (inner h) = Some (k, [PI]) /\ forall j, j <> inner h -> nth_error (hashes v') j = nth_error (hashes v) j.
Proof.
  intros Iv Bk Ni (Hip & Li & Ci & Bi). unfold reset_mac.
  destruct (reset_ok w v (inner h) k wi Iv Ni) as (w1 & -> & I1 & K1). cbn [bind]. set (v1 := mkView _ _) in I1.
  assert (N1 : nth_error (hashes v1) (inner h) = Some (k, [])).
  { unfold v1; cbn [hashes]. rewrite nth_replace, Nat.eqb_refl, Ni. reflexivity. }
  assert (Bi1 : bytes_in (cells (hp w1)) (ipad h) = PI).
  { rewrite <- Bi. apply bytes_in_same. intros j Hj. apply K1, Hip. unfold covers. lia. }
  assert (LPI : length PI = 64%nat) by (rewrite <- Bi, bytes_in_length; exact Li).
  destruct (write_ok w1 v1 (inner h) (ipad h) k [] I1 Hip N1) as (w2 & _ & -> & I2 & K2).
  { apply can_take_small; [exact Bk|]. rewrite Bi1, LPI. reflexivity. }
  rewrite Bi1 in I2. cbn [app] in I2. exists w2. split; [reflexivity|].
  split. { intros a Ha. rewrite K2 by exact Ha. apply K1, Ha. }
  eexists. split; [exact I2|]. split; [reflexivity|]. unfold v1; cbn [hashes]. rewrite !length_replace. split; [reflexivity|].
  split. { rewrite nth_replace, Nat.eqb_refl. fold v1. unfold v1 in N1; cbn [hashes] in N1. rewrite N1. reflexivity. }
  intros j Hj. rewrite !nth_replace. destruct (Nat.eqb_spec (inner h) j) as [E|_]; [exfalso; apply Hj; symmetry; exact E|reflexivity].
Qed.

(** ** The invariant *)

Definition mac_ok (v : view) (m : mem) (own : nat -> Prop) (j : nat) (h : mac) (e : kind * list N * list N) : Prop :=
  let '(k, key, text) := e in
  let BK := block_key (H_of k) 64 key in
  block_hash k /\ outer h = (2 * j)%nat /\ inner h = (2 * j + 1)%nat
  /\ (exists ws, nth_error (hashes v) (outer h) = Some (k, ws))
  /\ (exists ws, nth_error (hashes v) (inner h) = Some (k, ws) /\ concat ws = map (N.lxor 0x36) BK ++ text)
  /\ pad_is v m (ipad h) (map (N.lxor 0x36) BK) /\ (forall a, covers (ipad h) a -> ~ own a)
  /\ pad_is v m (opad h) (map (N.lxor 0x5c) BK) /\ (forall a, covers (opad h) a -> ~ own a).
Definition MI (w : mworld) (uv : mview) : Prop :=
  exists v, Inv (under w) v /\ (forall a, mine uv a -> owned v a)
    /\ length (hashes v) = (2 * length (macs w))%nat /\ length (macs w) = length (keyed uv)
    /\ forall j h e, nth_error (macs w) j = Some h -> nth_error (keyed uv) j = Some e ->
         mac_ok v (cells (hp (under w))) (mine uv) j h e.

Lemma MI_start : MI mstart no_macs.
Proof.
  exists nothing. split; [exact Inv_start|]. split; [intros a []|]. split; [reflexivity|]. split; [reflexivity|].
  intros j h e E. destruct j; discriminate.
Qed.

Lemma pad_kept v v' m m' s l : pad_is v m s l -> (forall a, owned v a -> owned v' a) ->
  (forall a, covers s a -> m' a = m a) -> pad_is v' m' s l.
Proof.
  intros ((H1 & H2) & Ls & Cs & B) O K. split; [split; [exact H1|auto]|]. split; [exact Ls|]. split; [exact Cs|].
  rewrite <- B. apply bytes_in_same. intros j Hj. apply K. unfold covers. lia.
Qed.
(** An entry stays right if its hashes are not touched and its pads neither written nor given away. *)
Lemma mac_kept v v' m m' own own' j h e : mac_ok v m own j h e -> (forall a, owned v a -> owned v' a) ->
  (forall a, owned v a -> ~ own a -> m' a = m a) -> (forall a, owned v a -> ~ own a -> ~ own' a) ->
  (forall k ws, nth_error (hashes v) (outer h) = Some (k, ws) -> exists ws', nth_error (hashes v') (outer h) = Some (k, ws')) ->
  nth_error (hashes v') (inner h) = nth_error (hashes v) (inner h) -> mac_ok v' m' own' j h e.
Proof.
  destruct e as [[k key] text]. intros (Bk & Eo & Ei & (wo & Ho) & Hi & Pi & Di & Po & Do) O K N Xo Xi.
  split; [exact Bk|]. split; [exact Eo|]. split; [exact Ei|]. split; [exact (Xo _ _ Ho)|]. split; [rewrite Xi; exact Hi|].
  assert (Oi : forall a, covers (ipad h) a -> owned v a) by apply Pi.
  assert (Oo : forall a, covers (opad h) a -> owned v a) by apply Po.
  split; [apply (pad_kept v v' m m'); auto|]. split; [auto|]. split; [apply (pad_kept v v' m m'); auto|auto].
Qed.

Lemma idx_ok {A} (l : list A) j x : nth_error l j = Some x -> idx l j = Ret x.
Proof. intros E. unfold idx. rewrite E. reflexivity. Qed.

Lemma mac_at w uv v j e : length (macs w) = length (keyed uv) ->
  (forall j h e, nth_error (macs w) j = Some h -> nth_error (keyed uv) j = Some e -> mac_ok v (cells (hp (under w))) (mine uv) j h e) ->
  nth_error (keyed uv) j = Some e -> exists h, nth_error (macs w) j = Some h /\ mac_ok v (cells (hp (under w))) (mine uv) j h e.
Proof.
  intros L M E. destruct (nth_error (macs w) j) as [h|] eqn:Eh; [exists h; auto|].
  apply nth_error_None in Eh. assert (j < length (keyed uv))%nat by (apply nth_error_Some; congruence). lia.
Qed.

Lemma mstep_ok w uv u : MI w uv -> mlegal (cells (hp (under w))) uv u ->
  exists w' a, mstep w u = Ret (w', a) /\ mpromised (cells (hp (under w))) uv u a (cells (hp (under w')))
    /\ MI w' (mafter (cells (hp (under w))) uv u a).
Proof.
  intros (v & Iv & Ov & Lh & Lm & M) Hl. destruct u as [k key room|i p|i inp room room'|i|n c|s j x]; cbn [mlegal] in Hl; cbn [mstep].
  - destruct Hl as (Bk & Hk & Ck).
    assert (Hk' : has v key) by (split; [apply Hk|intros a Ha; apply Ov; apply (proj2 Hk); exact Ha]).
    destruct (new_mac_ok (under w) v k key room Iv Bk Hk' Ck) as (w' & ip & op & v' & -> & I' & O' & K' & L' & Nk & No & Ni & Pi & Di & Po & Do).
    cbn [bind]. eexists _, _. split; [reflexivity|]. cbn [under macs mpromised mafter]. split.
    { split; [rewrite Lm; reflexivity|]. intros a Ha _. apply K', Ov, Ha. }
    exists v'. cbn [under macs mine keyed mafter]. split; [exact I'|]. split; [intros a Ha; apply O', Ov, Ha|].
    rewrite !app_length. cbn [length]. split; [lia|]. split; [lia|].
    intros j h e Ej Ee. destruct (Nat.lt_ge_cases j (length (macs w))) as [Lj|Lj].
    + rewrite nth_error_app1 in Ej by exact Lj. rewrite nth_error_app1 in Ee by lia.
      pose proof (M j h e Ej Ee) as Mj. assert (Eio : outer h = (2 * j)%nat /\ inner h = (2 * j + 1)%nat) by (destruct e as [[? ?] ?]; split; apply Mj).
      destruct Eio as [Eo Ei]. apply (mac_kept v v' (cells (hp (under w))) _ (mine uv)); auto.
      * intros k0 ws E0. exists ws. rewrite Nk by lia. exact E0.
      * apply Nk. lia.
    + assert (j = length (macs w)) as ->.
      { assert (j < length (macs w ++ [mkMac (length (hashes v)) (S (length (hashes v))) ip op]))%nat by (apply nth_error_Some; congruence).
        rewrite app_length in *. cbn [length] in *. lia. }
      rewrite nth_error_app2, Nat.sub_diag in Ej by lia. injection Ej as <-.
      rewrite nth_error_app2, Lm, Nat.sub_diag in Ee by lia. injection Ee as <-.
      cbn [mac_ok outer inner ipad opad]. split; [exact Bk|]. split; [lia|]. split; [lia|]. split; [exact No|].
      split. { eexists. split; [exact Ni|]. cbn [concat]. reflexivity. }
      split; [exact Pi|]. split; [intros a Ha Hb; apply (Di a Ha), Ov, Hb|]. split; [exact Po|]. intros a Ha Hb. apply (Do a Ha), Ov, Hb.
  - destruct Hl as (Hp & k & key & text & Ek & Ct). destruct (mac_at w uv v i _ Lm M Ek) as (h & Eh & Mh).
    destruct Mh as (Bk & Eo & Ei & (wo & Ho) & (ws & Hi & Hw) & Pi & Di & Po & Do).
    rewrite (idx_ok _ _ _ Eh). cbn [bind].
    assert (Hp' : has v p) by (split; [apply Hp|intros a Ha; apply Ov; apply (proj2 Hp); exact Ha]).
    destruct (write_ok (under w) v (inner h) p k ws Iv Hp' Hi) as (w' & -> & _ & I' & K').
    { destruct k; try exact Logic.I; try contradiction. cbn [can_take]. rewrite app_length, Hw, app_length, map_length, block_key_length by exact Bk.
      rewrite bytes_in_length. apply Ct. reflexivity. }
    cbn [bind]. eexists _, _. split; [reflexivity|]. cbn [under macs mpromised mafter]. split.
    { split; [reflexivity|]. intros a Ha _. apply K', Ov, Ha. }
    eexists. cbn [under macs mine keyed mafter]. unfold with_text. rewrite Ek. split; [exact I'|]. cbn [owned hashes]. split; [exact Ov|].
    rewrite !length_replace. split; [exact Lh|]. split; [exact Lm|]. intros j h' e Ej Ee. rewrite nth_replace in Ee.
    destruct (Nat.eqb_spec i j) as [<-|Nij].
    + rewrite Ek in Ee. injection Ee as <-. rewrite Eh in Ej. injection Ej as <-. cbn [mac_ok]. cbn [hashes].
      split; [exact Bk|]. split; [exact Eo|]. split; [exact Ei|]. split.
      { exists wo. rewrite nth_replace. destruct (Nat.eqb_spec (inner h) (outer h)); [lia|exact Ho]. }
      split. { eexists. rewrite nth_replace, Nat.eqb_refl, Hi. split; [reflexivity|]. rewrite concat_app, Hw. cbn [concat]. rewrite app_nil_r, app_assoc. reflexivity. }
      split; [|split; [exact Di|split; [|exact Do]]].
      * apply (pad_kept v _ (cells (hp (under w)))); [exact Pi|auto|]. intros a Ha. apply K', Pi, Ha.
      * apply (pad_kept v _ (cells (hp (under w)))); [exact Po|auto|]. intros a Ha. apply K', Po, Ha.
    + pose proof (M j h' e Ej Ee) as Mj. assert (Eio : outer h' = (2 * j)%nat /\ inner h' = (2 * j + 1)%nat) by (destruct e as [[? ?] ?]; split; apply Mj).
      destruct Eio as [Eo' Ei']. apply (mac_kept v _ (cells (hp (under w))) _ (mine uv)); auto.
      * cbn [hashes]. intros k0 ws0 E0. exists ws0. rewrite nth_replace. destruct (Nat.eqb_spec (inner h) (outer h')); [lia|exact E0].
      * cbn [hashes]. rewrite nth_replace. destruct (Nat.eqb_spec (inner h) (inner h')); [lia|reflexivity].
  - destruct Hl as (Hp & [[k key] text] & Ek). destruct (mac_at w uv v i _ Lm M Ek) as (h & Eh & Mh).
    destruct Mh as (Bk & Eo & Ei & (wo & Ho) & (ws & Hi & Hw) & Pi & Di & Po & Do).
    rewrite (idx_ok _ _ _ Eh). cbn [bind].
    destruct (sum_mac_ok (under w) v (mine uv) k h inp room room' ws wo _ Iv Bk Ov Hp Hi Ho ltac:(lia) Po Do)
      as (w' & s & v' & -> & I' & O' & (L' & No' & Nk') & B' & C').
    rewrite Hw in B', C'. cbn [bind]. eexists _, _. split; [reflexivity|]. cbn [under macs mpromised mafter]. split.
    { intros k0 key0 text0 E0. rewrite Ek in E0. injection E0 as <- <- <-. cbv zeta. exists s. split; [reflexivity|]. split; [exact B'|].
      unfold HMAC. cbv zeta.
      destruct (Nat.leb _ (bcap inp)); destruct C' as (C1 & C2 & C3); split; try exact C1; split; try exact C2.
      - intros a Ha. apply C3, Ov, Ha.
      - intros a Ha Hb. apply (C2 a Ha), Ov, Hb.
      - intros a Ha. apply C3, Ov, Ha. }
    exists v'. cbn [under macs mine keyed mafter]. split; [exact I'|]. split; [intros a [Ha|Ha]; apply O'; auto|].
    split; [lia|]. split; [exact Lm|]. intros j h' e Ej Ee.
    pose proof (M j h' e Ej Ee) as Mj. assert (Eio : outer h' = (2 * j)%nat /\ inner h' = (2 * j + 1)%nat) by (destruct e as [[? ?] ?]; split; apply Mj).
    destruct Eio as [Eo' Ei']. apply (mac_kept v v' (cells (hp (under w))) _ (mine uv)); auto.
    + intros a Ha. apply O'. left; exact Ha.
    + intros a Ha Na. destruct (Nat.leb_spec (blen inp + length (H_of k (map (N.lxor 0x5c) (block_key (H_of k) 64 key) ++ H_of k (map (N.lxor 0x36) (block_key (H_of k) 64 key) ++ text)))) (bcap inp)) as [Y|Y].
      * destruct C' as (_ & _ & C3). apply C3; [exact Ha|]. intros Q. apply Na, (proj2 Hp). unfold covers. lia.
      * destruct C' as (_ & _ & C3). apply C3; [exact Ha|exact (fun x => x)].
    + intros a Ha Na [Hb|Hb]; [exact (Na Hb)|].
      destruct (Nat.leb_spec (blen inp + length (H_of k (map (N.lxor 0x5c) (block_key (H_of k) 64 key) ++ H_of k (map (N.lxor 0x36) (block_key (H_of k) 64 key) ++ text)))) (bcap inp)) as [Y|Y].
      * destruct C' as (C1 & C2 & _). apply Na, (proj2 Hp). unfold covers in *. lia.
      * destruct C' as (_ & C2 & _). exact (C2 a Hb Ha).
    + intros k0 ws0 E0. destruct (Nat.eq_dec (outer h') (outer h)) as [Q|Q].
      * rewrite Q in *. rewrite Ho in E0. injection E0 as <- _. exact No'.
      * exists ws0. rewrite Nk' by exact Q. exact E0.
    + apply Nk'. lia.
  - destruct Hl as ([[k key] text] & Ek). destruct (mac_at w uv v i _ Lm M Ek) as (h & Eh & Mh).
    destruct Mh as (Bk & Eo & Ei & (wo & Ho) & (ws & Hi & Hw) & Pi & Di & Po & Do).
    rewrite (idx_ok _ _ _ Eh). cbn [bind].
    destruct (reset_mac_ok (under w) v k h ws _ Iv Bk Hi Pi) as (w' & -> & K' & v' & I' & O' & L' & Ni' & Nk').
    cbn [bind]. eexists _, _. split; [reflexivity|]. cbn [under macs mpromised mafter]. split.
    { split; [reflexivity|]. intros a Ha _. apply K', Ov, Ha. }
    exists v'. cbn [under macs mine keyed mafter]. unfold with_text. rewrite Ek. split; [exact I'|]. split; [rewrite O'; exact Ov|].
    rewrite length_replace. split; [lia|]. split; [exact Lm|]. intros j h' e Ej Ee. rewrite nth_replace in Ee.
    destruct (Nat.eqb_spec i j) as [<-|Nij].
    + rewrite Ek in Ee. injection Ee as <-. rewrite Eh in Ej. injection Ej as <-. cbn [mac_ok].
      split; [exact Bk|]. split; [exact Eo|]. split; [exact Ei|]. split.
      { exists wo. rewrite Nk' by lia. exact Ho. }
      split. { eexists. split; [exact Ni'|]. cbn [concat]. reflexivity. }
      split; [|split; [exact Di|split; [|exact Do]]].
      * apply (pad_kept v _ (cells (hp (under w)))); [exact Pi|rewrite O'; auto|]. intros a Ha. apply K', Pi, Ha.
      * apply (pad_kept v _ (cells (hp (under w)))); [exact Po|rewrite O'; auto|]. intros a Ha. apply K', Po, Ha.
    + pose proof (M j h' e Ej Ee) as Mj. assert (Eio : outer h' = (2 * j)%nat /\ inner h' = (2 * j + 1)%nat) by (destruct e as [[? ?] ?]; split; apply Mj).
      destruct Eio as [Eo' Ei']. apply (mac_kept v _ (cells (hp (under w))) _ (mine uv)); auto.
      * rewrite O'. auto.
      * intros k0 ws0 E0. exists ws0. rewrite Nk' by lia. exact E0.
      * apply Nk'. lia.
  - destruct (step_ok (under w) v (Make n c) Iv Hl) as (w' & a & -> & (s & -> & B1 & B2 & F & Z & U) & I').
    cbn [bind]. eexists _, _. split; [reflexivity|]. cbn [under macs mpromised mafter]. split.
    { exists s. split; [reflexivity|]. split; [exact B1|]. split; [exact B2|]. split; [intros x Hx Hm; apply (F x Hx), Ov, Hm|].
      split; [exact Z|]. intros x Hx. apply U, Ov, Hx. }
    eexists. cbn [under macs mine keyed mafter]. split; [exact I'|]. cbn [after owned hashes].
    split; [intros x [Hx|Hx]; [left; apply Ov, Hx|right; exact Hx]|]. split; [exact Lh|]. split; [exact Lm|].
    intros j h e Ej Ee. apply (mac_kept v _ (cells (hp (under w))) _ (mine uv)); auto.
    + intros x Hx. left. exact Hx.
    + intros x Hx Nx [Hy|Hy]; [exact (Nx Hy)|exact (F x Hy Hx)].
    + intros k0 ws0 E0. exists ws0. exact E0.
  - destruct Hl as (Hs & Hj & Hx).
    assert (Hs' : has v s) by (split; [apply Hs|intros a Ha; apply Ov; apply (proj2 Hs); exact Ha]).
    destruct (step_ok (under w) v (Store s j x) Iv) as (w' & a & -> & (-> & V & U) & I').
    { split; [exact Hs'|]. split; assumption. }
    cbn [bind]. eexists _, _. split; [reflexivity|]. cbn [under macs mpromised mafter]. split.
    { split; [reflexivity|]. split; [exact V|]. intros y Hy. apply U, Ov, Hy. }
    unfold after in I'. rewrite eta in I'.
    exists v. cbn [under macs mine keyed mafter]. split; [exact I'|]. split; [exact Ov|]. split; [exact Lh|]. split; [exact Lm|].
    intros i h e Ei Ee. apply (mac_kept v _ (cells (hp (under w))) _ (mine uv)); auto.
    + intros y Hy Ny. apply U; [exact Hy|]. intros ->. apply Ny, (proj2 Hs). unfold covers. destruct Hs. lia.
    + intros k0 ws0 E0. exists ws0. exact E0.
Qed.
