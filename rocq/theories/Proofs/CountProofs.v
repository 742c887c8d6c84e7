(** Counting messages by their checksums: whatever the rest of a message is, few
    beginnings give the wanted value. *)
From Verif Require Import Base.Go Base.HashApi Spec.ChecksumSpec Spec.BurstSpec Spec.CombineSpec Spec.CountSpec.
From Verif Require Import Model.Bcc Model.Lrc Model.Fletcher Model.Luhn.
From Verif Require Import Proofs.Util Proofs.ChecksumProofs Proofs.FletcherProofs Proofs.BurstProofs Proofs.CombineProofs.
Local Open Scope N_scope.

(** ** Strings *)

Section Strings.
Context (b : N).
Definition symbols : list N := map N.of_nat (seq 0 (N.to_nat b)).
Fixpoint having (n : nat) (f : list N -> bool) : list (list N) :=
  match n with
  | O => if f [] then [[]] else []
  | S n' => flat_map (fun x => map (fun l => l ++ [x]) (having n' (fun l => f (l ++ [x])))) symbols
  end.
Lemma in_symbols x : In x symbols <-> x < b.
Proof.
  unfold symbols. rewrite in_map_iff. split.
  - intros (k & <- & Hk). apply in_seq in Hk. lia.
  - intros Hx. exists (N.to_nat x). split; [lia|]. apply in_seq. lia.
Qed.
Lemma symbols_nodup : NoDup symbols.
Proof. unfold symbols. apply FinFun.Injective_map_NoDup; [intros x y; apply Nat2N.inj|apply seq_NoDup]. Qed.
Lemma nodup_flat_map {A B} (f : A -> list B) l : NoDup l -> (forall x, In x l -> NoDup (f x)) ->
  (forall x y z, In x l -> In y l -> In z (f x) -> In z (f y) -> x = y) -> NoDup (flat_map f l).
Proof.
  induction 1 as [|a l Na _ IH]; intros Hf Hd; cbn [flat_map]; [constructor|].
  assert (Hr : NoDup (flat_map f l)).
  { apply IH; [intros x Hx; apply Hf; right; exact Hx|]. intros x y z Hx Hy. apply Hd; right; assumption. }
  specialize (Hf a (or_introl eq_refl)).
  assert (Hda : forall z, In z (f a) -> ~ In z (flat_map f l)).
  { intros z Hz Hz'. apply in_flat_map in Hz'. destruct Hz' as (y & Hy & Hz'). apply Na.
    rewrite (Hd a y z); [exact Hy|left; reflexivity|right; exact Hy|exact Hz|exact Hz']. }
  clear IH Hd. revert Hf Hda. generalize (f a). intros k Hf Hda. induction Hf as [|z k Nz Hk IHk]; [exact Hr|]. cbn [app]. constructor.
  - rewrite in_app_iff. intros [X|X]; [exact (Nz X)|exact (Hda z (or_introl eq_refl) X)].
  - apply IHk. intros y Hy. apply Hda. right. exact Hy.
Qed.
Lemma in_having n : forall f m, In m (having n f) <-> length m = n /\ Forall (fun x => x < b) m /\ f m = true.
Proof.
  induction n as [|n IH]; intros f m; cbn [having].
  - destruct (f []) eqn:E0; cbn [In].
    + split; [intros [<-|[]]; auto|]. intros (L & _ & _). left. destruct m; [reflexivity|discriminate L].
    + split; [intros []|]. intros (L & _ & X). destruct m; [congruence|discriminate L].
  - rewrite in_flat_map. split.
    + intros (x & Hx & Hm). apply in_map_iff in Hm. destruct Hm as (l & <- & Hl). apply IH in Hl. destruct Hl as (H1 & H2 & H3). apply in_symbols in Hx.
      rewrite app_length. cbn [length]. split; [lia|]. split; [|exact H3]. apply Forall_app. auto.
    + intros (H1 & H2 & H3). destruct m as [|y m] using rev_ind; [discriminate H1|]. clear IHm. rewrite app_length in H1. cbn [length] in H1.
      apply Forall_app in H2. destruct H2 as [H2 H4]. inversion H4; subst. exists y. split; [apply in_symbols; assumption|]. apply in_map_iff. exists m. split; [reflexivity|].
      apply IH. split; [lia|auto].
Qed.
Lemma having_nodup n : forall f, NoDup (having n f).
Proof.
  induction n as [|n IH]; intros f; cbn [having]; [destruct (f []); repeat constructor; intros []|].
  apply nodup_flat_map; [apply symbols_nodup| |].
  - intros x _. apply FinFun.Injective_map_NoDup; [|apply IH]. intros l l' E. apply app_inj_tail in E. apply E.
  - intros x y z _ _ Hx Hy. apply in_map_iff in Hx. apply in_map_iff in Hy. destruct Hx as (l & <- & _), Hy as (l' & E & _). apply app_inj_tail in E. symmetry. apply E.
Qed.
Lemma number_of n (f : list N -> bool) (P : list N -> Prop) :
  (forall m, length m = n -> Forall (fun x => x < b) m -> P m <-> f m = true) -> number b n P (length (having n f)).
Proof.
  intros H. exists (having n f). split; [apply having_nodup|]. split; [reflexivity|]. intros m. rewrite in_having. split; intros (H1 & H2 & H3); (split; [exact H1|]; split; [exact H2|]; apply H; assumption).
Qed.
(** If whatever follows there are between [lo] and [hi] good beginnings. *)
Lemma spread k lo hi n : forall f,
  (forall r, length r = n -> Forall (fun x => x < b) r -> (lo <= length (having k (fun p => f (p ++ r))) <= hi)%nat) ->
  (lo * N.to_nat b ^ n <= length (having (n + k) f) <= hi * N.to_nat b ^ n)%nat.
Proof.
  induction n as [|n IH]; intros f H.
  - specialize (H [] eq_refl (Forall_nil _)). cbn [Nat.add Nat.pow]. rewrite !Nat.mul_1_r.
    assert (E : forall n (f g : list N -> bool), (forall l, f l = g l) -> having n f = having n g).
    { clear. induction n as [|n IH]; intros f g E; cbn [having]; [rewrite E; reflexivity|]. apply flat_map_ext. intros x. f_equal. apply IH. intros l. apply E. }
    rewrite (E k _ f) in H; [exact H|]. intros l. rewrite app_nil_r. reflexivity.
  - cbn [Nat.add having Nat.pow].
    assert (X : forall l, (forall x, In x l -> x < b) ->
      (length l * (lo * N.to_nat b ^ n) <= length (flat_map (fun x => map (fun l => l ++ [x]) (having (n + k) (fun l => f (l ++ [x])))) l) <= length l * (hi * N.to_nat b ^ n))%nat).
    { induction l as [|x l IHl]; intros Hl; [cbn; lia|]. cbn [flat_map]. rewrite app_length, map_length. cbn [length].
      assert (Y : (lo * N.to_nat b ^ n <= length (having (n + k) (fun l => f (l ++ [x]))) <= hi * N.to_nat b ^ n)%nat).
      { apply IH. intros r Lr Hr. specialize (H (r ++ [x])). rewrite app_length in H. specialize (H ltac:(cbn [length]; lia)).
        specialize (H ltac:(apply Forall_app; split; [exact Hr|constructor; [apply Hl; left; reflexivity|constructor]])).
        assert (E : forall n (f g : list N -> bool), (forall l, f l = g l) -> having n f = having n g).
        { clear. induction n as [|n IH]; intros f g E; cbn [having]; [rewrite E; reflexivity|]. apply flat_map_ext. intros x. f_equal. apply IH. intros l. apply E. }
        rewrite (E k _ (fun p => f (p ++ r ++ [x]))); [exact H|]. intros p. rewrite <- app_assoc. reflexivity. }
      specialize (IHl (fun y Hy => Hl y (or_intror Hy))). lia. }
    specialize (X symbols (fun x => proj1 (in_symbols x))).
    replace (length symbols) with (N.to_nat b) in X by (unfold symbols; rewrite map_length, seq_length; reflexivity).
    replace (lo * (N.to_nat b * N.to_nat b ^ n))%nat with (N.to_nat b * (lo * N.to_nat b ^ n))%nat by lia.
    replace (hi * (N.to_nat b * N.to_nat b ^ n))%nat with (N.to_nat b * (hi * N.to_nat b ^ n))%nat by lia. exact X.
Qed.
(** One good symbol in front, whatever follows. *)
Lemma one_first n f : (forall r, length r = n -> Forall (fun x => x < b) r -> exists c, c < b /\ forall x, x < b -> f (x :: r) = true <-> x = c) ->
  length (having (n + 1) f) = (N.to_nat b ^ n)%nat.
Proof.
  intros H. enough (1 * N.to_nat b ^ n <= length (having (n + 1) f) <= 1 * N.to_nat b ^ n)%nat by lia. apply spread. intros r Lr Hr.
  destruct (H r Lr Hr) as (c & Hc & Hx). split.
  - assert (I : In [c] (having 1 (fun p => f (p ++ r)))) by (apply in_having; split; [reflexivity|]; split; [constructor; [exact Hc|constructor]|]; apply Hx; [exact Hc|reflexivity]).
    destruct (having 1 (fun p => f (p ++ r))); [destruct I|cbn [length]; lia].
  - apply (NoDup_incl_length (having_nodup 1 _) (l' := [[c]])). intros m Hm. apply in_having in Hm. destruct Hm as (Lm & Fm & Em).
    destruct m as [|x [|y m]]; try discriminate Lm. inversion Fm; subst. left. f_equal. symmetry. apply Hx; assumption.
Qed.
End Strings.
Lemma number_fun b n P k k' : number b n P k -> number b n P k' -> k = k'.
Proof.
  intros (l & N1 & <- & I1) (l' & N2 & <- & I2). apply Nat.le_antisymm; apply NoDup_incl_length; try assumption; intros m Hm; [apply I2, I1, Hm|apply I1, I2, Hm].
Qed.

(** ** Fletcher *)

(** The number that bytes write, low byte first. *)
Definition val (p : list N) : N := fold_right (fun x v => x + 256 * v) 0 p.
Lemma val_low p : bytes_ok p -> low_first_bytes (length p) (val p) = p.
Proof.
  induction 1 as [|x p Hx _ IH]; [reflexivity|]. unfold val in *. cbn [length low_first_bytes fold_right]. set (v := fold_right _ _ p) in *.
  rewrite (N.mul_comm 256), N.mod_add, N.div_add, N.mod_small, N.div_small, N.add_0_l, IH by (exact Hx || discriminate). reflexivity.
Qed.
Lemma low_val n : forall v, v < 256 ^ N.of_nat n -> val (low_first_bytes n v) = v.
Proof.
  induction n as [|n IH]; intros v Hv; [cbn in Hv; destruct v; [reflexivity|lia]|]. unfold val in *. cbn [low_first_bytes fold_right].
  rewrite IH; [rewrite N.add_comm; symmetry; apply N.div_mod; discriminate|]. rewrite Nat2N.inj_succ, N.pow_succ_r' in Hv. apply N.div_lt_upper_bound; [discriminate|exact Hv].
Qed.
Lemma val_bound p : bytes_ok p -> val p < 256 ^ N.of_nat (length p).
Proof.
  induction 1 as [|x p Hx _ IH]; [reflexivity|]. unfold val in *. cbn [length fold_right]. rewrite Nat2N.inj_succ, N.pow_succ_r'.
  set (v := fold_right _ _ p) in *. set (q := 256 ^ N.of_nat (length p)) in *. change (x < 256) in Hx. clearbody v q. lia.
Qed.

Section Fletcher.
Context (w : nat) (M H : N) (words : list N -> list N).
Context (HM : M + 1 = 256 ^ N.of_nat w) (HM2 : 1 < M) (HH : M < H).
Context (Hwords : forall p1 p2 r, length p1 = w -> length p2 = w -> words (p1 ++ p2 ++ r) = val p1 :: val p2 :: words r).

Lemma fletcher_is l a b : a < M -> b < M -> fletcher M H l = b * H + a <-> sum_all l mod M = a /\ sum_all (prefix_sums l) mod M = b.
Proof using HM HM2 HH.
  intros Ha Hb. unfold fletcher, fletcher_a, fletcher_b. split; [|intros [-> ->]; reflexivity]. intros E.
  pose proof (N.mod_lt (sum_all l) M ltac:(lia)). pose proof (N.mod_lt (sum_all (prefix_sums l)) M ltac:(lia)).
  set (x := sum_all l mod M) in *. set (y := sum_all (prefix_sums l) mod M) in *. clearbody x y. assert (y = b) by nia. subst. split; [lia|reflexivity].
Qed.
(** Two words that lead to given sums. *)
Lemma two_first ws a b : a < M -> b < M -> exists x y, x < M /\ y < M /\ fletcher M H (x :: y :: ws) = b * H + a
  /\ forall x' y', fletcher M H (x' :: y' :: ws) = b * H + a -> x' mod M = x /\ y' mod M = y.
Proof using HM HM2 HH.
  intros Ha Hb. set (A := Z.of_N (sum_all ws)). set (B := Z.of_N (sum_all (prefix_sums ws))). set (n := Z.of_nat (length ws)). set (m := Z.of_N M).
  assert (m0 : (0 < m)%Z) by lia.
  set (zx := ((Z.of_N b - B - (n + 1) * (Z.of_N a - A)) mod m)%Z). set (zy := ((Z.of_N a - A - zx) mod m)%Z).
  pose proof (Z.mod_pos_bound (Z.of_N b - B - (n + 1) * (Z.of_N a - A)) m m0) as Bx. fold zx in Bx.
  pose proof (Z.mod_pos_bound (Z.of_N a - A - zx) m m0) as By. fold zy in By.
  assert (E : fletcher M H (Z.to_N zx :: Z.to_N zy :: ws) = b * H + a).
  { apply fletcher_is; [exact Ha|exact Hb|]. rewrite !ps_cons. cbn [length]. change (sum_all (Z.to_N zx :: Z.to_N zy :: ws)) with (Z.to_N zx + (Z.to_N zy + sum_all ws)).
    rewrite <- (N.mod_small a M) by exact Ha. rewrite <- (N.mod_small b M) by exact Hb. rewrite !mod_iff by lia. fold m.
    destruct (Z.mod_divide (Z.of_N a - A - zx - zy) m ltac:(lia)) as [D1 _]. specialize (D1 ltac:(unfold zy; rewrite Zminus_mod_idemp_r, Z.sub_diag; apply Z.mod_0_l; lia)).
    destruct (Z.mod_divide (Z.of_N b - B - (n + 1) * (Z.of_N a - A) - zx) m ltac:(lia)) as [D2 _]. specialize (D2 ltac:(unfold zx; rewrite Zminus_mod_idemp_r, Z.sub_diag; apply Z.mod_0_l; lia)).
    destruct D1 as [q1 D1], D2 as [q2 D2]. split.
    - exists (- q1)%Z. rewrite !N2Z.inj_add, !Z2N.id by lia. fold A. lia.
    - exists (- q2 - (n + 1) * q1)%Z. rewrite !N2Z.inj_add, !N2Z.inj_mul, !N2Z.inj_add, !Z2N.id, !nat_N_Z by lia. fold B. rewrite Nat2Z.inj_succ. fold n. nia. }
  exists (Z.to_N zx), (Z.to_N zy). split; [lia|]. split; [lia|]. split; [exact E|]. intros x' y' E'. rewrite <- E in E'.
  apply (two_words M H [] x' [] y' ws (Z.to_N zx) (Z.to_N zy)) in E'; [|lia|lia]. cbn [length] in E'. change (N.of_nat 0 + 1) with 1 in E'. rewrite !N.mul_1_l in E'. destruct E' as [E1 E2].
  rewrite (N.mod_small (Z.to_N zx)) in E2 by lia. split; [exact E2|]. rewrite <- (N.mod_small (Z.to_N zy) M) by lia.
  apply mod_iff in E1; [|lia]. apply mod_iff; [lia|]. rewrite <- (N.mod_small (Z.to_N zx) M) in E2 by lia. apply mod_iff in E2; [|lia].
  rewrite !N2Z.inj_add in E1. apply (Z.divide_sub_r _ _ _ E1) in E2. eapply Z.divide_trans; [exact (Z.divide_refl _)|].
  match type of E2 with (_ | ?z)%Z => match goal with |- (_ | ?z')%Z => replace z' with z by lia; exact E2 end end.
Qed.
(** The numbers up to M that are [s] modulo M. *)
Definition class (s : N) : list N := if s =? 0 then [0; M] else [s].
Lemma in_class x s : x <= M -> x mod M = s -> In x (class s).
Proof using HM HM2 HH.
  intros Hx E. unfold class. destruct (N.eq_dec x M) as [->|Nx].
  - rewrite N.mod_same in E by lia. subst s. right. left. reflexivity.
  - rewrite N.mod_small in E by lia. subst s. destruct (N.eqb_spec x 0) as [->|]; left; reflexivity.
Qed.
Lemma fletcher_count n a b : a < M -> b < M ->
  (256 ^ n <= length (having 256 (n + (w + w)) (fun m => (fletcher M H (words m) =? b * H + a)%N)) <= 4 * 256 ^ n)%nat.
Proof using HM HM2 HH Hwords.
  intros Ha Hb. pose proof (spread 256 (w + w) 1 4 n (fun m => fletcher M H (words m) =? b * H + a)) as X. rewrite Nat.mul_1_l in X. apply X. clear X.
  intros r Lr Hr. destruct (two_first (words r) a b Ha Hb) as (x & y & Hx & Hy & E & U).
  assert (In_bytes : forall m, In m (having 256 (w + w) (fun p => fletcher M H (words (p ++ r)) =? b * H + a)) <->
    exists p1 p2, m = p1 ++ p2 /\ length p1 = w /\ length p2 = w /\ bytes_ok p1 /\ bytes_ok p2 /\ fletcher M H (val p1 :: val p2 :: words r) = b * H + a).
  { intros m. rewrite in_having, N.eqb_eq. split.
    - intros (L & F & G). exists (firstn w m), (skipn w m). rewrite firstn_skipn. split; [reflexivity|].
      assert (L1 : length (firstn w m) = w) by (rewrite firstn_length; lia). assert (L2 : length (skipn w m) = w) by (rewrite skipn_length; lia).
      rewrite <- (firstn_skipn w m) in F. apply Forall_app in F. destruct F as [F1 F2]. rewrite <- (firstn_skipn w m), <- app_assoc, Hwords in G by assumption. repeat split; assumption.
    - intros (p1 & p2 & -> & L1 & L2 & O1 & O2 & G). rewrite app_length, <- app_assoc, Hwords by assumption. split; [lia|]. split; [apply Forall_app; split; assumption|exact G]. }
  split.
  - assert (I : In (low_first_bytes w x ++ low_first_bytes w y) (having 256 (w + w) (fun p => fletcher M H (words (p ++ r)) =? b * H + a))).
    { apply In_bytes. exists (low_first_bytes w x), (low_first_bytes w y). rewrite !low_first_length, !low_val by lia.
      split; [reflexivity|]. split; [reflexivity|]. split; [reflexivity|]. split; [apply low_first_ok|]. split; [apply low_first_ok|exact E]. }
    destruct (having 256 (w + w) _); [destruct I|cbn [length]; lia].
  - apply Nat.le_trans with (length (flat_map (fun x => map (fun y => low_first_bytes w x ++ low_first_bytes w y) (class y)) (class x))).
    + apply NoDup_incl_length; [apply having_nodup|]. intros m Hm. apply In_bytes in Hm. destruct Hm as (p1 & p2 & -> & L1 & L2 & O1 & O2 & G).
      destruct (U _ _ G) as [U1 U2]. pose proof (val_bound p1 O1) as V1. pose proof (val_bound p2 O2) as V2. rewrite L1 in V1. rewrite L2 in V2.
      apply in_flat_map. exists (val p1). split; [apply in_class; [lia|exact U1]|]. apply in_map_iff. exists (val p2).
      split; [|apply in_class; [lia|exact U2]]. rewrite <- L1 at 1. rewrite <- L2. rewrite !val_low by assumption. reflexivity.
    + unfold class. destruct (x =? 0), (y =? 0); cbn [flat_map map app length]; lia.
Qed.
End Fletcher.

(** ** What objects show *)

Lemma shows_value {St} (step : St -> call -> outcome (St * result)) s0 ws v u : shows step s0 ws v -> (shows step s0 ws u <-> v = u).
Proof.
  unfold shows. intros E. rewrite E. split; [|intros ->; reflexivity]. intros E'. injection E' as E'.
  apply app_inv_head in E'. injection E' as E'. exact E'.
Qed.
Lemma bcc_count n v : v < 256 -> number 256 (n + 1) (fun m => shows Bcc.step Bcc.New [m] v) (256 ^ n).
Proof.
  intros Hv. change 256%nat with (N.to_nat 256). rewrite <- (one_first 256 n (fun m => xor_all m =? v)).
  - apply number_of. intros m _ _. rewrite N.eqb_eq. rewrite (shows_value _ _ _ _ v (bcc_shows [m])). cbn [concat]. rewrite app_nil_r. reflexivity.
  - intros r _ Hr. exists (N.lxor v (xor_all r)). split.
    + apply lxor_byte; [exact Hv|apply xor_all_byte, Hr].
    + intros x _. rewrite N.eqb_eq. change (xor_all (x :: r)) with (N.lxor x (xor_all r)). split; [intros <-|intros ->]; rewrite N.lxor_assoc, N.lxor_nilpotent, N.lxor_0_r; reflexivity.
Qed.
Lemma lrc_count n v : v < 256 -> number 256 (n + 1) (fun m => shows Lrc.step Lrc.New [m] v) (256 ^ n).
Proof.
  intros Hv. change 256%nat with (N.to_nat 256). rewrite <- (one_first 256 n (fun m => Z.to_N ((- Z.of_N (sum_all m)) mod 256) =? v)).
  - apply number_of. intros m _ _. rewrite N.eqb_eq. apply (shows_value _ _ _ _ v (lrc_shows m)).
  - intros r _ _. exists (Z.to_N ((- Z.of_N v - Z.of_N (sum_all r)) mod 256)). pose proof (Z.mod_pos_bound (- Z.of_N v - Z.of_N (sum_all r)) 256 eq_refl) as Bc. split; [lia|].
    intros x Hx. rewrite N.eqb_eq. change (sum_all (x :: r)) with (x + sum_all r). rewrite N2Z.inj_add. generalize (Z.of_N (sum_all r)) Bc. clear Bc. intros s Bc.
    pose proof (Z.mod_pos_bound (- (Z.of_N x + s)) 256 eq_refl) as Bx.
    pose proof (Z.div_mod (- (Z.of_N x + s)) 256 ltac:(discriminate)) as D1. pose proof (Z.div_mod (- Z.of_N v - s) 256 ltac:(discriminate)) as D2.
    set (q1 := (- (Z.of_N x + s) / 256)%Z) in *. set (q2 := ((- Z.of_N v - s) / 256)%Z) in *. set (t1 := ((- (Z.of_N x + s)) mod 256)%Z) in *. set (t2 := ((- Z.of_N v - s) mod 256)%Z) in *.
    clearbody q1 q2 t1 t2. split; intros E; lia.
Qed.
Lemma count16 n a b : a < 255 -> b < 255 -> N.of_nat (n + 2) <= 5802 -> exists k,
  number 256 (n + 2) (fun m => shows Fletcher.step16 Fletcher.New [m] (b * 2 ^ 8 + a)) k /\ (256 ^ n <= k <= 4 * 256 ^ n)%nat.
Proof.
  intros Ha Hb L. exists (length (having 256 (n + 2) (fun m => fletcher 255 (2 ^ 8) m =? b * 2 ^ 8 + a))). split.
  - apply number_of. intros m Lm Hm. rewrite N.eqb_eq.
    rewrite (shows_value _ _ _ _ (b * 2 ^ 8 + a) (shows16 [m] ltac:(constructor; [exact Hm|constructor]) ltac:(constructor; [rewrite Lm; exact L|constructor]))). cbn [concat]. rewrite app_nil_r. reflexivity.
  - apply (fletcher_count 1 255 (2 ^ 8) (fun m => m)); try reflexivity; try assumption.
    intros [|x [|y p]] [|x' [|y' p']] r L1 L2; try discriminate L1; try discriminate L2. unfold val. cbn [app fold_right]. f_equal; [lia|]. f_equal. lia.
Qed.
Lemma count32 n a b : a < 65535 -> b < 65535 -> exists k,
  number 256 (n + 4) (fun m => shows Fletcher.step32 Fletcher.New [m] (b * 2 ^ 16 + a)) k /\ (256 ^ n <= k <= 4 * 256 ^ n)%nat.
Proof.
  intros Ha Hb. exists (length (having 256 (n + 4) (fun m => fletcher 65535 (2 ^ 16) (words16 m) =? b * 2 ^ 16 + a))). split.
  - apply number_of. intros m Lm Hm. rewrite N.eqb_eq.
    rewrite (shows_value _ _ _ _ (b * 2 ^ 16 + a) (shows32 [m] ltac:(constructor; [exact Hm|constructor]))). cbn [flat_map]. rewrite app_nil_r. reflexivity.
  - apply (fletcher_count 2 65535 (2 ^ 16) words16); try reflexivity; try assumption.
    intros p1 p2 r L1 L2. destruct p1 as [|x [|y [|? ?]]]; try discriminate L1. destruct p2 as [|x' [|y' [|? ?]]]; try discriminate L2.
    unfold val. cbn [app fold_right words16]. f_equal; [lia|]. f_equal. lia.
Qed.
Lemma count64 n a b : a < 4294967295 -> b < 4294967295 -> exists k,
  number 256 (n + 8) (fun m => shows Fletcher.step64 Fletcher.New [m] (b * 2 ^ 32 + a)) k /\ (256 ^ n <= k <= 4 * 256 ^ n)%nat.
Proof.
  intros Ha Hb. exists (length (having 256 (n + 8) (fun m => fletcher 4294967295 (2 ^ 32) (words32 m) =? b * 2 ^ 32 + a))). split.
  - apply number_of. intros m Lm Hm. rewrite N.eqb_eq.
    rewrite (shows_value _ _ _ _ (b * 2 ^ 32 + a) (shows64 [m] ltac:(constructor; [exact Hm|constructor]))). cbn [flat_map]. rewrite app_nil_r. reflexivity.
  - apply (fletcher_count 4 4294967295 (2 ^ 32) words32); try reflexivity; try assumption.
    intros p1 p2 r L1 L2. destruct p1 as [|x [|y [|z [|t [|? ?]]]]]; try discriminate L1. destruct p2 as [|x' [|y' [|z' [|t' [|? ?]]]]]; try discriminate L2.
    unfold val. cbn [app fold_right words32]. f_equal; [lia|]. f_equal. lia.
Qed.
(** Other values never come up. *)
Lemma fletcher_range M H l : 0 < M -> M < H -> exists a b, a < M /\ b < M /\ fletcher M H l = b * H + a.
Proof.
  intros HM HH. exists (sum_all l mod M), (sum_all (prefix_sums l) mod M). split; [apply N.mod_lt; lia|]. split; [apply N.mod_lt; lia|reflexivity].
Qed.
Lemma number_none b n (P : list N -> Prop) : (forall m, length m = n -> Forall (fun x => x < b) m -> ~ P m) -> number b n P 0.
Proof. intros X. exists []. split; [constructor|]. split; [reflexivity|]. intros m. split; [intros []|]. intros (H1 & H2 & H3). destruct (X m H1 H2 H3). Qed.

(** ** Luhn *)

Lemma digits_bound ds : digits_ok ds -> digits_value ds < 10 ^ N.of_nat (length ds).
Proof.
  induction 1 as [|d ds Hd _ IH]; [reflexivity|]. cbn [digits_value length]. rewrite Nat2N.inj_succ, N.pow_succ_r'.
  set (q := 10 ^ N.of_nat (length ds)) in *. clearbody q. lia.
Qed.
Lemma luhn_first s c : s < 10 -> c < 10 -> exists d, d < 10 /\ forall x, x < 10 -> (10 - (luhn_term true x + s) mod 10) mod 10 = c <-> x = d.
Proof.
  intros Hs Hc.
  assert (C : forallb (fun s => forallb (fun c => existsb (fun d => forallb (fun x => Bool.eqb ((10 - (luhn_term true x + s) mod 10) mod 10 =? c) (x =? d)) (below 10)) (below 10)) (below 10)) (below 10) = true)
    by (vm_compute; reflexivity).
  pose proof (sweep 10 _ C s Hs) as C1. cbv beta in C1. pose proof (sweep 10 _ C1 c Hc) as C2. cbv beta in C2. apply existsb_exists in C2. destruct C2 as (d & Id & C3).
  exists d. split; [|intros x Hx; pose proof (sweep 10 _ C3 x Hx) as C4; cbv beta in C4; apply Bool.eqb_prop in C4; rewrite <- !N.eqb_eq, C4; reflexivity].
  apply (in_symbols 10), Id.
Qed.
Lemma luhn_count n c : (n < 19)%nat -> c < 10 -> number 10 (n + 1) (fun ds => Luhn.Checksum (digits_value ds) = Ret c) (10 ^ n).
Proof.
  intros Hn Hc. change 10%nat with (N.to_nat 10). rewrite <- (one_first 10 n (fun ds => (10 - luhn_sum true ds mod 10) mod 10 =? c)).
  - apply number_of. intros ds Ld Hd. rewrite luhn_checksum; [rewrite N.eqb_eq; split; [intros E; injection E; trivial|intros ->; reflexivity]|exact Hd|].
    apply N.lt_le_trans with (1 := digits_bound ds Hd). apply N.le_trans with (10 ^ 19); [apply N.pow_le_mono_r; [discriminate|lia]|vm_compute; discriminate].
  - intros r _ _. destruct (luhn_first (luhn_sum false r mod 10) c) as (d & Hd & X); [apply N.mod_lt; discriminate|exact Hc|].
    exists d. split; [exact Hd|]. intros x Hx. rewrite N.eqb_eq. change (luhn_sum true (x :: r)) with (luhn_term true x + luhn_sum false r).
    rewrite <- N.add_mod_idemp_r by discriminate. apply X, Hx.
Qed.
