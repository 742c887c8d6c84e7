(** Equal digests of different messages come from a collision of the compression
    function. *)
From Verif Require Import Base.Go Base.DigestApi Spec.CodegenSpec Spec.DigestSpec Spec.CollisionSpec.
From Verif Require Import Proofs.Util Proofs.CodegenProofs Proofs.DigestProofs.
From Coq Require FinFun.
From Verif Require Model.Ripemd Model.Whirlpool Spec.RipemdSpec Spec.WhirlpoolSpec Proofs.RipemdProofs Proofs.WhirlpoolProofs.
Local Open Scope N_scope.

Lemma app_split {A} : forall (p q r s : list A), length p = length q -> p ++ r = q ++ s -> p = q /\ r = s.
Proof.
  induction p as [|z p IH]; intros [|z' q] r s L E; cbn [length app] in *; try discriminate; [auto|].
  injection E as -> E. destruct (IH q r s) as [-> ->]; [lia|exact E|auto].
Qed.

Section Chain.
Context {St : Type} (dec : forall x y : St * list N, {x = y} + {x <> y}) (comp : St -> list N -> St).

Lemma chain_app l1 l2 : forall h, chain comp h (l1 ++ l2) = chain comp h l1 ++ chain comp (fold_left comp l1 h) l2.
Proof. induction l1 as [|b l1 IH]; intros h; cbn [app chain fold_left]; [reflexivity|]. rewrite IH. reflexivity. Qed.

Lemma same_end iv : forall n l1 l2, (length l1 <= n)%nat -> fold_left comp l1 iv = fold_left comp l2 iv ->
  collide comp (chain comp iv l1) (chain comp iv l2) \/ exists pre, l2 = pre ++ l1 \/ l1 = pre ++ l2.
Proof.
  induction n as [|n IH]; intros l1 l2 Hn E.
  - destruct l1; [|cbn [length] in Hn; lia]. right. exists l2. left. symmetry. apply app_nil_r.
  - destruct l1 as [|b1 l1 _] using rev_ind. { right. exists l2. left. symmetry. apply app_nil_r. }
    destruct l2 as [|b2 l2 _] using rev_ind. { right. exists (l1 ++ [b1]). right. symmetry. apply app_nil_r. }
    rewrite !fold_left_app in E. cbn [fold_left] in E. rewrite !chain_app. cbn [chain].
    set (s1 := fold_left comp l1 iv) in *. set (s2 := fold_left comp l2 iv) in *.
    destruct (dec (s1, b1) (s2, b2)) as [Eq|Ne].
    + injection Eq as Es Eb. rewrite app_length in Hn. cbn [length] in Hn.
      destruct (IH l1 l2) as [(x & y & Ix & Iy & N & C)|(pre & [P|P])]; [lia|exact Es| | |].
      * left. exists x, y. repeat split; try assumption; apply in_or_app; left; assumption.
      * right. exists pre. left. rewrite P, Eb, <- app_assoc. reflexivity.
      * right. exists pre. right. rewrite P, Eb, <- app_assoc. reflexivity.
    + left. exists (s1, b1), (s2, b2). repeat split; try assumption; apply in_or_app; right; left; reflexivity.
Qed.

Lemma padded_length f m : length (padded f m) = (length m + 1 + zeros (length m) (length f) + length f)%nat.
Proof. unfold padded. rewrite !app_length, repeat_length. cbn [length]. lia. Qed.
Lemma padded_tail f1 f2 m1 m2 pre : length f1 = length f2 -> padded f2 m2 = pre ++ padded f1 m1 -> f2 = f1.
Proof.
  unfold padded. intros L E. rewrite !app_assoc in E.
  assert (E' : rev f2 ++ rev ((m2 ++ [128]) ++ repeat 0 (zeros (length m2) (length f2)))
             = rev f1 ++ rev (((pre ++ m1) ++ [128]) ++ repeat 0 (zeros (length m1) (length f1)))) by (rewrite <- !rev_app_distr, E; reflexivity).
  apply app_split in E'; [|rewrite !rev_length; symmetry; exact L]. destruct E' as [E' _].
  rewrite <- (rev_involutive f2), E', rev_involutive. reflexivity.
Qed.
Lemma padded_inj f m1 m2 : length m1 = length m2 -> padded f m1 = padded f m2 -> m1 = m2.
Proof.
  intros L E. unfold padded in E. apply (f_equal (firstn (length m1))) in E.
  rewrite !firstn_app in E. rewrite <- L in E. rewrite Nat.sub_diag, !firstn_all in E. rewrite L, firstn_all in E.
  cbn [firstn] in E. rewrite !app_nil_r in E. exact E.
Qed.
Lemma padded_suffix (field : list N -> list N) m1 m2 pre : length (field m1) = length (field m2) ->
  (field m1 = field m2 -> length m1 = length m2) -> padded (field m2) m2 = pre ++ padded (field m1) m1 -> m1 = m2.
Proof.
  intros L Hf E. pose proof (padded_tail _ _ _ _ _ L E) as F. assert (Lm : length m1 = length m2) by (apply Hf; symmetry; exact F).
  pose proof (f_equal (@length N) E) as EL. rewrite app_length, !padded_length, Lm, L in EL.
  destruct pre; [|cbn [length] in EL; lia]. cbn [app] in E. rewrite F in E. symmetry in E. apply (padded_inj _ _ _ Lm E).
Qed.

Theorem merkle_damgard iv (field : list N -> list N) m1 m2 : length (field m1) = length (field m2) ->
  (field m1 = field m2 -> length m1 = length m2) -> m1 <> m2 ->
  iterate comp iv (padded (field m1) m1) = iterate comp iv (padded (field m2) m2) ->
  collide comp (calls comp iv (padded (field m1) m1)) (calls comp iv (padded (field m2) m2)).
Proof.
  intros L Hf N E. unfold iterate in E. unfold calls. destruct (same_end iv _ _ _ (le_n _) E) as [C|(pre & P)]; [exact C|].
  exfalso. apply N. destruct P as [P|P]; apply (f_equal (@concat _)) in P; rewrite concat_app, !pieces_concat in P by lia.
  - apply (padded_suffix field m1 m2 (concat pre) L Hf P).
  - symmetry. apply (padded_suffix field m2 m1 (concat pre)); [symmetry; exact L|intros H; symmetry; apply Hf; symmetry; exact H|exact P].
Qed.
End Chain.

(** ** The length fields *)

Lemma little_endian_inj n : forall a b, a < 256 ^ N.of_nat n -> b < 256 ^ N.of_nat n -> little_endian n a = little_endian n b -> a = b.
Proof.
  induction n as [|n IH]; intros a b Ha Hb E. { cbn in Ha, Hb. lia. }
  rewrite Nat2N.inj_succ, N.pow_succ_r' in Ha, Hb. cbn [little_endian] in E. injection E as E0 E1.
  apply IH in E1; [|apply N.div_lt_upper_bound; lia|apply N.div_lt_upper_bound; lia].
  rewrite (N.div_mod' a 256), (N.div_mod' b 256), E0, E1. reflexivity.
Qed.
Lemma flat_little_inj : forall l1 l2, length l1 = length l2 -> Forall (fun x => x < 2 ^ 32) l1 -> Forall (fun x => x < 2 ^ 32) l2 ->
  flat_map (little_endian 4) l1 = flat_map (little_endian 4) l2 -> l1 = l2.
Proof.
  induction l1 as [|a l1 IH]; intros [|b l2] L F1 F2 E; cbn [length] in L; try discriminate; [reflexivity|].
  inversion F1; subst; inversion F2; subst. cbn [flat_map] in E.
  assert (X : little_endian 4 a = little_endian 4 b /\ flat_map (little_endian 4) l1 = flat_map (little_endian 4) l2).
  { apply app_split; [rewrite !little_endian_length; reflexivity|exact E]. }
  destruct X as [X Y]. f_equal; [apply (little_endian_inj 4); assumption|]. apply IH; auto.
Qed.

Definition pair_dec (x y : list N * list N) : {x = y} + {x <> y}.
Proof. decide equality; apply (list_eq_dec N.eq_dec). Defined.

Section Ripe.
Context (n : nat) (comp : list N -> list N -> list N) (iv : list N).
Context (Hiv : RipemdProofs.words_ok n iv) (Hc : forall h blk, RipemdProofs.words_ok n h -> RipemdProofs.words_ok n (comp h blk)).
Lemma iterate_words text : RipemdProofs.words_ok n (iterate comp iv text).
Proof. unfold iterate. revert iv Hiv. induction (pieces 64 text) as [|b bs IH]; intros h Hh; cbn [fold_left]; [exact Hh|]. apply IH, Hc, Hh. Qed.
Lemma ripe_collision m1 m2 : 8 * N.of_nat (length m1) < 2 ^ 64 -> 8 * N.of_nat (length m2) < 2 ^ 64 -> m1 <> m2 ->
  RipemdSpec.ripemd comp iv m1 = RipemdSpec.ripemd comp iv m2 ->
  collide comp (calls comp iv (padded (RipemdSpec.bit_length m1) m1)) (calls comp iv (padded (RipemdSpec.bit_length m2) m2)).
Proof.
  intros L1 L2 Ne E. apply (merkle_damgard pair_dec comp iv RipemdSpec.bit_length); [| |exact Ne|].
  - unfold RipemdSpec.bit_length. rewrite !little_endian_length. reflexivity.
  - unfold RipemdSpec.bit_length. intros F. rewrite !N.mod_small in F by assumption. apply little_endian_inj in F; [lia|exact L1|exact L2].
  - unfold RipemdSpec.ripemd in E. destruct (iterate_words (padded (RipemdSpec.bit_length m1) m1)) as [A1 B1].
    destruct (iterate_words (padded (RipemdSpec.bit_length m2) m2)) as [A2 B2].
    apply flat_little_inj in E; [exact E|congruence|exact B1|exact B2].
Qed.
End Ripe.

Lemma whirl_collision m1 m2 : N.of_nat (length m1) < 2 ^ 64 -> N.of_nat (length m2) < 2 ^ 64 -> m1 <> m2 ->
  WhirlpoolSpec.Whirlpool m1 = WhirlpoolSpec.Whirlpool m2 ->
  collide WhirlpoolSpec.compress (calls WhirlpoolSpec.compress (repeat 0 64) (padded (WhirlpoolSpec.whirlpool_length m1) m1))
    (calls WhirlpoolSpec.compress (repeat 0 64) (padded (WhirlpoolSpec.whirlpool_length m2) m2)).
Proof.
  intros L1 L2 Ne E. apply (merkle_damgard pair_dec WhirlpoolSpec.compress (repeat 0 64) WhirlpoolSpec.whirlpool_length); [| |exact Ne|exact E].
  - unfold WhirlpoolSpec.whirlpool_length, big_endian. rewrite !rev_length, !little_endian_length. reflexivity.
  - unfold WhirlpoolSpec.whirlpool_length, big_endian. intros F. apply (f_equal (@rev N)) in F. rewrite !rev_involutive in F.
    assert (B : forall m : list N, N.of_nat (length m) < 2 ^ 64 -> 8 * N.of_nat (length m) < 256 ^ N.of_nat 32).
    { intros m H. apply N.lt_trans with (2 ^ 68); [|reflexivity]. lia. }
    apply little_endian_inj in F; [lia|apply B, L1|apply B, L2].
Qed.

(** ** Collisions exist *)

Definition all_bytes : list N := map N.of_nat (seq 0 256).
Fixpoint all_texts (n : nat) : list (list N) :=
  match n with O => [[]] | S n' => flat_map (fun b => map (cons b) (all_texts n')) all_bytes end.
Lemma all_bytes_in b : In b all_bytes <-> b < 256.
Proof.
  unfold all_bytes. rewrite in_map_iff. split.
  - intros (i & <- & Hi). apply in_seq in Hi. lia.
  - intros H. exists (N.to_nat b). split; [apply N2Nat.id|]. apply in_seq. lia.
Qed.
Lemma all_texts_in n : forall m, In m (all_texts n) <-> length m = n /\ bytes_ok m.
Proof.
  induction n as [|n IH]; intros m; cbn [all_texts].
  - split; [intros [<-|[]]; split; [reflexivity|constructor]|]. intros [L _]. destruct m; [left; reflexivity|discriminate].
  - rewrite in_flat_map. split.
    + intros (b & Hb & Hm). apply in_map_iff in Hm. destruct Hm as (t & <- & Ht). apply IH in Ht. destruct Ht as [L O].
      split; [cbn [length]; lia|]. constructor; [apply all_bytes_in, Hb|exact O].
    + intros [L O]. destruct m as [|b t]; [discriminate|]. inversion O; subst. exists b. split; [apply all_bytes_in; assumption|].
      apply in_map, IH. split; [cbn [length] in L; lia|assumption].
Qed.
Lemma flat_map_length_const {A B} (f : A -> list B) n l : (forall x, length (f x) = n) -> length (flat_map f l) = (length l * n)%nat.
Proof. intros H. induction l as [|x l IH]; cbn [flat_map length]; [reflexivity|]. rewrite app_length, H, IH. lia. Qed.
Lemma all_texts_length n : length (all_texts n) = Nat.pow 256 n.
Proof.
  induction n as [|n IH]; [reflexivity|]. cbn [all_texts]. rewrite (flat_map_length_const _ (length (all_texts n))) by (intros; apply map_length).
  unfold all_bytes. rewrite map_length, seq_length, IH. reflexivity.
Qed.
Lemma NoDup_all_texts n : NoDup (all_texts n).
Proof.
  induction n as [|n IH]; cbn [all_texts]; [repeat constructor; intros []|].
  assert (D : NoDup all_bytes).
  { unfold all_bytes. apply FinFun.Injective_map_NoDup; [intros x y; apply Nat2N.inj|apply seq_NoDup]. }
  induction D as [|b l Hb D IHl]; cbn [flat_map]; [constructor|].
  assert (A : forall l1 l2 : list (list N), NoDup l1 -> NoDup l2 -> (forall x, In x l1 -> ~ In x l2) -> NoDup (l1 ++ l2)).
  { induction 1 as [|x l1 Hx D1 IH1]; intros D2 X; cbn [app]; [exact D2|]. constructor.
    - rewrite in_app_iff. intros [H|H]; [contradiction|]. apply (X x (or_introl eq_refl) H).
    - apply IH1; [exact D2|]. intros y Hy. apply X. right. exact Hy. }
  apply A; [apply FinFun.Injective_map_NoDup; [intros x y E; injection E as ->; reflexivity|exact IH]|exact IHl|].
  intros x Hx Hf. apply in_map_iff in Hx. destruct Hx as (t & <- & _). apply in_flat_map in Hf. destruct Hf as (b' & Hb' & Ht).
  apply in_map_iff in Ht. destruct Ht as (t' & E & _). injection E as -> _. contradiction.
Qed.
Lemma pigeons (f : list N -> list N) l : NoDup l -> (exists x y, In x l /\ In y l /\ x <> y /\ f x = f y) \/ NoDup (map f l).
Proof.
  induction 1 as [|x l Hx D IH]; [right; constructor|]. destruct IH as [(a & b & Ia & Ib & Ne & E)|IH].
  - left. exists a, b. repeat split; try assumption; right; assumption.
  - cbn [map]. destruct (in_dec (list_eq_dec N.eq_dec) (f x) (map f l)) as [I|I]; [|right; constructor; assumption].
    apply in_map_iff in I. destruct I as (y & E & Iy). left. exists x, y. repeat split; [left; reflexivity|right; exact Iy| |symmetry; exact E].
    intros ->. contradiction.
Qed.
Lemma counting (f : list N -> list N) k : (forall m, bytes_ok m -> length (f m) = k /\ bytes_ok (f m)) ->
  exists m1 m2, bytes_ok m1 /\ bytes_ok m2 /\ length m1 = S k /\ length m2 = S k /\ m1 <> m2 /\ f m1 = f m2.
Proof.
  intros H. destruct (pigeons f _ (NoDup_all_texts (S k))) as [(x & y & Ix & Iy & Ne & E)|D].
  - apply all_texts_in in Ix. apply all_texts_in in Iy. destruct Ix, Iy. exists x, y. auto 10.
  - exfalso. assert (L : (length (map f (all_texts (S k))) <= length (all_texts k))%nat).
    { apply NoDup_incl_length; [exact D|]. intros d Hd. apply in_map_iff in Hd. destruct Hd as (m & <- & Hm).
      apply all_texts_in in Hm. apply all_texts_in, H, Hm. }
    rewrite map_length, !all_texts_length, Nat.pow_succ_r' in L.
    assert (Nat.pow 256 k <> 0)%nat by (apply Nat.pow_nonzero; discriminate). lia.
Qed.
Lemma flat_little_ok l : bytes_ok (flat_map (little_endian 4) l).
Proof. induction l as [|x l IH]; cbn [flat_map]; [constructor|]. apply bytes_ok_app. split; [apply little_endian_ok|exact IH]. Qed.
