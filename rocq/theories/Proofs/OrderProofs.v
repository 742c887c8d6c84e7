(** Hex text and the order of byte strings. *)
From Verif Require Import Base.Go Spec.HexSpec Spec.OrderSpec Model.Hex Proofs.Util Proofs.HexProofs.
Local Open Scope N_scope.

Definition numeral_check : bool :=
  forallb (fun x => forallb (fun y =>
    match lex (numeral x) (numeral y), x ?= y with
    | Eq, Eq | Lt, Lt | Gt, Gt => true
    | _, _ => false
    end) all_bytes) all_bytes.

Lemma numeral_lex x y : x < 256 -> y < 256 -> lex (numeral x) (numeral y) = (x ?= y).
Proof.
  intros Hx Hy. assert (C : numeral_check = true) by (vm_compute; reflexivity).
  pose proof (sweep 256 _ C x Hx) as C1. cbv beta in C1.
  pose proof (sweep 256 _ C1 y Hy) as C2. cbv beta in C2.
  destruct (lex (numeral x) (numeral y)), (x ?= y); try discriminate C2; reflexivity.
Qed.

Lemma lex_app p q : forall a b, length p = length q ->
  lex (p ++ a) (q ++ b) = match lex p q with Eq => lex a b | c => c end.
Proof.
  revert q; induction p as [|x p IH]; intros [|y q] a b L; try discriminate L; [reflexivity|].
  cbn [app lex]. destruct (x ?= y); try reflexivity. apply IH. injection L as L. exact L.
Qed.

Lemma numeral_two x : length (numeral x) = 2%nat.
Proof. reflexivity. Qed.

Lemma flat_lex a : forall b, bytes_ok a -> bytes_ok b ->
  lex (flat_map numeral a) (flat_map numeral b) = lex a b.
Proof.
  induction a as [|x a IH]; intros [|y b] Ha Hb; try reflexivity.
  inversion Ha; inversion Hb; subst. cbn [flat_map]. rewrite lex_app by reflexivity.
  rewrite numeral_lex by assumption. cbn [lex]. destruct (x ?= y); try reflexivity. apply IH; assumption.
Qed.

Lemma hex_order a b s t : bytes_ok a -> bytes_ok b -> FromBytes a = Ret s -> FromBytes b = Ret t ->
  lex s t = lex a b.
Proof.
  intros Ha Hb Es Et. rewrite fromBytes_correct in Es, Et by assumption.
  injection Es as <-. injection Et as <-. apply flat_lex; assumption.
Qed.

Lemma flat_prefix a : forall b, bytes_ok a -> bytes_ok b ->
  starts_with (flat_map numeral b) (flat_map numeral a) -> starts_with b a.
Proof.
  induction a as [|x a IH]; intros b Ha Hb [r E]; [exists b; reflexivity|].
  inversion Ha as [|? ? Hx Ha']; subst.
  destruct b as [|y b]; [discriminate E|]. inversion Hb as [|? ? Hy Hb']; subst.
  cbn [flat_map] in E. rewrite <- app_assoc in E.
  assert (L : lex (numeral y) (numeral x) = Eq).
  { unfold numeral in *. cbn [app] in E. injection E as E1 E2 E. rewrite E1, E2.
    cbn [lex]. rewrite !N.compare_refl. reflexivity. }
  rewrite numeral_lex in L by assumption. apply N.compare_eq in L. subst y.
  apply app_inv_head in E. destruct (IH b Ha' Hb') as [q ->]; [exists r; exact E|].
  exists q. reflexivity.
Qed.

Lemma hex_prefix a b s t : bytes_ok a -> bytes_ok b -> FromBytes a = Ret s -> FromBytes b = Ret t ->
  (starts_with t s <-> starts_with b a).
Proof.
  intros Ha Hb Es Et. rewrite fromBytes_correct in Es, Et by assumption.
  injection Es as <-. injection Et as <-. split; [apply flat_prefix; assumption|].
  intros [r ->]. exists (flat_map numeral r). apply flat_map_app.
Qed.

Lemma hex_pieces a b s t : bytes_ok a -> bytes_ok b -> FromBytes a = Ret s -> FromBytes b = Ret t ->
  FromBytes (a ++ b) = Ret (s ++ t).
Proof.
  intros Ha Hb Es Et. rewrite fromBytes_correct in * by (try assumption; apply Forall_app; split; assumption).
  injection Es as <-. injection Et as <-. f_equal. apply flat_map_app.
Qed.

(** Decoding piece by piece. *)
Lemma find_invalid_app s : forall t i, Forall is_hex_char s ->
  find_invalid (s ++ t) i = find_invalid t (i + length s).
Proof.
  induction s as [|x s IH]; intros t i H; [rewrite Nat.add_0_r; reflexivity|].
  inversion H as [|? ? Hx Hs]; subst. cbn [app find_invalid length].
  unfold is_hex_char in Hx. destruct (digit_value x); [|contradiction Hx; reflexivity].
  rewrite IH by exact Hs. f_equal. lia.
Qed.

Lemma pairs_app s : forall t, Nat.even (length s) = true -> Forall is_hex_char s ->
  pairs (s ++ t) = pairs s ++ pairs t.
Proof.
  induction s as [|x|x y s IH] using list_pair_ind; intros t L H; [reflexivity|discriminate|].
  inversion H as [|? ? Hx H2]; subst. inversion H2 as [|? ? Hy H3]; subst.
  unfold is_hex_char in Hx, Hy. cbn [app pairs].
  destruct (digit_value x); [|contradiction Hx; reflexivity].
  destruct (digit_value y); [|contradiction Hy; reflexivity].
  cbn [app]. f_equal. apply IH; assumption.
Qed.

Lemma decode_pieces bd s t a : bytes_ok s -> bytes_ok t -> ToBytes bd s = Ret (Some a, None) ->
  (forall b, ToBytes bd t = Ret (Some b, None) -> ToBytes bd (s ++ t) = Ret (Some (a ++ b), None)) /\
  (forall c i, ToBytes bd t = Ret (None, Some (InvalidHexAt c i)) ->
     ToBytes bd (s ++ t) = Ret (None, Some (InvalidHexAt c (Z.of_nat (length s) + i)))) /\
  (ToBytes bd t = Ret (None, Some ErrLength) -> ToBytes bd (s ++ t) = Ret (None, Some ErrLength)).
Proof.
  intros Hs Ht Es. assert (Hst : bytes_ok (s ++ t)) by (apply Forall_app; split; assumption).
  rewrite !toBytes_correct in * by assumption. unfold toBytes_fun in *.
  destruct (find_invalid s 0) as [[c i]|] eqn:F; [discriminate|].
  apply find_invalid_all in F. destruct (Nat.even (length s)) eqn:L; [|discriminate].
  injection Es as <-. rewrite find_invalid_app by exact F. rewrite Nat.add_0_l.
  rewrite <- (Nat.add_0_l (length s)), find_invalid_shift, Nat.add_0_l.
  destruct (find_invalid t 0) as [[c i]|] eqn:G.
  - split; [discriminate|]. split; [|discriminate]. intros c' i' E. injection E as <- <-.
    do 4 f_equal. lia.
  - rewrite app_length, Nat.even_add, L. destruct (Nat.even (length t)) eqn:K; cbn [Bool.eqb].
    + split; [|split; discriminate]. intros b E. injection E as <-. rewrite pairs_app by assumption. reflexivity.
    + split; [discriminate|]. split; [discriminate|]. reflexivity.
Qed.
