(** Proofs about package codegen. *)
From Verif Require Import Base.Go Model.Hex Model.Codegen Spec.HexSpec Spec.CodegenSpec Proofs.Util Proofs.HexProofs.
Local Open Scope N_scope.

(** ** Filling a buffer from the left *)

Definition buf (R : nat) (out : list N) : list N := out ++ repeat 0 (R - length out).

Lemma put R out c ptr : ptr = length out -> (length out <= R)%nat ->
  upd (buf R out) ptr c = if Nat.ltb (length out) R then Ret (buf R (out ++ [c])) else Panic.
Proof.
  intros -> H. unfold buf. destruct (Nat.ltb_spec (length out) R) as [L|L].
  - replace (R - length out)%nat with (S (R - length (out ++ [c]))) by (rewrite app_length; cbn [length]; lia).
    cbn [repeat]. rewrite upd_app, <- app_assoc. reflexivity.
  - replace (R - length out)%nat with O by lia. cbn [repeat]. rewrite app_nil_r. apply upd_out. lia.
Qed.

(** What the loop leaves when it has to write [text] after [out]. *)
Definition filled (R : nat) (out text : list N) : outcome (list N * nat) :=
  if Nat.leb (length (out ++ text)) R then Ret (buf R (out ++ text), length (out ++ text)) else Panic.

Lemma filled_nil R out : (length out <= R)%nat -> filled R out [] = Ret (buf R out, length out).
Proof. intros H. unfold filled. rewrite app_nil_r, (proj2 (Nat.leb_le _ _) H). reflexivity. Qed.
Lemma filled_short R out text : (R < length (out ++ text))%nat -> filled R out text = Panic.
Proof. intros H. unfold filled. rewrite (proj2 (Nat.leb_gt _ _) H). reflexivity. Qed.
Lemma filled_app R out a b : filled R (out ++ a) b = filled R out (a ++ b).
Proof. unfold filled. rewrite app_assoc. reflexivity. Qed.

Ltac put_tac :=
  rewrite put by (repeat rewrite app_length in *; cbn [length] in *; lia);
  match goal with |- context [Nat.ltb ?a ?b] => destruct (Nat.ltb_spec a b) end;
  cbn [bind]; [|symmetry; apply filled_short; repeat rewrite app_length in *; cbn [length numeral] in *; repeat rewrite app_length in *; cbn [length numeral] in *; lia].

Lemma even_double j : Nat.even (2 * j) = true.
Proof. apply Nat.even_spec. exists j. reflexivity. Qed.
Lemma even_double1 j : Nat.even (2 * j + 1) = false.
Proof. rewrite Nat.add_1_r, Nat.even_succ, <- Nat.negb_even, even_double. reflexivity. Qed.

(** ** BytesToString *)

Definition enc (b : N) : list N := 92 :: 120 :: numeral b.

Lemma string_loop_text R rest : forall j out, (length out <= R)%nat ->
  string_loop (flat_map numeral rest) (2 * j) (length out) (buf R out) = filled R out (flat_map enc rest).
Proof.
  induction rest as [|x rest IH]; intros j out H.
  - cbn [flat_map string_loop]. rewrite filled_nil by exact H. reflexivity.
  - cbn [flat_map]. unfold enc at 1. unfold numeral at 1. cbn [app string_loop].
    rewrite even_double, even_double1. put_tac. put_tac. cbn [bind]. put_tac. put_tac.
    rewrite <- !app_assoc. cbn [app].
    replace (2 * j + 1 + 1)%nat with (2 * S j)%nat by lia.
    match goal with |- context [buf R (out ++ ?l)] =>
      replace (length out + 2 + 1 + 1)%nat with (length (out ++ l)) by (rewrite app_length; cbn [length]; lia);
      rewrite IH by (rewrite app_length in *; repeat rewrite app_length in *; cbn [length] in *; lia) end.
    rewrite filled_app. reflexivity.
Qed.

Lemma int64_small z : (- 2 ^ 63 <= z < 2 ^ 63)%Z -> int64 z = z.
Proof. intros H. unfold int64. rewrite Z.mod_small; lia. Qed.

Ltac int64s := repeat match goal with |- context [int64 ?z] =>
  lazymatch z with context [int64 _] => fail | _ => rewrite (int64_small z) by lia end end.

Lemma hex_length l : length (flat_map numeral l) = (2 * length l)%nat.
Proof. induction l; cbn [flat_map]; [reflexivity|]. rewrite app_length, IHl. cbn [length numeral]. lia. Qed.
Lemma enc_length l : length (flat_map enc l) = (4 * length l)%nat.
Proof. induction l; cbn [flat_map]; [reflexivity|]. rewrite app_length, IHl. cbn [length enc numeral]. lia. Qed.

Lemma start_buf R c : (0 < R)%nat -> upd (repeat 0 R) 0 c = Ret (buf R [c]).
Proof. intros H. destruct R as [|R]; [lia|]. cbn [repeat upd]. unfold buf. cbn [app length]. rewrite Nat.sub_succ, Nat.sub_0_r. reflexivity. Qed.

(** The last write: the whole text fits exactly, or the code panics. *)
Lemma finish R c text last : R = length (c :: text ++ [last]) ->
  (let! (ret, ptr) := filled R [c] text in upd ret ptr last) = Ret (c :: text ++ [last]).
Proof.
  intros HR. cbn [length] in HR. rewrite app_length in HR. cbn [length] in HR.
  unfold filled. cbn [app]. rewrite (proj2 (Nat.leb_le _ _)) by (cbn [length]; lia). cbn [bind].
  rewrite put by (cbn [length]; lia). rewrite (proj2 (Nat.ltb_lt _ _)) by (cbn [length]; lia).
  unfold buf. cbn [app length]. rewrite app_length. cbn [length].
  replace (R - S (length text + 1))%nat with O by lia. cbn [repeat]. rewrite app_nil_r. reflexivity.
Qed.
Lemma finish_short R c text last : (R < length (c :: text ++ [last]))%nat ->
  (let! (ret, ptr) := filled R [c] text in upd ret ptr last) = Panic.
Proof.
  intros HR. cbn [length] in HR. rewrite app_length in HR. cbn [length] in HR.
  unfold filled. cbn [app]. destruct (Nat.leb_spec (length (c :: text)) R) as [L|L]; [|reflexivity]. cbn [bind length] in *.
  rewrite put by (cbn [length]; lia). rewrite (proj2 (Nat.ltb_ge _ _)) by (cbn [length]; lia). reflexivity.
Qed.

Definition sized (inp : list N) : Prop := (Z.of_nat (length inp) < 2 ^ 58)%Z.

Theorem BytesToString_text inp : bytes_ok inp -> sized inp ->
  BytesToString inp = Ret (34 :: flat_map enc inp ++ [34]).
Proof.
  intros B S. unfold BytesToString, sized in *. rewrite fromBytes_correct by exact B. cbn [bind].
  rewrite hex_length. rewrite !int64_small by (rewrite ?int64_small; lia).
  replace (Z.of_nat (2 * length inp) * 2 + 2)%Z with (Z.of_nat (4 * length inp + 2)) by lia.
  rewrite make_bytes_nat. cbn [bind]. rewrite start_buf by lia. cbn [bind].
  pose proof (string_loop_text (4 * length inp + 2) inp 0 [34]) as L.
  change (2 * 0)%nat with O in L. change (length [34]) with 1%nat in L.
  rewrite L by lia. apply finish. cbn [length]. rewrite app_length, enc_length. cbn [length]. lia.
Qed.

(** ** Reading literals back *)

Lemma digit_upper v : v < 16 -> digit_value (upper_digit v) = Some v.
Proof.
  intros H. assert (S := sweep 16 (fun v => match digit_value (upper_digit v) with Some w => w =? v | None => false end)).
  specialize (S ltac:(vm_compute; reflexivity) v H). cbv beta in S.
  destruct (digit_value (upper_digit v)); [|discriminate]. apply N.eqb_eq in S. congruence.
Qed.
Lemma nib_hi b : b < 256 -> b / 16 < 16.
Proof. intros H. apply N.div_lt_upper_bound; lia. Qed.
Lemma nib_val b : 16 * (b / 16) + b mod 16 = b.
Proof. symmetry. apply N.div_mod. discriminate. Qed.

Lemma literal_enc l r : bytes_ok l -> literal_rest (flat_map enc l ++ 34 :: r) = Some (l, r).
Proof.
  induction 1 as [|b l Hb Hl IH]; [reflexivity|]. cbn [flat_map]. unfold enc at 1, numeral. cbn [app literal_rest].
  change (92 =? 34) with false. change (92 =? 92) with true. cbn match.
  rewrite !digit_upper by ((apply nib_hi; exact Hb) || (apply N.mod_lt; discriminate)).
  rewrite IH. cbn match. rewrite nib_val. reflexivity.
Qed.

Theorem BytesToString_literal inp : bytes_ok inp -> sized inp ->
  exists s, BytesToString inp = Ret s /\ string_expression s = Some [inp].
Proof.
  intros B S. eexists. split; [apply BytesToString_text; assumption|].
  unfold string_expression. cbn [length literals]. rewrite literal_enc by exact B. reflexivity.
Qed.

(** ** Sections *)

Section Sep.
Variable brk : nat -> bool.

Fixpoint sep_text (j : nat) (rest : list N) : list N :=
  match rest with
  | [] => []
  | b :: rest' => (if brk j then [34; 43; 34] else []) ++ enc b ++ sep_text (S j) rest'
  end.
Fixpoint hex_text (j : nat) (rest : list N) : list N :=
  match rest with
  | [] => []
  | b :: rest' =>
      (if Nat.eqb j 0 then [] else [44; 32] ++ if brk j then [10] else []) ++ [48; 120] ++ numeral b ++ hex_text (S j) rest'
  end.
End Sep.

Definition breaks (hps : Z) (j : nat) : bool := (Z.eqb (Z.rem (Z.of_nat (2 * j)) hps) 0 && negb (Nat.eqb j 0))%bool.

Lemma sep_loop_text hps R rest : forall j out, (length out <= R)%nat -> (j = 0 <-> length out <= 1)%nat ->
  string_sep_loop hps (flat_map numeral rest) (2 * j) (length out) (buf R out) = filled R out (sep_text (breaks hps) j rest).
Proof.
  induction rest as [|x rest IH]; intros j out H J.
  - cbn [flat_map string_sep_loop sep_text]. rewrite filled_nil by exact H. reflexivity.
  - cbn [flat_map sep_text]. unfold enc at 1. unfold numeral at 1. cbn [app string_sep_loop].
    rewrite even_double, even_double1.
    assert (Q : (Z.eqb (Z.rem (Z.of_nat (2 * j)) hps) 0 && Nat.ltb 1 (length out))%bool = breaks hps j).
    { unfold breaks. f_equal. destruct (Nat.ltb_spec 1 (length out)), (Nat.eqb_spec j 0); cbn [negb]; try reflexivity; lia. }
    rewrite Q. destruct (breaks hps j).
    + put_tac. put_tac. put_tac. put_tac. put_tac. cbn [bind]. put_tac. put_tac.
      rewrite <- !app_assoc. cbn [app]. replace (2 * j + 1 + 1)%nat with (2 * S j)%nat by lia.
      match goal with |- context [buf R (out ++ ?l)] =>
        replace (length out + 3 + 2 + 1 + 1)%nat with (length (out ++ l)) by (rewrite app_length; cbn [length]; lia);
        rewrite IH by (repeat rewrite app_length in *; cbn [length] in *; lia) end.
      rewrite filled_app. reflexivity.
    + cbn [bind]. put_tac. put_tac. cbn [bind]. put_tac. put_tac.
      rewrite <- !app_assoc. cbn [app]. replace (2 * j + 1 + 1)%nat with (2 * S j)%nat by lia.
      match goal with |- context [buf R (out ++ ?l)] =>
        replace (length out + 2 + 1 + 1)%nat with (length (out ++ l)) by (rewrite app_length; cbn [length]; lia);
        rewrite IH by (repeat rewrite app_length in *; cbn [length] in *; lia) end.
      rewrite filled_app. reflexivity.
Qed.

Lemma hex_loop_text hps R rest : forall j out, (length out <= R)%nat -> (j = 0 <-> length out <= 1)%nat ->
  hex_sep_loop hps (flat_map numeral rest) (2 * j) (length out) (buf R out) = filled R out (hex_text (breaks hps) j rest).
Proof.
  induction rest as [|x rest IH]; intros j out H J.
  - cbn [flat_map hex_sep_loop hex_text]. rewrite filled_nil by exact H. reflexivity.
  - cbn [flat_map hex_text]. unfold numeral at 1. cbn [app hex_sep_loop].
    rewrite even_double, even_double1.
    destruct (Nat.eqb_spec j 0) as [E|E].
    + rewrite (proj2 (Nat.ltb_ge 1 (length out))) by lia. cbn [bind app]. put_tac. put_tac. cbn [bind]. put_tac. put_tac.
      rewrite <- !app_assoc. cbn [app]. replace (2 * j + 1 + 1)%nat with (2 * S j)%nat by lia.
      match goal with |- context [buf R (out ++ ?l)] =>
        replace (length out + 2 + 1 + 1)%nat with (length (out ++ l)) by (rewrite app_length; cbn [length]; lia);
        rewrite IH by (repeat rewrite app_length in *; cbn [length] in *; lia) end.
      rewrite filled_app. reflexivity.
    + rewrite (proj2 (Nat.ltb_lt 1 (length out))) by lia.
      assert (Q : Z.eqb (Z.rem (Z.of_nat (2 * j)) hps) 0 = breaks hps j).
      { unfold breaks. rewrite (proj2 (Nat.eqb_neq j 0) E). cbn [negb]. rewrite Bool.andb_true_r. reflexivity. }
      rewrite Q. destruct (breaks hps j).
      * put_tac. put_tac. put_tac. put_tac. put_tac. cbn [bind]. put_tac. put_tac.
        rewrite <- !app_assoc. cbn [app]. replace (2 * j + 1 + 1)%nat with (2 * S j)%nat by lia.
        match goal with |- context [buf R (out ++ ?l)] =>
          replace (length out + 2 + 1 + 2 + 1 + 1)%nat with (length (out ++ l)) by (rewrite app_length; cbn [length]; lia);
          rewrite IH by (repeat rewrite app_length in *; cbn [length] in *; lia) end.
        rewrite filled_app. reflexivity.
      * put_tac. put_tac. cbn [bind]. put_tac. put_tac. cbn [bind]. put_tac. put_tac.
        rewrite <- !app_assoc. cbn [app]. replace (2 * j + 1 + 1)%nat with (2 * S j)%nat by lia.
        match goal with |- context [buf R (out ++ ?l)] =>
          replace (length out + 2 + 2 + 1 + 1)%nat with (length (out ++ l)) by (rewrite app_length; cbn [length]; lia);
          rewrite IH by (repeat rewrite app_length in *; cbn [length] in *; lia) end.
        rewrite filled_app. reflexivity.
Qed.

(** ** Lengths *)

Fixpoint count_breaks (brk : nat -> bool) (j n : nat) : nat :=
  match n with O => O | S n' => ((if brk j then 1 else 0) + count_breaks brk (S j) n')%nat end.

Lemma sep_text_length brk rest : forall j,
  length (sep_text brk j rest) = (4 * length rest + 3 * count_breaks brk j (length rest))%nat.
Proof.
  induction rest as [|b rest IH]; intros j; [reflexivity|]. cbn [sep_text length count_breaks].
  rewrite !app_length, IH. cbn [length enc numeral]. destruct (brk j); cbn [length]; lia.
Qed.
Lemma hex_text_length brk rest : forall j, brk O = false ->
  (length (hex_text brk j rest) + (if Nat.eqb j 0 then if Nat.eqb (length rest) 0 then 0 else 2 else 0)
   = 6 * length rest + count_breaks brk j (length rest))%nat.
Proof.
  induction rest as [|b rest IH]; intros j H0; [cbn; destruct j; reflexivity|].
  cbn [hex_text length count_breaks]. rewrite !app_length. specialize (IH (S j) H0). cbn [Nat.eqb] in *.
  cbn [length numeral]. destruct (Nat.eqb_spec j 0) as [->|E].
  - rewrite H0. cbn [length]. lia.
  - destruct (brk j); cbn [length app]; lia.
Qed.

(** Number of multiples of k in j+1 .. j+n-1, for j itself a multiple ... *)
Lemma breaks_pos k j : (1 <= k < 2 ^ 62)%Z ->
  breaks (2 * k) j = (Nat.eqb (j mod Z.to_nat k) 0 && negb (Nat.eqb j 0))%bool.
Proof.
  intros H. unfold breaks. f_equal.
  assert (E : Z.rem (Z.of_nat (2 * j)) (2 * k) = (2 * Z.of_nat (j mod Z.to_nat k))%Z).
  { rewrite Z.rem_mod_nonneg by lia. rewrite Nat2Z.inj_mul. change (Z.of_nat 2) with 2%Z.
    rewrite Zmult_mod_distr_l. rewrite Nat2Z.inj_mod, Z2Nat.id by lia. reflexivity. }
  rewrite E. destruct (Nat.eqb_spec (j mod Z.to_nat k) 0) as [Q|Q]; [rewrite Q; reflexivity|].
  apply Z.eqb_neq. lia.
Qed.
Definition brk_k (k : nat) (j : nat) : bool := (Nat.eqb (j mod k) 0 && negb (Nat.eqb j 0))%bool.

Lemma count_ext f g : (forall j, f j = g j) -> forall n j, count_breaks f j n = count_breaks g j n.
Proof. intros E. induction n; intros j; [reflexivity|]. cbn [count_breaks]. rewrite E, IHn. reflexivity. Qed.
Lemma sep_text_ext f g : (forall j, f j = g j) -> forall l j, sep_text f j l = sep_text g j l.
Proof. intros E. induction l; intros j; [reflexivity|]. cbn [sep_text]. rewrite E, IHl. reflexivity. Qed.
Lemma hex_text_ext f g : (forall j, f j = g j) -> forall l j, hex_text f j l = hex_text g j l.
Proof. intros E. induction l; intros j; [reflexivity|]. cbn [hex_text]. rewrite E, IHl. reflexivity. Qed.

Lemma count_app f n m : forall j, count_breaks f j (n + m) = (count_breaks f j n + count_breaks f (j + n) m)%nat.
Proof.
  induction n as [|n IH]; intros j; cbn [Nat.add count_breaks]; [rewrite Nat.add_0_r; reflexivity|].
  rewrite IH. replace (S j + n)%nat with (j + S n)%nat by lia. lia.
Qed.
(** Starting inside a section, no break up to its end. *)
Lemma count_inside k q : (0 < k)%nat -> forall n r, (0 < r)%nat -> (r + n <= k)%nat ->
  count_breaks (brk_k k) (q * k + r) n = O.
Proof.
  intros Hk. induction n as [|n IH]; intros r Hr Hn; [reflexivity|]. cbn [count_breaks].
  replace (brk_k k (q * k + r)) with false.
  - rewrite <- (Nat.add_succ_r (q * k) r). apply IH; lia.
  - unfold brk_k. rewrite Nat.add_comm, Nat.mod_add, Nat.mod_small by lia.
    destruct (Nat.eqb_spec r 0); [lia|reflexivity].
Qed.
Lemma brk_start k q : (0 < k)%nat -> brk_k k (q * k) = negb (Nat.eqb q 0).
Proof.
  intros Hk. unfold brk_k. rewrite Nat.mod_mul by lia. cbn [Nat.eqb andb].
  destruct (Nat.eqb_spec q 0) as [->|E]; [reflexivity|].
  destruct (Nat.eqb_spec (q * k) 0) as [F|F]; [|reflexivity]. apply Nat.eq_mul_0 in F. lia.
Qed.
Lemma count_section k q n : (0 < k)%nat -> (0 < n <= k)%nat ->
  count_breaks (brk_k k) (q * k) n = if Nat.eqb q 0 then 0%nat else 1%nat.
Proof.
  intros Hk Hn. destruct n as [|n]; [lia|]. cbn [count_breaks].
  replace (S (q * k)) with (q * k + 1)%nat by lia. rewrite count_inside by lia.
  rewrite brk_start by exact Hk. destruct (Nat.eqb q 0); reflexivity.
Qed.
Lemma count_full k m : (0 < k)%nat -> forall q, count_breaks (brk_k k) (q * k) (m * k) =
  (if Nat.eqb q 0 then m - 1 else m)%nat.
Proof.
  intros Hk. induction m as [|m IH]; intros q; [destruct (Nat.eqb q 0); reflexivity|].
  cbn [Nat.mul]. rewrite count_app, count_section by lia. replace (q * k + k)%nat with (S q * k)%nat by lia.
  rewrite IH. cbn [Nat.eqb]. destruct (Nat.eqb q 0); lia.
Qed.
(** With a partial last section there is one break more than [floor (n/k) - 1]. *)
Lemma count_partial k n : (0 < k)%nat -> (n mod k <> 0)%nat -> count_breaks (brk_k k) 0 n = (n / k)%nat.
Proof.
  intros Hk Hn. pose proof (Nat.div_mod n k ltac:(lia)) as D. pose proof (Nat.mod_upper_bound n k ltac:(lia)) as U.
  rewrite D at 1. rewrite (Nat.mul_comm k), count_app.
  pose proof (count_full k (n / k) Hk 0) as F. cbn [Nat.mul Nat.eqb] in F. rewrite F.
  replace (0 + n / k * k)%nat with (n / k * k)%nat by lia. rewrite count_section by lia.
  destruct (Nat.eqb_spec (n / k) 0); lia.
Qed.

(** ** The three outcomes *)

Lemma quot_int n k : (0 <= n < 2 ^ 60)%Z -> (1 <= k < 2 ^ 62)%Z ->
  int_quot n (int64 (k * 2)) = Ret (n / (2 * k))%Z.
Proof.
  intros Hn Hk. rewrite int64_small by lia. unfold int_quot.
  rewrite (proj2 (Z.eqb_neq (k * 2) 0)) by lia. rewrite Z.quot_div_nonneg by lia. rewrite (Z.mul_comm k).
  rewrite int64_small; [reflexivity|]. pose proof (Z.div_pos n (2 * k) ltac:(lia) ltac:(lia)).
  pose proof (Z.div_le_upper_bound n (2 * k) n ltac:(lia) ltac:(nia)). lia.
Qed.
Lemma quot_big n k : (0 <= n < 2 ^ 60)%Z -> (2 ^ 62 <= k < 2 ^ 63)%Z ->
  exists q, int_quot n (int64 (k * 2)) = Ret q /\ (- 2 ^ 60 < q <= 0)%Z.
Proof.
  intros Hn Hk. assert (E : int64 (k * 2) = (k * 2 - 2 ^ 64)%Z).
  { unfold int64. replace (k * 2 + 2 ^ 63)%Z with (k * 2 - 2 ^ 63 + 1 * 2 ^ 64)%Z by lia.
    rewrite Z.mod_add by lia. rewrite Z.mod_small; lia. }
  rewrite E. unfold int_quot. rewrite (proj2 (Z.eqb_neq (k * 2 - 2 ^ 64) 0)) by lia.
  assert (Q : Z.quot n (k * 2 - 2 ^ 64) = (- (n / (2 ^ 64 - k * 2)))%Z).
  { replace (k * 2 - 2 ^ 64)%Z with (- (2 ^ 64 - k * 2))%Z by lia. rewrite Z.quot_opp_r by lia.
    rewrite Z.quot_div_nonneg by lia. reflexivity. }
  rewrite Q. pose proof (Z.div_pos n (2 ^ 64 - k * 2) ltac:(lia) ltac:(lia)).
  pose proof (Z.div_le_upper_bound n (2 ^ 64 - k * 2) n ltac:(lia) ltac:(nia)).
  eexists. split; [reflexivity|]. rewrite int64_small; lia.
Qed.

Lemma hex_div L k : (1 <= k)%Z -> (Z.of_nat (2 * L) / (2 * k) = Z.of_nat (L / Z.to_nat k))%Z.
Proof.
  intros H. rewrite Nat2Z.inj_mul. change (Z.of_nat 2) with 2%Z. rewrite Z.div_mul_cancel_l by lia.
  rewrite Nat2Z.inj_div, Z2Nat.id by lia. reflexivity.
Qed.

Theorem StringSep_text inp k : bytes_ok inp -> sized inp -> (1 <= k < 2 ^ 62)%Z -> inp <> [] ->
  (length inp mod Z.to_nat k = 0)%nat ->
  BytesToStringSep inp k = Ret (34 :: sep_text (brk_k (Z.to_nat k)) 0 inp ++ [34]).
Proof.
  intros B S Hk Ne M. unfold BytesToStringSep, sized in *. rewrite (proj2 (Z.ltb_ge k 1)) by lia.
  rewrite fromBytes_correct by exact B. cbn [bind]. rewrite hex_length. rewrite quot_int by lia. cbn [bind].
  rewrite hex_div by lia.
  assert (Hkn : (0 < Z.to_nat k)%nat) by lia.
  pose proof (Nat.div_mod (length inp) (Z.to_nat k) ltac:(lia)) as D. rewrite M, Nat.add_0_r in D.
  assert (L0 : (0 < length inp)%nat) by (destruct inp; [contradiction|cbn; lia]).
  set (m := (length inp / Z.to_nat k)%nat) in *.
  assert (Hm : (0 < m <= length inp)%nat) by nia.
  int64s.
  replace (Z.of_nat (2 * length inp) * 2 + 3 * (Z.of_nat m - 1) + 2)%Z
    with (Z.of_nat (4 * length inp + 3 * (m - 1) + 2)) by lia.
  rewrite make_bytes_nat. cbn [bind]. rewrite start_buf by lia. cbn [bind].
  pose proof (sep_loop_text (k * 2) (4 * length inp + 3 * (m - 1) + 2) inp 0 [34]) as L.
  change (2 * 0)%nat with O in L. change (length [34]) with 1%nat in L. rewrite L by lia.
  rewrite (sep_text_ext (breaks (k * 2)) (brk_k (Z.to_nat k)))
    by (intros j; rewrite (Z.mul_comm k); apply breaks_pos, Hk).
  apply finish. cbn [length]. rewrite app_length, sep_text_length. cbn [length].
  pose proof (count_full (Z.to_nat k) m Hkn 0) as C. cbn [Nat.mul Nat.eqb] in C.
  rewrite (Nat.mul_comm m), <- D in C. rewrite C. lia.
Qed.

Theorem HexSep_text inp k : bytes_ok inp -> sized inp -> (1 <= k < 2 ^ 62)%Z -> inp <> [] ->
  (length inp mod Z.to_nat k = 0)%nat ->
  BytesToHexSep inp k = Ret (123 :: hex_text (brk_k (Z.to_nat k)) 0 inp ++ [125]).
Proof.
  intros B S Hk Ne M. unfold BytesToHexSep, sized in *. rewrite (proj2 (Z.ltb_ge k 1)) by lia.
  rewrite fromBytes_correct by exact B. cbn [bind]. rewrite hex_length. rewrite quot_int by lia. cbn [bind].
  rewrite hex_div by lia.
  assert (Hkn : (0 < Z.to_nat k)%nat) by lia.
  pose proof (Nat.div_mod (length inp) (Z.to_nat k) ltac:(lia)) as D. rewrite M, Nat.add_0_r in D.
  assert (L0 : (0 < length inp)%nat) by (destruct inp; [contradiction|cbn; lia]).
  set (m := (length inp / Z.to_nat k)%nat) in *.
  assert (Hm : (0 < m <= length inp)%nat) by nia.
  int64s.
  replace (Z.of_nat (length inp) * 6 + (Z.of_nat m - 1))%Z
    with (Z.of_nat (6 * length inp + (m - 1))) by lia.
  rewrite make_bytes_nat. cbn [bind]. rewrite start_buf by lia. cbn [bind].
  pose proof (hex_loop_text (k * 2) (6 * length inp + (m - 1)) inp 0 [123]) as L.
  change (2 * 0)%nat with O in L. change (length [123]) with 1%nat in L. rewrite L by lia.
  rewrite (hex_text_ext (breaks (k * 2)) (brk_k (Z.to_nat k)))
    by (intros j; rewrite (Z.mul_comm k); apply breaks_pos, Hk).
  apply finish. cbn [length]. rewrite app_length. cbn [length].
  pose proof (hex_text_length (brk_k (Z.to_nat k)) inp 0) as HL. cbn [Nat.eqb] in HL.
  rewrite (proj2 (Nat.eqb_neq (length inp) 0)) in HL by lia.
  specialize (HL ltac:(unfold brk_k; cbn [Nat.eqb negb]; apply Bool.andb_false_r)).
  pose proof (count_full (Z.to_nat k) m Hkn 0) as C. cbn [Nat.mul Nat.eqb] in C.
  rewrite (Nat.mul_comm m), <- D in C. rewrite C in HL. lia.
Qed.

Lemma short_panics c last R text : (R < length (c :: text ++ [last]))%nat ->
  forall f, (forall out, (length out = 1)%nat -> (1 <= R)%nat -> f (buf R out) = filled R out text) ->
  (let! ret := upd (repeat 0 R) 0 c in let! (ret, ptr) := f ret in upd ret ptr last) = Panic.
Proof.
  intros H f F. destruct R as [|R]; [reflexivity|]. rewrite start_buf by lia. cbn [bind].
  rewrite F by (cbn [length]; lia). apply finish_short, H.
Qed.

Theorem StringSep_panics inp k : bytes_ok inp -> sized inp -> (k < 2 ^ 63)%Z ->
  (k < 1)%Z \/ inp = [] \/ (length inp mod Z.to_nat k <> 0)%nat ->
  BytesToStringSep inp k = Panic.
Proof.
  intros B S Hk H. unfold BytesToStringSep, sized in *. destruct (Z.ltb_spec k 1) as [K1|K1]; [reflexivity|].
  rewrite fromBytes_correct by exact B. cbn [bind]. rewrite hex_length.
  destruct (Z.lt_ge_cases k (2 ^ 62)) as [K2|K2].
  - rewrite quot_int by lia. cbn [bind]. rewrite hex_div by lia.
    assert (Hkn : (0 < Z.to_nat k)%nat) by lia.
    assert (Hm : (length inp / Z.to_nat k <= length inp)%nat) by (apply Nat.div_le_upper_bound; nia).
    remember (length inp / Z.to_nat k)%nat as m eqn:Em.
    int64s.
    destruct inp as [|x inp].
    { cbn [length] in *. replace m with O by lia. reflexivity. }
    destruct H as [H|[H|H]]; [lia|discriminate|].
    set (l := x :: inp) in *. assert (L0 : (0 < length l)%nat) by (cbn; lia).
    replace (Z.of_nat (2 * length l) * 2 + 3 * (Z.of_nat m - 1) + 2)%Z
      with (Z.of_nat (4 * length l + 3 * m - 1)) by lia.
    rewrite make_bytes_nat. cbn [bind].
    apply (short_panics 34 34 _ (sep_text (breaks (k * 2)) 0 l)).
    + rewrite (sep_text_ext (breaks (k * 2)) (brk_k (Z.to_nat k)))
        by (intros j; rewrite (Z.mul_comm k); apply breaks_pos; lia).
      cbn [length]. rewrite app_length, sep_text_length, count_partial by (lia || exact H).
      rewrite <- Em. cbn [length]. lia.
    + intros out Lo HR. pose proof (sep_loop_text (k * 2) (4 * length l + 3 * m - 1) l 0 out) as L.
      change (2 * 0)%nat with O in L. rewrite Lo in L. apply L; lia.
  - destruct (quot_big (Z.of_nat (2 * length inp)) k ltac:(lia) ltac:(lia)) as (q & -> & Q). cbn [bind].
    repeat (rewrite (int64_small (q - 1)) by lia). rewrite (int64_small (3 * (q - 1))) by lia.
    rewrite (int64_small (Z.of_nat (2 * length inp) * 2)) by lia.
    rewrite (int64_small (_ + 3 * (q - 1))) by lia. rewrite (int64_small (_ + 2)) by lia.
    unfold make_bytes. destruct (Z.ltb_spec (Z.of_nat (2 * length inp) * 2 + 3 * (q - 1) + 2) 0) as [G|G]; [reflexivity|].
    cbn [bind]. apply (short_panics 34 34 _ (sep_text (breaks (int64 (k * 2))) 0 inp)).
    + cbn [length]. rewrite app_length, sep_text_length. cbn [length]. lia.
    + intros out Lo HR. pose proof (sep_loop_text (int64 (k * 2)) (Z.to_nat (Z.of_nat (2 * length inp) * 2 + 3 * (q - 1) + 2)) inp 0 out) as L.
      change (2 * 0)%nat with O in L. rewrite Lo in L. apply L; lia.
Qed.

Theorem HexSep_panics inp k : bytes_ok inp -> sized inp -> (k < 2 ^ 63)%Z ->
  (k < 1)%Z \/ inp = [] \/ (length inp mod Z.to_nat k <> 0)%nat ->
  BytesToHexSep inp k = Panic.
Proof.
  intros B S Hk H. unfold BytesToHexSep, sized in *. destruct (Z.ltb_spec k 1) as [K1|K1]; [reflexivity|].
  rewrite fromBytes_correct by exact B. cbn [bind]. rewrite hex_length.
  assert (B0 : forall hps, breaks hps 0 = false) by (intros hps; unfold breaks; apply Bool.andb_false_r).
  destruct (Z.lt_ge_cases k (2 ^ 62)) as [K2|K2].
  - rewrite quot_int by lia. cbn [bind]. rewrite hex_div by lia.
    assert (Hkn : (0 < Z.to_nat k)%nat) by lia.
    assert (Hm : (length inp / Z.to_nat k <= length inp)%nat) by (apply Nat.div_le_upper_bound; nia).
    remember (length inp / Z.to_nat k)%nat as m eqn:Em.
    int64s.
    destruct inp as [|x inp].
    { cbn [length] in *. replace m with O by lia. reflexivity. }
    destruct H as [H|[H|H]]; [lia|discriminate|].
    set (l := x :: inp) in *. assert (L0 : (0 < length l)%nat) by (cbn; lia).
    replace (Z.of_nat (length l) * 6 + (Z.of_nat m - 1))%Z
      with (Z.of_nat (6 * length l + m - 1)) by lia.
    rewrite make_bytes_nat. cbn [bind].
    apply (short_panics 123 125 _ (hex_text (breaks (k * 2)) 0 l)).
    + pose proof (hex_text_length (breaks (k * 2)) l 0 (B0 _)) as HL. cbn [Nat.eqb] in HL.
      rewrite (proj2 (Nat.eqb_neq (length l) 0)) in HL by lia.
      rewrite (count_ext (breaks (k * 2)) (brk_k (Z.to_nat k))) in HL
        by (intros j; rewrite (Z.mul_comm k); apply breaks_pos; lia).
      rewrite count_partial in HL by (lia || exact H). rewrite <- Em in HL.
      cbn [length]. rewrite app_length. cbn [length]. lia.
    + intros out Lo HR. pose proof (hex_loop_text (k * 2) (6 * length l + m - 1) l 0 out) as L.
      change (2 * 0)%nat with O in L. rewrite Lo in L. apply L; lia.
  - destruct (quot_big (Z.of_nat (2 * length inp)) k ltac:(lia) ltac:(lia)) as (q & -> & Q). cbn [bind].
    rewrite (int64_small (q - 1)) by lia.
    rewrite (int64_small (Z.of_nat (length inp) * 6)) by lia. rewrite (int64_small (_ + (q - 1))) by lia.
    unfold make_bytes. destruct (Z.ltb_spec (Z.of_nat (length inp) * 6 + (q - 1)) 0) as [G|G]; [reflexivity|].
    cbn [bind]. apply (short_panics 123 125 _ (hex_text (breaks (int64 (k * 2))) 0 inp)).
    + pose proof (hex_text_length (breaks (int64 (k * 2))) inp 0 (B0 _)) as HL. cbn [Nat.eqb] in HL.
      cbn [length]. rewrite app_length. cbn [length]. destruct (Nat.eqb (length inp) 0); lia.
    + intros out Lo HR. pose proof (hex_loop_text (int64 (k * 2)) (Z.to_nat (Z.of_nat (length inp) * 6 + (q - 1))) inp 0 out) as L.
      change (2 * 0)%nat with O in L. rewrite Lo in L. apply L; lia.
Qed.

(** ** Reading sections back *)

Lemma sep_run k q : (0 < k)%nat -> forall a r b, (0 < r)%nat -> (r + length a <= k)%nat ->
  sep_text (brk_k k) (q * k + r) (a ++ b) = flat_map enc a ++ sep_text (brk_k k) (q * k + (r + length a)) b.
Proof.
  intros Hk. induction a as [|x a IH]; intros r b Hr Hn.
  - cbn [app flat_map length]. rewrite Nat.add_0_r. reflexivity.
  - cbn [app sep_text flat_map length] in *.
    replace (brk_k k (q * k + r)) with false.
    + rewrite <- (Nat.add_succ_r (q * k) r), IH by lia. rewrite <- app_assoc.
      replace (S r + length a)%nat with (r + S (length a))%nat by lia. reflexivity.
    + unfold brk_k. rewrite (Nat.add_comm (q * k) r), Nat.mod_add, Nat.mod_small by lia.
      destruct (Nat.eqb_spec r 0); [lia|reflexivity].
Qed.
Lemma sep_section k q x rest : (0 < k)%nat ->
  sep_text (brk_k k) (q * k) (x :: rest) =
  (if Nat.eqb q 0 then [] else [34; 43; 34]) ++ flat_map enc (firstn k (x :: rest))
    ++ sep_text (brk_k k) (S q * k) (skipn k (x :: rest)).
Proof.
  intros Hk. cbn [sep_text]. rewrite brk_start by exact Hk. destruct k as [|k]; [lia|]. cbn [firstn skipn flat_map].
  replace (S (q * S k)) with (q * S k + 1)%nat by lia.
  rewrite <- (firstn_skipn k rest) at 1. rewrite sep_run by (try lia; rewrite firstn_length; lia).
  rewrite <- app_assoc. f_equal; [destruct (Nat.eqb q 0); reflexivity|]. do 2 f_equal.
  rewrite firstn_length. destruct (Nat.le_gt_cases k (length rest)) as [L|L].
  - rewrite Nat.min_l by exact L. f_equal. lia.
  - rewrite skipn_all2 by lia. reflexivity.
Qed.

Lemma forall_firstn {A} (P : A -> Prop) n (l : list A) : Forall P l -> Forall P (firstn n l).
Proof. intros H. rewrite <- (firstn_skipn n l) in H. apply Forall_app in H. tauto. Qed.
Lemma forall_skipn {A} (P : A -> Prop) n (l : list A) : Forall P l -> Forall P (skipn n l).
Proof. intros H. rewrite <- (firstn_skipn n l) in H. apply Forall_app in H. tauto. Qed.

Lemma literals_sections k : (0 < k)%nat -> forall n l q fuel, (length l <= n)%nat -> l <> [] -> bytes_ok l ->
  (length l <= fuel)%nat ->
  literals fuel ((if Nat.eqb q 0 then [34] else [34]) ++
    skipn (if Nat.eqb q 0 then 0 else 3) (sep_text (brk_k k) (q * k) l) ++ [34]) = Some (pieces_fuel n k l).
Proof.
  intros Hk. induction n as [|n IH]; intros l q fuel Hn Ne B Hf; (destruct l as [|x l]; [contradiction|]); [cbn in Hn; lia|].
  destruct fuel as [|fuel]; [cbn in Hf; lia|].
  rewrite sep_section by exact Hk. set (s := x :: l) in *.
  assert (E : skipn (if Nat.eqb q 0 then 0 else 3)
      ((if Nat.eqb q 0 then [] else [34; 43; 34]) ++ flat_map enc (firstn k s) ++ sep_text (brk_k k) (S q * k) (skipn k s))
    = flat_map enc (firstn k s) ++ sep_text (brk_k k) (S q * k) (skipn k s)) by (destruct (Nat.eqb q 0); reflexivity).
  rewrite E. clear E.
  replace (if Nat.eqb q 0 then [34] else [34]) with [34] by (destruct (Nat.eqb q 0); reflexivity).
  cbn [app literals pieces_fuel]. rewrite <- app_assoc.
  assert (Ls : length s = S (length l)) by reflexivity.
  destruct (skipn k s) as [|y l'] eqn:Sk.
  - cbn [sep_text app]. rewrite literal_enc by (apply forall_firstn, B). destruct n; reflexivity.
  - assert (L' : (length (y :: l') < length s)%nat).
    { rewrite <- Sk, skipn_length. lia. }
    assert (B' : bytes_ok (y :: l')) by (rewrite <- Sk; apply forall_skipn, B).
    specialize (IH (y :: l') (S q) fuel ltac:(lia) ltac:(discriminate) B' ltac:(lia)).
    rewrite sep_section in IH by exact Hk. rewrite sep_section by exact Hk. cbn [Nat.eqb] in *.
    cbn [app skipn] in IH. cbn [app]. rewrite literal_enc by (apply forall_firstn, B).
    cbn [app] in *. rewrite IH. reflexivity.
Qed.

Theorem StringSep_sections inp k : bytes_ok inp -> sized inp -> (1 <= k < 2 ^ 62)%Z -> inp <> [] ->
  (length inp mod Z.to_nat k = 0)%nat ->
  exists s, BytesToStringSep inp k = Ret s /\ string_expression s = Some (pieces (Z.to_nat k) inp).
Proof.
  intros B S Hk Ne M. eexists. split; [apply StringSep_text; assumption|]. unfold string_expression, pieces.
  pose proof (literals_sections (Z.to_nat k) ltac:(lia) (length inp) inp 0
    (length (34 :: sep_text (brk_k (Z.to_nat k)) 0 inp ++ [34])) (le_n _) Ne B) as L.
  cbn [Nat.eqb Nat.mul skipn app] in L. apply L. cbn [length]. rewrite app_length, sep_text_length. lia.
Qed.

(** Elements of byte lists. *)
Definition elem (b : N) : list N := 48 :: 120 :: numeral b.

Lemma elements_more b r line : is_byte b ->
  elements (elem b ++ 44 :: 32 :: r) line =
  match r with 10 :: r' => option_map (cons (line ++ [b])) (elements r' []) | _ => elements r (line ++ [b]) end.
Proof.
  intros Hb. unfold elem, numeral. cbn [app elements].
  rewrite !digit_upper by ((apply nib_hi; exact Hb) || (apply N.mod_lt; discriminate)). rewrite nib_val. reflexivity.
Qed.
Lemma elements_last b line : is_byte b -> elements (elem b ++ [125]) line = Some [line ++ [b]].
Proof.
  intros Hb. unfold elem, numeral. cbn [app elements].
  rewrite !digit_upper by ((apply nib_hi; exact Hb) || (apply N.mod_lt; discriminate)). rewrite nib_val. reflexivity.
Qed.

(** The rest of the text once element j-1 has been written, reading line [line]. *)
Lemma elements_text k : (0 < k)%nat -> forall l b j line, bytes_ok (b :: l) -> (j mod k = length line)%nat ->
  (length line < k)%nat ->
  elements (elem b ++ hex_text (brk_k k) (S j) l ++ [125]) line
  = Some (match pieces_fuel (length l) k (skipn (k - S (length line)) l) with
          | ps => (line ++ b :: firstn (k - S (length line)) l) :: ps end).
Proof.
  intros Hk. induction l as [|x l IH]; intros b j line B J Hl; inversion B as [|? ? Hb B']; subst.
  - cbn [hex_text app length pieces_fuel]. rewrite elements_last by exact Hb. rewrite firstn_nil. reflexivity.
  - inversion B' as [|? ? Hx Bl]; subst. cbn [hex_text Nat.eqb length].
    pose proof (Nat.div_mod j k ltac:(lia)) as D.
    destruct (Nat.eq_dec (S (length line)) k) as [E|E].
    + assert (T : brk_k k (S j) = true).
      { replace (S j) with (S (j / k) * k)%nat by nia. rewrite brk_start by exact Hk. reflexivity. }
      rewrite T. replace (k - S (length line))%nat with O by lia. cbn [firstn skipn].
      rewrite <- !app_assoc. cbn [app]. change (48 :: 120 :: numeral x ++ hex_text (brk_k k) (S (S j)) l ++ [125])
        with (elem x ++ hex_text (brk_k k) (S (S j)) l ++ [125]).
      rewrite elements_more by exact Hb.
      specialize (IH x (S j) [] B'). cbn [length app] in IH.
      rewrite IH; [|replace (S j) with (S (j / k) * k)%nat by nia; apply Nat.mod_mul; lia|lia].
      cbn [option_map pieces_fuel]. destruct k as [|k]; [lia|]. cbn [firstn skipn]. rewrite Nat.sub_succ, Nat.sub_0_r.
      reflexivity.
    + assert (T : brk_k k (S j) = false).
      { unfold brk_k. replace (S j) with (S (length line) + (j / k) * k)%nat by nia.
        rewrite Nat.mod_add, Nat.mod_small by lia. reflexivity. }
      rewrite T. rewrite <- !app_assoc. cbn [app]. rewrite <- (app_nil_l (48 :: 120 :: _)).
      change ([] ++ 48 :: 120 :: numeral x ++ hex_text (brk_k k) (S (S j)) l ++ [125])
        with (elem x ++ hex_text (brk_k k) (S (S j)) l ++ [125]).
      rewrite elements_more by exact Hb. unfold elem at 1. cbn match. cbn [app].
      change (48 :: 120 :: numeral x ++ hex_text (brk_k k) (S (S j)) l ++ [125])
        with (elem x ++ hex_text (brk_k k) (S (S j)) l ++ [125]).
      specialize (IH x (S j) (line ++ [b]) B'). rewrite app_length in IH. cbn [length] in IH.
      rewrite IH.
      * replace (k - S (length line))%nat with (S (k - S (length line + 1)))%nat by lia. cbn [firstn skipn].
        rewrite <- app_assoc. cbn [app]. f_equal. f_equal.
        assert (PF : forall n m (a : list N), (length a <= n)%nat -> (length a <= m)%nat -> pieces_fuel n k a = pieces_fuel m k a).
        { clear -Hk. induction n as [|n IHn]; intros m a Hn Hm; (destruct a as [|z a]; [destruct m; reflexivity|]); [cbn in Hn; lia|].
          destruct m as [|m]; [cbn in Hm; lia|]. cbn [pieces_fuel]. f_equal.
          apply IHn; rewrite skipn_length; cbn [length] in *; lia. }
        apply PF; rewrite skipn_length; lia.
      * replace (S j) with (S (length line) + (j / k) * k)%nat by nia. rewrite Nat.mod_add, Nat.mod_small by lia. lia.
      * lia.
Qed.

Theorem HexSep_lines inp k : bytes_ok inp -> sized inp -> (1 <= k < 2 ^ 62)%Z -> inp <> [] ->
  (length inp mod Z.to_nat k = 0)%nat ->
  exists s, BytesToHexSep inp k = Ret s /\ byte_list s = Some (pieces (Z.to_nat k) inp).
Proof.
  intros B S Hk Ne M. eexists. split; [apply HexSep_text; assumption|]. unfold byte_list, pieces.
  destruct inp as [|b l]; [contradiction|]. cbn [hex_text Nat.eqb app].
  change (48 :: 120 :: (numeral b ++ hex_text (brk_k (Z.to_nat k)) 1 l) ++ [125])
    with (elem b ++ hex_text (brk_k (Z.to_nat k)) 1 l ++ [125]).
  rewrite (elements_text (Z.to_nat k) ltac:(lia) l b 0 [] B); [|apply Nat.mod_0_l; lia|cbn [length]; lia].
  cbn [length pieces_fuel app]. destruct (Z.to_nat k) as [|n] eqn:E; [lia|]. cbn [firstn skipn].
  rewrite Nat.sub_succ, Nat.sub_0_r. reflexivity.
Qed.

Lemma pieces_concat {A} k : (0 < k)%nat -> forall l : list A, concat (pieces k l) = l.
Proof.
  intros Hk l. unfold pieces. assert (G : forall n (l : list A), (length l <= n)%nat -> concat (pieces_fuel n k l) = l).
  { induction n as [|n IH]; intros [|x a] Hn; try reflexivity; [cbn in Hn; lia|].
    cbn [pieces_fuel concat]. rewrite IH; [apply firstn_skipn|]. rewrite skipn_length. cbn [length] in *. lia. }
  apply G. lia.
Qed.
Lemma pieces_length {A} k : (0 < k)%nat -> forall l : list A, (length l mod k = 0)%nat ->
  Forall (fun p => length p = k) (pieces k l).
Proof.
  intros Hk l. unfold pieces. generalize (le_n (length l)). generalize (length l) at 2 4.
  intros n. revert l. induction n as [|n IH]; intros [|x a] Hn M; cbn [pieces_fuel]; try constructor.
  - rewrite firstn_length. apply Nat.min_l. destruct (Nat.le_gt_cases k (length (x :: a))) as [L|L]; [exact L|].
    rewrite Nat.mod_small in M by exact L. cbn [length] in M. lia.
  - apply IH; [rewrite skipn_length; cbn [length] in *; lia|]. rewrite skipn_length.
    destruct (Nat.le_gt_cases k (length (x :: a))) as [L|L].
    + replace (length (x :: a)) with (length (x :: a) - k + 1 * k)%nat in M by lia. rewrite Nat.mod_add in M by lia. exact M.
    + replace (length (x :: a) - k)%nat with O by lia. apply Nat.mod_0_l. lia.
Qed.

(** ** The texts *)

Lemma strings_more k : (0 < k)%nat -> forall n l q, (length l <= n)%nat -> q <> O ->
  sep_text (brk_k k) (q * k) l ++ [34] = 34 :: flat_map (fun y => [43] ++ y) (map go_string (pieces_fuel n k l)).
Proof.
  intros Hk. induction n as [|n IH]; intros l q Hl Hq; (destruct l as [|x l]; [reflexivity|]); [cbn [length] in Hl; lia|].
  rewrite sep_section by exact Hk. rewrite (proj2 (Nat.eqb_neq q 0) Hq). rewrite <- !app_assoc. rewrite (IH _ (S q)).
  - cbn [pieces_fuel map flat_map]. unfold go_string at 2. rewrite <- !app_assoc. reflexivity.
  - rewrite skipn_length. cbn [length] in *. lia.
  - discriminate.
Qed.
Lemma strings_text k l : (0 < k)%nat -> l <> [] -> 34 :: sep_text (brk_k k) 0 l ++ [34] = go_strings k l.
Proof.
  intros Hk Ne. unfold go_strings, pieces. destruct l as [|x l]; [contradiction|]. cbn [length pieces_fuel map joined].
  pose proof (sep_section k 0 x l Hk) as E. cbn [Nat.mul Nat.eqb app] in E. rewrite E. rewrite <- app_assoc.
  pose proof (strings_more k Hk (length l) (skipn k (x :: l)) 1) as M. change (1 * k)%nat with (k + 0)%nat in M. rewrite M.
  - unfold go_string at 2. rewrite <- !app_assoc. reflexivity.
  - rewrite skipn_length. cbn [length]. lia.
  - discriminate.
Qed.

Lemma hex_run k q : (0 < k)%nat -> forall a r b, (0 < r)%nat -> (r + length a <= k)%nat ->
  hex_text (brk_k k) (q * k + r) (a ++ b) = flat_map (fun y => [44; 32] ++ y) (map (fun c => [48; 120] ++ numeral c) a) ++ hex_text (brk_k k) (q * k + (r + length a)) b.
Proof.
  intros Hk. induction a as [|x a IH]; intros r b Hr Hn.
  - cbn [app map flat_map length]. rewrite Nat.add_0_r. reflexivity.
  - cbn [app hex_text map flat_map length] in *. rewrite (proj2 (Nat.eqb_neq _ 0)) by lia.
    replace (brk_k k (q * k + r)) with false.
    + rewrite <- (Nat.add_succ_r (q * k) r), IH by lia. rewrite <- !app_assoc.
      replace (S r + length a)%nat with (r + S (length a))%nat by lia. reflexivity.
    + unfold brk_k. rewrite (Nat.add_comm (q * k) r), Nat.mod_add, Nat.mod_small by lia.
      destruct (Nat.eqb_spec r 0); [lia|reflexivity].
Qed.
Lemma hex_section k q x rest : (0 < k)%nat ->
  hex_text (brk_k k) (q * k) (x :: rest) =
  (if Nat.eqb q 0 then [] else [44; 32; 10]) ++ go_line (firstn k (x :: rest)) ++ hex_text (brk_k k) (S q * k) (skipn k (x :: rest)).
Proof.
  intros Hk. cbn [hex_text]. rewrite brk_start by exact Hk. destruct k as [|k]; [lia|]. cbn [firstn skipn]. unfold go_line. cbn [map joined].
  replace (S (q * S k)) with (q * S k + 1)%nat by lia.
  rewrite <- (firstn_skipn k rest) at 1. rewrite hex_run by (try lia; rewrite firstn_length; lia).
  assert (E : (q * S k =? 0)%nat = (q =? 0)%nat) by (destruct q; reflexivity). rewrite E.
  rewrite <- !app_assoc. f_equal; [destruct (Nat.eqb q 0); reflexivity|]. do 3 f_equal.
  rewrite firstn_length. destruct (Nat.le_gt_cases k (length rest)) as [L|L].
  - rewrite Nat.min_l by exact L. f_equal. lia.
  - rewrite skipn_all2 by lia. reflexivity.
Qed.
Lemma lines_more k : (0 < k)%nat -> forall n l q, (length l <= n)%nat -> q <> O ->
  hex_text (brk_k k) (q * k) l = flat_map (fun y => [44; 32; 10] ++ y) (map go_line (pieces_fuel n k l)).
Proof.
  intros Hk. induction n as [|n IH]; intros l q Hl Hq; (destruct l as [|x l]; [reflexivity|]); [cbn [length] in Hl; lia|].
  rewrite hex_section by exact Hk. rewrite (proj2 (Nat.eqb_neq q 0) Hq). rewrite (IH _ (S q)).
  - cbn [pieces_fuel map flat_map]. rewrite <- !app_assoc. reflexivity.
  - rewrite skipn_length. cbn [length] in *. lia.
  - discriminate.
Qed.
Lemma list_text k l : (0 < k)%nat -> l <> [] -> 123 :: hex_text (brk_k k) 0 l ++ [125] = go_list k l.
Proof.
  intros Hk Ne. unfold go_list, pieces. destruct l as [|x l]; [contradiction|]. cbn [length pieces_fuel map joined].
  pose proof (hex_section k 0 x l Hk) as E. cbn [Nat.mul Nat.eqb app] in E. rewrite E. rewrite <- app_assoc.
  pose proof (lines_more k Hk (length l) (skipn k (x :: l)) 1) as M. change (1 * k)%nat with (k + 0)%nat in M. rewrite M.
  - rewrite <- app_assoc. reflexivity.
  - rewrite skipn_length. cbn [length]. lia.
  - discriminate.
Qed.

Theorem BytesToString_exact inp : bytes_ok inp -> sized inp -> BytesToString inp = Ret (go_string inp).
Proof. exact (BytesToString_text inp). Qed.
Theorem StringSep_exact inp k : bytes_ok inp -> sized inp -> (1 <= k < 2 ^ 62)%Z -> inp <> [] ->
  (length inp mod Z.to_nat k = 0)%nat -> BytesToStringSep inp k = Ret (go_strings (Z.to_nat k) inp).
Proof. intros B S Hk Ne M. rewrite (StringSep_text inp k B S Hk Ne M), strings_text by (try exact Ne; lia). reflexivity. Qed.
Theorem HexSep_exact inp k : bytes_ok inp -> sized inp -> (1 <= k < 2 ^ 62)%Z -> inp <> [] ->
  (length inp mod Z.to_nat k = 0)%nat -> BytesToHexSep inp k = Ret (go_list (Z.to_nat k) inp).
Proof. intros B S Hk Ne M. rewrite (HexSep_text inp k B S Hk Ne M), list_text by (try exact Ne; lia). reflexivity. Qed.
