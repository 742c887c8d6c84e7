(** What Spec/NetGoSpec.v expects of a goroutine is determined. *)
From Coq Require Import Sorted.
From Verif Require Import Base.Go Base.GoNet Base.NetApi Spec.NetSpec Proofs.NetBasic.
From Verif Require Import Base.Goroutine Base.GoUse Base.NetGo Spec.NetGoSpec.
Local Open Scope N_scope.

(** ** Decisions *)

Lemma addr_or_not ip : (exists u, is_addr ip u) \/ forall u, ~ is_addr ip u.
Proof.
  destruct (ToUint_not_panic ip) as (u & E).
  assert (D : is_addr ip u \/ ~ is_addr ip u).
  { unfold is_addr. destruct (N.lt_decidable u (2 ^ 32)) as [L|L]; [|right; tauto].
    destruct (list_eq_dec N.eq_dec ip (NetSpec.addr u)); [left; auto|]. destruct (list_eq_dec N.eq_dec ip (mapped ++ NetSpec.addr u)); [left; auto|right; tauto]. }
  destruct D as [D|D]; [left; eauto|]. right. intros v V. pose proof (ToUint_addr _ _ V) as X. rewrite E in X. injection X as ->. contradiction.
Qed.
Lemma below_dec (P : nat -> Prop) : (forall i, P i \/ ~ P i) -> forall k, (forall i, (i < k)%nat -> P i) \/ ~ forall i, (i < k)%nat -> P i.
Proof.
  intros D. induction k as [|k [IH|IH]]; [left; lia| |right; intros H; apply IH; intros i Hi; apply H; lia].
  destruct (D k) as [Y|Y]; [left; intros i Hi; destruct (Nat.eq_dec i k) as [->|]; [exact Y|apply IH; lia]|right; intros H; apply Y, H; lia].
Qed.
Lemma length_or_not m : (exists n, mask_of_length m n) \/ forall n, ~ mask_of_length m n.
Proof.
  assert (D : forall n, mask_of_length m n \/ ~ mask_of_length m n).
  { intros n. unfold mask_of_length. destruct (Nat.le_decidable n (8 * length m)) as [L|L]; [|right; tauto].
    destruct (below_dec (fun i => bit_of m i = Nat.ltb i n) (fun i => match Bool.bool_dec (bit_of m i) (Nat.ltb i n) with left e => or_introl e | right e => or_intror e end) (8 * length m)); [left|right]; tauto. }
  assert (K : forall k, (exists n, mask_of_length m n) \/ forall n, (n < k)%nat -> ~ mask_of_length m n).
  { induction k as [|k [IH|IH]]; [right; lia|left; exact IH|]. destruct (D k) as [Y|Y]; [left; eauto|right]. intros n Hn. destruct (Nat.eq_dec n k) as [->|]; [exact Y|apply IH; lia]. }
  destruct (K (S (8 * length m))) as [H|H]; [left; exact H|right]. intros n Hn. apply (H n); [destruct Hn; lia|exact Hn].
Qed.

(** ** Histories and lists *)

Lemma prefixes_fun {V} (c : tree_call V) L L' : call_prefixes c L -> call_prefixes c L' -> L = L'.
Proof.
  destruct c as [ip v|s e v|[n|] v]; cbn [call_prefixes].
  - intros (u & U & ->) (u' & U' & ->). rewrite (is_addr_fun _ _ _ U U'). reflexivity.
  - intros (a & b & A & B & ->) (a' & b' & A' & B' & ->). rewrite (is_addr_fun _ _ _ A A'), (is_addr_fun _ _ _ B B'). reflexivity.
  - intros (u & p & U & ->) (u' & p' & U' & ->). destruct (cidr_fun _ _ _ _ _ U U') as [-> ->]. reflexivity.
  - contradiction.
Qed.
Lemma history_fun {V} (mg : V -> V -> V) cs B B1 : history mg B cs B1 -> forall B2, history mg B cs B2 -> B1 = B2.
Proof.
  induction 1 as [B|B c L cs B' P H IH]; intros B2 H2; inversion H2 as [|? ? L' ? ? P' H']; subst; [reflexivity|].
  apply IH. rewrite (prefixes_fun _ _ _ P P'). exact H'.
Qed.
Definition precedes (x y : N * N * N) : Prop := let '(y1, p, _) := x in let '(y2, _, _) := y in y1 + size p <= y2.
Lemma precedes_not x y : precedes x y -> ~ precedes y x.
Proof.
  destruct x as [[a p] v], y as [[b q] w]. cbn [precedes]. assert (Z : forall p, 0 < size p) by (intros z; apply N.neq_0_lt_0, N.pow_nonzero; discriminate).
  pose proof (Z p). pose proof (Z q). lia.
Qed.
Lemma sorted_fun l1 : forall l2, StronglySorted precedes l1 -> StronglySorted precedes l2 -> (forall x, In x l1 <-> In x l2) -> l1 = l2.
Proof.
  induction l1 as [|x l1 IH]; intros [|y l2] S1 S2 H.
  - reflexivity.
  - destruct (proj2 (H y)); left; reflexivity.
  - destruct (proj1 (H x)); left; reflexivity.
  - apply StronglySorted_inv in S1, S2. destruct S1 as [S1 F1], S2 as [S2 F2]. rewrite Forall_forall in F1, F2.
    assert (E : x = y).
    { destruct (proj1 (H x) (or_introl eq_refl)) as [E|E]; [congruence|]. destruct (proj2 (H y) (or_introl eq_refl)) as [E'|E']; [congruence|].
      exfalso. apply (precedes_not x y); [apply F1, E'|apply F2, E]. }
    subst y. f_equal. apply IH; [exact S1|exact S2|]. intros z. split; intros Z.
    + destruct (proj1 (H z) (or_intror Z)) as [<-|E]; [|exact E]. exfalso. apply (precedes_not x x); apply F1, Z.
    + destruct (proj2 (H z) (or_intror Z)) as [<-|E]; [|exact E]. exfalso. apply (precedes_not x x); apply F2, Z.
Qed.

(** ** Effects *)

Definition alike (st st' : local) : Prop := (forall x, text st' x = text st x) /\ made st' = made st /\ trees st' = trees st.
Lemma alike_bytes st st' s : alike st st' -> bytes_of st' s = bytes_of st s.
Proof. intros (T & _). apply map_ext. intros j. apply T. Qed.
Lemma alike_net st st' ip mask : alike st st' -> net_at st' ip mask = net_at st ip mask.
Proof. intros A. unfold net_at. rewrite !(alike_bytes st st') by exact A. reflexivity. Qed.
Lemma writes_fun st st' a l n s s' : alike st st' -> writes_text st a l n s -> writes_text st' a l n s' -> alike s s'.
Proof.
  intros (T & M & K) (A1 & A2 & A3) (B1 & B2 & B3). split; [|split; congruence]. intros x. rewrite A1, B1. unfold overwrite. rewrite T. reflexivity.
Qed.
Lemma returns_fun id st st' l s s' r r' : alike st st' -> returns id st l s r -> returns id st' l s' r' -> r' = r /\ alike s s'.
Proof.
  intros A (-> & W) (-> & W'). pose proof A as (_ & M & _). rewrite M in *. split; [reflexivity|]. apply (writes_fun _ _ _ _ _ _ _ A W W').
Qed.
Lemma called_fun st st' a : alike st st' -> called st' a = called st a.
Proof. intros A. destruct a; cbn [called]; rewrite ?(alike_bytes st st'), ?(alike_net st st') by exact A; reflexivity. Qed.

Lemma effect_fun id ours st st' a s r s' r' : alike st st' -> effect id ours st a s r -> effect id ours st' a s' r' -> r' = r /\ alike s s'.
Proof.
  intros A. pose proof A as (T & M & K).
  assert (Tr : forall h, tree_at ours st' h = tree_at ours st h) by (intros [i|i]; cbn [tree_at]; congruence).
  assert (Call : forall x, (exists i mg cs c, called st x = Some (Mine i, c) /\ nth_error (trees st) i = Some (mg, cs) /\ r = PDone
        /\ s = mkLocal (text st) (made st) (replaced i (mg, cs ++ [c]) (trees st))) ->
      (exists i mg cs c, called st' x = Some (Mine i, c) /\ nth_error (trees st') i = Some (mg, cs) /\ r' = PDone
        /\ s' = mkLocal (text st') (made st') (replaced i (mg, cs ++ [c]) (trees st'))) -> r' = r /\ alike s s').
  { intros x (i & mg & cs & c & C1 & C2 & -> & ->) (i' & mg' & cs' & c' & D1 & D2 & -> & ->). split; [reflexivity|]. rewrite (called_fun st st' x A) in D1.
    rewrite C1 in D1. injection D1 as <- <-. rewrite K in *. rewrite C2 in D2. injection D2 as <- <-. split; [exact T|]. split; [exact M|reflexivity]. }
  destruct a as [n c|x j v|x j|ip|x|b|mk|ip mk ip' mk'|ip mk|ip mk|mg|h|h ip v|h x e v|h ip mk v|h]; cbn [effect].
  - intros (-> & W) (-> & W'). rewrite M in *. split; [reflexivity|]. apply (writes_fun _ _ _ _ _ _ _ A W W').
  - intros (-> & W) (-> & W'). split; [reflexivity|]. apply (writes_fun _ _ _ _ _ _ _ A W W').
  - intros (-> & ->) (-> & ->). rewrite T. auto.
  - intros (-> & u & -> & H1 & H2) (-> & u' & -> & H1' & H2'). rewrite (alike_bytes st st') in * by exact A. split; [|exact A]. f_equal.
    destruct (addr_or_not (bytes_of st ip)) as [[y Y]|Nn]; [rewrite (H1 y Y), (H1' y Y); reflexivity|rewrite (H2 Nn), (H2' Nn); reflexivity].
  - apply returns_fun, A.
  - apply returns_fun, A.
  - intros (-> & u & -> & H1 & H2) (-> & u' & -> & H1' & H2'). rewrite (alike_bytes st st') in * by exact A. split; [|exact A]. f_equal.
    destruct (length_or_not (bytes_of st mk)) as [[y Y]|Nn]; [rewrite (H1 y Y), (H1' y Y); reflexivity|rewrite (H2 Nn), (H2' Nn); reflexivity].
  - intros (-> & b & -> & H) (-> & b' & -> & H'). rewrite !(alike_bytes st st') in H' by exact A. split; [|exact A]. f_equal.
    destruct b, b'; try reflexivity; [apply H', H; reflexivity|symmetry; apply H, H'; reflexivity].
  - intros (-> & ->) (-> & ->). auto.
  - intros (l & W & -> & _) (l' & W' & -> & _). rewrite !(alike_bytes st st') in W' by exact A. apply (returns_fun _ _ _ _ _ _ _ _ A W W').
  - intros (-> & ->) (-> & ->). split; [reflexivity|]. split; [exact T|]. split; [exact M|]. cbn [trees]. rewrite K. reflexivity.
  - intros (t & E & -> & ->) (t' & E' & -> & ->). rewrite Tr, E in E'. injection E' as <-. split; [reflexivity|]. split; [exact T|]. split; [exact M|]. cbn [trees]. rewrite K. reflexivity.
  - apply (Call (GAddIp h ip v)).
  - apply (Call (GAddRange h x e v)).
  - apply (Call (GAddCidr h ip mk v)).
  - intros (mg & cs & B & L & E & H1 & H2 & H3 & -> & W) (mg' & cs' & B' & L' & E' & H1' & H2' & H3' & -> & W'). rewrite Tr, E in E'. injection E' as <- <-.
    rewrite <- (history_fun _ _ _ _ H1 _ H1') in H3'.
    assert (L' = L) as -> by (apply sorted_fun; [exact H2'|exact H2|]; intros [[y p] z]; rewrite H3, H3'; reflexivity).
    rewrite M in *. split; [reflexivity|]. apply (writes_fun _ _ _ _ _ _ _ A W W').
Qed.
Lemma one_answer id ours g : forall st st' rs1 st1 rs2 st2, alike st st' ->
  expects id ours st g rs1 st1 -> expects id ours st' g rs2 st2 -> rs2 = rs1 /\ alike st1 st2.
Proof.
  induction g as [|a k IH]; intros st st' rs1 st1 rs2 st2 A; cbn [expects].
  - intros (-> & ->) (-> & ->). auto.
  - intros (s & r & rs & E & -> & X) (s' & r' & rs' & E' & -> & X'). destruct (effect_fun _ _ _ _ _ _ _ _ _ A E E') as [-> A'].
    destruct (IH r s s' rs st1 rs' st2 A' X X') as [-> A2]. auto.
Qed.
