(** General lemmas: finite sweeps, buffers, lists. *)
From Verif Require Import Base.Go.
Local Open Scope N_scope.

(** ** Finite sweeps *)

Definition all_bytes : list N := map N.of_nat (seq 0 256).

Lemma in_all_bytes b : b < 256 -> In b all_bytes.
Proof.
  intros H. unfold all_bytes. rewrite in_map_iff. exists (N.to_nat b).
  split; [lia|]. apply in_seq. lia.
Qed.

Lemma sweep_byte (P : N -> bool) :
  forallb P all_bytes = true -> forall b, b < 256 -> P b = true.
Proof.
  intros H b Hb. rewrite forallb_forall in H. apply H, in_all_bytes, Hb.
Qed.

Definition below (n : N) : list N := map N.of_nat (seq 0 (N.to_nat n)).

Lemma in_below n b : b < n -> In b (below n).
Proof.
  intros H. unfold below. rewrite in_map_iff. exists (N.to_nat b).
  split; [lia|]. apply in_seq. lia.
Qed.

Lemma sweep (n : N) (P : N -> bool) :
  forallb P (below n) = true -> forall b, b < n -> P b = true.
Proof.
  intros H b Hb. rewrite forallb_forall in H. apply H, in_below, Hb.
Qed.

(** ** Buffers *)

Lemma upd_app {A} (pre : list A) x rest v :
  upd (pre ++ x :: rest) (length pre) v = Ret (pre ++ v :: rest).
Proof.
  induction pre as [|p pre IH]; simpl; [reflexivity|]. rewrite IH. reflexivity.
Qed.

Lemma upd_app' {A} (pre : list A) x rest v i :
  i = length pre -> upd (pre ++ x :: rest) i v = Ret (pre ++ v :: rest).
Proof. intros ->. apply upd_app. Qed.

Lemma upd_out {A} (l : list A) i v : (length l <= i)%nat -> upd l i v = Panic.
Proof.
  revert i; induction l as [|x l IH]; intros [|i] H; simpl in *; try reflexivity; try lia.
  rewrite IH by lia. reflexivity.
Qed.

Lemma upd_in {A} (l : list A) i v :
  (i < length l)%nat -> upd l i v = Ret (firstn i l ++ v :: skipn (S i) l).
Proof.
  revert i; induction l as [|x l IH]; intros [|i] H; simpl in *; try lia.
  - reflexivity.
  - rewrite IH by lia. reflexivity.
Qed.

Lemma upd_length {A} (l l' : list A) i v : upd l i v = Ret l' -> length l' = length l.
Proof.
  revert i l'; induction l as [|x l IH]; intros [|i] l' H; simpl in *; try discriminate.
  - inversion H; reflexivity.
  - destruct (upd l i v) eqn:E; simpl in H; try discriminate.
    inversion H; subst. simpl. f_equal. eapply IH; eauto.
Qed.

Lemma idx_app {A} (pre : list A) x rest i :
  i = length pre -> idx (pre ++ x :: rest) i = Ret x.
Proof.
  intros ->. unfold idx. rewrite nth_error_app2 by lia.
  rewrite Nat.sub_diag. reflexivity.
Qed.

Lemma idx_nth {A} (l : list A) i x : nth_error l i = Some x -> idx l i = Ret x.
Proof. unfold idx. intros ->. reflexivity. Qed.

Lemma make_bytes_nat n : make_bytes (Z.of_nat n) = Ret (repeat 0 n).
Proof.
  unfold make_bytes. destruct (Z.ltb_spec (Z.of_nat n) 0) as [H|H]; [lia|].
  rewrite Nat2Z.id. reflexivity.
Qed.

Lemma make_bytes_nonneg z : (0 <= z)%Z -> make_bytes z = Ret (repeat 0 (Z.to_nat z)).
Proof.
  intros H. unfold make_bytes. destruct (Z.ltb_spec z 0) as [H'|H']; [lia|reflexivity].
Qed.

(** ** Lists *)

Lemma forall_app_inv {A} (P : A -> Prop) l1 l2 :
  Forall P (l1 ++ l2) <-> Forall P l1 /\ Forall P l2.
Proof. apply Forall_app. Qed.

(** Induction two elements at a time. *)
Lemma list_pair_ind {A} (P : list A -> Prop) :
  P [] -> (forall x, P [x]) -> (forall x y l, P l -> P (x :: y :: l)) -> forall l, P l.
Proof.
  intros H0 H1 H2. fix IH 1. intros [|x [|y l]]; [exact H0|apply H1|].
  apply H2, IH.
Qed.

Lemma bytes_ok_app l1 l2 : bytes_ok (l1 ++ l2) <-> bytes_ok l1 /\ bytes_ok l2.
Proof. apply Forall_app. Qed.

Lemma bytes_ok_repeat n : bytes_ok (repeat 0 n).
Proof. apply Forall_forall. intros x H. apply repeat_spec in H. subst. unfold is_byte; lia. Qed.

(** ** Bits *)

Lemma land_shiftl_disjoint a b k : a < 2 ^ k -> N.land (N.shiftl b k) a = 0.
Proof.
  intros H. apply N.bits_inj. intros i. rewrite N.land_spec, N.bits_0.
  destruct (N.lt_ge_cases i k) as [L|L].
  - rewrite N.shiftl_spec_low by exact L. reflexivity.
  - rewrite <- (N.mod_small a (2 ^ k)) by exact H.
    rewrite N.mod_pow2_bits_high by exact L. apply andb_false_r.
Qed.

Lemma lor_shiftl_add a b k : a < 2 ^ k -> N.lor (N.shiftl b k) a = b * 2 ^ k + a.
Proof.
  intros H. pose proof (land_shiftl_disjoint a b k H) as L.
  rewrite <- N.lxor_lor by exact L. rewrite <- N.add_nocarry_lxor by exact L.
  rewrite N.shiftl_mul_pow2. reflexivity.
Qed.

Lemma lor_add_shiftl a b k : a < 2 ^ k -> N.lor a (N.shiftl b k) = a + b * 2 ^ k.
Proof. intros H. rewrite N.lor_comm, lor_shiftl_add by exact H. apply N.add_comm. Qed.

Lemma u_small w x : x < 2 ^ w -> x mod 2 ^ w = x.
Proof. apply N.mod_small. Qed.
