(** Digests are chaining values. *)
From Verif Require Import Base.Go Base.DigestApi Spec.CodegenSpec Spec.DigestSpec Spec.ExtendSpec.
From Verif Require Import Proofs.DigestProofs Proofs.CodegenProofs Proofs.CollisionProofs.
From Verif Require Spec.RipemdSpec Spec.WhirlpoolSpec Proofs.RipemdProofs Proofs.WhirlpoolProofs.
Local Open Scope N_scope.

Lemma padded_closing field m : padded (field (length m)) m = m ++ closing field (length m).
Proof. reflexivity. Qed.
Lemma closing_length field m : (length (m ++ closing field (length m)) mod 64 = 0)%nat.
Proof.
  unfold closing, zeros. rewrite !app_length, repeat_length. cbn [length]. set (k := length (field (length m))). set (n := length m).
  replace (n + (1 + ((64 - (n + 1 + k) mod 64) mod 64 + k)))%nat with ((n + 1 + k) + (64 - (n + 1 + k) mod 64) mod 64)%nat by lia.
  pose proof (Nat.mod_upper_bound (n + 1 + k) 64 ltac:(lia)) as U. pose proof (Nat.div_mod (n + 1 + k) 64 ltac:(lia)) as D.
  set (r := ((n + 1 + k) mod 64)%nat) in *. set (q := ((n + 1 + k) / 64)%nat) in *. clearbody q r. rewrite D.
  destruct r as [|r].
  - change ((64 - 0) mod 64)%nat with 0%nat. rewrite !Nat.add_0_r, Nat.mul_comm. apply Nat.mod_mul. lia.
  - rewrite (Nat.mod_small (64 - S r)) by lia. replace (64 * q + S r + (64 - S r))%nat with ((q + 1) * 64)%nat by lia. apply Nat.mod_mul. lia.
Qed.
Lemma iterate_two {St} (comp : St -> list N -> St) h a b : (length a mod 64 = 0)%nat -> (length b mod 64 = 0)%nat ->
  iterate comp h (a ++ b) = iterate comp (iterate comp h a) b.
Proof.
  intros A B. rewrite <- (pieces_concat 64) with (l := a) at 1 by lia. rewrite <- (pieces_concat 64) with (l := b) at 1 by lia.
  rewrite iterate_app by (apply pieces_length; lia). reflexivity.
Qed.
(** A message, its closing and a text. *)
Lemma padded_resume {St} field (comp : St -> list N -> St) iv m x : let m' := m ++ closing field (length m) ++ x in
  iterate comp iv (m' ++ closing field (length m')) = resume field comp (iterate comp iv (m ++ closing field (length m))) (length m) x.
Proof.
  cbv zeta. pose proof (closing_length field m) as A. pose proof (closing_length field (m ++ closing field (length m) ++ x)) as B.
  unfold resume. replace (length m + length (closing field (length m)) + length x)%nat with (length (m ++ closing field (length m) ++ x)) by (rewrite !app_length; lia).
  rewrite <- iterate_two; [f_equal; rewrite <- !app_assoc; reflexivity|exact A|].
  set (n := length (m ++ closing field (length m) ++ x)) in *.
  assert (E : length ((m ++ closing field (length m) ++ x) ++ closing field n) = (length (m ++ closing field (length m)) + length (x ++ closing field n))%nat) by (rewrite !app_length; lia).
  rewrite E in B. rewrite Nat.add_mod, A, Nat.add_0_l, Nat.mod_mod in B by lia. exact B.
Qed.

(** Words from bytes. *)
Lemma little_number_of n : forall v, v < 256 ^ N.of_nat n -> little_number (little_endian n v) = v.
Proof.
  induction n as [|n IH]; intros v Hv.
  - cbn in *. lia.
  - rewrite Nat2N.inj_succ, N.pow_succ_r' in Hv. cbn [little_endian]. unfold little_number in *. cbn [fold_right].
    rewrite IH by (apply N.div_lt_upper_bound; lia). pose proof (N.div_mod' v 256). lia.
Qed.
Lemma words_of_digest l : Forall (fun w => w < 2 ^ 32) l -> map little_number (pieces 4 (flat_map (little_endian 4) l)) = l.
Proof.
  intros F. rewrite flat_map_concat_map, pieces_concat_id; [|lia|].
  - rewrite map_map. induction F as [|w l Hw F IH]; [reflexivity|]. cbn [map]. rewrite IH. f_equal. apply little_number_of. exact Hw.
  - apply Forall_map. clear F. induction l; constructor; [apply little_endian_length|assumption].
Qed.
Lemma little_field_of m : RipemdSpec.bit_length m = little_field (length m).
Proof. reflexivity. Qed.
Lemma ripe_extended n comp iv (Hiv : RipemdProofs.words_ok n iv)
  (Hc : forall h blk, RipemdProofs.words_ok n h -> RipemdProofs.words_ok n (comp h blk)) m x :
  RipemdSpec.ripemd comp iv (m ++ closing little_field (length m) ++ x)
  = extended_words comp (length m) (RipemdSpec.ripemd comp iv m) x.
Proof.
  unfold extended_words, RipemdSpec.ripemd. rewrite !little_field_of, !padded_closing.
  destruct (iterate_words n comp iv Hiv Hc (m ++ closing little_field (length m))) as [_ W].
  rewrite words_of_digest by exact W. f_equal. apply padded_resume.
Qed.
Lemma whirl_extended m x : WhirlpoolSpec.Whirlpool (m ++ closing big_field (length m) ++ x)
  = extended_bytes WhirlpoolSpec.compress (length m) (WhirlpoolSpec.Whirlpool m) x.
Proof. apply (padded_resume big_field WhirlpoolSpec.compress (repeat 0 64)). Qed.

(** The last Sum of a history. *)
Lemma sum_last digest size bsize : forall cs m rs d,
  hash_trace digest size bsize m (cs ++ [HSum []]) = rs ++ [Digest d] -> d = digest (written m cs).
Proof.
  intros cs m rs d E. rewrite hash_trace_app in E. cbn [hash_trace app] in E. apply app_inj_tail in E. destruct E as [_ E]. congruence.
Qed.
Lemma written_write cs p : forall m, written m (cs ++ [HWrite p]) = written m cs ++ p.
Proof. induction cs as [|[q|q| | |] cs IH]; intros m; cbn [app written]; auto. Qed.
