(** Calls on a nil *Tree. *)
From Verif Require Import Base.Go Base.GoNet Base.NetApi Model.Net Model.NetNil Spec.NetSpec Spec.NetNilSpec
  Proofs.NetBasic Proofs.NetRange Proofs.NetGoUnique.
From Coq Require Import Lia.
Local Open Scope N_scope.

Lemma nil_range a b : a < 2 ^ 32 -> a <= b ->
  (let! m := shrink 33 a b (N.land (sub32 a 1) (not32 a)) in let! bit := bit_len 33 m 0 in (root_of_nil : outcome unit)) = Panic.
Proof.
  intros Ha Hl. destruct (low_mask_spec a Ha) as (z & Hz & M & A & N1).
  destruct (shrink_spec a b Ha Hl z 33 Hz ltac:(lia) A) as (j & J & E).
  { intros L [F _]. apply (N1 L F). }
  fold (low_mask a). rewrite M, E. cbn [bind]. rewrite bit_len_ones by apply J. reflexivity.
Qed.
Lemma reads_ToUint ip : bytes_ok ip -> exists u, reads_as ip u /\ u < 2 ^ 32 /\ Ipv4ToUint ip = Ret u.
Proof.
  intros B. destruct (addr_or_not ip) as [(u & H)|H].
  - exists u. split; [left; exact H|]. split; [apply H|apply ToUint_addr, H].
  - exists 0. split; [right; split; [exact H|reflexivity]|]. split; [reflexivity|apply ToUint_other; assumption].
Qed.

