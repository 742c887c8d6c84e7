(** C111: how many messages have a given checksum. *)
From Verif Require Import Base.Go Base.HashApi Model.Bcc Model.Lrc Model.Fletcher Model.Luhn Spec.ChecksumSpec Spec.CombineSpec Spec.CountSpec.
From Verif Require Import Proofs.CombineProofs Proofs.CountProofs.
Local Open Scope N_scope.

(** A count is one number. *)
Theorem C111_count_fun : forall b n P k k', number b n P k -> number b n P k' -> k = k'.
Proof. exact number_fun. Qed.

(** Of the messages of n+1 bytes exactly one in 256 has a given value. *)
Theorem C111_bcc : forall n v, v < 256 -> number 256 (n + 1) (fun m => shows Bcc.step Bcc.New [m] v) (256 ^ n).
Proof. exact bcc_count. Qed.
Theorem C111_lrc : forall n v, v < 256 -> number 256 (n + 1) (fun m => shows Lrc.step Lrc.New [m] v) (256 ^ n).
Proof. exact lrc_count. Qed.

(** Of the messages with at least two words, between one and four in as many as
    two words allow have given sums. *)
Theorem C111_fletcher16 : forall n a b, a < 255 -> b < 255 -> N.of_nat (n + 2) <= 5802 -> exists k,
  number 256 (n + 2) (fun m => shows Fletcher.step16 Fletcher.New [m] (b * 2 ^ 8 + a)) k /\ (256 ^ n <= k <= 4 * 256 ^ n)%nat.
Proof. exact count16. Qed.
Theorem C111_fletcher32 : forall n a b, a < 65535 -> b < 65535 -> exists k,
  number 256 (n + 4) (fun m => shows Fletcher.step32 Fletcher.New [m] (b * 2 ^ 16 + a)) k /\ (256 ^ n <= k <= 4 * 256 ^ n)%nat.
Proof. exact count32. Qed.
Theorem C111_fletcher64 : forall n a b, a < 4294967295 -> b < 4294967295 -> exists k,
  number 256 (n + 8) (fun m => shows Fletcher.step64 Fletcher.New [m] (b * 2 ^ 32 + a)) k /\ (256 ^ n <= k <= 4 * 256 ^ n)%nat.
Proof. exact count64. Qed.

(** Every other value has no message at all. *)
Theorem C111_never16 : forall n v, N.of_nat n <= 5802 -> ~ (exists a b, a < 255 /\ b < 255 /\ v = b * 2 ^ 8 + a) ->
  number 256 n (fun m => shows Fletcher.step16 Fletcher.New [m] v) 0.
Proof.
  intros n v L X. apply number_none. intros m Lm Hm E. apply X.
  apply (shows_value _ _ _ _ v (shows16 [m] ltac:(constructor; [exact Hm|constructor]) ltac:(constructor; [rewrite Lm; exact L|constructor]))) in E.
  destruct (fletcher_range 255 (2 ^ 8) (concat [m]) eq_refl eq_refl) as (a & b & Ha & Hb & E'). exists a, b. split; [exact Ha|]. split; [exact Hb|]. congruence.
Qed.
Theorem C111_never32 : forall n v, ~ (exists a b, a < 65535 /\ b < 65535 /\ v = b * 2 ^ 16 + a) ->
  number 256 n (fun m => shows Fletcher.step32 Fletcher.New [m] v) 0.
Proof.
  intros n v X. apply number_none. intros m Lm Hm E. apply X.
  apply (shows_value _ _ _ _ v (shows32 [m] ltac:(constructor; [exact Hm|constructor]))) in E.
  destruct (fletcher_range 65535 (2 ^ 16) (flat_map words16 [m]) eq_refl eq_refl) as (a & b & Ha & Hb & E'). exists a, b. split; [exact Ha|]. split; [exact Hb|]. congruence.
Qed.
Theorem C111_never64 : forall n v, ~ (exists a b, a < 4294967295 /\ b < 4294967295 /\ v = b * 2 ^ 32 + a) ->
  number 256 n (fun m => shows Fletcher.step64 Fletcher.New [m] v) 0.
Proof.
  intros n v X. apply number_none. intros m Lm Hm E. apply X.
  apply (shows_value _ _ _ _ v (shows64 [m] ltac:(constructor; [exact Hm|constructor]))) in E.
  destruct (fletcher_range 4294967295 (2 ^ 32) (flat_map words32 [m]) eq_refl eq_refl) as (a & b & Ha & Hb & E'). exists a, b. split; [exact Ha|]. split; [exact Hb|]. congruence.
Qed.

(** Of the numbers of n+1 decimal digits, leading zeros counted as digits, exactly
    one in ten has a given check digit; 19 digits always fit a uint64. *)
Theorem C111_luhn : forall n c, (n < 19)%nat -> c < 10 ->
  number 10 (n + 1) (fun ds => Luhn.Checksum (digits_value ds) = Ret c) (10 ^ n).
Proof. exact luhn_count. Qed.

(** Four is reached: two words that are each nothing or all ones have sums zero. *)
Example C111_four : number 256 2 (fun m => shows Fletcher.step16 Fletcher.New [m] 0) 4
  /\ number 256 4 (fun m => shows Fletcher.step32 Fletcher.New [m] 0) 4
  /\ number 256 8 (fun m => shows Fletcher.step64 Fletcher.New [m] 0) 4.
Proof.
  assert (X : forall n P k l, number 256 n P k -> (1 <= k <= 4)%nat -> NoDup l -> length l = 4%nat ->
    (forall m, In m l -> length m = n /\ Forall (fun x => x < 256) m /\ P m) -> number 256 n P 4).
  { intros n P k l (l' & N1 & L1 & I1) Hk N2 L2 I2. assert (length l <= length l')%nat by (apply NoDup_incl_length; [exact N2|]; intros m Hm; apply I1, I2, Hm).
    exists l'. split; [exact N1|]. split; [lia|exact I1]. }
  split; [|split].
  - destruct (C111_fletcher16 0 0 0 eq_refl eq_refl ltac:(discriminate)) as (k & Hk & L). apply (X _ _ k [[0;0];[0;255];[255;0];[255;255]]); [exact Hk|exact L| |reflexivity|].
    + repeat (constructor; [cbn; intuition discriminate|]). constructor.
    + intros m Hm. repeat (destruct Hm as [<-|Hm]; [repeat split; repeat constructor|]). destruct Hm.
  - destruct (C111_fletcher32 0 0 0 eq_refl eq_refl) as (k & Hk & L).
    apply (X _ _ k [[0;0;0;0];[0;0;255;255];[255;255;0;0];[255;255;255;255]]); [exact Hk|exact L| |reflexivity|].
    + repeat (constructor; [cbn; intuition discriminate|]). constructor.
    + intros m Hm. repeat (destruct Hm as [<-|Hm]; [repeat split; repeat constructor|]). destruct Hm.
  - destruct (C111_fletcher64 0 0 0 eq_refl eq_refl) as (k & Hk & L).
    apply (X _ _ k [[0;0;0;0;0;0;0;0];[0;0;0;0;255;255;255;255];[255;255;255;255;0;0;0;0];[255;255;255;255;255;255;255;255]]); [exact Hk|exact L| |reflexivity|].
    + repeat (constructor; [cbn; intuition discriminate|]). constructor.
    + intros m Hm. repeat (destruct Hm as [<-|Hm]; [repeat split; repeat constructor|]). destruct Hm.
Qed.
(** The other end: one byte has one value, and no byte a value with 255 in it. *)
Example C111_ends : number 256 1 (fun m => shows Bcc.step Bcc.New [m] 7) 1
  /\ number 256 1 (fun m => shows Lrc.step Lrc.New [m] 7) 1
  /\ number 10 1 (fun ds => Luhn.Checksum (digits_value ds) = Ret 7) 1
  /\ number 256 2 (fun m => shows Fletcher.step16 Fletcher.New [m] 255) 0.
Proof.
  split; [apply (C111_bcc 0 7); reflexivity|]. split; [apply (C111_lrc 0 7); reflexivity|]. split; [apply (C111_luhn 0 7); [lia|reflexivity]|].
  apply C111_never16; [discriminate|]. intros (a & b & Ha & Hb & E). change (2 ^ 8) with 256 in E. lia.
Qed.

Print Assumptions C111_count_fun.
Print Assumptions C111_bcc.
Print Assumptions C111_lrc.
Print Assumptions C111_fletcher16.
Print Assumptions C111_fletcher32.
Print Assumptions C111_fletcher64.
Print Assumptions C111_never16.
Print Assumptions C111_never32.
Print Assumptions C111_never64.
Print Assumptions C111_luhn.
