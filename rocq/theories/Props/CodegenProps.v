(** Properties C50-C52: package codegen. Inputs are shorter than 2^58 bytes (a
    longer slice cannot exist: its doubled hex text would exceed the address
    space), so that the computed lengths do not wrap. *)
From Verif Require Import Base.Go Model.Codegen Spec.CodegenSpec Proofs.CodegenProofs.
Local Open Scope N_scope.

(** ** C50 BytesToString *)

Theorem C50_literal : forall inp, bytes_ok inp -> (Z.of_nat (length inp) < 2 ^ 58)%Z ->
  exists s, BytesToString inp = Ret s /\ string_expression s = Some [inp].
Proof. exact BytesToString_literal. Qed.
Print Assumptions C50_literal.

(** The text, character by character. *)
Theorem C50_text : forall inp, bytes_ok inp -> (Z.of_nat (length inp) < 2 ^ 58)%Z -> BytesToString inp = Ret (go_string inp).
Proof. exact BytesToString_exact. Qed.
Print Assumptions C50_text.

Example C50_nonvacuous :
  BytesToString [222; 173] = Ret [34; 92; 120; 68; 69; 92; 120; 65; 68; 34]
  /\ string_expression [34; 92; 120; 68; 69; 92; 120; 65; 68; 34] = Some [[222; 173]]
  /\ BytesToString [] = Ret [34; 34] /\ string_expression [34; 34] = Some [[]]
  /\ string_expression [34; 92; 120; 68; 34] = None.
Proof. repeat split; vm_compute; reflexivity. Qed.

(** ** C51 BytesToStringSep *)

(** Success: the sections are the consecutive k-byte pieces of the input. *)
Theorem C51_sections_partial : forall inp k, bytes_ok inp -> (Z.of_nat (length inp) < 2 ^ 58)%Z ->
  (1 <= k < 2 ^ 62)%Z -> inp <> [] -> (length inp mod Z.to_nat k = 0)%nat ->
  exists s ps, BytesToStringSep inp k = Ret s /\ string_expression s = Some ps
    /\ concat ps = inp /\ Forall (fun p => length p = Z.to_nat k) ps.
Proof.
  intros inp k B S K Ne M. destruct (StringSep_sections inp k B S K Ne M) as (s & E & P).
  exact (ex_intro _ s (ex_intro _ _ (conj E (conj P
    (conj (pieces_concat _ (proj1 (Z2Nat.inj_lt 0 k (Z.le_refl 0) (Z.le_trans _ _ _ Z.le_0_1 (proj1 K)))
       (Z.lt_le_trans _ _ _ Z.lt_0_1 (proj1 K))) inp)
     (pieces_length _ (proj1 (Z2Nat.inj_lt 0 k (Z.le_refl 0) (Z.le_trans _ _ _ Z.le_0_1 (proj1 K)))
       (Z.lt_le_trans _ _ _ Z.lt_0_1 (proj1 K))) inp M)))))).
Qed.
Print Assumptions C51_sections_partial.

(** The text, character by character. *)
Theorem C51_text_partial : forall inp k, bytes_ok inp -> (Z.of_nat (length inp) < 2 ^ 58)%Z ->
  (1 <= k < 2 ^ 62)%Z -> inp <> [] -> (length inp mod Z.to_nat k = 0)%nat ->
  BytesToStringSep inp k = Ret (go_strings (Z.to_nat k) inp).
Proof. exact StringSep_exact. Qed.
Print Assumptions C51_text_partial.

(** Failure: in every other case it panics (k is any Go int). *)
Theorem C51_panics_partial : forall inp k, bytes_ok inp -> (Z.of_nat (length inp) < 2 ^ 58)%Z ->
  (k < 2 ^ 63)%Z -> (k < 1)%Z \/ inp = [] \/ (length inp mod Z.to_nat k <> 0)%nat ->
  BytesToStringSep inp k = Panic.
Proof. exact StringSep_panics. Qed.
Print Assumptions C51_panics_partial.

Theorem C51_refuted :
  (exists inp k, bytes_ok inp /\ inp <> [] /\ (1 <= k <= Z.of_nat (length inp))%Z /\ BytesToStringSep inp k = Panic)
  /\ (exists k, (1 <= k)%Z /\ BytesToStringSep [] k = Panic).
Proof.
  split; [exists [1; 2; 3], 2%Z|exists 1%Z]; vm_compute; repeat split; try discriminate.
  repeat constructor.
Qed.
Print Assumptions C51_refuted.

Example C51_nonvacuous :
  BytesToStringSep [1; 2; 3; 4] 2 = Ret [34; 92;120;48;49; 92;120;48;50; 34; 43; 34; 92;120;48;51; 92;120;48;52; 34]
  /\ string_expression [34; 92;120;48;49; 92;120;48;50; 34; 43; 34; 92;120;48;51; 92;120;48;52; 34] = Some [[1; 2]; [3; 4]].
Proof. split; vm_compute; reflexivity. Qed.

(** ** C52 BytesToHexSep *)

Theorem C52_lines_partial : forall inp k, bytes_ok inp -> (Z.of_nat (length inp) < 2 ^ 58)%Z ->
  (1 <= k < 2 ^ 62)%Z -> inp <> [] -> (length inp mod Z.to_nat k = 0)%nat ->
  exists s ls, BytesToHexSep inp k = Ret s /\ byte_list s = Some ls
    /\ concat ls = inp /\ Forall (fun p => length p = Z.to_nat k) ls.
Proof.
  intros inp k B S K Ne M. destruct (HexSep_lines inp k B S K Ne M) as (s & E & P).
  exact (ex_intro _ s (ex_intro _ _ (conj E (conj P
    (conj (pieces_concat _ (proj1 (Z2Nat.inj_lt 0 k (Z.le_refl 0) (Z.le_trans _ _ _ Z.le_0_1 (proj1 K)))
       (Z.lt_le_trans _ _ _ Z.lt_0_1 (proj1 K))) inp)
     (pieces_length _ (proj1 (Z2Nat.inj_lt 0 k (Z.le_refl 0) (Z.le_trans _ _ _ Z.le_0_1 (proj1 K)))
       (Z.lt_le_trans _ _ _ Z.lt_0_1 (proj1 K))) inp M)))))).
Qed.
Print Assumptions C52_lines_partial.

(** The text, character by character. *)
Theorem C52_text_partial : forall inp k, bytes_ok inp -> (Z.of_nat (length inp) < 2 ^ 58)%Z ->
  (1 <= k < 2 ^ 62)%Z -> inp <> [] -> (length inp mod Z.to_nat k = 0)%nat ->
  BytesToHexSep inp k = Ret (go_list (Z.to_nat k) inp).
Proof. exact HexSep_exact. Qed.
Print Assumptions C52_text_partial.

Theorem C52_panics_partial : forall inp k, bytes_ok inp -> (Z.of_nat (length inp) < 2 ^ 58)%Z ->
  (k < 2 ^ 63)%Z -> (k < 1)%Z \/ inp = [] \/ (length inp mod Z.to_nat k <> 0)%nat ->
  BytesToHexSep inp k = Panic.
Proof. exact HexSep_panics. Qed.
Print Assumptions C52_panics_partial.

Theorem C52_refuted :
  (exists inp k, bytes_ok inp /\ inp <> [] /\ (1 <= k <= Z.of_nat (length inp))%Z /\ BytesToHexSep inp k = Panic)
  /\ (exists k, (1 <= k)%Z /\ BytesToHexSep [] k = Panic).
Proof.
  split; [exists [1; 2; 3], 2%Z|exists 1%Z]; vm_compute; repeat split; try discriminate.
  repeat constructor.
Qed.
Print Assumptions C52_refuted.

Example C52_nonvacuous :
  BytesToHexSep [1; 2; 171; 4] 2
    = Ret [123; 48;120;48;49; 44;32; 48;120;48;50; 44;32;10; 48;120;65;66; 44;32; 48;120;48;52; 125]
  /\ byte_list [123; 48;120;48;49; 44;32; 48;120;48;50; 44;32;10; 48;120;65;66; 44;32; 48;120;48;52; 125]
    = Some [[1; 2]; [171; 4]].
Proof. split; vm_compute; reflexivity. Qed.
