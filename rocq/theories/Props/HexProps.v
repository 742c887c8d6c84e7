(** Properties C01-C08: package encoding/hex. *)
From Verif Require Import Base.Go Model.Hex Spec.HexSpec Proofs.HexProofs.
Local Open Scope N_scope.

(** Strings used below: "C0ffEE", "0G", "1x2", "ABC". *)
Definition s_coffee : list N := [67;48;102;102;69;69].
Definition s_0G : list N := [48;71].
Definition s_1x2 : list N := [49;120;50].
Definition s_ABC : list N := [65;66;67].

Theorem C01_roundtrip : forall bd src,
  bytes_ok src ->
  exists s, FromBytes src = Ret s
    /\ ToBytes bd s = Ret (Some src, None)
    /\ ToBytesFast bd s = Ret (Some src).
Proof. exact roundtrip. Qed.
Print Assumptions C01_roundtrip.

Example C01_nonvacuous : bytes_ok [0;192;255;238]
  /\ FromBytes [0;192;255;238] = Ret [48;48;67;48;70;70;69;69].
Proof. split; [repeat constructor|vm_compute; reflexivity]. Qed.

Theorem C02_encoding : forall src,
  bytes_ok src ->
  FromBytes src = Ret (flat_map numeral src)
  /\ length (flat_map numeral src) = (2 * length src)%nat.
Proof. exact (fun src H => conj (fromBytes_correct src H) (numeral_length src)). Qed.
Print Assumptions C02_encoding.

Theorem C02_injective : forall a b,
  bytes_ok a -> bytes_ok b -> FromBytes a = FromBytes b -> a = b.
Proof. exact fromBytes_injective. Qed.
Print Assumptions C02_injective.

Example C02_nonvacuous : FromBytes [1;171] = Ret [48;49;65;66]
  /\ flat_map numeral [1;171] = [48;49;65;66].
Proof. split; vm_compute; reflexivity. Qed.

Theorem C03_accepts : forall bd s,
  bytes_ok s ->
  (exists r e, ToBytes bd s = Ret (r, e)) /\
  ((exists r, ToBytes bd s = Ret (r, None)) <->
     Nat.even (length s) = true /\ Forall is_hex_char s) /\
  (forall r, ToBytes bd s = Ret (r, None) ->
     exists out, r = Some out /\ length out = Nat.div (length s) 2 /\
     forall k, (k < length out)%nat ->
       exists a b va vb, nth_error s (2 * k) = Some a /\ nth_error s (2 * k + 1) = Some b
       /\ digit_value a = Some va /\ digit_value b = Some vb
       /\ nth_error out k = Some (16 * va + vb)).
Proof. exact toBytes_accepts. Qed.
Print Assumptions C03_accepts.

Example C03_nonvacuous : ToBytes Tiny s_coffee = Ret (Some [192;255;238], None)
  /\ ToBytes Default s_coffee = Ret (Some [192;255;238], None).
Proof. split; vm_compute; reflexivity. Qed.

Theorem C04_errors : forall bd s,
  bytes_ok s ->
  (forall i c, first_invalid s i c ->
     ToBytes bd s = Ret (None, Some (InvalidHexAt c (Z.of_nat i)))) /\
  (Forall is_hex_char s -> Nat.even (length s) = false ->
     ToBytes bd s = Ret (None, Some ErrLength)) /\
  (forall r e, ToBytes bd s = Ret (r, Some e) -> r = None).
Proof. exact toBytes_errors. Qed.
Print Assumptions C04_errors.

Example C04_nonvacuous :
  first_invalid s_1x2 1 120
  /\ (Forall is_hex_char s_ABC /\ Nat.even (length s_ABC) = false)
  /\ ToBytes Default s_1x2 = Ret (None, Some (InvalidHexAt 120 1))
  /\ ToBytes Tiny s_ABC = Ret (None, Some ErrLength).
Proof.
  repeat split; try (vm_compute; reflexivity).
  - vm_compute. congruence.
  - intros [|j] d Hj Hd; [|lia]. injection Hd as <-. vm_compute. discriminate.
  - repeat constructor; vm_compute; discriminate.
Qed.

Theorem C05_fast : forall bd s,
  bytes_ok s ->
  (ToBytesFast bd s = Ret None <-> exists e, ToBytes bd s = Ret (None, Some e)) /\
  (forall out, ToBytesFast bd s = Ret (Some out) <-> ToBytes bd s = Ret (Some out, None)) /\
  (exists r, ToBytesFast bd s = Ret r).
Proof. exact fast_agrees. Qed.
Print Assumptions C05_fast.

Example C05_nonvacuous : ToBytesFast Default s_0G = Ret None
  /\ ToBytesFast Default [] = Ret (Some [])
  /\ ToBytesFast Tiny s_coffee = Ret (Some [192;255;238]).
Proof. repeat split; vm_compute; reflexivity. Qed.

Theorem C06_builds : forall s,
  bytes_ok s ->
  ToBytes Tiny s = ToBytes Default s /\ ToBytesFast Tiny s = ToBytesFast Default s.
Proof. exact builds_agree. Qed.
Print Assumptions C06_builds.

Example C06_nonvacuous : bytes_ok s_0G
  /\ decode Tiny 71 <> decode Default 71. (* the decoders differ on invalid input *)
Proof. split; [repeat constructor|vm_compute; discriminate]. Qed.

Theorem C07_case : forall bd s t,
  bytes_ok s -> bytes_ok t -> map to_upper s = map to_upper t ->
  forall out, ToBytes bd s = Ret (Some out, None) <-> ToBytes bd t = Ret (Some out, None).
Proof. exact case_insensitive. Qed.
Print Assumptions C07_case.

Theorem C07_reencode : forall bd s out,
  bytes_ok s -> ToBytes bd s = Ret (Some out, None) -> FromBytes out = Ret (map to_upper s).
Proof. exact reencode. Qed.
Print Assumptions C07_reencode.

(** The same for errors: same kind, same place, same character up to case. *)
Theorem C07_case_errors : forall bd s t,
  bytes_ok s -> bytes_ok t -> map to_upper s = map to_upper t ->
  (ToBytes bd s = Ret (None, Some ErrLength) <-> ToBytes bd t = Ret (None, Some ErrLength)) /\
  forall c i, ToBytes bd s = Ret (None, Some (InvalidHexAt c i)) ->
    exists d, to_upper d = to_upper c /\ ToBytes bd t = Ret (None, Some (InvalidHexAt d i)).
Proof. exact case_errors. Qed.
Print Assumptions C07_case_errors.

Example C07_nonvacuous : bytes_ok s_coffee
  /\ map to_upper s_coffee = [67;48;70;70;69;69]
  /\ ToBytes Default [67;48;70;70;69;69] = ToBytes Default s_coffee
  /\ ToBytes Default s_coffee = Ret (Some [192;255;238], None).
Proof. split; [repeat constructor|repeat split; vm_compute; reflexivity]. Qed.

(** "Invalid hex: " <char> " @ " <index>; the character as UTF-8. *)
Theorem C08_text : forall b pos, b < 256 ->
  exists ch, Error (InvalidHexAt b pos) =
    [73;110;118;97;108;105;100;32;104;101;120;58;32] ++ ch ++ [32;64;32] ++ fmt_d pos
  /\ (b < 128 -> ch = [b]) /\ (128 <= b -> ch = [192 + b / 64; 128 + b mod 64]).
Proof. exact error_text. Qed.
Print Assumptions C08_text.

Theorem C08_injective : forall b i c j,
  b < 256 -> c < 256 -> Error (InvalidHexAt b i) = Error (InvalidHexAt c j) -> b = c /\ i = j.
Proof. exact error_inj. Qed.
Print Assumptions C08_injective.

(** "hex string must be composed of pairs of hex values", never the text of
    the other error. *)
Theorem C08_length_text :
  Error ErrLength = [104;101;120;32;115;116;114;105;110;103;32;109;117;115;116;32;98;101;32;99;111;109;112;111;115;101;
    100;32;111;102;32;112;97;105;114;115;32;111;102;32;104;101;120;32;118;97;108;117;101;115]
  /\ forall b pos, Error (InvalidHexAt b pos) <> Error ErrLength.
Proof. split; [reflexivity|]. intros b pos E. discriminate E. Qed.
Print Assumptions C08_length_text.

(** [fmt_d] is decimal: reading the text back gives the number. *)
Theorem C08_decimal : forall n, (0 <= n)%Z ->
  fold_left (fun acc c => 10 * acc + (Z.of_N c - 48))%Z (fmt_d n) 0%Z = n
  /\ Forall (fun c => 48 <= c <= 57) (fmt_d n)
  /\ (n <> 0%Z -> hd 48 (fmt_d n) <> 48) /\ fmt_d n <> [].
Proof. exact fmt_d_value. Qed.
Print Assumptions C08_decimal.

Example C08_nonvacuous :
  Error (InvalidHexAt 120 10) =
    [73;110;118;97;108;105;100;32;104;101;120;58;32;120;32;64;32;49;48]
  /\ Error (InvalidHexAt 255 0) =
    [73;110;118;97;108;105;100;32;104;101;120;58;32;195;191;32;64;32;48].
Proof. split; vm_compute; reflexivity. Qed.
