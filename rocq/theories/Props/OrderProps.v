(** Property C91: hex text, order and pieces. *)
From Verif Require Import Base.Go Spec.HexSpec Spec.OrderSpec Model.Hex Proofs.OrderProofs.
Local Open Scope N_scope.

(** Texts compare as the bytes do. *)
Theorem C91_order : forall a b s t, bytes_ok a -> bytes_ok b ->
  FromBytes a = Ret s -> FromBytes b = Ret t -> lex s t = lex a b.
Proof. exact hex_order. Qed.
Print Assumptions C91_order.

Theorem C91_prefix : forall a b s t, bytes_ok a -> bytes_ok b ->
  FromBytes a = Ret s -> FromBytes b = Ret t -> (starts_with t s <-> starts_with b a).
Proof. exact hex_prefix. Qed.
Print Assumptions C91_prefix.

(** Encoding in pieces, and decoding in pieces of even length: the bytes are
    joined, and an error in a later piece is found at its place in the whole. *)
Theorem C91_encode_pieces : forall a b s t, bytes_ok a -> bytes_ok b ->
  FromBytes a = Ret s -> FromBytes b = Ret t -> FromBytes (a ++ b) = Ret (s ++ t).
Proof. exact hex_pieces. Qed.
Print Assumptions C91_encode_pieces.

Theorem C91_decode_pieces : forall bd s t a, bytes_ok s -> bytes_ok t ->
  ToBytes bd s = Ret (Some a, None) ->
  (forall b, ToBytes bd t = Ret (Some b, None) -> ToBytes bd (s ++ t) = Ret (Some (a ++ b), None)) /\
  (forall c i, ToBytes bd t = Ret (None, Some (InvalidHexAt c i)) ->
     ToBytes bd (s ++ t) = Ret (None, Some (InvalidHexAt c (Z.of_nat (length s) + i)))) /\
  (ToBytes bd t = Ret (None, Some ErrLength) -> ToBytes bd (s ++ t) = Ret (None, Some ErrLength)).
Proof. exact decode_pieces. Qed.
Print Assumptions C91_decode_pieces.

Example C91_nonvacuous :
  FromBytes [9; 171] = Ret [48; 57; 65; 66] /\ FromBytes [9; 171; 2] = Ret [48; 57; 65; 66; 48; 50]
  /\ FromBytes [160] = Ret [65; 48]
  /\ lex [9; 171] [160] = Lt /\ lex [48; 57; 65; 66] [65; 48] = Lt
  /\ ToBytes Default [97; 98] = Ret (Some [171], None)
  /\ ToBytes Default [48; 120] = Ret (None, Some (InvalidHexAt 120 1))
  /\ ToBytes Default [97; 98; 48; 120] = Ret (None, Some (InvalidHexAt 120 3)).
Proof. repeat split; vm_compute; reflexivity. Qed.
