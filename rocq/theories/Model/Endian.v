(** Model of package endian (/repo/endian/endian.go). *)
From Verif Require Import Base.Go.
Local Open Scope N_scope.

(** How the machine stores a uint16 in two bytes. *)
Inductive layout := LowByteFirst | HighByteFirst.
Definition store16 (m : layout) (v : N) : list N :=
  match m with
  | LowByteFirst => [v mod 256; v / 256]
  | HighByteFirst => [v / 256; v mod 256]
  end.

Record vars := mkVars { Platform : byte_order; SourceCode : byte_order; Network : byte_order }.

(** endian.go:20-39  func init *)
Definition init (m : layout) : outcome vars :=
  let b := store16 m 0xABCD in
  let! b0 := idx b 0 in
  if b0 =? 0xCD then Ret (mkVars LittleEndian BigEndian BigEndian)
  else if b0 =? 0xAB then Ret (mkVars BigEndian BigEndian BigEndian)
  else Panic.
