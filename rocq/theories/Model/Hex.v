(** Model of package encoding/hex (/repo/encoding/hex). *)
From Verif Require Import Base.Go.
From Coq Require Import DecimalN DecimalZ.
Local Open Scope N_scope.

(** The two builds of the package: default (hex_256b.go) and tag [tiny]
    (hex_tiny.go). *)
Inductive build := Default | Tiny.

(** hex.go:15  const hexTable = "0123456789ABCDEF" (as character codes). *)
Definition hexTable : list N :=
  [48;49;50;51;52;53;54;55;56;57;65;66;67;68;69;70].

(** hex_256b.go:12-25  const asciiDecode ('~' = 126). Written in rows of 16,
    in the order of the source. *)
Definition tilde16 : list N := repeat 126 16.
Definition asciiDecode : list N :=
  tilde16 ++ tilde16 ++
  tilde16 ++ [0;1;2;3;4;5;6;7;8;9;126;126;126;126;126;126] ++
  [126;10;11;12;13;14;15;126;126;126;126;126;126;126;126;126] ++ tilde16 ++
  [126;10;11;12;13;14;15;126;126;126;126;126;126;126;126;126] ++ tilde16 ++
  tilde16 ++ tilde16 ++ tilde16 ++ tilde16 ++
  tilde16 ++ tilde16 ++ tilde16 ++ tilde16.

(** hex_256b.go:28-30  func decode *)
Definition decode_256b (b : N) : outcome N := idx asciiDecode (N.to_nat b).

(** hex_tiny.go:11,14-36  func decode: all operations are on bytes and wrap. *)
Definition decode_tiny (b : N) : outcome N :=
  let b := if 57 <? b then N.land b 223 (* mask6 = 0b11011111 *) else b in
  let b := sub8 b 48 in
  Ret (sub8 b (u8 (7 * N.shiftr (add8 b 15) 5))).

Definition decode (bd : build) (b : N) : outcome N :=
  match bd with Default => decode_256b b | Tiny => decode_tiny b end.

(** hex.go:18,21-24  the two error values. *)
Inductive hex_error :=
| ErrLength
| InvalidHexAt (b : N) (pos : Z).

(** hex.go:36-48  func FromBytes.  The loop counter runs over [src]; [ret] is
    the buffer made on line 38 and [ptr] its write position. *)
Fixpoint fromBytes_loop (src : list N) (ptr : nat) (ret : list N) : outcome (list N) :=
  match src with
  | [] => Ret ret
  | b :: src' =>
      let! hi := idx hexTable (N.to_nat (N.shiftr b 4)) in
      let! ret := upd ret ptr hi in
      let! lo := idx hexTable (N.to_nat (N.land b 0xF)) in
      let! ret := upd ret (ptr + 1) lo in
      fromBytes_loop src' (ptr + 2) ret
  end.

Definition FromBytes (src : list N) : outcome (list N) :=
  let! ret := make_bytes (Z.of_nat (length src) * 2) in
  fromBytes_loop src 0 ret.

(** How the loop of ToBytes is left: by a return inside it, or by the loop
    condition becoming false with the current [i] and [ret]. *)
Inductive tb_exit :=
| TbError (e : hex_error)
| TbDone (i : nat) (ret : list N).

(** hex.go:61-73  the loop of ToBytes. *)
Fixpoint toBytes_loop (bd : build) (hex : list N) (fuel : nat)
    (i ptr : nat) (ret : list N) : outcome tb_exit :=
  match fuel with
  | O => OutOfFuel
  | S fuel =>
      if Nat.ltb i (length hex) then
        let! c0 := idx hex (i - 1) in
        let! high := decode bd c0 in
        let! c1 := idx hex i in
        let! low := decode bd c1 in
        if negb (N.land high 0xF0 =? 0) then Ret (TbError (InvalidHexAt c0 (Z.of_nat i - 1)))
        else if negb (N.land low 0xF0 =? 0) then Ret (TbError (InvalidHexAt c1 (Z.of_nat i)))
        else
          let! ret := upd ret ptr (N.lor (shl8 high 4) low) in
          toBytes_loop bd hex fuel (i + 2) (ptr + 1) ret
      else Ret (TbDone i ret)
  end.

(** hex.go:54-84  func ToBytes; the result is the Go pair ([]byte, error) with
    nil as [None].  The fuel [len(hex)+1] is always enough (proved). *)
Definition ToBytes (bd : build) (hex : list N)
    : outcome (option (list N) * option hex_error) :=
  let n := length hex in
  let! ret := make_bytes (Z.of_nat n / 2) in
  let! r := toBytes_loop bd hex (n + 1) 1 0 ret in
  match r with
  | TbError e => Ret (None, Some e)
  | TbDone i ret =>
      if Nat.eqb (Nat.modulo n 2) 1 then
        let! c := idx hex (i - 1) in
        let! v := decode bd c in
        if 15 <? v then Ret (None, Some (InvalidHexAt c (Z.of_nat i - 1)))
        else Ret (None, Some ErrLength)
      else Ret (Some ret, None)
  end.

(** hex.go:96-105  the loop of ToBytesFast; [None] is the early [return nil]. *)
Fixpoint toBytesFast_loop (bd : build) (hex : list N) (fuel : nat)
    (i ptr : nat) (ret : list N) : outcome (option (list N)) :=
  match fuel with
  | O => OutOfFuel
  | S fuel =>
      if Nat.ltb i (length hex) then
        let! c0 := idx hex (i - 1) in
        let! high := decode bd c0 in
        let! c1 := idx hex i in
        let! low := decode bd c1 in
        if negb (N.land (N.lor high low) 0xF0 =? 0) then Ret None
        else
          let! ret := upd ret ptr (N.lor (shl8 high 4) low) in
          toBytesFast_loop bd hex fuel (i + 2) (ptr + 1) ret
      else Ret (Some ret)
  end.

(** hex.go:89-111  func ToBytesFast; nil is [None]. *)
Definition ToBytesFast (bd : build) (hex : list N) : outcome (option (list N)) :=
  let n := length hex in
  let! ret := make_bytes (Z.of_nat n / 2) in
  let! r := toBytesFast_loop bd hex (n + 1) 1 0 ret in
  match r with
  | None => Ret None
  | Some ret => if Nat.eqb (Nat.modulo n 2) 1 then Ret None else Ret (Some ret)
  end.

(** Decimal rendering of an int, as fmt's %d does (Go standard library). *)
Fixpoint uint_chars (u : Decimal.uint) : list N :=
  match u with
  | Decimal.Nil => []
  | Decimal.D0 u => 48 :: uint_chars u
  | Decimal.D1 u => 49 :: uint_chars u
  | Decimal.D2 u => 50 :: uint_chars u
  | Decimal.D3 u => 51 :: uint_chars u
  | Decimal.D4 u => 52 :: uint_chars u
  | Decimal.D5 u => 53 :: uint_chars u
  | Decimal.D6 u => 54 :: uint_chars u
  | Decimal.D7 u => 55 :: uint_chars u
  | Decimal.D8 u => 56 :: uint_chars u
  | Decimal.D9 u => 57 :: uint_chars u
  end.
Definition fmt_d (z : Z) : list N :=
  match Z.to_int z with
  | Decimal.Pos u => uint_chars u
  | Decimal.Neg u => 45 :: uint_chars u
  end.

(** Go's string(b) for a byte b: the UTF-8 encoding of the rune U+00b. *)
Definition string_of_byte (b : N) : list N :=
  if b <? 128 then [b]
  else [N.lor 0xC0 (N.shiftr b 6); N.lor 0x80 (N.land b 0x3F)].

(** hex.go:26-28  invalidHexAtError.Error: "Invalid hex: %s @ %d"; and
    hex.go:18 the text of ErrLength
    "hex string must be composed of pairs of hex values". *)
Definition Error (e : hex_error) : list N :=
  match e with
  | InvalidHexAt b pos =>
      [73;110;118;97;108;105;100;32;104;101;120;58;32] ++ string_of_byte b ++
      [32;64;32] ++ fmt_d pos
  | ErrLength =>
      [104;101;120;32;115;116;114;105;110;103;32;109;117;115;116;32;98;101;32;
       99;111;109;112;111;115;101;100;32;111;102;32;112;97;105;114;115;32;111;
       102;32;104;101;120;32;118;97;108;117;101;115]
  end.
