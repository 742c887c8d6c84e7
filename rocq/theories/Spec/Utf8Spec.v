(** UTF-8 (RFC 3629, Unicode D92), independent of the code. *)
From Verif Require Import Base.Go.
Local Open Scope N_scope.

(** Unicode scalar values: code points without the surrogates. *)
Definition scalar (c : N) : Prop := c < 0xD800 \/ 0xE000 <= c <= 0x10FFFF.

Definition utf8 (c : N) : list N :=
  if c <? 0x80 then [c]
  else if c <? 0x800 then [0xC0 + c / 64; 0x80 + c mod 64]
  else if c <? 0x10000 then [0xE0 + c / 4096; 0x80 + c / 64 mod 64; 0x80 + c mod 64]
  else [0xF0 + c / 262144; 0x80 + c / 4096 mod 64; 0x80 + c / 64 mod 64; 0x80 + c mod 64].

(** Does the string start with the encoding of a scalar value? *)
Definition starts_well (s : list N) : Prop := exists c r, scalar c /\ s = utf8 c ++ r.

(** The characters of a string: the encodings it consists of, and every byte
    no encoding starts at on its own. *)
Inductive characters : list N -> list (list N) -> Prop :=
| Ch_end : characters [] []
| Ch_scalar c s l : scalar c -> characters s l -> characters (utf8 c ++ s) (utf8 c :: l)
| Ch_byte b s l : ~ starts_well (b :: s) -> characters s l -> characters (b :: s) ([b] :: l).

(** The same with U+FFFD in place of every byte no encoding starts at. *)
Inductive characters_fffd : list N -> list (list N) -> Prop :=
| Cf_end : characters_fffd [] []
| Cf_scalar c s l : scalar c -> characters_fffd s l -> characters_fffd (utf8 c ++ s) (utf8 c :: l)
| Cf_byte b s l : ~ starts_well (b :: s) -> characters_fffd s l -> characters_fffd (b :: s) (utf8 0xFFFD :: l).

(** Below a common leading code point: itself if it is a control character of
    ASCII, else '-'. *)
Definition mark (c : N) : N := if (c <? 32) || (c =? 127) then c else 45.

(** Valid UTF-8. *)
Definition valid (s : list N) : Prop := exists cs, Forall scalar cs /\ s = flat_map utf8 cs.
(** A continuation byte, which is in no first place. *)
Definition continuation (b : N) : Prop := 0x80 <= b < 0xC0.
