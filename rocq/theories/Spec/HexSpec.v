(** Specification of hexadecimal text, independent of the code. *)
From Verif Require Import Base.Go.
Local Open Scope N_scope.

(** Value of a hex character code ('0'-'9', 'A'-'F', 'a'-'f'), if it is one. *)
Definition digit_value (c : N) : option N :=
  if (48 <=? c) && (c <=? 57) then Some (c - 48)
  else if (65 <=? c) && (c <=? 70) then Some (c - 55)
  else if (97 <=? c) && (c <=? 102) then Some (c - 87)
  else None.

Definition is_hex_char (c : N) : Prop := digit_value c <> None.

(** Upper-case digit of a nibble. *)
Definition upper_digit (v : N) : N := if v <? 10 then 48 + v else 55 + v.

(** Two-digit numeral of a byte. *)
Definition numeral (b : N) : list N := [upper_digit (b / 16); upper_digit (b mod 16)].

(** ASCII upper-casing of one character. *)
Definition to_upper (c : N) : N := if (97 <=? c) && (c <=? 122) then c - 32 else c.

(** [c] sits at index [i] of [s], is not a hex character, and everything
    before it is. *)
Definition first_invalid (s : list N) (i : nat) (c : N) : Prop :=
  nth_error s i = Some c /\ ~ is_hex_char c /\
  forall j d, (j < i)%nat -> nth_error s j = Some d -> is_hex_char d.
