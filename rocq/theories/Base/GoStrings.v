(** Go strings as byte lists, and strings.Split(s, "") of the Go standard
    library. *)
From Verif Require Import Base.Go.
Local Open Scope N_scope.

Definition in_range (lo hi b : N) : bool := (lo <=? b) && (b <=? hi).

(** The size unicode/utf8.DecodeRuneInString reports at the start of a non-empty
    string: the length of a well-formed UTF-8 sequence, or 1. *)
Definition rune_size (s : list N) : nat :=
  match s with
  | b0 :: b1 :: _ =>
      if in_range 0xC2 0xDF b0 && in_range 0x80 0xBF b1 then 2%nat else
      match s with
      | _ :: _ :: b2 :: _ =>
          if (((b0 =? 0xE0) && in_range 0xA0 0xBF b1)
              || ((in_range 0xE1 0xEC b0 || in_range 0xEE 0xEF b0) && in_range 0x80 0xBF b1)
              || ((b0 =? 0xED) && in_range 0x80 0x9F b1))
             && in_range 0x80 0xBF b2 then 3%nat else
          match s with
          | _ :: _ :: _ :: b3 :: _ =>
              if (((b0 =? 0xF0) && in_range 0x90 0xBF b1)
                  || (in_range 0xF1 0xF3 b0 && in_range 0x80 0xBF b1)
                  || ((b0 =? 0xF4) && in_range 0x80 0x8F b1))
                 && in_range 0x80 0xBF b2 && in_range 0x80 0xBF b3 then 4%nat else 1%nat
          | _ => 1%nat
          end
      | _ => 1%nat
      end
  | _ => 1%nat
  end.

(** strings.Split(s, ""): one string per character, invalid bytes on their own. *)
Fixpoint explode_fuel (n : nat) (s : list N) : list (list N) :=
  match n, s with
  | S n', _ :: _ => firstn (rune_size s) s :: explode_fuel n' (skipn (rune_size s) s)
  | _, _ => []
  end.
Definition explode (s : list N) : list (list N) := explode_fuel (length s) s.

(** The same in Go versions that return U+FFFD (three bytes) for an invalid byte. *)
Definition replaced (p : list N) : list N :=
  match p with [b] => if b <? 0x80 then [b] else [0xEF; 0xBF; 0xBD] | _ => p end.
Definition explode_replacing (s : list N) : list (list N) := map replaced (explode s).
