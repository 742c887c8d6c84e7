(** Specifications of hash histories and of the checksums, independent of the
    code. *)
From Verif Require Import Base.Go Base.HashApi.
Local Open Scope N_scope.

(** ** Histories *)

(** What a user must observe along a history of calls, given the checksum
    value as a function [value] of the list of writes made since the last
    Reset (or creation), the byte form [ser] of a value, and the two
    advertised sizes. *)
Fixpoint trace (value : list (list N) -> N) (ser : N -> list N) (size bsize : nat)
    (ws : list (list N)) (cs : list call) : list result :=
  match cs with
  | [] => []
  | CWrite p :: cs' => RWrite (length p) :: trace value ser size bsize (ws ++ [p]) cs'
  | CSum inp :: cs' => RSum (inp ++ ser (value ws)) :: trace value ser size bsize ws cs'
  | CValue :: cs' => RValue (value ws) :: trace value ser size bsize ws cs'
  | CReset :: cs' => RUnit :: trace value ser size bsize [] cs'
  | CSize :: cs' => RInt size :: trace value ser size bsize ws cs'
  | CBlockSize :: cs' => RInt bsize :: trace value ser size bsize ws cs'
  end.

(** The writes made since the last Reset, starting from [ws]. *)
Fixpoint since_reset (ws : list (list N)) (cs : list call) : list (list N) :=
  match cs with
  | [] => ws
  | CWrite p :: cs' => since_reset (ws ++ [p]) cs'
  | CReset :: cs' => since_reset [] cs'
  | _ :: cs' => since_reset ws cs'
  end.

(** Big-endian bytes of [v], [n] of them. *)
Fixpoint big_endian (n : nat) (v : N) : list N :=
  match n with
  | O => []
  | S n' => big_endian n' (v / 256) ++ [v mod 256]
  end.

(** ** BCC, LRC *)

Definition xor_all (l : list N) : N := fold_right N.lxor 0 l.
Definition sum_all (l : list N) : N := fold_right N.add 0 l.

(** The alternating sum of a sequence of writes: the last one counts -1, the
    one before +1, and so on. *)
Fixpoint alternating (ws : list (list N)) : Z :=
  match ws with
  | [] => 0
  | p :: ws' => (if Nat.even (length ws') then -1 else 1) * Z.of_N (sum_all p) + alternating ws'
  end%Z.

(** ** Fletcher *)

(** All prefix sums w0, w0+w1, ... *)
Definition prefix_sums (l : list N) : list N :=
  map (fun k => sum_all (firstn (S k) l)) (seq 0 (length l)).

(** The pair of Fletcher sums of a word list, modulo [M]. *)
Definition fletcher_a (M : N) (l : list N) : N := sum_all l mod M.
Definition fletcher_b (M : N) (l : list N) : N := sum_all (prefix_sums l) mod M.

(** The checksum: b in the high half, a in the low half ([H] = 2^half). *)
Definition fletcher (M H : N) (l : list N) : N := fletcher_b M l * H + fletcher_a M l.

(** Accumulating in 32-bit words, batch by batch.  [fl_lost m k bs]: the number
    of batches of [bs] whose unreduced second sum does not fit in 32 bits, plus
    [k], when the bytes before [bs] are [m] and [k] batches of them did not fit.
    Each such batch loses 2^32, that is 1 modulo 255, from the second sum. *)
Definition fl_b_lost (m : list N) (k : N) : N := (fletcher_b 255 m + 254 * k) mod 255.
Fixpoint fl_lost (m : list N) (k : N) (bs : list (list N)) : N :=
  match bs with
  | [] => k
  | p :: bs' =>
      let b := fl_b_lost m k + N.of_nat (length p) * fletcher_a 255 m + sum_all (prefix_sums p) in
      fl_lost (m ++ p) (if b <? 2 ^ 32 then k else k + 1) bs'
  end.

(** Consecutive batches of [n] bytes, the last one shorter. *)
Fixpoint batches_fuel (fuel n : nat) (p : list N) : list (list N) :=
  match fuel, p with
  | S fuel', _ :: _ => firstn n p :: batches_fuel fuel' n (skipn n p)
  | _, _ => []
  end.
Definition batches (n : N) (p : list N) : list (list N) :=
  batches_fuel (length p) (N.to_nat n) p.

(** What a Fletcher-16 that works in batches of 5803 bytes shows after the
    writes [ws], and the lengths it can take. *)
Definition f16_lost (ws : list (list N)) : N := fl_lost [] 0 (flat_map (batches 5803) ws).
Definition f16_value (ws : list (list N)) : N :=
  fl_b_lost (concat ws) (f16_lost ws) * 2 ^ 8 + fletcher_a 255 (concat ws).
Definition f16_len (p : list N) : Prop :=
  N.of_nat (length p) <= 5803 \/ N.of_nat (length p) mod 5803 = 0.

(** Little-endian 16- and 32-bit words of a byte string, short tail zero
    extended. *)
Fixpoint words16 (l : list N) : list N :=
  match l with
  | [] => []
  | [x] => [x]
  | x :: y :: l' => x + 256 * y :: words16 l'
  end.

Fixpoint words32 (l : list N) : list N :=
  match l with
  | [] => []
  | [x] => [x]
  | [x; y] => [x + 256 * y]
  | [x; y; z] => [x + 256 * y + 65536 * z]
  | x :: y :: z :: t :: l' => x + 256 * y + 65536 * z + 16777216 * t :: words32 l'
  end.

(** Four bytes as a 32-bit word, low byte first. *)
Definition word32 (w : N * N * N * N) : N :=
  let '(x, y, z, t) := w in x + 256 * y + 65536 * z + 16777216 * t.
Definition word32_bytes (w : N * N * N * N) : list N :=
  let '(x, y, z, t) := w in [x; y; z; t].

(** ** Luhn *)

(** Digits are written least significant first.  Every second digit is
    doubled and the decimal digits of the product are added; [dbl] says
    whether the first digit is one of the doubled ones. *)
Definition luhn_term (dbl : bool) (d : N) : N :=
  if dbl then (2 * d) / 10 + (2 * d) mod 10 else d.

Fixpoint luhn_sum (dbl : bool) (ds : list N) : N :=
  match ds with
  | [] => 0
  | d :: ds' => luhn_term dbl d + luhn_sum (negb dbl) ds'
  end.

(** The usual validity test on a full number, check digit included. *)
Definition luhn_valid (ds : list N) : Prop := luhn_sum false ds mod 10 = 0.

Fixpoint digits_value (ds : list N) : N :=
  match ds with
  | [] => 0
  | d :: ds' => d + 10 * digits_value ds'
  end.
Definition digits_ok (ds : list N) : Prop := Forall (fun d => d < 10) ds.
