(** Model of package checksum/luhn (/repo/checksum/luhn/luhn.go). *)
From Verif Require Import Base.Go.
Local Open Scope N_scope.

(** luhn.go:13-19  the loop (all operations on uint64). *)
Fixpoint loop (fuel : nat) (i ret mul : N) : outcome N :=
  if 0 <? i then
    match fuel with
    | O => OutOfFuel
    | S fuel' =>
        let v := i mod 10 in
        let i := (i - v) / 10 in
        let v := u64 (v * mul) in
        let ret := add64 ret (add64 (v mod 10) (v / 10)) in
        let mul := add64 1 (mul mod 2) in
        loop fuel' i ret mul
    end
  else Ret ret.

(** luhn.go:10-21  func Checksum. The fuel (number of bits of i) is always
    enough (proved). *)
Definition Checksum (i : N) : outcome N :=
  let! ret := loop (N.size_nat i) i 0 2 in
  Ret (u8 ((10 - ret mod 10) mod 10)).
