(** Model of package codegen (/repo/codegen). Go int is taken to be 64 bits. *)
From Verif Require Import Base.Go Model.Hex.
Local Open Scope N_scope.

(** Signed 64-bit wrap-around, and int division (panics on 0, truncates). *)
Definition int64 (z : Z) : Z := ((z + 2 ^ 63) mod 2 ^ 64 - 2 ^ 63)%Z.
Definition int_quot (a b : Z) : outcome Z := if Z.eqb b 0 then Panic else Ret (int64 (Z.quot a b)).

(** BytesToString.go:19-27  the loop of BytesToString; returns ret and ptr.
    Character codes: 34 double quote, 43 plus, 92 backslash, 120 'x'. *)
Fixpoint string_loop (h : list N) (i ptr : nat) (ret : list N) : outcome (list N * nat) :=
  match h with
  | [] => Ret (ret, ptr)
  | b :: h' =>
      let! (ret, ptr) :=
        (if Nat.even i then
           let! ret := upd ret ptr 92 in
           let! ret := upd ret (ptr + 1) 120 in
           Ret (ret, (ptr + 2)%nat)
         else Ret (ret, ptr)) in
      let! ret := upd ret ptr b in
      string_loop h' (i + 1) (ptr + 1) ret
  end.
(** BytesToString.go:11-30  BytesToString *)
Definition BytesToString (inp : list N) : outcome (list N) :=
  let! h := FromBytes inp in
  let n := Z.of_nat (length h) in
  let! ret := make_bytes (int64 (int64 (n * 2) + 2)) in
  let! ret := upd ret 0 34 in
  let! (ret, ptr) := string_loop h 0 1 ret in
  upd ret ptr 34.

(** BytesToString.go:54-68  the loop of BytesToStringSep *)
Fixpoint string_sep_loop (hexPerSection : Z) (h : list N) (i ptr : nat) (ret : list N) : outcome (list N * nat) :=
  match h with
  | [] => Ret (ret, ptr)
  | b :: h' =>
      let! (ret, ptr) :=
        (if Nat.even i then
           let! (ret, ptr) :=
             (if (Z.eqb (Z.rem (Z.of_nat i) hexPerSection) 0 && Nat.ltb 1 ptr)%bool then
                let! ret := upd ret ptr 34 in
                let! ret := upd ret (ptr + 1) 43 in
                let! ret := upd ret (ptr + 2) 34 in
                Ret (ret, (ptr + 3)%nat)
              else Ret (ret, ptr)) in
           let! ret := upd ret ptr 92 in
           let! ret := upd ret (ptr + 1) 120 in
           Ret (ret, (ptr + 2)%nat)
         else Ret (ret, ptr)) in
      let! ret := upd ret ptr b in
      string_sep_loop hexPerSection h' (i + 1) (ptr + 1) ret
  end.
(** BytesToString.go:35-71  BytesToStringSep *)
Definition BytesToStringSep (inp : list N) (bytesPerSection : Z) : outcome (list N) :=
  if Z.ltb bytesPerSection 1 then Panic
  else
    let! h := FromBytes inp in
    let n := Z.of_nat (length h) in
    let retLen := int64 (n * 2) in
    let hexPerSection := int64 (bytesPerSection * 2) in
    let! q := int_quot n hexPerSection in
    let retLen := int64 (retLen + int64 (3 * int64 (q - 1))) in
    let retLen := int64 (retLen + 2) in
    let! ret := make_bytes retLen in
    let! ret := upd ret 0 34 in
    let! (ret, ptr) := string_sep_loop hexPerSection h 0 1 ret in
    upd ret ptr 34.

(** BytesToHexSep.go:31-48  the loop of BytesToHexSep. Character codes: 10 line
    feed, 32 space, 44 comma, 48 '0', 120 'x', 123 and 125 braces. *)
Fixpoint hex_sep_loop (hexPerSection : Z) (h : list N) (i ptr : nat) (ret : list N) : outcome (list N * nat) :=
  match h with
  | [] => Ret (ret, ptr)
  | b :: h' =>
      let! (ret, ptr) :=
        (if Nat.even i then
           let! (ret, ptr) :=
             (if Nat.ltb 1 ptr then
                let! ret := upd ret ptr 44 in
                let! ret := upd ret (ptr + 1) 32 in
                let ptr := (ptr + 2)%nat in
                if Z.eqb (Z.rem (Z.of_nat i) hexPerSection) 0 then
                  let! ret := upd ret ptr 10 in
                  Ret (ret, (ptr + 1)%nat)
                else Ret (ret, ptr)
              else Ret (ret, ptr)) in
           let! ret := upd ret ptr 48 in
           let! ret := upd ret (ptr + 1) 120 in
           Ret (ret, (ptr + 2)%nat)
         else Ret (ret, ptr)) in
      let! ret := upd ret ptr b in
      hex_sep_loop hexPerSection h' (i + 1) (ptr + 1) ret
  end.
(** BytesToHexSep.go:13-51  BytesToHexSep *)
Definition BytesToHexSep (inp : list N) (bytesPerSection : Z) : outcome (list N) :=
  if Z.ltb bytesPerSection 1 then Panic
  else
    let! h := FromBytes inp in
    let n := Z.of_nat (length h) in
    let retLen := int64 (Z.of_nat (length inp) * 6) in
    let hexPerSection := int64 (bytesPerSection * 2) in
    let! q := int_quot n hexPerSection in
    let retLen := int64 (retLen + int64 (q - 1)) in
    let! ret := make_bytes retLen in
    let! ret := upd ret 0 123 in
    let! (ret, ptr) := hex_sep_loop hexPerSection h 0 1 ret in
    upd ret ptr 125.
