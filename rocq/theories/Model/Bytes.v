(** Model of package bytes (/repo/bytes). *)
From Verif Require Import Base.Go Base.Mem.
Local Open Scope N_scope.

(** Zero.go:6 *)
Definition z8 : list N := [0;0;0;0;0;0;0;0].

(** Zero.go:9-17  Zero; the loop of lines 11-14 takes [fuel] >= len(target). *)
Fixpoint zero_loop (fuel : nat) (m : mem) (target : slice) : outcome mem :=
  if Nat.ltb 8 (len target) then
    match fuel with
    | O => OutOfFuel
    | S fuel' =>
        let m := copy_text m target z8 in
        let! target := from target 8 in
        zero_loop fuel' m target
    end
  else Ret (copy_text m target z8).
Definition Zero (m : mem) (target : slice) : outcome mem := zero_loop (len target) m target.

(** Xor.go:15-17  the loop, [k] iterations left, at index [i]. *)
Fixpoint xor_loop (k i : nat) (m : mem) (dst other : slice) : outcome mem :=
  match k with
  | O => Ret m
  | S k' =>
      let! d := load m dst i in
      let! o := load m other i in
      let! m := store m dst i (N.lxor d o) in
      xor_loop k' (S i) m dst other
  end.
(** Xor.go:9-19  XorEq *)
Definition XorEq (m : mem) (dst other : slice) : outcome (mem * nat) :=
  let n := if Nat.ltb (len other) (len dst) then len other else len dst in
  let! m := xor_loop n 0 m dst other in
  Ret (m, n).

(** pad.go:13,35  errors.New("not enough space") *)
Inductive error := NotEnoughSpace.

(** pad.go:10-29  padLE *)
Definition padLE (m : mem) (dst src : slice) (n : nat) : outcome (mem * option error) :=
  if Nat.ltb (len dst) n then Ret (m, Some NotEnoughSpace)
  else
    let sn := if Nat.ltb (len src) n then len src else n in
    (* line 20: &dst[0] and &src[0] panic on empty slices; not here, 0 < sn *)
    if (Nat.ltb 0 sn && Nat.eqb (off dst) (off src))%bool then Ret (m, None)
    else
      let! s := upto src sn in
      let m := copy m dst s in
      if Nat.ltb sn n then
        let! z := sub dst sn n in
        let! m := Zero m z in
        Ret (m, None)
      else Ret (m, None).

(** pad.go:33-47  padBE *)
Definition padBE (m : mem) (dst src : slice) (n : nat) : outcome (mem * option error) :=
  if Nat.ltb (len dst) n then Ret (m, Some NotEnoughSpace)
  else
    let sn := if Nat.ltb (len src) n then len src else n in
    let! m :=
      if Nat.ltb sn n then
        let! z := sub dst 0 (n - sn) in Zero m z
      else Ret m in
    let! d := from dst (n - sn) in
    Ret (copy m d src, None).

(** Add.go:97-107  addEq8 *)
Definition addEq8 (m : mem) (sum b : slice) (carryBit : N) : outcome (mem * N) :=
  let! a16 := load m sum 0 in
  let! b16 := if Nat.ltb 0 (len b) then load m b 0 else Ret 0 in
  let c16 := u16 (u16 (a16 + b16) + N.land carryBit 1) in
  let! m := store m sum 0 (u8 c16) in
  Ret (m, u8 (N.shiftr c16 8)).

(** AddLE.go:132-134  b64 += uint64(b[i]) << (8*i) *)
Fixpoint acc32LE (k i : nat) (m : mem) (b : slice) (b64 : N) : outcome N :=
  match k with
  | O => Ret b64
  | S k' =>
      let! x := load m b i in
      acc32LE k' (S i) m b (add64 b64 (shl64 x (8 * N.of_nat i)))
  end.
(** AddLE.go:125-140  addEq32LE *)
Definition addEq32LE (m : mem) (sum b : slice) (carryBit : N) : outcome (mem * N) :=
  let! a64 := le_uint32 m sum in
  let n := if Nat.ltb (len b) 4 then len b else 4%nat in
  let! b64 := acc32LE n 0 m b 0 in
  let c64 := add64 (add64 a64 b64) (N.land carryBit 1) in
  let! m := le_put32 m sum (u32 c64) in
  Ret (m, u8 (N.shiftr c64 32)).

(** AddLE.go:155-157 *)
Fixpoint acc16LE (k i : nat) (m : mem) (b : slice) (b32 : N) : outcome N :=
  match k with
  | O => Ret b32
  | S k' =>
      let! x := load m b i in
      acc16LE k' (S i) m b (add32 b32 (shl32 x (8 * N.of_nat i)))
  end.
(** AddLE.go:147-163  addEq16LE *)
Definition addEq16LE (m : mem) (sum b : slice) (carryBit : N) : outcome (mem * N) :=
  let! a32 := le_uint16 m sum in
  let n := if Nat.ltb (len b) 2 then len b else 2%nat in
  let! b32 := acc16LE n 0 m b 0 in
  let c32 := add32 (add32 a32 b32) (N.land carryBit 1) in
  let! m := le_put16 m sum (u16 c32) in
  Ret (m, u8 (N.shiftr c32 16)).

(** AddBE.go:129-131  b64 = b64<<8 | uint64(b[i]) *)
Fixpoint acc32BE (k i : nat) (m : mem) (b : slice) (b64 : N) : outcome N :=
  match k with
  | O => Ret b64
  | S k' =>
      let! x := load m b i in
      acc32BE k' (S i) m b (N.lor (shl64 b64 8) x)
  end.
(** AddBE.go:122-137  addEq32BE *)
Definition addEq32BE (m : mem) (sum b : slice) (carryBit : N) : outcome (mem * N) :=
  let! a64 := be_uint32 m sum in
  let n := if Nat.ltb (len b) 4 then len b else 4%nat in
  let! b64 := acc32BE n 0 m b 0 in
  let c64 := add64 (add64 a64 b64) (N.land carryBit 1) in
  let! m := be_put32 m sum (u32 c64) in
  Ret (m, u8 (N.shiftr c64 32)).

(** AddBE.go:152-154 *)
Fixpoint acc16BE (k i : nat) (m : mem) (b : slice) (b32 : N) : outcome N :=
  match k with
  | O => Ret b32
  | S k' =>
      let! x := load m b i in
      acc16BE k' (S i) m b (N.lor (shl32 b32 8) x)
  end.
(** AddBE.go:144-160  addEq16BE *)
Definition addEq16BE (m : mem) (sum b : slice) (carryBit : N) : outcome (mem * N) :=
  let! a32 := be_uint16 m sum in
  let n := if Nat.ltb (len b) 2 then len b else 2%nat in
  let! b32 := acc16BE n 0 m b 0 in
  let c32 := add32 (add32 a32 b32) (N.land carryBit 1) in
  let! m := be_put16 m sum (u16 c32) in
  Ret (m, u8 (N.shiftr c32 16)).

(** []byte{} of AddLE.go:76 and AddBE.go:76 *)
Definition empty : slice := mkSlice 0 0.

(** AddLE.go:86-89  first loop; [k] = in32 - numU32. Returns what is left of
    [k], the memory, numU32, b and carry. *)
Fixpoint fullLE (k numU32 : nat) (m : mem) (sum b : slice) (carry : N)
    : outcome (nat * mem * nat * slice * N) :=
  match k with
  | O => Ret (O, m, numU32, b, carry)
  | S k' =>
      if Nat.ltb 4 (len b) then
        let! s := from sum (numU32 * 4) in
        let! (m, carry) := addEq32LE m s b carry in
        let! b := from b 4 in
        fullLE k' (S numU32) m sum b carry
      else Ret (k, m, numU32, b, carry)
  end.
(** AddLE.go:97-99  last loop *)
Fixpoint restLE (k numU32 : nat) (m : mem) (sum : slice) (carry : N)
    : outcome (mem * nat * N) :=
  match k with
  | O => Ret (m, numU32, carry)
  | S k' =>
      let! s := from sum (numU32 * 4) in
      let! (m, carry) := addEq32LE m s empty carry in
      restLE k' (S numU32) m sum carry
  end.
(** AddLE.go:74-118  addAnyLE *)
Definition addAnyLE (m : mem) (sum a b : slice) (byteSize : nat)
    : outcome (mem * N * option error) :=
  let! (m, err) := padLE m sum a byteSize in
  match err with
  | Some _ => Ret (m, 0, err)
  | None =>
      let in32 := (byteSize / 4)%nat in
      let in8 := (byteSize mod 4)%nat in
      let! (k, m, numU32, b, carry) := fullLE in32 0 m sum b 0 in
      (* lines 91-95 *)
      let! (k, m, numU32, b, carry) :=
        match k with
        | S k' =>
            if Nat.ltb 0 (len b) then
              let! s := from sum (numU32 * 4) in
              let! (m, carry) := addEq32LE m s b carry in
              let! b := from b (len b) in
              Ret (k', m, S numU32, b, carry)
            else Ret (k, m, numU32, b, carry)
        | O => Ret (k, m, numU32, b, carry)
        end in
      let! (m, numU32, carry) := restLE k numU32 m sum carry in
      (* lines 102-112 *)
      let! (m, b, carry, numU16, in8) :=
        if Nat.ltb 1 in8 then
          let! s := from sum (numU32 * 4) in
          let! (m, carry) := addEq16LE m s b carry in
          let! b := if Nat.eqb (len b) 1 then from b 1
                    else if Nat.leb 2 (len b) then from b 2 else Ret b in
          Ret (m, b, carry, 1%nat, (in8 - 2)%nat)
        else Ret (m, b, carry, O, in8) in
      (* lines 114-116 *)
      let! (m, carry) :=
        if Nat.ltb 0 in8 then
          let! s := from sum (numU32 * 4 + numU16 * 2) in
          addEq8 m s b carry
        else Ret (m, carry) in
      Ret (m, carry, None)
  end.

(** AddBE.go:84-87  first loop; [k] = in32 + 1, so in32 >= 0 is k > 0. *)
Fixpoint fullBE (k : nat) (m : mem) (sum b : slice) (carry : N)
    : outcome (nat * mem * slice * N) :=
  match k with
  | O => Ret (O, m, b, carry)
  | S in32 =>
      if Nat.ltb 4 (len b) then
        let! s := from sum (in32 * 4) in
        let! t := from b (len b - 4) in
        let! (m, carry) := addEq32BE m s t carry in
        let! b := upto b (len b - 4) in
        fullBE in32 m sum b carry
      else Ret (k, m, b, carry)
  end.
(** AddBE.go:95-97  last loop *)
Fixpoint restBE (k : nat) (m : mem) (sum : slice) (carry : N) : outcome (mem * N) :=
  match k with
  | O => Ret (m, carry)
  | S in32 =>
      let! s := from sum (in32 * 4) in
      let! (m, carry) := addEq32BE m s empty carry in
      restBE in32 m sum carry
  end.
(** AddBE.go:74-115  addAnyBE *)
Definition addAnyBE (m : mem) (sum a b : slice) (byteSize : nat)
    : outcome (mem * N * option error) :=
  let! (m, err) := padBE m sum a byteSize in
  match err with
  | Some _ => Ret (m, 0, err)
  | None =>
      let in8 := (byteSize mod 4)%nat in
      let! (k, m, b, carry) := fullBE (byteSize / 4) m sum b 0 in
      (* lines 89-93 *)
      let! (k, m, b, carry) :=
        match k with
        | S in32 =>
            if Nat.ltb 0 (len b) then
              let! s := from sum (in32 * 4) in
              let! (m, carry) := addEq32BE m s b carry in
              let! b := upto b 0 in
              Ret (in32, m, b, carry)
            else Ret (k, m, b, carry)
        | O => Ret (k, m, b, carry)
        end in
      let! (m, carry) := restBE k m sum carry in
      (* lines 100-109 *)
      let! (m, b, carry, in8) :=
        if Nat.ltb 1 in8 then
          let in8 := (in8 - 2)%nat in
          let! s := from sum in8 in
          let! (m, carry) := addEq16BE m s b carry in
          let! b := if Nat.eqb (len b) 1 then upto b 0
                    else if Nat.leb 2 (len b) then upto b (len b - 2) else Ret b in
          Ret (m, b, carry, in8)
        else Ret (m, b, carry, in8) in
      (* lines 111-113 *)
      let! (m, carry) :=
        if Nat.ltb 0 in8 then addEq8 m sum b carry else Ret (m, carry) in
      Ret (m, carry, None)
  end.

(** AddLE.go:63-70  Add16LE *)
Definition Add16LE (m : mem) (sum a b : slice) : outcome (mem * N * option error) :=
  let! (m, err) := padLE m sum a 2 in
  match err with
  | Some _ => Ret (m, 0, err)
  | None => let! (m, carry) := addEq16LE m sum b 0 in Ret (m, carry, None)
  end.
(** AddLE.go:50-57  Add32LE *)
Definition Add32LE (m : mem) (sum a b : slice) : outcome (mem * N * option error) :=
  let! (m, err) := padLE m sum a 4 in
  match err with
  | Some _ => Ret (m, 0, err)
  | None => let! (m, carry) := addEq32LE m sum b 0 in Ret (m, carry, None)
  end.
(** AddLE.go:41-44, 32-35, 23-26, 14-17 *)
Definition Add64LE (m : mem) (sum a b : slice) := addAnyLE m sum a b 8.
Definition Add128LE (m : mem) (sum a b : slice) := addAnyLE m sum a b 16.
Definition Add256LE (m : mem) (sum a b : slice) := addAnyLE m sum a b 32.
Definition Add512LE (m : mem) (sum a b : slice) := addAnyLE m sum a b 64.

(** AddBE.go:63-70  Add16BE *)
Definition Add16BE (m : mem) (sum a b : slice) : outcome (mem * N * option error) :=
  let! (m, err) := padBE m sum a 2 in
  match err with
  | Some _ => Ret (m, 0, err)
  | None => let! (m, carry) := addEq16BE m sum b 0 in Ret (m, carry, None)
  end.
(** AddBE.go:50-57  Add32BE *)
Definition Add32BE (m : mem) (sum a b : slice) : outcome (mem * N * option error) :=
  let! (m, err) := padBE m sum a 4 in
  match err with
  | Some _ => Ret (m, 0, err)
  | None => let! (m, carry) := addEq32BE m sum b 0 in Ret (m, carry, None)
  end.
(** AddBE.go:41-44, 32-35, 23-26, 14-17 *)
Definition Add64BE (m : mem) (sum a b : slice) := addAnyBE m sum a b 8.
Definition Add128BE (m : mem) (sum a b : slice) := addAnyBE m sum a b 16.
Definition Add256BE (m : mem) (sum a b : slice) := addAnyBE m sum a b 32.
Definition Add512BE (m : mem) (sum a b : slice) := addAnyBE m sum a b 64.

(** Add.go:23-32  Add16; [p] is endian.Platform. The error of pad does not
    stop the addition. *)
Definition Add16 (p : byte_order) (m : mem) (sum a b : slice) : outcome (mem * N * option error) :=
  match p with
  | LittleEndian =>
      let! (m, err) := padLE m sum a 2 in
      let! (m, carry) := addEq16LE m sum b 0 in Ret (m, carry, err)
  | BigEndian =>
      let! (m, err) := padBE m sum a 2 in
      let! (m, carry) := addEq16BE m sum b 0 in Ret (m, carry, err)
  end.
(** Add.go:36-45  Add32 *)
Definition Add32 (p : byte_order) (m : mem) (sum a b : slice) : outcome (mem * N * option error) :=
  match p with
  | LittleEndian =>
      let! (m, err) := padLE m sum a 4 in
      let! (m, carry) := addEq32LE m sum b 0 in Ret (m, carry, err)
  | BigEndian =>
      let! (m, err) := padBE m sum a 4 in
      let! (m, carry) := addEq32BE m sum b 0 in Ret (m, carry, err)
  end.
(** Add.go:49-57, 61-68, 72-79, 83-90 *)
Definition Add64 (p : byte_order) (m : mem) (sum a b : slice) :=
  match p with LittleEndian => Add64LE m sum a b | BigEndian => Add64BE m sum a b end.
Definition Add128 (p : byte_order) (m : mem) (sum a b : slice) :=
  match p with LittleEndian => Add128LE m sum a b | BigEndian => Add128BE m sum a b end.
Definition Add256 (p : byte_order) (m : mem) (sum a b : slice) :=
  match p with LittleEndian => Add256LE m sum a b | BigEndian => Add256BE m sum a b end.
Definition Add512 (p : byte_order) (m : mem) (sum a b : slice) :=
  match p with LittleEndian => Add512LE m sum a b | BigEndian => Add512BE m sum a b end.

(** The functions of Add.go, AddLE.go and AddBE.go with their widths in bytes,
    for statements about all of them. *)
Definition add_fn := mem -> slice -> slice -> slice -> outcome (mem * N * option error).

Definition le_functions : list (nat * add_fn) :=
  [(2, Add16LE); (4, Add32LE); (8, Add64LE); (16, Add128LE); (32, Add256LE); (64, Add512LE)]%nat.
Definition be_functions : list (nat * add_fn) :=
  [(2, Add16BE); (4, Add32BE); (8, Add64BE); (16, Add128BE); (32, Add256BE); (64, Add512BE)]%nat.
Definition platform_functions (p : byte_order) : list (nat * add_fn) :=
  [(2, Add16 p); (4, Add32 p); (8, Add64 p); (16, Add128 p); (32, Add256 p); (64, Add512 p)]%nat.

(** The unexported steps (Add.go:97-107, AddLE.go:125-163, AddBE.go:122-160)
    with the number of bytes they add. *)
Definition step_fn := mem -> slice -> slice -> N -> outcome (mem * N).

Definition le_steps : list (nat * step_fn) := [(1, addEq8); (2, addEq16LE); (4, addEq32LE)]%nat.
Definition be_steps : list (nat * step_fn) := [(1, addEq8); (2, addEq16BE); (4, addEq32BE)]%nat.
