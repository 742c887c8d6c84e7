(** Package bytes once more, access by access: every read and write of a byte of
    a slice is a step of its own. Local variables and lengths are not in memory.
    copy reads all bytes and then writes them, in ascending order; so do
    encoding/binary's functions, after the bounds check. *)
From Verif Require Import Base.Go Base.Mem Base.Goroutine Base.BytesUse.
From Verif Require Model.Bytes.
Local Open Scope N_scope.

(** s[i] and s[i] = v *)
Definition load (s : slice) (i : nat) : code N := if Nat.ltb i (len s) then get (cell (off s + i)) else Crash.
Definition store (s : slice) (i : nat) (v : N) : code unit := if Nat.ltb i (len s) then set (cell (off s + i)) v else Crash.
(** copy(dst, src) and copy(dst, text) *)
Definition copy (dst src : slice) : code unit :=
  do xs <- gets (cell (off src)) (Nat.min (len dst) (len src));
  sets (cell (off dst)) xs.
Definition copy_text (dst : slice) (text : list N) : code unit := sets (cell (off dst)) (firstn (len dst) text).

(** encoding/binary *)
Definition le_uint16 (b : slice) : code N :=
  do b1 <- load b 1; do b0 <- load b 0;
  Return (N.lor b0 (N.shiftl b1 8)).
Definition be_uint16 (b : slice) : code N :=
  do b1 <- load b 1; do b0 <- load b 0;
  Return (N.lor b1 (N.shiftl b0 8)).
Definition le_uint32 (b : slice) : code N :=
  do b3 <- load b 3; do b2 <- load b 2; do b1 <- load b 1; do b0 <- load b 0;
  Return (N.lor b0 (N.lor (N.shiftl b1 8) (N.lor (N.shiftl b2 16) (N.shiftl b3 24)))).
Definition be_uint32 (b : slice) : code N :=
  do b3 <- load b 3; do b2 <- load b 2; do b1 <- load b 1; do b0 <- load b 0;
  Return (N.lor b3 (N.lor (N.shiftl b2 8) (N.lor (N.shiftl b1 16) (N.shiftl b0 24)))).
Definition check (b : slice) (i : nat) : code unit := if Nat.ltb i (len b) then Return tt else Crash.
Definition le_put16 (b : slice) (v : N) : code unit :=
  check b 1 ;; store b 0 (u8 v) ;; store b 1 (u8 (N.shiftr v 8)).
Definition be_put16 (b : slice) (v : N) : code unit :=
  check b 1 ;; store b 0 (u8 (N.shiftr v 8)) ;; store b 1 (u8 v).
Definition le_put32 (b : slice) (v : N) : code unit :=
  check b 3 ;; store b 0 (u8 v) ;; store b 1 (u8 (N.shiftr v 8)) ;; store b 2 (u8 (N.shiftr v 16)) ;; store b 3 (u8 (N.shiftr v 24)).
Definition be_put32 (b : slice) (v : N) : code unit :=
  check b 3 ;; store b 0 (u8 (N.shiftr v 24)) ;; store b 1 (u8 (N.shiftr v 16)) ;; store b 2 (u8 (N.shiftr v 8)) ;; store b 3 (u8 v).

(** Zero.go:9-17 *)
Fixpoint zero_loop (fuel : nat) (target : slice) : code unit :=
  if Nat.ltb 8 (len target) then
    match fuel with
    | O => Crash
    | S fuel' =>
        copy_text target Bytes.z8 ;;
        do target <- lift (from target 8);
        zero_loop fuel' target
    end
  else copy_text target Bytes.z8.
Definition Zero (target : slice) : code unit := zero_loop (len target) target.

(** Xor.go:9-19 *)
Fixpoint xor_loop (k i : nat) (dst other : slice) : code unit :=
  match k with
  | O => Return tt
  | S k' =>
      do d <- load dst i;
      do o <- load other i;
      store dst i (N.lxor d o) ;;
      xor_loop k' (S i) dst other
  end.
Definition XorEq (dst other : slice) : code nat :=
  let n := if Nat.ltb (len other) (len dst) then len other else len dst in
  xor_loop n 0 dst other ;;
  Return n.

(** pad.go:10-29, 33-47 *)
Definition padLE (dst src : slice) (n : nat) : code (option Bytes.error) :=
  if Nat.ltb (len dst) n then Return (Some Bytes.NotEnoughSpace)
  else
    let sn := if Nat.ltb (len src) n then len src else n in
    if (Nat.ltb 0 sn && Nat.eqb (off dst) (off src))%bool then Return None
    else
      do s <- lift (upto src sn);
      copy dst s ;;
      if Nat.ltb sn n then
        do z <- lift (sub dst sn n);
        Zero z ;;
        Return None
      else Return None.
Definition padBE (dst src : slice) (n : nat) : code (option Bytes.error) :=
  if Nat.ltb (len dst) n then Return (Some Bytes.NotEnoughSpace)
  else
    let sn := if Nat.ltb (len src) n then len src else n in
    (if Nat.ltb sn n then do z <- lift (sub dst 0 (n - sn)); Zero z else Return tt) ;;
    do d <- lift (from dst (n - sn));
    copy d src ;;
    Return None.

(** Add.go:97-107 *)
Definition addEq8 (sum b : slice) (carryBit : N) : code N :=
  do a16 <- load sum 0;
  do b16 <- (if Nat.ltb 0 (len b) then load b 0 else Return 0);
  let c16 := u16 (u16 (a16 + b16) + N.land carryBit 1) in
  store sum 0 (u8 c16) ;;
  Return (u8 (N.shiftr c16 8)).
(** AddLE.go:125-140, 147-163 *)
Fixpoint acc32LE (k i : nat) (b : slice) (b64 : N) : code N :=
  match k with
  | O => Return b64
  | S k' => do x <- load b i; acc32LE k' (S i) b (add64 b64 (shl64 x (8 * N.of_nat i)))
  end.
Definition addEq32LE (sum b : slice) (carryBit : N) : code N :=
  do a64 <- le_uint32 sum;
  let n := if Nat.ltb (len b) 4 then len b else 4%nat in
  do b64 <- acc32LE n 0 b 0;
  let c64 := add64 (add64 a64 b64) (N.land carryBit 1) in
  le_put32 sum (u32 c64) ;;
  Return (u8 (N.shiftr c64 32)).
Fixpoint acc16LE (k i : nat) (b : slice) (b32 : N) : code N :=
  match k with
  | O => Return b32
  | S k' => do x <- load b i; acc16LE k' (S i) b (add32 b32 (shl32 x (8 * N.of_nat i)))
  end.
Definition addEq16LE (sum b : slice) (carryBit : N) : code N :=
  do a32 <- le_uint16 sum;
  let n := if Nat.ltb (len b) 2 then len b else 2%nat in
  do b32 <- acc16LE n 0 b 0;
  let c32 := add32 (add32 a32 b32) (N.land carryBit 1) in
  le_put16 sum (u16 c32) ;;
  Return (u8 (N.shiftr c32 16)).
(** AddBE.go:122-137, 144-160 *)
Fixpoint acc32BE (k i : nat) (b : slice) (b64 : N) : code N :=
  match k with
  | O => Return b64
  | S k' => do x <- load b i; acc32BE k' (S i) b (N.lor (shl64 b64 8) x)
  end.
Definition addEq32BE (sum b : slice) (carryBit : N) : code N :=
  do a64 <- be_uint32 sum;
  let n := if Nat.ltb (len b) 4 then len b else 4%nat in
  do b64 <- acc32BE n 0 b 0;
  let c64 := add64 (add64 a64 b64) (N.land carryBit 1) in
  be_put32 sum (u32 c64) ;;
  Return (u8 (N.shiftr c64 32)).
Fixpoint acc16BE (k i : nat) (b : slice) (b32 : N) : code N :=
  match k with
  | O => Return b32
  | S k' => do x <- load b i; acc16BE k' (S i) b (N.lor (shl32 b32 8) x)
  end.
Definition addEq16BE (sum b : slice) (carryBit : N) : code N :=
  do a32 <- be_uint16 sum;
  let n := if Nat.ltb (len b) 2 then len b else 2%nat in
  do b32 <- acc16BE n 0 b 0;
  let c32 := add32 (add32 a32 b32) (N.land carryBit 1) in
  be_put16 sum (u16 c32) ;;
  Return (u8 (N.shiftr c32 16)).

(** AddLE.go:74-118 *)
Fixpoint fullLE (k numU32 : nat) (sum b : slice) (carry : N) : code (nat * nat * slice * N) :=
  match k with
  | O => Return (O, numU32, b, carry)
  | S k' =>
      if Nat.ltb 4 (len b) then
        do s <- lift (from sum (numU32 * 4));
        do carry <- addEq32LE s b carry;
        do b <- lift (from b 4);
        fullLE k' (S numU32) sum b carry
      else Return (k, numU32, b, carry)
  end.
Fixpoint restLE (k numU32 : nat) (sum : slice) (carry : N) : code (nat * N) :=
  match k with
  | O => Return (numU32, carry)
  | S k' =>
      do s <- lift (from sum (numU32 * 4));
      do carry <- addEq32LE s Bytes.empty carry;
      restLE k' (S numU32) sum carry
  end.
Definition addAnyLE (sum a b : slice) (byteSize : nat) : code (N * option Bytes.error) :=
  do err <- padLE sum a byteSize;
  match err with
  | Some _ => Return (0, err)
  | None =>
      let in32 := (byteSize / 4)%nat in
      let in8 := (byteSize mod 4)%nat in
      do (k, numU32, b, carry) <- fullLE in32 0 sum b 0;
      do (k, numU32, b, carry) <-
        match k with
        | S k' =>
            if Nat.ltb 0 (len b) then
              do s <- lift (from sum (numU32 * 4));
              do carry <- addEq32LE s b carry;
              do b <- lift (from b (len b));
              Return (k', S numU32, b, carry)
            else Return (k, numU32, b, carry)
        | O => Return (k, numU32, b, carry)
        end;
      do (numU32, carry) <- restLE k numU32 sum carry;
      do (b, carry, numU16, in8) <-
        (if Nat.ltb 1 in8 then
          do s <- lift (from sum (numU32 * 4));
          do carry <- addEq16LE s b carry;
          do b <- lift (if Nat.eqb (len b) 1 then from b 1
                        else if Nat.leb 2 (len b) then from b 2 else Ret b);
          Return (b, carry, 1%nat, (in8 - 2)%nat)
        else Return (b, carry, O, in8));
      do carry <-
        (if Nat.ltb 0 in8 then
          do s <- lift (from sum (numU32 * 4 + numU16 * 2));
          addEq8 s b carry
        else Return carry);
      Return (carry, None)
  end.

(** AddBE.go:74-115 *)
Fixpoint fullBE (k : nat) (sum b : slice) (carry : N) : code (nat * slice * N) :=
  match k with
  | O => Return (O, b, carry)
  | S in32 =>
      if Nat.ltb 4 (len b) then
        do s <- lift (from sum (in32 * 4));
        do t <- lift (from b (len b - 4));
        do carry <- addEq32BE s t carry;
        do b <- lift (upto b (len b - 4));
        fullBE in32 sum b carry
      else Return (k, b, carry)
  end.
Fixpoint restBE (k : nat) (sum : slice) (carry : N) : code N :=
  match k with
  | O => Return carry
  | S in32 =>
      do s <- lift (from sum (in32 * 4));
      do carry <- addEq32BE s Bytes.empty carry;
      restBE in32 sum carry
  end.
Definition addAnyBE (sum a b : slice) (byteSize : nat) : code (N * option Bytes.error) :=
  do err <- padBE sum a byteSize;
  match err with
  | Some _ => Return (0, err)
  | None =>
      let in8 := (byteSize mod 4)%nat in
      do (k, b, carry) <- fullBE (byteSize / 4) sum b 0;
      do (k, b, carry) <-
        match k with
        | S in32 =>
            if Nat.ltb 0 (len b) then
              do s <- lift (from sum (in32 * 4));
              do carry <- addEq32BE s b carry;
              do b <- lift (upto b 0);
              Return (in32, b, carry)
            else Return (k, b, carry)
        | O => Return (k, b, carry)
        end;
      do carry <- restBE k sum carry;
      do (b, carry, in8) <-
        (if Nat.ltb 1 in8 then
          do s <- lift (from sum (in8 - 2));
          do carry <- addEq16BE s b carry;
          do b <- lift (if Nat.eqb (len b) 1 then upto b 0
                        else if Nat.leb 2 (len b) then upto b (len b - 2) else Ret b);
          Return (b, carry, (in8 - 2)%nat)
        else Return (b, carry, in8));
      do carry <- (if Nat.ltb 0 in8 then addEq8 sum b carry else Return carry);
      Return (carry, None)
  end.

(** AddLE.go:14-70, AddBE.go:14-70 *)
Definition Add16LE (sum a b : slice) : code (N * option Bytes.error) :=
  do err <- padLE sum a 2;
  match err with Some _ => Return (0, err) | None => do carry <- addEq16LE sum b 0; Return (carry, None) end.
Definition Add32LE (sum a b : slice) : code (N * option Bytes.error) :=
  do err <- padLE sum a 4;
  match err with Some _ => Return (0, err) | None => do carry <- addEq32LE sum b 0; Return (carry, None) end.
Definition Add16BE (sum a b : slice) : code (N * option Bytes.error) :=
  do err <- padBE sum a 2;
  match err with Some _ => Return (0, err) | None => do carry <- addEq16BE sum b 0; Return (carry, None) end.
Definition Add32BE (sum a b : slice) : code (N * option Bytes.error) :=
  do err <- padBE sum a 4;
  match err with Some _ => Return (0, err) | None => do carry <- addEq32BE sum b 0; Return (carry, None) end.
Definition AddLE (w : width) (sum a b : slice) : code (N * option Bytes.error) :=
  match w with
  | W16 => Add16LE sum a b | W32 => Add32LE sum a b
  | W64 => addAnyLE sum a b 8 | W128 => addAnyLE sum a b 16 | W256 => addAnyLE sum a b 32 | W512 => addAnyLE sum a b 64
  end.
Definition AddBE (w : width) (sum a b : slice) : code (N * option Bytes.error) :=
  match w with
  | W16 => Add16BE sum a b | W32 => Add32BE sum a b
  | W64 => addAnyBE sum a b 8 | W128 => addAnyBE sum a b 16 | W256 => addAnyBE sum a b 32 | W512 => addAnyBE sum a b 64
  end.
(** Add.go:23-90 *)
Definition Add (p : byte_order) (w : width) (sum a b : slice) : code (N * option Bytes.error) :=
  match p, w with
  | LittleEndian, W16 => do err <- padLE sum a 2; do carry <- addEq16LE sum b 0; Return (carry, err)
  | LittleEndian, W32 => do err <- padLE sum a 4; do carry <- addEq32LE sum b 0; Return (carry, err)
  | BigEndian, W16 => do err <- padBE sum a 2; do carry <- addEq16BE sum b 0; Return (carry, err)
  | BigEndian, W32 => do err <- padBE sum a 4; do carry <- addEq32BE sum b 0; Return (carry, err)
  | LittleEndian, _ => AddLE w sum a b
  | BigEndian, _ => AddBE w sum a b
  end.

(** A goroutine. *)
Definition added (r : N * option Bytes.error) : result := RAdded (fst r) (match snd r with Some _ => true | None => false end).
Definition do_call (c : call) : code result :=
  match c with
  | CZero t => Zero t ;; Return RDone
  | CXorEq d o => do n <- XorEq d o; Return (RCount n)
  | CAdd LittleEndian w s a b => do r <- AddLE w s a b; Return (added r)
  | CAdd BigEndian w s a b => do r <- AddBE w s a b; Return (added r)
  | CAddNative p w s a b => do r <- Add p w s a b; Return (added r)
  | CLoad s j => do v <- load s j; Return (RByte v)
  | CStore s j v => store s j v ;; Return RDone
  end.
Fixpoint behave (g : job) : code (list result) :=
  match g with
  | Stop => Return []
  | Do c k => do r <- do_call c; do rs <- behave (k r); Return (r :: rs)
  end.

(** The same calls on the memory of Model/Bytes.v, one at a time. *)
Definition nth_add (fs : list (nat * Bytes.add_fn)) (w : width) : Bytes.add_fn :=
  snd (nth (match w with W16 => 0 | W32 => 1 | W64 => 2 | W128 => 3 | W256 => 4 | W512 => 5 end) fs (O, fun _ _ _ _ => Panic)).
Definition added_at (x : outcome (mem * N * option Bytes.error)) : outcome (mem * result) :=
  let! (m, carry, err) := x in Ret (m, added (carry, err)).
Definition whole_call (m : mem) (c : call) : outcome (mem * result) :=
  match c with
  | CZero t => let! m := Bytes.Zero m t in Ret (m, RDone)
  | CXorEq d o => let! (m, n) := Bytes.XorEq m d o in Ret (m, RCount n)
  | CAdd LittleEndian w s a b => added_at (nth_add Bytes.le_functions w m s a b)
  | CAdd BigEndian w s a b => added_at (nth_add Bytes.be_functions w m s a b)
  | CAddNative p w s a b => added_at (nth_add (Bytes.platform_functions p) w m s a b)
  | CLoad s j => let! v := Mem.load m s j in Ret (m, RByte v)
  | CStore s j v => let! m := Mem.store m s j v in Ret (m, RDone)
  end.
Fixpoint whole (m : mem) (g : job) : outcome (mem * list result) :=
  match g with
  | Stop => Ret (m, [])
  | Do c k => let! (m, r) := whole_call m c in let! (m, rs) := whole m (k r) in Ret (m, r :: rs)
  end.
