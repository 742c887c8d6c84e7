(** Model of package checksum/fletcher (/repo/checksum/fletcher). In all three
    files the position [i] into [p] is represented by the remaining bytes
    [rest] = p[i:]; reading p[i] with nothing remaining is the index panic. *)
From Verif Require Import Base.Go Base.HashApi.
Local Open Scope N_scope.

Record digest := mkDigest { fa : N; fb : N }.

(** fletcher16.go:63-66, fletcher32.go:69-72, fletcher64.go:78-81  Reset;
    New16/New32/New64 (fletcher16.go:21-25 etc.) reset a fresh digest. *)
Definition Reset : digest := mkDigest 0 0.
Definition New : digest := Reset.

(** ** Fletcher 16 *)

(** fletcher16.go:30-31 *)
Definition mod16 : N := 0xff.
Definition c1Overflow16 : N := 5803.

(** fletcher16.go:41-46  the inner loop: [k] = len-j iterations remain. *)
Fixpoint inner16 (k : nat) (rest : list N) (c0 c1 : N) : outcome (list N * N * N) :=
  match k with
  | O => Ret (rest, c0, c1)
  | S k' =>
      match rest with
      | [] => Panic
      | x :: rest' =>
          let c0 := add32 c0 x in
          let c1 := add32 c1 c0 in
          inner16 k' rest' c0 c1
      end
  end.

(** fletcher16.go:36-49  the outer loop. Line 37 takes the length of all of
    [p] ([total]), not of what remains. *)
Fixpoint outer16 (fuel : nat) (total : nat) (rest : list N) (c0 c1 : N)
    : outcome (N * N) :=
  match rest with
  | [] => Ret (c0, c1)
  | _ =>
      match fuel with
      | O => OutOfFuel
      | S fuel' =>
          let len := N.min (N.of_nat total) c1Overflow16 in
          let! (rest', c0, c1) := inner16 (N.to_nat len) rest c0 c1 in
          outer16 fuel' total rest' (c0 mod mod16) (c1 mod mod16)
      end
  end.

(** fletcher16.go:27-52  update *)
Definition update16 (d : digest) (p : list N) : outcome digest :=
  let! (c0, c1) := outer16 (length p) (length p) p (fa d) (fb d) in
  Ret (mkDigest (u8 c0) (u8 c1)).

(** fletcher16.go:54-72  Write, Sum, Reset, Size, BlockSize, Sum16 *)
Definition step16 (d : digest) (c : call) : outcome (digest * result) :=
  match c with
  | CWrite p => let! d' := update16 d p in Ret (d', RWrite (length p))
  | CSum inp => Ret (d, RSum (inp ++ [fb d; fa d]))
  | CValue => Ret (d, RValue (N.lor (u16 (N.shiftl (fb d) 8)) (fa d)))
  | CReset => Ret (Reset, RUnit)
  | CSize => Ret (d, RInt 2)
  | CBlockSize => Ret (d, RInt 1)
  end.

(** ** Fletcher 32 *)

(** fletcher32.go:28-29 *)
Definition mod32 : N := 0xffff.
Definition c1Overflow32 : N := 23726746.

(** fletcher32.go:40-52  the inner loop; [k] is len-j, going down by 2 and
    stopping at or below 0. *)
Fixpoint inner32 (k : nat) (rest : list N) (c0 c1 : N) : outcome (list N * N * N) :=
  match k with
  | O => Ret (rest, c0, c1)
  | S k1 =>
      match rest with
      | [] => Panic
      | x :: rest' =>
          let '(add, rest') :=
            match rest' with
            | [] => (x, [])
            | y :: rest'' => (N.lor x (shl64 y 8), rest'')
            end in
          let c0 := add64 c0 add in
          let c1 := add64 c1 c0 in
          match k1 with
          | O => Ret (rest', c0, c1)
          | S k2 => inner32 k2 rest' c0 c1
          end
      end
  end.

(** fletcher32.go:35-55  the outer loop; n-i is the number of bytes left. *)
Fixpoint outer32 (fuel : nat) (rest : list N) (c0 c1 : N) : outcome (N * N) :=
  match rest with
  | [] => Ret (c0, c1)
  | _ =>
      match fuel with
      | O => OutOfFuel
      | S fuel' =>
          let len := N.min (N.of_nat (length rest)) c1Overflow32 in
          let! (rest', c0, c1) := inner32 (N.to_nat len) rest c0 c1 in
          outer32 fuel' rest' (c0 mod mod32) (c1 mod mod32)
      end
  end.

(** fletcher32.go:26-58  update *)
Definition update32 (d : digest) (p : list N) : outcome digest :=
  let! (c0, c1) := outer32 (length p) p (fa d) (fb d) in
  Ret (mkDigest (u16 c0) (u16 c1)).

(** fletcher32.go:60-78  Write, Sum, Reset, Size, BlockSize, Sum32 *)
Definition step32 (d : digest) (c : call) : outcome (digest * result) :=
  match c with
  | CWrite p => let! d' := update32 d p in Ret (d', RWrite (length p))
  | CSum inp => Ret (d, RSum (inp ++ [u8 (N.shiftr (fb d) 8); u8 (fb d);
                                      u8 (N.shiftr (fa d) 8); u8 (fa d)]))
  | CValue => Ret (d, RValue (N.lor (shl32 (fb d) 16) (fa d)))
  | CReset => Ret (Reset, RUnit)
  | CSize => Ret (d, RInt 4)
  | CBlockSize => Ret (d, RInt 2)
  end.

(** ** Fletcher 64 *)

(** fletcher64.go:28-29 *)
Definition mod64 : N := 0xffffffff.
Definition c1Overflow64 : N := 92681.

(** fletcher64.go:43-57  reading up to four bytes, low byte first. *)
Definition read_word64 (x : N) (rest : list N) : N * list N :=
  match rest with
  | [] => (x, [])
  | y :: rest =>
      let add := N.lor x (shl64 y 8) in
      match rest with
      | [] => (add, [])
      | z :: rest =>
          let add := N.lor add (shl64 z 16) in
          match rest with
          | [] => (add, [])
          | t :: rest => (N.lor add (shl64 t 24), rest)
          end
      end
  end.

(** fletcher64.go:40-60  the inner loop; [k] is len-j, going down by 4. *)
Fixpoint inner64 (k : nat) (rest : list N) (c0 c1 : N) : outcome (list N * N * N) :=
  match k with
  | O => Ret (rest, c0, c1)
  | S k1 =>
      match rest with
      | [] => Panic
      | x :: rest' =>
          let '(add, rest') := read_word64 x rest' in
          let c0 := add64 c0 add in
          let c1 := add64 c1 c0 in
          match k1 with
          | S (S (S k4)) => inner64 k4 rest' c0 c1
          | _ => Ret (rest', c0, c1)
          end
      end
  end.

(** fletcher64.go:35-63  the outer loop. *)
Fixpoint outer64 (fuel : nat) (rest : list N) (c0 c1 : N) : outcome (N * N) :=
  match rest with
  | [] => Ret (c0, c1)
  | _ =>
      match fuel with
      | O => OutOfFuel
      | S fuel' =>
          let len := N.min (N.of_nat (length rest)) c1Overflow64 in
          let! (rest', c0, c1) := inner64 (N.to_nat len) rest c0 c1 in
          outer64 fuel' rest' (c0 mod mod64) (c1 mod mod64)
      end
  end.

(** fletcher64.go:26-66  update *)
Definition update64 (d : digest) (p : list N) : outcome digest :=
  let! (c0, c1) := outer64 (length p) p (fa d) (fb d) in
  Ret (mkDigest (u32 c0) (u32 c1)).

(** fletcher64.go:68-87  Write, Sum, Reset, Size, BlockSize, Sum64 *)
Definition step64 (d : digest) (c : call) : outcome (digest * result) :=
  match c with
  | CWrite p => let! d' := update64 d p in Ret (d', RWrite (length p))
  | CSum inp => Ret (d, RSum (inp ++
        [u8 (N.shiftr (fb d) 24); u8 (N.shiftr (fb d) 16); u8 (N.shiftr (fb d) 8); u8 (fb d);
         u8 (N.shiftr (fa d) 24); u8 (N.shiftr (fa d) 16); u8 (N.shiftr (fa d) 8); u8 (fa d)]))
  | CValue => Ret (d, RValue (N.lor (shl64 (fb d) 32) (fa d)))
  | CReset => Ret (Reset, RUnit)
  | CSize => Ret (d, RInt 8)
  | CBlockSize => Ret (d, RInt 4)
  end.
