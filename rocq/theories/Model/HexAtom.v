(** Packages encoding/hex and codegen once more, access by access: every read and
    write of a byte of a slice is a step of its own. Local variables, lengths,
    constants and the bytes of strings are not in memory that anyone writes.
    The functions on lists are in Model/Hex.v and Model/Codegen.v. *)
From Verif Require Import Base.Go Base.Goroutine Base.GoUse Base.LibUse Model.Hex Model.HashAtom.
From Verif Require Model.Codegen.
Local Open Scope N_scope.

(** ret[i] = v, where ret has n bytes *)
Definition set_at (ret : addr) (n i : nat) (v : N) : code unit :=
  if Nat.ltb i n then set (shift ret i) v else Crash.
(** make([]byte, z); the second value is the length *)
Definition make_slice (l : bool) (z : Z) : code (addr * nat) :=
  do zs <- lift (make_bytes z);
  do a <- new l (length zs);
  Return (a, length zs).
(** string(ret): the bytes are read and copied to a string *)
Definition string_of (ret : addr) (n : nat) : code (list N) := gets ret n.
(** []byte(s): a new slice with the bytes of s *)
Definition bytes_from (s : list N) : code addr :=
  do a <- new true (length s);
  sets a s ;;
  Return a.

(** ** Package encoding/hex *)

(** hex.go:40-46  the loop of FromBytes: [cnt] bytes of src are left, i is the next;
    src[i] is read once for each nibble *)
Fixpoint fromBytes_loop (src ret : addr) (n cnt i ptr : nat) : code unit :=
  match cnt with
  | O => Return tt
  | S cnt =>
      do b <- get (shift src i);
      do hi <- lift (idx hexTable (N.to_nat (N.shiftr b 4)));
      set_at ret n ptr hi ;;
      do b <- get (shift src i);
      do lo <- lift (idx hexTable (N.to_nat (N.land b 0xF)));
      set_at ret n (ptr + 1) lo ;;
      fromBytes_loop src ret n cnt (i + 1) (ptr + 2)
  end.
(** hex.go:36-48  func FromBytes *)
Definition FromBytes (src : gslice) : code (list N) :=
  do (ret, n) <- make_slice true (Z.of_nat (slen src) * 2);
  fromBytes_loop (base src) ret n (slen src) 0 0 ;;
  string_of ret n.

(** hex.go:61-73  the loop of ToBytes: an error, or the i it ends with *)
Fixpoint toBytes_loop (bd : build) (hex : list N) (ret : addr) (n fuel i ptr : nat) : code (hex_error + nat) :=
  match fuel with
  | O => Crash
  | S fuel =>
      if Nat.ltb i (length hex) then
        do c0 <- lift (idx hex (i - 1));
        do high <- lift (decode bd c0);
        do c1 <- lift (idx hex i);
        do low <- lift (decode bd c1);
        if negb (N.land high 0xF0 =? 0) then Return (inl (InvalidHexAt c0 (Z.of_nat i - 1)))
        else if negb (N.land low 0xF0 =? 0) then Return (inl (InvalidHexAt c1 (Z.of_nat i)))
        else
          set_at ret n ptr (N.lor (shl8 high 4) low) ;;
          toBytes_loop bd hex ret n fuel (i + 2) (ptr + 1)
      else Return (inr i)
  end.
(** hex.go:54-84  func ToBytes *)
Definition ToBytes (bd : build) (hex : list N) : code (option gslice * option hex_error) :=
  do (ret, n) <- make_slice false (Z.of_nat (length hex) / 2);
  do r <- toBytes_loop bd hex ret n (length hex + 1) 1 0;
  match r with
  | inl e => Return (None, Some e)
  | inr i =>
      if Nat.eqb (Nat.modulo (length hex) 2) 1 then
        do c <- lift (idx hex (i - 1));
        do v <- lift (decode bd c);
        if 15 <? v then Return (None, Some (InvalidHexAt c (Z.of_nat i - 1)))
        else Return (None, Some ErrLength)
      else Return (Some (mkS ret n n), None)
  end.

(** hex.go:96-105  the loop of ToBytesFast; [false] is the early return nil *)
Fixpoint toBytesFast_loop (bd : build) (hex : list N) (ret : addr) (n fuel i ptr : nat) : code bool :=
  match fuel with
  | O => Crash
  | S fuel =>
      if Nat.ltb i (length hex) then
        do c0 <- lift (idx hex (i - 1));
        do high <- lift (decode bd c0);
        do c1 <- lift (idx hex i);
        do low <- lift (decode bd c1);
        if negb (N.land (N.lor high low) 0xF0 =? 0) then Return false
        else
          set_at ret n ptr (N.lor (shl8 high 4) low) ;;
          toBytesFast_loop bd hex ret n fuel (i + 2) (ptr + 1)
      else Return true
  end.
(** hex.go:89-111  func ToBytesFast *)
Definition ToBytesFast (bd : build) (hex : list N) : code (option gslice) :=
  do (ret, n) <- make_slice false (Z.of_nat (length hex) / 2);
  do r <- toBytesFast_loop bd hex ret n (length hex + 1) 1 0;
  if r then
    if Nat.eqb (Nat.modulo (length hex) 2) 1 then Return None else Return (Some (mkS ret n n))
  else Return None.

(** ** Package codegen *)

(** BytesToString.go:19-27  the loop of BytesToString: [cnt] bytes of h are left,
    i is the next; returns ptr *)
Fixpoint string_loop (h ret : addr) (n cnt i ptr : nat) : code nat :=
  match cnt with
  | O => Return ptr
  | S cnt =>
      do b <- get (shift h i);
      do ptr <-
        (if Nat.even i then
           set_at ret n ptr 92 ;;
           set_at ret n (ptr + 1) 120 ;;
           Return (ptr + 2)%nat
         else Return ptr);
      set_at ret n ptr b ;;
      string_loop h ret n cnt (i + 1) (ptr + 1)
  end.
(** BytesToString.go:11-30  BytesToString *)
Definition BytesToString (inp : gslice) : code (list N) :=
  do s <- FromBytes inp;
  do h <- bytes_from s;
  do (ret, n) <- make_slice true (Codegen.int64 (Codegen.int64 (Z.of_nat (length s) * 2) + 2));
  set_at ret n 0 34 ;;
  do ptr <- string_loop h ret n (length s) 0 1;
  set_at ret n ptr 34 ;;
  string_of ret n.

(** BytesToString.go:54-68  the loop of BytesToStringSep *)
Fixpoint string_sep_loop (hexPerSection : Z) (h ret : addr) (n cnt i ptr : nat) : code nat :=
  match cnt with
  | O => Return ptr
  | S cnt =>
      do b <- get (shift h i);
      do ptr <-
        (if Nat.even i then
           do ptr <-
             (if (Z.eqb (Z.rem (Z.of_nat i) hexPerSection) 0 && Nat.ltb 1 ptr)%bool then
                set_at ret n ptr 34 ;;
                set_at ret n (ptr + 1) 43 ;;
                set_at ret n (ptr + 2) 34 ;;
                Return (ptr + 3)%nat
              else Return ptr);
           set_at ret n ptr 92 ;;
           set_at ret n (ptr + 1) 120 ;;
           Return (ptr + 2)%nat
         else Return ptr);
      set_at ret n ptr b ;;
      string_sep_loop hexPerSection h ret n cnt (i + 1) (ptr + 1)
  end.
(** BytesToString.go:35-71  BytesToStringSep *)
Definition BytesToStringSep (inp : gslice) (bytesPerSection : Z) : code (list N) :=
  if Z.ltb bytesPerSection 1 then Crash
  else
    do s <- FromBytes inp;
    do h <- bytes_from s;
    let retLen := Codegen.int64 (Z.of_nat (length s) * 2) in
    let hexPerSection := Codegen.int64 (bytesPerSection * 2) in
    do q <- lift (Codegen.int_quot (Z.of_nat (length s)) hexPerSection);
    let retLen := Codegen.int64 (retLen + Codegen.int64 (3 * Codegen.int64 (q - 1))) in
    let retLen := Codegen.int64 (retLen + 2) in
    do (ret, n) <- make_slice true retLen;
    set_at ret n 0 34 ;;
    do ptr <- string_sep_loop hexPerSection h ret n (length s) 0 1;
    set_at ret n ptr 34 ;;
    string_of ret n.

(** BytesToHexSep.go:31-48  the loop of BytesToHexSep *)
Fixpoint hex_sep_loop (hexPerSection : Z) (h ret : addr) (n cnt i ptr : nat) : code nat :=
  match cnt with
  | O => Return ptr
  | S cnt =>
      do b <- get (shift h i);
      do ptr <-
        (if Nat.even i then
           do ptr <-
             (if Nat.ltb 1 ptr then
                set_at ret n ptr 44 ;;
                set_at ret n (ptr + 1) 32 ;;
                let ptr := (ptr + 2)%nat in
                if Z.eqb (Z.rem (Z.of_nat i) hexPerSection) 0 then
                  set_at ret n ptr 10 ;;
                  Return (ptr + 1)%nat
                else Return ptr
              else Return ptr);
           set_at ret n ptr 48 ;;
           set_at ret n (ptr + 1) 120 ;;
           Return (ptr + 2)%nat
         else Return ptr);
      set_at ret n ptr b ;;
      hex_sep_loop hexPerSection h ret n cnt (i + 1) (ptr + 1)
  end.
(** BytesToHexSep.go:13-51  BytesToHexSep *)
Definition BytesToHexSep (inp : gslice) (bytesPerSection : Z) : code (list N) :=
  if Z.ltb bytesPerSection 1 then Crash
  else
    do s <- FromBytes inp;
    do h <- bytes_from s;
    let retLen := Codegen.int64 (Z.of_nat (slen inp) * 6) in
    let hexPerSection := Codegen.int64 (bytesPerSection * 2) in
    do q <- lift (Codegen.int_quot (Z.of_nat (length s)) hexPerSection);
    let retLen := Codegen.int64 (retLen + Codegen.int64 (q - 1)) in
    do (ret, n) <- make_slice true retLen;
    set_at ret n 0 123 ;;
    do ptr <- hex_sep_loop hexPerSection h ret n (length s) 0 1;
    set_at ret n ptr 125 ;;
    string_of ret n.

(** ** A goroutine that uses hashes, hex and codegen *)
Definition do_deed (bd : build) (ours mine : list object) (d : deed) : code (list object * answer) :=
  match d with
  | Plain a => do (mine, r) <- do_act ours mine a; Return (mine, APlain r)
  | From_bytes src => do s <- FromBytes src; Return (mine, AText s)
  | To_bytes s =>
      do r <- ToBytes bd s;
      Return (mine,
        match r with
        | (Some t, None) => ABytes t
        | (_, Some (InvalidHexAt c i)) => ABad c i
        | (_, Some ErrLength) => AOdd
        | (None, None) => ANil
        end)
  | To_bytes_fast s => do r <- ToBytesFast bd s; Return (mine, match r with Some t => ABytes t | None => ANil end)
  | To_string inp => do s <- BytesToString inp; Return (mine, AText s)
  | To_string_sep inp k => do s <- BytesToStringSep inp k; Return (mine, AText s)
  | To_hex_sep inp k => do s <- BytesToHexSep inp k; Return (mine, AText s)
  end.
Fixpoint work (bd : build) (ours mine : list object) (g : worker) : code (list answer * list object) :=
  match g with
  | Rest => Return ([], mine)
  | Then d k =>
      do (mine, r) <- do_deed bd ours mine d;
      do (rs, mine) <- work bd ours mine (k r);
      Return (r :: rs, mine)
  end.
