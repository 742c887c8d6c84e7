(** Model of the output part of the Whirlpool table generator
    (/repo/hash/whirlpool/make_tables.go): the text it hands to format.Source.
    A writer is a buffer that only grows, so each function is given as the text
    it appends. Not modelled: format.Source (gofmt), os.WriteFile. *)
From Coq Require Import String Ascii.
From Verif Require Import Base.Go Model.Hex Model.WhirlpoolTables Model.Whirlpool.
Local Open Scope list_scope.
Local Open Scope N_scope.

(** The bytes of a string constant; [nl] is a line feed, [quote] a double quote. *)
Definition str (s : string) : list N := map N_of_ascii (list_ascii_of_string s).
Definition nl : list N := [10].
Definition quote : list N := [34].

(** fmt's %016x of a uint64: 16 lower-case digits (Go standard library) *)
Definition lower_digit (v : N) : N := if v <? 10 then 48 + v else 87 + v.
Fixpoint hex_digits (n : nat) (v : N) : list N :=
  match n with O => [] | S n' => hex_digits n' (N.shiftr v 4) ++ [lower_digit (N.land v 15)] end.
Definition fmt_016x (v : N) : list N := hex_digits 16 v.
(** binary.LittleEndian.PutUint64, as the bytes stored (Go standard library) *)
Definition le64 (v : N) : list N := rev (be64 v).

(** make_tables.go:113-124  the loop of genVar from index [i] *)
Fixpoint genVar_loop (i : nat) (data : list N) : list N :=
  match data with
  | [] => []
  | v :: rest =>
      (if Nat.ltb 0 i then if Nat.eqb (Nat.modulo i 4) 0 then nl else [] else [])
      ++ (if Nat.eqb (Nat.modulo i 16) 0 then str "//" ++ fmt_d (Z.of_nat i) ++ nl else [])
      ++ str "0x" ++ fmt_016x v ++ str ","
      ++ genVar_loop (i + 1) rest
  end.
(** make_tables.go:111-126  genVar *)
Definition genVar (name : list N) (data : list N) : list N :=
  str "var " ++ name ++ str " =[...]uint64{" ++ nl ++ genVar_loop 0 data ++ str "}" ++ nl ++ nl.

(** make_tables.go:132-134  the loop of writeU64LE from [i], [n] to go *)
Fixpoint write_loop (n i : nat) (h : list N) : outcome (list N) :=
  match n with
  | O => Ret []
  | S n' =>
      let! d := slice_of h i (i + 2) in
      let! rest := write_loop n' (i + 2) h in
      Ret (str "\x" ++ d ++ rest)
  end.
(** make_tables.go:128-135  writeU64LE *)
Definition writeU64LE (v : N) : outcome (list N) :=
  let b := le64 v in
  let! h := FromBytes b in
  write_loop 8 0 h.
(** make_tables.go:92-107  the loop of genConst from index [i] *)
Fixpoint genConst_loop (i : nat) (data : list N) : outcome (list N) :=
  match data with
  | [] => Ret []
  | v :: rest =>
      let! w := writeU64LE v in
      let! more := genConst_loop (i + 1) rest in
      Ret ((if Nat.ltb 0 i then if Nat.eqb (Nat.modulo i 2) 0 then str "+" ++ nl else str "+" else [])
        ++ (if Nat.eqb (Nat.modulo i 16) 0 then str "//" ++ fmt_d (Z.of_nat i) ++ nl else [])
        ++ quote ++ w ++ quote ++ more)
  end.
(** make_tables.go:90-109  genConst *)
Definition genConst (name : list N) (data : list N) : outcome (list N) :=
  let! body := genConst_loop 0 data in
  Ret (str "const " ++ name ++ str " =" ++ quote ++ quote ++ str "+" ++ nl ++ body ++ nl ++ nl).

(** make_tables.go:50-57  header *)
Definition header : list N :=
  str "// Copyright 2023 gnabgib" ++ nl
  ++ str "// This Source Code Form is subject to the terms of the Mozilla Public License v2.0" ++ nl ++ nl
  ++ str "// Code generated by go run make_tables.go. DO NOT EDIT." ++ nl ++ nl
  ++ str "package whirlpool" ++ nl ++ nl.
(** make_tables.go:64-77  main up to the call of format.Source: its argument *)
Definition main_source : outcome (list N) :=
  let! ct := buildCirculantTable in
  let! rc := buildRoundConstants ct in
  Ret (header ++ str "const rounds=" ++ fmt_d (Z.of_nat rounds) ++ nl ++ nl
    ++ genVar (str "rc") rc ++ genVar (str "ct") ct).
