(** Properties C69-C70: the text written by the Whirlpool table generator.
    [go_source] reads a part of the Go language (Spec/GoSourceSpec.v). *)
From Coq Require Import String Ascii.
From Verif Require Import Base.Go Model.WhirlpoolTables Model.MakeTables Spec.DigestSpec Spec.GoSourceSpec
  Proofs.MakeTablesProofs.
Local Open Scope list_scope.
Local Open Scope N_scope.

(** ** C69 the generated source declares the tables *)

Theorem C69_table : forall name data, identifier name -> Forall (fun v => v < 2 ^ 64) data ->
  go_source (genVar name data) = Some [VarU64 name data].
Proof. exact genVar_source. Qed.
Print Assumptions C69_table.

(** The whole text: what is declared is what the package uses. *)
Theorem C69_file : exists s, main_source = Ret s /\
  go_source s = Some [Package (chars "whirlpool"); ConstInt (chars "rounds") (N.of_nat rounds);
    VarU64 (chars "rc") rc; VarU64 (chars "ct") ct].
Proof. exact main_written. Qed.
Print Assumptions C69_file.

Example C69_nonvacuous :
  identifier (chars "t_1") /\ Forall (fun v => v < 2 ^ 64) [0; 255; 2 ^ 64 - 1]
  /\ genVar (chars "t_1") [0; 255; 2 ^ 64 - 1]
     = chars "var t_1 =[...]uint64{" ++ [10] ++ chars "//0" ++ [10]
       ++ chars "0x0000000000000000,0x00000000000000ff,0xffffffffffffffff,}" ++ [10; 10].
Proof.
  split; [split; [split; [reflexivity|repeat constructor]|reflexivity]|]. split; [repeat constructor|vm_compute; reflexivity].
Qed.
(** The reader refuses what Go does: a number too large, a missing comma before
    a line end, two numbers in a row. *)
Example C69_reader :
  go_source (chars "var t =[...]uint64{0x10000000000000000,}") = None
  /\ go_source (chars "var t =[...]uint64{0x1" ++ [10] ++ chars "}") = None
  /\ go_source (chars "var t =[...]uint64{1 2,}") = None
  /\ go_source (chars "var t=[...]uint64{0X1F, // one" ++ [10] ++ chars "20}") = Some [VarU64 (chars "t") [31; 20]].
Proof. repeat split; vm_compute; reflexivity. Qed.

(** ** C70 genConst *)

(** False of an empty table: the text is an unfinished sum. *)
Theorem C70_empty_refuted : exists name w, identifier name /\ genConst name [] = Ret w /\ go_source w = None.
Proof.
  exists (chars "t"). eexists. split; [split; [split; [reflexivity|constructor]|reflexivity]|].
  split; [reflexivity|vm_compute; reflexivity].
Qed.
Print Assumptions C70_empty_refuted.

Theorem C70_string_partial : forall name data, identifier name -> data <> [] ->
  exists w, genConst name data = Ret w
  /\ go_source w = Some [ConstStr name (flat_map (little_endian 8) data)].
Proof. exact genConst_source. Qed.
Print Assumptions C70_string_partial.

Example C70_nonvacuous : exists w, genConst (chars "t") [1; 0x1122334455667788; 3] = Ret w
  /\ w = chars "const t =" ++ [34; 34] ++ chars "+" ++ [10] ++ chars "//0" ++ [10]
     ++ [34] ++ chars "\x01\x00\x00\x00\x00\x00\x00\x00" ++ [34] ++ chars "+"
     ++ [34] ++ chars "\x88\x77\x66\x55\x44\x33\x22\x11" ++ [34] ++ chars "+" ++ [10]
     ++ [34] ++ chars "\x03\x00\x00\x00\x00\x00\x00\x00" ++ [34; 10; 10].
Proof. eexists. split; vm_compute; reflexivity. Qed.
