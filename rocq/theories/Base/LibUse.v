(** What goroutines do that use hashes, package hex and package codegen: the
    calls, and the answers they get. A Go string cannot be changed; it is the
    list of its bytes. *)
From Verif Require Import Base.Go Base.Goroutine Base.GoUse.
Local Open Scope N_scope.

Inductive deed :=
| Plain (a : act)                              (* slices and hashes, Base/GoUse.v *)
| From_bytes (src : gslice)                    (* hex.FromBytes(src) *)
| To_bytes (s : list N)                        (* hex.ToBytes(s) *)
| To_bytes_fast (s : list N)                   (* hex.ToBytesFast(s) *)
| To_string (inp : gslice)                     (* codegen.BytesToString(inp) *)
| To_string_sep (inp : gslice) (k : Z)         (* codegen.BytesToStringSep(inp, k) *)
| To_hex_sep (inp : gslice) (k : Z).           (* codegen.BytesToHexSep(inp, k) *)

Inductive answer :=
| APlain (r : reply)
| AText (s : list N)                           (* a string *)
| ABytes (s : gslice)                          (* a slice, and err == nil *)
| ABad (c : N) (i : Z)                         (* nil, InvalidHexAt(c, i) *)
| AOdd                                         (* nil, ErrLength *)
| ANil.                                        (* nil *)

(** A goroutine: what it does next may depend on the answers it got. *)
Inductive worker :=
| Rest
| Then (d : deed) (k : answer -> worker).
