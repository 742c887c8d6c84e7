(** What goroutines do that use package bytes on slices of one memory. *)
From Verif Require Import Base.Go Base.Mem Base.Goroutine.
Local Open Scope N_scope.

(** The memory of the slices, in the memory of Base/Goroutine.v. *)
Definition cell (n : nat) : addr := mkA 0 false n.

Inductive width := W16 | W32 | W64 | W128 | W256 | W512.
Definition width_bytes (w : width) : nat :=
  match w with W16 => 2 | W32 => 4 | W64 => 8 | W128 => 16 | W256 => 32 | W512 => 64 end.

Inductive call :=
| CZero (target : slice)                        (* bytes.Zero(target) *)
| CXorEq (dst other : slice)                    (* n := bytes.XorEq(dst, other) *)
| CAdd (e : byte_order) (w : width) (sum a b : slice)    (* carry, err := bytes.Add<w>LE(sum, a, b) or ...BE *)
| CAddNative (p : byte_order) (w : width) (sum a b : slice)  (* bytes.Add<w>(sum, a, b) on a platform with order p *)
| CLoad (s : slice) (j : nat)                   (* s[j] *)
| CStore (s : slice) (j : nat) (v : N).         (* s[j] = v *)

Inductive result :=
| RDone
| RCount (n : nat)
| RAdded (carry : N) (failed : bool)            (* failed: err != nil *)
| RByte (v : N).

(** A goroutine: what it does next may depend on the results it got. *)
Inductive job :=
| Stop
| Do (c : call) (k : result -> job).
