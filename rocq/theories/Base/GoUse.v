(** What goroutines do that use the hashes of the module: the operations, and
    the answers they get. *)
From Verif Require Import Base.Go Base.Goroutine Base.HashUse.
Local Open Scope N_scope.

(** A hash object: one of those the goroutine made itself, or one of those made
    before the goroutines were started. *)
Inductive handle := Mine (i : nat) | Ours (i : nat).

Inductive act :=
| Make_hash (k : kind)                 (* h := New...() *)
| Do_write (h : handle) (p : gslice)   (* n, err := h.Write(p) *)
| Do_sum (h : handle) (inp : gslice) (room : nat)   (* h.Sum(in); [room] as in Base/HashUse.v *)
| Do_reset (h : handle)                (* h.Reset() *)
| Make (n c : nat)                     (* make([]byte, n, c) *)
| Store (s : gslice) (j : nat) (v : N) (* s[j] = v *)
| Load (s : gslice) (j : nat).         (* s[j] *)

Inductive reply :=
| RHash                    (* the next of the goroutine's own objects *)
| RWrote (n : nat)         (* (n, nil) *)
| RSlice (s : gslice)
| RByte (v : N)
| RDone.

(** A goroutine: what it does next may depend on the replies it got. *)
Inductive goroutine :=
| Stop
| Do (a : act) (k : reply -> goroutine).
