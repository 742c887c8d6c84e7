(** What a program does that uses the hashes of the module: the operations,
    with the program's own byte slices, and the answers. *)
From Verif Require Import Base.Go Base.Heap.
Local Open Scope N_scope.

Inductive kind :=
| KRipemd128 | KRipemd160 | KRipemd256 | KRipemd320 | KWhirlpool     (* hash.Hash *)
| KBcc | KLrc | KFletcher16 | KFletcher32 | KFletcher64.             (* checksums *)

Inductive use :=
| New (k : kind)                    (* h := New...(); objects are numbered from 0 *)
| Write (i : nat) (p : bslice)      (* n, err := h.Write(p) *)
| Sum (i : nat) (inp : bslice) (room : nat)
    (* h.Sum(in); [room] is the spare capacity the Go runtime leaves if it has
       to move the slice, out of the program's control *)
| Reset (i : nat)                   (* h.Reset() *)
| Make (n c : nat)                  (* make([]byte, n, c) *)
| Store (s : bslice) (j : nat) (v : N).   (* s[j] = v *)

Inductive answer :=
| AHash (i : nat)        (* the new object *)
| AWrote (n : nat)       (* (n, nil) *)
| ASlice (s : bslice)
| ADone.
