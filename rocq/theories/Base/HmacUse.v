(** What a program does that uses the hashes of the module through Go's
    crypto/hmac. The answers are those of Base/HashUse.v. *)
From Verif Require Import Base.Go Base.Heap Base.HashUse.
Local Open Scope N_scope.

Inductive muse :=
| MNew (k : kind) (key : bslice) (room : nat)   (* h := hmac.New(New..., key); objects are numbered from 0 *)
| MWrite (i : nat) (p : bslice)                 (* n, err := h.Write(p) *)
| MSum (i : nat) (inp : bslice) (room room' : nat)   (* h.Sum(in); the rooms as in Base/HashUse.v *)
| MReset (i : nat)                              (* h.Reset() *)
| MMake (n c : nat)                             (* make([]byte, n, c) *)
| MStore (s : bslice) (j : nat) (v : N).        (* s[j] = v *)
