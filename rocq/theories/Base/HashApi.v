(** Vocabulary of Go's hash.Hash / checksum.Hash8 / Hash16 interfaces
    (/repo/checksum/hash.go:5-15 and the standard library's hash package):
    calls a user can make on a hash value and what they observe. *)
From Verif Require Import Base.Go.
Local Open Scope N_scope.

Inductive call :=
| CWrite (p : list N)      (* n, err := h.Write(p) *)
| CSum (inp : list N)      (* h.Sum(in) *)
| CValue                   (* h.Sum8() / Sum16() / Sum32() / Sum64() *)
| CReset                   (* h.Reset() *)
| CSize                    (* h.Size() *)
| CBlockSize.              (* h.BlockSize() *)

Inductive result :=
| RWrite (n : nat)         (* Write returned (n, nil) *)
| RSum (out : list N)
| RValue (v : N)
| RUnit
| RInt (n : nat).

Definition call_ok (c : call) : Prop :=
  match c with
  | CWrite p => bytes_ok p
  | CSum inp => bytes_ok inp
  | _ => True
  end.
Definition calls_ok (cs : list call) : Prop := Forall call_ok cs.

(** Running a history of calls from a state. *)
Fixpoint run {St} (step : St -> call -> outcome (St * result)) (s : St) (cs : list call)
    : outcome (St * list result) :=
  match cs with
  | [] => Ret (s, [])
  | c :: cs' =>
      let! (s', r) := step s c in
      let! (s'', rs) := run step s' cs' in
      Ret (s'', r :: rs)
  end.

(** The results a user sees along a history. *)
Definition observe {St} (step : St -> call -> outcome (St * result)) (s : St) (cs : list call)
    : outcome (list result) :=
  let! (_, rs) := run step s cs in Ret rs.

(** Every write of the history satisfies [ok]. *)
Definition writes_ok (ok : list N -> Prop) (cs : list call) : Prop :=
  Forall (fun c => match c with CWrite p => ok p | _ => True end) cs.

(** Hashing [m1] and [m2], each in one write, gives two different values. *)
Definition differ {St} step (s0 : St) (m1 m2 : list N) : Prop :=
  exists n1 n2 v1 v2,
  observe step s0 [CWrite m1; CValue] = Ret [RWrite n1; RValue v1] /\
  observe step s0 [CWrite m2; CValue] = Ret [RWrite n2; RValue v2] /\ v1 <> v2.
