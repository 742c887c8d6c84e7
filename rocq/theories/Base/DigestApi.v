(** Vocabulary of Go's hash.Hash interface for the cryptographic hashes of
    /repo/hash: the calls a user can make and what they observe, and the memory
    layout the two packages share. *)
From Verif Require Import Base.Go.
Local Open Scope N_scope.

(** ripemd/shared.go:108-115 (the fields that change) and
    whirlpool/whirlpool.go:27-32. *)
Record ctx := mkCtx {
  state : list N;      (* fixed-size array of words *)
  total : N;           (* len / lenBytes, uint64 *)
  block : list N;      (* [64]byte *)
  bPos : nat;
}.

Inductive hcall :=
| HWrite (p : list N)      (* n, err := h.Write(p) *)
| HSum (inp : list N)      (* h.Sum(in) *)
| HReset                   (* h.Reset() *)
| HSize                    (* h.Size() *)
| HBlockSize.              (* h.BlockSize() *)

Inductive hresult :=
| Wrote (n : nat)          (* Write returned (n, nil) *)
| Digest (out : list N)
| Done
| Length (n : nat).

Definition hcall_ok (c : hcall) : Prop :=
  match c with HWrite p => bytes_ok p | HSum inp => bytes_ok inp | _ => True end.
Definition hcalls_ok (cs : list hcall) : Prop := Forall hcall_ok cs.

(** Running a history of calls, and what the user sees. *)
Fixpoint hrun {St} (step : St -> hcall -> outcome (St * hresult)) (s : St) (cs : list hcall)
    : outcome (St * list hresult) :=
  match cs with
  | [] => Ret (s, [])
  | c :: cs' =>
      let! (s, r) := step s c in
      let! (s, rs) := hrun step s cs' in
      Ret (s, r :: rs)
  end.
Definition hobserve {St} (step : St -> hcall -> outcome (St * hresult)) (s : St) (cs : list hcall)
    : outcome (list hresult) :=
  let! (_, rs) := hrun step s cs in Ret rs.
