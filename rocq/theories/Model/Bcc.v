(** Model of package checksum/bcc (/repo/checksum/bcc/bcc.go). The state is the
    value of the [digest] (uint8, line 10). *)
From Verif Require Import Base.Go Base.HashApi.
Local Open Scope N_scope.
Definition digest := N.

(** bcc.go:37-39  Reset *)
Definition Reset : digest := 0.

(** bcc.go:12-16  New *)
Definition New : digest := Reset.

(** bcc.go:18-24  update *)
Definition update (d : digest) (p : list N) : digest :=
  fold_left (fun dig b => N.lxor dig b) p d.

(** bcc.go:26-29 Write, 31-34 Sum, 37-39 Reset, 41-43 Size, 45 BlockSize,
    47 Sum8.  [append] is modelled as list concatenation. *)
Definition step (d : digest) (c : call) : outcome (digest * result) :=
  match c with
  | CWrite p => Ret (update d p, RWrite (length p))
  | CSum inp => Ret (d, RSum (inp ++ [d]))
  | CValue => Ret (d, RValue d)
  | CReset => Ret (Reset, RUnit)
  | CSize => Ret (d, RInt 1)
  | CBlockSize => Ret (d, RInt 1)
  end.
