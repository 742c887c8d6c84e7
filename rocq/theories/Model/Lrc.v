(** Model of package checksum/lrc (/repo/checksum/lrc/lrc.go). The state is the
    value of the [digest] (uint8, line 10). *)
From Verif Require Import Base.Go Base.HashApi.
Local Open Scope N_scope.
Definition digest := N.

(** lrc.go:34  Reset *)
Definition Reset : digest := 0.

(** lrc.go:13-17  New *)
Definition New : digest := Reset.

(** lrc.go:19-25  update: dig += p[i] on uint8, then ^dig+1. *)
Definition update (d : digest) (p : list N) : digest :=
  add8 (not8 (fold_left (fun dig b => add8 dig b) p d)) 1.

(** lrc.go:27-30 Write, 32 Sum, 34 Reset, 36 Size, 38 BlockSize, 40 Sum8. *)
Definition step (d : digest) (c : call) : outcome (digest * result) :=
  match c with
  | CWrite p => Ret (update d p, RWrite (length p))
  | CSum inp => Ret (d, RSum (inp ++ [d]))
  | CValue => Ret (d, RValue d)
  | CReset => Ret (Reset, RUnit)
  | CSize => Ret (d, RInt 1)
  | CBlockSize => Ret (d, RInt 1)
  end.
