(** Operations on the 64-byte block buffer that both hash packages write out in
    place: Go's copy into the block and bytes.Zero on part of it. *)
From Verif Require Import Base.Go Base.Mem Model.Bytes.
Local Open Scope N_scope.

(** copy(c.block[i:], p): ripemd/shared.go:152,158, whirlpool/whirlpool.go:109,115 *)
Definition copy_from (blk : list N) (i : nat) (p : list N) : outcome (list N) :=
  if Nat.leb i (length blk) then Ret (copy_at blk i p) else Panic.

(** bytes.Zero(block[i:j]), with the block as the whole memory:
    ripemd/shared.go:180,185, whirlpool/whirlpool.go:137,141 *)
Definition zero_range (blk : list N) (i j : nat) : outcome (list N) :=
  let! z := sub (mkSlice 0 (length blk)) i j in
  let! m := Zero (fun a => nth a blk 0) z in
  Ret (map m (seq 0 (length blk))).
