(** Hash histories, padding and iteration, independent of the code. *)
From Verif Require Import Base.Go Base.DigestApi Spec.CodegenSpec.
Local Open Scope N_scope.

(** What a user must observe: [m] is everything written since the last Reset. *)
Fixpoint hash_trace (digest : list N -> list N) (size bsize : nat) (m : list N) (cs : list hcall) : list hresult :=
  match cs with
  | [] => []
  | HWrite p :: cs' => Wrote (length p) :: hash_trace digest size bsize (m ++ p) cs'
  | HSum inp :: cs' => Digest (inp ++ digest m) :: hash_trace digest size bsize m cs'
  | HReset :: cs' => Done :: hash_trace digest size bsize [] cs'
  | HSize :: cs' => Length size :: hash_trace digest size bsize m cs'
  | HBlockSize :: cs' => Length bsize :: hash_trace digest size bsize m cs'
  end.
Fixpoint written (m : list N) (cs : list hcall) : list N :=
  match cs with
  | [] => m
  | HWrite p :: cs' => written (m ++ p) cs'
  | HReset :: cs' => written [] cs'
  | _ :: cs' => written m cs'
  end.

(** [n] bytes of [v], low byte first. *)
Fixpoint little_endian (n : nat) (v : N) : list N :=
  match n with O => [] | S n' => v mod 256 :: little_endian n' (v / 256) end.

(** Padding to 64-byte blocks: a one bit, the fewest zeros, the length field. *)
Definition zeros (n field : nat) : nat := ((64 - (n + 1 + field) mod 64) mod 64)%nat.
Definition padded (field : list N) (m : list N) : list N :=
  m ++ [128] ++ repeat 0 (zeros (length m) (length field)) ++ field.

(** Iterating a compression function over the blocks. *)
Definition iterate {St} (compress : St -> list N -> St) (iv : St) (text : list N) : St :=
  fold_left compress (pieces 64 text) iv.

(** [n] bytes of [v], high byte first. *)
Definition big_endian (n : nat) (v : N) : list N := rev (little_endian n v).

(** All the bytes given to Write in a history. *)
Fixpoint fed (cs : list hcall) : N :=
  match cs with
  | [] => 0
  | HWrite p :: cs' => N.of_nat (length p) + fed cs'
  | _ :: cs' => fed cs'
  end.
