(** Going on from a digest: what can be computed about longer messages from the
    digest and the length of a message. Independent of the code. *)
From Verif Require Import Base.Go Spec.CodegenSpec Spec.DigestSpec.
Local Open Scope N_scope.

(** What is hashed after a message of [n] bytes. *)
Definition closing (field : nat -> list N) (n : nat) : list N :=
  [128] ++ repeat 0 (zeros n (length (field n))) ++ field n.
Definition little_field (n : nat) : list N := little_endian 8 ((8 * N.of_nat n) mod 2 ^ 64).
Definition big_field (n : nat) : list N := big_endian 32 (8 * N.of_nat n).

(** The number whose bytes, low first, are [bs]. *)
Definition little_number (bs : list N) : N := fold_right (fun b v => b + 256 * v) 0 bs.

(** From the chaining value [h] after a message of [n] bytes and its closing,
    the one after the text [x] and the new closing. *)
Definition resume {St} (field : nat -> list N) (compress : St -> list N -> St) (h : St) (n : nat) (x : list N) : St :=
  iterate compress h (x ++ closing field (n + length (closing field n) + length x)).

(** The digest of the longer message from the digest [d] of the shorter one. *)
Definition extended_words (compress : list N -> list N -> list N) (n : nat) (d x : list N) : list N :=
  flat_map (little_endian 4) (resume little_field compress (map little_number (pieces 4 d)) n x).
Definition extended_bytes (compress : list N -> list N -> list N) (n : nat) (d x : list N) : list N :=
  resume big_field compress d n x.
