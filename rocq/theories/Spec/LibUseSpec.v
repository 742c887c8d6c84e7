(** What a goroutine may expect that uses hashes, package hex and package
    codegen while others do too: the same as if it were alone. *)
From Verif Require Import Base.Go Base.Goroutine Base.GoUse Base.LibUse Spec.HexSpec Spec.CodegenSpec Spec.GoUseSpec.
Local Open Scope N_scope.

(** ** The texts *)

(** The bytes of the pairs of hex digits at the start of a text. *)
Fixpoint read_pairs (s : list N) : list N :=
  match s with
  | a :: b :: r =>
      match digit_value a, digit_value b with
      | Some x, Some y => 16 * x + y :: read_pairs r
      | _, _ => []
      end
  | _ => []
  end.
(** The first character that is not a hex digit, and where it is. *)
Fixpoint first_bad (s : list N) (i : Z) : option (N * Z) :=
  match s with
  | [] => None
  | c :: r => match digit_value c with None => Some (c, i) | Some _ => first_bad r (i + 1) end
  end.

(** ** The goroutine *)
Section Goroutine.
Context (id : nat) (ours : list (Base.HashUse.kind * list (list N))) (before : nat).

(** The bytes given to BytesToStringSep and BytesToHexSep are a number of whole
    sections (the functions panic otherwise). No slice has 2^58 bytes. *)
Definition sections_ok (n : nat) (k : Z) : Prop :=
  (1 <= k < 2 ^ 62)%Z /\ n <> O /\ (n mod Z.to_nat k = 0)%nat.
Definition permitted (st : local) (d : deed) : Prop :=
  match d with
  | Plain a => allowed id ours before st a
  | From_bytes src => slice_ok id before st src
  | To_bytes s | To_bytes_fast s => bytes_ok s
  | To_string inp => slice_ok id before st inp /\ (Z.of_nat (slen inp) < 2 ^ 58)%Z
  | To_string_sep inp k | To_hex_sep inp k =>
      slice_ok id before st inp /\ (Z.of_nat (slen inp) < 2 ^ 58)%Z /\ sections_ok (slen inp) k
  end.

(** A slice with half as many bytes as [s] has characters is made in any case;
    the pairs read before the first bad one are in it, and the goroutine gets it
    if there is no bad one and no single character at the end. *)
Definition decoded (st : local) (s : list N) : local :=
  mkLocal (overwrite (text st) (mkA id false (made st)) (read_pairs s ++ repeat 0 (length s / 2 - length (read_pairs s))))
    (made st + length s / 2) (hashes st).
Definition gets_bytes (st : local) (s : list N) : answer := ABytes (mkS (mkA id false (made st)) (length s / 2) (length s / 2)).

Definition consequence (st : local) (d : deed) : local * answer :=
  match d with
  | Plain a => let '(st', r) := effect id ours st a in (st', APlain r)
  | From_bytes src => (st, AText (flat_map numeral (bytes_of st src)))
  | To_bytes s =>
      (decoded st s,
       match first_bad s 0 with
       | Some (c, i) => ABad c i
       | None => if Nat.even (length s) then gets_bytes st s else AOdd
       end)
  | To_bytes_fast s =>
      (decoded st s,
       match first_bad s 0 with
       | Some _ => ANil
       | None => if Nat.even (length s) then gets_bytes st s else ANil
       end)
  | To_string inp => (st, AText (go_string (bytes_of st inp)))
  | To_string_sep inp k => (st, AText (go_strings (Z.to_nat k) (bytes_of st inp)))
  | To_hex_sep inp k => (st, AText (go_list (Z.to_nat k) (bytes_of st inp)))
  end.

Fixpoint works_fair (st : local) (g : worker) : Prop :=
  match g with
  | Rest => True
  | Then d k => permitted st d /\ works_fair (fst (consequence st d)) (k (snd (consequence st d)))
  end.
Fixpoint foresees (st : local) (g : worker) : list answer * local :=
  match g with
  | Rest => ([], st)
  | Then d k =>
      let '(st', r) := consequence st d in
      let '(rs, st'') := foresees st' (k r) in
      (r :: rs, st'')
  end.
End Goroutine.
