(** Reading Go source text: string expressions and byte list bodies. *)
From Verif Require Import Base.Go Spec.HexSpec.
Local Open Scope N_scope.

(** The rest of an interpreted string literal after its opening quote: the
    bytes denoted and the text after the closing quote. Understood: \xHH and
    plain printable ASCII; anything else is not read. *)
Fixpoint literal_rest (s : list N) : option (list N * list N) :=
  match s with
  | [] => None
  | c :: r =>
      if c =? 34 then Some ([], r)
      else if c =? 92 then
        match r with
        | 120 :: h :: l :: r' =>
            match digit_value h, digit_value l, literal_rest r' with
            | Some a, Some b, Some (v, rest) => Some (16 * a + b :: v, rest)
            | _, _, _ => None
            end
        | _ => None
        end
      else if ((32 <=? c) && (c <=? 126))%bool then
        match literal_rest r with Some (v, rest) => Some (c :: v, rest) | None => None end
      else None
  end.
(** lit + lit + ... + lit : the list of the values of the literals. *)
Fixpoint literals (n : nat) (s : list N) : option (list (list N)) :=
  match n, s with
  | S n', 34 :: r =>
      match literal_rest r with
      | Some (v, []) => Some [v]
      | Some (v, 43 :: r') => option_map (cons v) (literals n' r')
      | _ => None
      end
  | _, _ => None
  end.
Definition string_expression (s : list N) : option (list (list N)) := literals (length s) s.

(** {0xHH, 0xHH, ... 0xHH} : the elements, line by line; a line break may
    follow a comma and a space. *)
Fixpoint elements (s : list N) (line : list N) : option (list (list N)) :=
  match s with
  | 48 :: 120 :: h :: l :: r =>
      match digit_value h, digit_value l with
      | Some a, Some b =>
          let line' := line ++ [16 * a + b] in
          match r with
          | [125] => Some [line']
          | 44 :: 32 :: 10 :: r' => option_map (cons line') (elements r' [])
          | 44 :: 32 :: r' => elements r' line'
          | _ => None
          end
      | _, _ => None
      end
  | _ => None
  end.
Definition byte_list (s : list N) : option (list (list N)) :=
  match s with 123 :: r => elements r [] | _ => None end.

(** Consecutive pieces of k elements (the last may be shorter). *)
Fixpoint pieces_fuel {A} (n k : nat) (l : list A) : list (list A) :=
  match n, l with
  | S n', _ :: _ => firstn k l :: pieces_fuel n' k (skipn k l)
  | _, _ => []
  end.
Definition pieces {A} (k : nat) (l : list A) : list (list A) := pieces_fuel (length l) k l.

(** ** Writing it: the texts, character by character *)

(** Parts one after the other, with [sep] between them. *)
Definition joined (sep : list N) (l : list (list N)) : list N :=
  match l with [] => [] | x :: r => x ++ flat_map (fun y => sep ++ y) r end.
(** "\xHH\xHH..." *)
Definition go_string (xs : list N) : list N := [34] ++ flat_map (fun b => [92; 120] ++ numeral b) xs ++ [34].
(** "..."+"..."+"...", with k bytes in each *)
Definition go_strings (k : nat) (xs : list N) : list N := joined [43] (map go_string (pieces k xs)).
(** {0xHH, 0xHH, ...}, with k bytes in each line *)
Definition go_line (xs : list N) : list N := joined [44; 32] (map (fun b => [48; 120] ++ numeral b) xs).
Definition go_list (k : nat) (xs : list N) : list N := [123] ++ joined [44; 32; 10] (map go_line (pieces k xs)) ++ [125].
