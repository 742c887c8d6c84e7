(** Reading a small part of the Go language from source text: package clause,
    integer and string constants, lists of uint64. Written from the language
    specification, independent of the code. *)
From Coq Require Import String Ascii.
From Verif Require Import Base.Go Spec.HexSpec.
Local Open Scope list_scope.
Local Open Scope N_scope.

Definition chars (s : string) : list N := map N_of_ascii (list_ascii_of_string s).

(** ** Tokens *)

Inductive token :=
| Name (s : list N) | Int (n : N) | Str (s : list N) | Op (c : N) | Dots | Semi.

(** What is being read. *)
Inductive mode :=
| Between
| InName (s : list N)
| InZero                      (* a 0 *)
| InDec (n : N)
| InX                         (* 0x *)
| InHex (n : N)               (* 0x and at least one digit *)
| InDots (n : nat)
| InSlash
| InComment
| InStr (s : list N)
| InEsc (s : list N)          (* after a backslash *)
| InEscX (s : list N)         (* after \x *)
| InEscX1 (s : list N) (h : N)
| Bad.
(** Mode, and the tokens read so far, the last one first. *)
Definition lexer := (mode * list token)%type.

Definition is_letter (c : N) : bool :=
  ((65 <=? c) && (c <=? 90)) || ((97 <=? c) && (c <=? 122)) || (c =? 95).
Definition is_digit (c : N) : bool := (48 <=? c) && (c <=? 57).
Definition eqs (a b : list N) : bool := if list_eq_dec N.eq_dec a b then true else false.
Definition keyword (s : list N) : bool :=
  eqs s (chars "package") || eqs s (chars "const") || eqs s (chars "var").

(** A line end after one of these tokens ends the declaration. *)
Definition ends_line (ts : list token) : bool :=
  match ts with
  | Name s :: _ => negb (keyword s)
  | Int _ :: _ | Str _ :: _ => true
  | Op c :: _ => (c =? 125) || (c =? 93) || (c =? 41)
  | _ => false
  end.
Definition newline (ts : list token) : lexer := (Between, if ends_line ts then Semi :: ts else ts).

(** A character that does not continue a token. *)
Definition fresh (c : N) (ts : list token) : lexer :=
  if (c =? 32) || (c =? 9) || (c =? 13) then (Between, ts)
  else if c =? 10 then newline ts
  else if is_letter c then (InName [c], ts)
  else if c =? 48 then (InZero, ts)
  else if is_digit c then (InDec (c - 48), ts)
  else if c =? 34 then (InStr [], ts)
  else if c =? 47 then (InSlash, ts)
  else if c =? 46 then (InDots 1, ts)
  else if existsb (N.eqb c) (chars "=+,{}[]()") then (Between, Op c :: ts)
  else (Bad, ts).

Definition read (l : lexer) (c : N) : lexer :=
  let (m, ts) := l in
  match m with
  | Between => fresh c ts
  | InName s => if is_letter c || is_digit c then (InName (s ++ [c]), ts) else fresh c (Name s :: ts)
  | InZero =>
      if (c =? 120) || (c =? 88) then (InX, ts)
      else if is_letter c || is_digit c then (Bad, ts) else fresh c (Int 0 :: ts)
  | InDec n =>
      if is_digit c then (InDec (10 * n + (c - 48)), ts)
      else if is_letter c then (Bad, ts) else fresh c (Int n :: ts)
  | InX => match digit_value c with Some d => (InHex d, ts) | None => (Bad, ts) end
  | InHex n =>
      match digit_value c with
      | Some d => (InHex (16 * n + d), ts)
      | None => if is_letter c || is_digit c then (Bad, ts) else fresh c (Int n :: ts)
      end
  | InDots n =>
      if c =? 46 then match n with 2%nat => (Between, Dots :: ts) | _ => (InDots (n + 1), ts) end
      else (Bad, ts)
  | InSlash => if c =? 47 then (InComment, ts) else (Bad, ts)
  | InComment => if c =? 10 then newline ts else (InComment, ts)
  | InStr s =>
      if c =? 34 then (Between, Str s :: ts)
      else if c =? 92 then (InEsc s, ts)
      else if (32 <=? c) && (c <=? 126) then (InStr (s ++ [c]), ts) else (Bad, ts)
  | InEsc s => if c =? 120 then (InEscX s, ts) else (Bad, ts)
  | InEscX s => match digit_value c with Some h => (InEscX1 s h, ts) | None => (Bad, ts) end
  | InEscX1 s h => match digit_value c with Some d => (InStr (s ++ [16 * h + d]), ts) | None => (Bad, ts) end
  | Bad => (Bad, ts)
  end.
Definition lex (l : lexer) (s : list N) : lexer := fold_left read s l.
(** The end of the text acts as a line end. *)
Definition tokens (s : list N) : option (list token) :=
  match lex (Between, []) (s ++ [10]) with
  | (Between, ts) => Some (rev ts)
  | _ => None
  end.

(** ** Declarations *)

Inductive declaration :=
| Package (name : list N)
| ConstInt (name : list N) (n : N)
| ConstStr (name : list N) (s : list N)
| VarU64 (name : list N) (l : list N).

(** The elements of { ... } up to the closing brace. *)
Fixpoint elements (ts : list token) : option (list N * list token) :=
  match ts with
  | Op 125 :: r => Some ([], r)
  | Int n :: Op 125 :: r => if n <? 2 ^ 64 then Some ([n], r) else None
  | Int n :: Op 44 :: r =>
      if n <? 2 ^ 64 then
        match elements r with Some (l, r') => Some (n :: l, r') | None => None end
      else None
  | _ => None
  end.
(** What follows the first string of a sum. *)
Fixpoint sum (s : list N) (ts : list token) : option (list N * list token) :=
  match ts with
  | Op 43 :: Str s' :: r => sum (s ++ s') r
  | Op 43 :: _ => None
  | _ => Some (s, ts)
  end.
Definition declare (ts : list token) : option (declaration * list token) :=
  match ts with
  | Name k :: Name x :: r =>
      if eqs k (chars "package") then Some (Package x, r)
      else if eqs k (chars "const") then
        match r with
        | Op 61 :: Int n :: r' => Some (ConstInt x n, r')
        | Op 61 :: Str s :: r' => match sum s r' with Some (v, r'') => Some (ConstStr x v, r'') | None => None end
        | _ => None
        end
      else if eqs k (chars "var") then
        match r with
        | Op 61 :: Op 91 :: Dots :: Op 93 :: Name t :: Op 123 :: r' =>
            if eqs t (chars "uint64") then
              match elements r' with Some (l, r'') => Some (VarU64 x l, r'') | None => None end
            else None
        | _ => None
        end
      else None
  | _ => None
  end.
(** Declarations, each ended by a line end. *)
Fixpoint declarations (n : nat) (ts : list token) : option (list declaration) :=
  match n, ts with
  | _, [] => Some []
  | S n', _ =>
      match declare ts with
      | Some (d, Semi :: r) => option_map (cons d) (declarations n' r)
      | _ => None
      end
  | _, _ => None
  end.
(** The meaning of a source text, if it is understood. *)
Definition go_source (s : list N) : option (list declaration) :=
  match tokens s with
  | Some ts => declarations (length ts) ts
  | None => None
  end.

(** A Go name. *)
Definition identifier (s : list N) : Prop :=
  match s with
  | [] => False
  | c :: r => is_letter c = true /\ Forall (fun d => is_letter d || is_digit d = true) r
  end /\ keyword s = false.
