(** Specification of the report of package test, independent of the code. *)
From Verif Require Import Base.Go.
Local Open Scope N_scope.

(** What is assumed of strings.Split(s, ""): non-empty strings, no more than
    there are bytes, at least one if there is a byte. *)
Definition splits (split : list N -> list (list N)) : Prop :=
  forall s, Forall (fun p => p <> []) (split s) /\ (length (split s) <= length s)%nat /\ (s <> [] -> split s <> []).
(** A split that loses nothing. *)
Definition lossless (split : list N -> list (list N)) : Prop :=
  forall s, Forall (fun p => p <> []) (split s) /\ concat (split s) = s.

(** Two sequences aligned: a longest common start P, then what is reported as
    different, then a common end S, longest but for the first difference. *)
Definition aligned {A} (e f P De Df S : list A) : Prop :=
  e = P ++ De ++ S /\ f = P ++ Df ++ S
  /\ (S <> [] -> De <> [] /\ Df <> [])
  /\ (De = [] \/ Df = [] \/ exists a b e' f', De = a :: e' /\ Df = b :: f' /\ a <> b)
  /\ (De = [] \/ Df = [] \/ length De = 1%nat \/ length Df = 1%nat
      \/ exists a b e' f', De = e' ++ [a] /\ Df = f' ++ [b] /\ a <> b).

(** A line of the report: invert (ESC [7m), the differing part, a middle dot
    (c2 b7) for every byte missing against the longer string, normal (ESC [0m). *)
Definition dots (n : nat) : list N := concat (repeat [0xc2; 0xb7] n).
Definition line (p d : list N) (blanks : nat) (s : list N) : list N :=
  p ++ [27; 91; 55; 109] ++ d ++ dots blanks ++ [27; 91; 48; 109] ++ s.

(** Below a common leading character: itself if it is a control character
    (DEL, 127, among them), else '-'. *)
Definition below_char (p : list N) : N :=
  match p with
  | [] => 45
  | [c] => if (c <? 32) || (c =? 127) then c else 45
  | c :: _ => if c <? 32 then c else 45
  end.
(** The marker line: '^' (94) below the first and the last of the [d] >= 1
    differing characters, blanks between, '-' (45) below the common end. *)
Definition carets (d : nat) : list N :=
  match d with
  | O => []
  | S O => [94]
  | S (S d') => [94] ++ repeat 32 d' ++ [94]
  end.
Definition marker_line (P : list (list N)) (d s : nat) : list N :=
  map below_char P ++ carets d ++ repeat 45 s.

(** The whole text: "title: " unless there is none, "Expect, found:", the two
    lines each ended by U+2403 (e2 90 83), the marker line. *)
Definition report_text (title prefix line1 line2 marker : list N) : list N :=
  (match title with [] => [] | _ => title ++ [58; 32] end)
  ++ [69; 120; 112; 101; 99; 116; 44; 32; 102; 111; 117; 110; 100; 58; 10]
  ++ prefix ++ line1 ++ [0xe2; 0x90; 0x83; 10]
  ++ prefix ++ line2 ++ [0xe2; 0x90; 0x83; 10]
  ++ prefix ++ marker.

(** The number of differing characters of the string with more bytes, the
    expected one if they have the same number. *)
Definition longer_part {A B} (expect found : list A) (De Df : list B) : nat :=
  if Nat.ltb (length expect) (length found) then length Df else length De.

(** Strings of 7-bit characters. *)
Definition ascii (s : list N) : Prop := Forall (fun c => c < 128) s.
Definition singles (s : list N) : list (list N) := map (fun c => [c]) s.

(** At most 20 bytes as they are, else the first 19 and U+2026 (e2 80 a6). *)
Definition shortened (s : list N) : list N :=
  if Nat.leb (length s) 20 then s else firstn 19 s ++ [0xe2; 0x80; 0xa6].
