(** Model of package test (/repo/test). Strings are byte lists. [split] stands
    for strings.Split(_, "") (Base/GoStrings.v has Go's two versions). *)
From Verif Require Import Base.Go Base.TestApi Base.DigestApi Model.Hex.
From Verif Require Model.Ripemd Model.Whirlpool.
Local Open Scope N_scope.

(** Abbr.go:7-13  Abbr; "…" is e2 80 a6 *)
Definition Abbr (s : list N) : outcome (list N) :=
  let n := length s in
  if Nat.ltb 20 n then
    let! p := slice_of s 0 19 in
    Ret (p ++ [0xe2; 0x80; 0xa6])
  else Ret s.

(** ** Slices with Go int indices *)

Definition zslice {A} (l : list A) (i j : Z) : outcome (list A) :=
  if ((0 <=? i) && (0 <=? j))%Z then slice_of l (Z.to_nat i) (Z.to_nat j) else Panic.
Definition zupd {A} (l : list A) (i : Z) (v : A) : outcome (list A) :=
  if (0 <=? i)%Z then upd l (Z.to_nat i) v else Panic.
(** copy(dst[i:], src) *)
Definition zcopy (dst : list N) (i : Z) (src : list N) : outcome (list N) :=
  if ((0 <=? i) && (i <=? Z.of_nat (length dst)))%Z then Ret (copy_at dst (Z.to_nat i) src) else Panic.
Definition str_eqb (a b : list N) : bool := if list_eq_dec N.eq_dec a b then true else false.

(** StringMatch.go:62-76  the loop of findFirstMismatch from [i], [n] to go *)
Fixpoint first_loop (n i : nat) (e f : list (list N)) (marker : list N) : outcome (nat * list N) :=
  match n with
  | O => Ret (i, marker)
  | S n' =>
      if Nat.leb (length f) i then Ret (i, marker) else
      let! ei := idx e i in
      let! fi := idx f i in
      if negb (str_eqb ei fi) then Ret (i, marker) else
      let! b :=
        (if str_eqb ei [0x7f] then Ret 0x7f
         else let! c := idx ei 0 in
              if c <? 32 then Ret c else Ret 45) in
      let! marker := upd marker i b in
      first_loop n' (i + 1) e f marker
  end.
(** StringMatch.go:58-79  findFirstMismatch: the result and the marker *)
Definition findFirstMismatch (e f : list (list N)) (marker : list N) : outcome (nat * list N) :=
  let! (i, marker) := first_loop (length e) 0 e f marker in
  let! marker := upd marker i 94 in
  Ret (i, marker).

(** StringMatch.go:85-93  the first loop of findLastMismatch; it ends before e
    runs below first, so [fuel] > len(eRunes) suffices (proved) *)
Fixpoint last_loop (fuel : nat) (e f : Z) (eRunes fRunes : list (list N)) (markerDelta first : Z) (marker : list N)
    : outcome (Z * list N) :=
  if ((first <? e) && (first <? f))%Z then
    match fuel with
    | O => OutOfFuel
    | S fuel' =>
        let! re := (if (0 <=? e)%Z then idx eRunes (Z.to_nat e) else Panic) in
        let! rf := (if (0 <=? f)%Z then idx fRunes (Z.to_nat f) else Panic) in
        if negb (str_eqb re rf) then Ret (e, marker) else
        let! marker := zupd marker (e + markerDelta) 45 in
        last_loop fuel' (e - 1) (f - 1) eRunes fRunes markerDelta first marker
    end
  else Ret (e, marker).
(** StringMatch.go:95-97  the loop from [i] down to first + 1 *)
Fixpoint fill_loop (fuel : nat) (i first : Z) (marker : list N) : outcome (list N) :=
  if (first <? i)%Z then
    match fuel with
    | O => OutOfFuel
    | S fuel' => let! marker := zupd marker i 32 in fill_loop fuel' (i - 1) first marker
    end
  else Ret marker.
(** StringMatch.go:82-101  findLastMismatch: the result and the marker *)
Definition findLastMismatch (eRunes fRunes : list (list N)) (marker : list N) (first : Z) : outcome (Z * list N) :=
  let markerDelta := (Z.of_nat (length marker) - Z.of_nat (length eRunes) - 1)%Z in
  let e := (Z.of_nat (length eRunes) - 1)%Z in
  let f := (Z.of_nat (length fRunes) - 1)%Z in
  let! (e, marker) := last_loop (length eRunes) e f eRunes fRunes markerDelta first marker in
  let! marker := fill_loop (length marker) (e - 1 + markerDelta) first marker in
  let! marker := zupd marker (e + markerDelta) 94 in
  Ret ((e - Z.of_nat (length eRunes) + 1)%Z, marker).

(** StringMatch.go:125-128  the loop over i = 2k, [n] to go *)
Fixpoint blank_loop (n : nat) (k : Z) (markEnd : Z) (ret : list N) : outcome (list N) :=
  match n with
  | O => Ret ret
  | S n' =>
      let! ret := zupd ret (markEnd + 4 + 2 * k) 0xc2 in
      let! ret := zupd ret (markEnd + 4 + 2 * k + 1) 0xb7 in
      blank_loop n' (k + 1) markEnd ret
  end.
(** StringMatch.go:106-135  renderText *)
Definition renderText (t : list N) (blankChars markStart markEndOffset : Z) : outcome (list N) :=
  let n := Z.of_nat (length t) in
  let n := (n + (4 + 4))%Z in
  let n := (n + blankChars * 2)%Z in
  let markEnd := (Z.of_nat (length t) + markEndOffset)%Z in
  let! ret := make_bytes n in
  let! a := zslice t 0 markStart in
  let! ret := zcopy ret 0 a in
  let! ret := zcopy ret markStart [0x1b; 91; 55; 109] in
  let! d := zslice t markStart markEnd in
  let! ret := zcopy ret (markStart + 4) d in
  let! ret := blank_loop (Z.to_nat blankChars) 0 markEnd ret in
  let! ret := zcopy ret (markEnd + 4 + blankChars * 2) [0x1b; 91; 48; 109] in
  let! z := zslice t markEnd (Z.of_nat (length t)) in
  zcopy ret (markEnd + 8 + blankChars * 2) z.

(** "Expect, found:\n", "␃\n" *)
Definition header : list N := [69; 120; 112; 101; 99; 116; 44; 32; 102; 111; 117; 110; 100; 58; 10].
Definition etx_nl : list N := [0xe2; 0x90; 0x83; 10].

(** StringMatch.go:18-55  StringMatchTitle: the Errorf calls made *)
Definition StringMatchTitle (split : list N -> list (list N)) (title prefix expect found : list N)
    : outcome (list report) :=
  if str_eqb found expect then Ret [] else
  let r1 := if Nat.eqb (length found) (length expect) then []
            else [LengthDiffers (length expect) (length found)] in
  let eRunes := split expect in
  let fRunes := split found in
  let '(nBytes, nRunes) :=
    if Nat.ltb (length expect) (length found) then (length found, length fRunes)
    else (length expect, length eRunes) in
  let! marker := make_bytes (Z.of_nat nRunes + 1) in
  let! (first, marker) := findFirstMismatch eRunes fRunes marker in
  let! (last, marker) := findLastMismatch eRunes fRunes marker (Z.of_nat first) in
  let fullTitle := if Nat.ltb 0 (length title) then title ++ [58; 32] else [] in
  let! le := renderText expect (Z.of_nat nBytes - Z.of_nat (length expect)) (Z.of_nat first) last in
  let! lf := renderText found (Z.of_nat nBytes - Z.of_nat (length found)) (Z.of_nat first) last in
  Ret (r1 ++ [Mismatch (fullTitle ++ header ++ prefix ++ le ++ etx_nl ++ prefix ++ lf ++ etx_nl ++ prefix ++ marker)]).
(** StringMatch.go:14-16  StringMatch *)
Definition StringMatch (split : list N -> list (list N)) (expect found : list N) : outcome (list report) :=
  StringMatchTitle split [] [] expect found.

(** HashCompare.go:10-16  HashTest on a hash with methods [step] in state [h];
    "Hash(" and ")". Only a Sum that returns a digest is possible. *)
Definition digest_of {St} (step : St -> hcall -> outcome (St * hresult)) (h : St) (inp : list N) : outcome (list N) :=
  let! (h, _) := step h (HWrite inp) in
  let! (_, r) := step h (HSum []) in
  match r with Digest d => Ret d | _ => Panic end.
Definition HashTest {St} (split : list N -> list (list N)) (step : St -> hcall -> outcome (St * hresult)) (h : St)
    (inp expectHex : list N) : outcome (list report) :=
  let! found := digest_of step h inp in
  let! foundHex := FromBytes found in
  let! ab := Abbr inp in
  StringMatchTitle split ([72; 97; 115; 104; 40] ++ ab ++ [41]) [] expectHex foundHex.
(** HashCompare.go:18-25  HashHexTest; [bd] is the build of package hex; a nil
    slice from ToBytesFast is an empty one to Write. "HashHex(" *)
Definition HashHexTest {St} (split : list N -> list (list N)) (bd : build)
    (step : St -> hcall -> outcome (St * hresult)) (h : St) (inHex expectHex : list N) : outcome (list report) :=
  let! r := ToBytesFast bd inHex in
  let b := match r with Some b => b | None => [] end in
  let! found := digest_of step h b in
  let! foundHex := FromBytes found in
  let! ab := Abbr inHex in
  StringMatchTitle split ([72; 97; 115; 104; 72; 101; 120; 40] ++ ab ++ [41]) [] expectHex foundHex.

(** A test [k] given a RIPEMD or Whirlpool hash that was made and then used
    through a history of calls. *)
Definition with_ripemd {A} (v : Model.Ripemd.variant) (cs : list hcall)
    (k : (ctx -> hcall -> outcome (ctx * hresult)) -> ctx -> outcome A) : outcome A :=
  let! c := Model.Ripemd.New (Model.Ripemd.state_len v) in
  let st := Model.Ripemd.step (Model.Ripemd.hash_fn v) (Model.Ripemd.state_len v) in
  let! (c, _) := hrun st c cs in k st c.
Definition with_whirlpool {A} (cs : list hcall)
    (k : (ctx -> hcall -> outcome (ctx * hresult)) -> ctx -> outcome A) : outcome A :=
  let! c := Model.Whirlpool.New in
  let! (c, _) := hrun Model.Whirlpool.step c cs in k Model.Whirlpool.step c.
