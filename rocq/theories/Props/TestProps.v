(** Properties C61-C63 and C65-C68: package test. [explode] is strings.Split(s,"")
    of Go, [explode_replacing] that of older versions (Base/GoStrings.v). *)
From Verif Require Import Base.Go Base.GoStrings Base.TestApi Base.DigestApi Model.Hex Model.TestPkg
  Spec.HexSpec Spec.TestSpec Spec.DigestSpec Spec.RipemdSpec Spec.WhirlpoolSpec Proofs.TestProofs Proofs.HashTestProofs.
From Verif Require Model.Ripemd.
Local Open Scope N_scope.

(** ** C61 a report exactly when the strings differ *)

Theorem C61_reports : forall split title prefix expect found, splits split ->
  exists rs, StringMatchTitle split title prefix expect found = Ret rs
  /\ (rs = [] <-> expect = found)
  /\ (expect <> found -> exists msg,
        rs = (if Nat.eqb (length found) (length expect) then [] else [LengthDiffers (length expect) (length found)])
             ++ [Mismatch msg]).
Proof. exact reports_iff. Qed.
Print Assumptions C61_reports.

(** StringMatch is the case without title and prefix. *)
Theorem C61_string_match : forall split expect found, splits split ->
  exists rs, StringMatch split expect found = Ret rs /\ (rs = [] <-> expect = found).
Proof.
  exact (fun split expect found H => match reports_iff split [] [] expect found H with
    | ex_intro _ rs (conj E (conj Q _)) => ex_intro _ rs (conj E Q) end).
Qed.
Print Assumptions C61_string_match.

(** Both versions of Split are covered. *)
Theorem C61_split : splits explode /\ splits explode_replacing /\ lossless explode.
Proof. exact (conj explode_splits (conj explode_replacing_splits explode_lossless)). Qed.
Print Assumptions C61_split.

(** Two strings the older Split cannot tell apart, the longer one with fewer
    characters: ff ff and ef bf bd. *)
Example C61_nonvacuous :
  explode_replacing [0xff; 0xff] = [[0xef; 0xbf; 0xbd]; [0xef; 0xbf; 0xbd]]
  /\ explode_replacing [0xef; 0xbf; 0xbd] = [[0xef; 0xbf; 0xbd]]
  /\ (exists msg, StringMatch explode_replacing [0xff; 0xff] [0xef; 0xbf; 0xbd] = Ret [LengthDiffers 2 3; Mismatch msg])
  /\ StringMatch explode [0xff; 0xc3; 0xa9] [0xff; 0xc3; 0xa9] = Ret [].
Proof.
  split; [vm_compute; reflexivity|]. split; [vm_compute; reflexivity|]. split; [|vm_compute; reflexivity].
  eexists. vm_compute. reflexivity.
Qed.

(** ** C62 the lines keep the text *)

Theorem C62_text : forall split title prefix expect found, splits split -> expect <> found ->
  exists pe de se pf df sf marker,
    expect = pe ++ de ++ se /\ found = pf ++ df ++ sf
    /\ length pe = length pf /\ length se = length sf
    /\ StringMatchTitle split title prefix expect found
       = Ret ((if Nat.eqb (length found) (length expect) then [] else [LengthDiffers (length expect) (length found)])
              ++ [Mismatch (report_text title prefix
                   (line pe de (length found - length expect) se) (line pf df (length expect - length found) sf) marker)]).
Proof. exact report_text_kept. Qed.
Print Assumptions C62_text.

(** Before and after the style markers both strings are the same, not only for
    ASCII, if Split loses nothing. *)
Theorem C62_common : forall split title prefix expect found, lossless split -> expect <> found ->
  exists p de df s marker, expect = p ++ de ++ s /\ found = p ++ df ++ s
    /\ StringMatchTitle split title prefix expect found
       = Ret ((if Nat.eqb (length found) (length expect) then [] else [LengthDiffers (length expect) (length found)])
              ++ [Mismatch (report_text title prefix
                   (line p de (length found - length expect) s) (line p df (length expect - length found) s) marker)]).
Proof.
  exact (fun split title prefix expect found L NE => match report_exact split title prefix expect found L NE with
    | ex_intro _ P (ex_intro _ De (ex_intro _ Df (ex_intro _ S0 (ex_intro _ p (ex_intro _ de (ex_intro _ df (ex_intro _ s
        (conj _ (conj _ (conj _ (conj E (conj F (conj R _))))))))))))) =>
        ex_intro _ p (ex_intro _ de (ex_intro _ df (ex_intro _ s (ex_intro _ _ (conj E (conj F R))))))
    end).
Qed.
Print Assumptions C62_common.

(** For ASCII the marked parts are exactly the differing ones: they begin with
    different bytes (or one is empty), and end with different ones (or one has
    at most one byte). *)
Theorem C62_ascii : forall split title prefix expect found, split = explode \/ split = explode_replacing ->
  ascii expect -> ascii found -> expect <> found ->
  exists p de df s, aligned expect found p de df s
    /\ StringMatchTitle split title prefix expect found
       = Ret ((if Nat.eqb (length found) (length expect) then [] else [LengthDiffers (length expect) (length found)])
              ++ [Mismatch (report_text title prefix
                   (line p de (length found - length expect) s) (line p df (length expect - length found) s)
                   (marker_line (singles p) (Nat.max (length de) (length df)) (length s) ++ [0]))]).
Proof.
  intros split title prefix expect found [->| ->].
  - exact (report_ascii explode title prefix expect found explode_ascii explode_splits).
  - exact (report_ascii explode_replacing title prefix expect found explode_replacing_ascii explode_replacing_splits).
Qed.
Print Assumptions C62_ascii.

(** "a1bc" against "a23bc": the line a ESC[7m 1 middle-dot ESC[0m bc. *)
Example C62_nonvacuous :
  ascii [97; 49; 98; 99] /\ ascii [97; 50; 51; 98; 99]
  /\ aligned [97; 49; 98; 99] [97; 50; 51; 98; 99] [97] [49] [50; 51] [98; 99]
  /\ StringMatchTitle explode [84] [62] [97; 49; 98; 99] [97; 50; 51; 98; 99]
     = Ret [LengthDiffers 4 5; Mismatch ([84; 58; 32] ++ [69; 120; 112; 101; 99; 116; 44; 32; 102; 111; 117; 110; 100; 58; 10]
         ++ [62] ++ [97; 27; 91; 55; 109; 49; 0xc2; 0xb7; 27; 91; 48; 109; 98; 99] ++ [0xe2; 0x90; 0x83; 10]
         ++ [62] ++ [97; 27; 91; 55; 109; 50; 51; 27; 91; 48; 109; 98; 99] ++ [0xe2; 0x90; 0x83; 10]
         ++ [62] ++ [45; 94; 94; 45; 45; 0])].
Proof.
  split; [repeat constructor|]. split; [repeat constructor|]. split; [|vm_compute; reflexivity].
  unfold aligned. do 2 (split; [reflexivity|]). split; [intros _; split; discriminate|]. split.
  - right; right. exists 49, 50, [], [51]. repeat split. discriminate.
  - right; right; left. reflexivity.
Qed.

(** ** C63 Abbr *)

Theorem C63_abbr : forall s,
  ((length s <= 20)%nat -> Abbr s = Ret s)
  /\ ((20 < length s)%nat -> exists r, s = firstn 19 s ++ r /\ length (firstn 19 s) = 19%nat
        /\ Abbr s = Ret (firstn 19 s ++ [0xe2; 0x80; 0xa6])).
Proof.
  intros s. rewrite Abbr_ok. split; intros H.
  - rewrite (proj2 (Nat.leb_le _ _) H). reflexivity.
  - exists (skipn 19 s). rewrite firstn_skipn, firstn_length. split; [reflexivity|]. split; [lia|].
    rewrite (proj2 (Nat.leb_gt _ _) H). reflexivity.
Qed.
Print Assumptions C63_abbr.
Example C63_nonvacuous :
  Abbr (repeat 97 20) = Ret (repeat 97 20) /\ Abbr (repeat 97 21) = Ret (repeat 97 19 ++ [0xe2; 0x80; 0xa6]).
Proof. split; vm_compute; reflexivity. Qed.

(** ** C65 the style markers stand between characters *)

(** False: e-acute (c3 a9) then 1, against e-acute then 2. The first marker
    stands between c3 and a9. *)
Theorem C65_boundary_refuted : exists expect found p d s p' d' s' marker,
  expect <> found
  /\ StringMatch explode expect found
     = Ret [Mismatch (report_text [] [] (line p d 0 s) (line p' d' 0 s') marker)]
  /\ expect = p ++ d ++ s
  /\ explode expect = [[0xc3; 0xa9]; [49]] /\ ~ exists k, p = concat (firstn k (explode expect)).
Proof.
  exists [0xc3; 0xa9; 49], [0xc3; 0xa9; 50], [0xc3], [0xa9; 49], [], [0xc3], [0xa9; 50], [], [45; 94; 0].
  split; [discriminate|]. split; [vm_compute; reflexivity|]. split; [reflexivity|]. split; [vm_compute; reflexivity|].
  intros (k & H). change (explode [0xc3; 0xa9; 49]) with [[0xc3; 0xa9]; [49]] in H.
  destruct k as [|[|k]]; cbn in H; try discriminate.
Qed.
Print Assumptions C65_boundary_refuted.

(** The exact position: as many bytes from the start (end) as there are
    characters in the common start (end). So it is a boundary when those are
    all single bytes. *)
Theorem C65_position_partial : forall split title prefix expect found, lossless split -> expect <> found ->
  exists P De Df S p de df s,
    aligned (split expect) (split found) P De Df S
    /\ length p = length P /\ length s = length S
    /\ expect = p ++ de ++ s /\ found = p ++ df ++ s
    /\ (exists marker, StringMatchTitle split title prefix expect found
       = Ret ((if Nat.eqb (length found) (length expect) then [] else [LengthDiffers (length expect) (length found)])
              ++ [Mismatch (report_text title prefix
                   (line p de (length found - length expect) s) (line p df (length expect - length found) s) marker)]))
    /\ (Forall (fun c => length c = 1%nat) P <-> p = concat P)
    /\ (Forall (fun c => length c = 1%nat) S <-> s = concat S).
Proof. exact report_position. Qed.
Print Assumptions C65_position_partial.

Example C65_nonvacuous :
  StringMatch explode [49; 0xc3; 0xa9; 50] [49; 0xc3; 0xaa; 50]
  = Ret [Mismatch (report_text [] [] (line [49] [0xc3; 0xa9] 0 [50]) (line [49] [0xc3; 0xaa] 0 [50]) [45; 94; 45; 0])].
Proof. vm_compute. reflexivity. Qed.

(** ** C66 the marker line *)

(** False as expected by a reader: the line ends with a NUL byte. *)
Theorem C66_nul_refuted : exists expect found msg,
  ascii expect /\ ascii found /\ Forall (fun c => 32 <= c) expect /\ Forall (fun c => 32 <= c) found
  /\ StringMatch explode expect found = Ret [Mismatch (msg ++ [0])].
Proof.
  exists [97], [98]. eexists (report_text [] [] (line [] [97] 0 []) (line [] [98] 0 []) [94]).
  do 4 (split; [repeat (constructor; try lia)|]). vm_compute. reflexivity.
Qed.
Print Assumptions C66_nul_refuted.

(** Always, and otherwise it is as specified. *)
Theorem C66_marker_partial : forall split title prefix expect found, lossless split -> expect <> found ->
  exists P De Df S le lf r1,
    aligned (split expect) (split found) P De Df S
    /\ (0 < longer_part expect found De Df)%nat
    /\ StringMatchTitle split title prefix expect found
       = Ret (r1 ++ [Mismatch (report_text title prefix le lf
                   (marker_line P (longer_part expect found De Df) (length S) ++ [0]))]).
Proof.
  exact (fun split title prefix expect found L NE => match report_exact split title prefix expect found L NE with
    | ex_intro _ P (ex_intro _ De (ex_intro _ Df (ex_intro _ S0 (ex_intro _ p (ex_intro _ de (ex_intro _ df (ex_intro _ s
        (conj A (conj _ (conj _ (conj E (conj F (conj R D))))))))))))) =>
        ex_intro _ P (ex_intro _ De (ex_intro _ Df (ex_intro _ S0 (ex_intro _ _ (ex_intro _ _ (ex_intro _ _
          (conj A (conj D R)))))))) end).
Qed.
Print Assumptions C66_marker_partial.

(** Its length: one mark per character of the longer string, and the NUL. *)
Theorem C66_length_partial : forall P d s, length (marker_line P d s) = (length P + d + s)%nat.
Proof. exact marker_length. Qed.
Print Assumptions C66_length_partial.

(** TAB and DEL are repeated below, other characters marked: "\t\x7f-e-acute1234z"
    against "\t\x7f-e-acute5674z". *)
Example C66_nonvacuous :
  exists le lf, StringMatch explode [9; 127; 0xc3; 0xa9; 49; 50; 51; 52; 122] [9; 127; 0xc3; 0xa9; 53; 54; 55; 52; 122]
  = Ret [Mismatch (report_text [] [] le lf [9; 127; 45; 94; 32; 94; 45; 45; 0])].
Proof.
  exists (line [9; 127; 0xc3] [0xa9; 49; 50; 51] 0 [52; 122]), (line [9; 127; 0xc3] [0xa9; 53; 54; 55] 0 [52; 122]).
  vm_compute. reflexivity.
Qed.

(** ** C67 HashTest *)

Definition ripemd_variant (v : Model.Ripemd.variant) : list N -> list N :=
  match v with
  | Model.Ripemd.V128 => RIPEMD128 | Model.Ripemd.V160 => RIPEMD160
  | Model.Ripemd.V256 => RIPEMD256 | Model.Ripemd.V320 => RIPEMD320
  end.

(** HashTest does not Reset: what was written before counts. *)
Theorem C67_ripemd : forall split v cs inp expectHex, splits split -> hcalls_ok cs -> bytes_ok inp ->
  exists rs, with_ripemd v cs (fun step h => HashTest split step h inp expectHex) = Ret rs
  /\ (rs = [] <-> expectHex = flat_map numeral (ripemd_variant v (written [] cs ++ inp))).
Proof. exact hash_test_ripemd. Qed.
Print Assumptions C67_ripemd.
Theorem C67_whirlpool : forall split cs inp expectHex, splits split -> hcalls_ok cs -> bytes_ok inp ->
  N.of_nat (length (written [] cs ++ inp)) < 2 ^ 64 ->
  exists rs, with_whirlpool cs (fun step h => HashTest split step h inp expectHex) = Ret rs
  /\ (rs = [] <-> expectHex = flat_map numeral (Whirlpool (written [] cs ++ inp))).
Proof. exact hash_test_whirlpool. Qed.
Print Assumptions C67_whirlpool.

(** What is reported on a difference: all of StringMatchTitle's, under the
    title Hash(input), the input shortened. *)
Theorem C67_report_ripemd : forall split v cs inp expectHex, hcalls_ok cs -> bytes_ok inp ->
  with_ripemd v cs (fun step h => HashTest split step h inp expectHex)
  = StringMatchTitle split ([72; 97; 115; 104; 40] ++ shortened inp ++ [41]) [] expectHex
      (flat_map numeral (ripemd_variant v (written [] cs ++ inp))).
Proof. exact hash_test_ripemd_is. Qed.
Print Assumptions C67_report_ripemd.
Theorem C67_report_whirlpool : forall split cs inp expectHex, hcalls_ok cs -> bytes_ok inp ->
  N.of_nat (length (written [] cs ++ inp)) < 2 ^ 64 ->
  with_whirlpool cs (fun step h => HashTest split step h inp expectHex)
  = StringMatchTitle split ([72; 97; 115; 104; 40] ++ shortened inp ++ [41]) [] expectHex
      (flat_map numeral (Whirlpool (written [] cs ++ inp))).
Proof. exact hash_test_whirlpool_is. Qed.
Print Assumptions C67_report_whirlpool.

(** RIPEMD-128 of "a", and the same with a lower-case digit, which is reported. *)
Example C67_nonvacuous :
  let x := [56;54;66;69;55;65;70;65;51;51;57;68;48;70;67;55;67;70;67;55;56;53;69;55;50;70;53;55;56;68;51;51] in
  with_ripemd Model.Ripemd.V128 [] (fun step h => HashTest explode step h [97] x) = Ret []
  /\ with_ripemd Model.Ripemd.V128 [] (fun step h => HashTest explode step h [97] ([56;54;98] ++ skipn 3 x)) <> Ret [].
Proof. split; [vm_compute; reflexivity|vm_compute; discriminate]. Qed.

(** ** C68 HashHexTest *)

(** A malformed input is not reported: it is tested as the empty message. "0G"
    passes with the digest of nothing. *)
Theorem C68_malformed_refuted : exists inHex expectHex,
  (exists e, ToBytes Default inHex = Ret (None, Some e))
  /\ with_ripemd Model.Ripemd.V128 [] (fun step h => HashHexTest explode Default step h inHex expectHex) = Ret [].
Proof.
  exists [48; 71], [67;68;70;50;54;50;49;51;65;49;53;48;68;67;51;69;67;66;54;49;48;70;49;56;70;54;66;51;56;66;52;54].
  split; [eexists; vm_compute; reflexivity|vm_compute; reflexivity].
Qed.
Print Assumptions C68_malformed_refuted.

Theorem C68_ripemd_partial : forall split bd v cs inHex b expectHex, splits split -> hcalls_ok cs -> bytes_ok inHex ->
  ToBytes bd inHex = Ret (Some b, None) \/ (exists e, ToBytes bd inHex = Ret (None, Some e)) /\ b = [] ->
  exists rs, with_ripemd v cs (fun step h => HashHexTest split bd step h inHex expectHex) = Ret rs
  /\ (rs = [] <-> expectHex = flat_map numeral (ripemd_variant v (written [] cs ++ b))).
Proof. exact hash_hex_test_ripemd. Qed.
Print Assumptions C68_ripemd_partial.
Theorem C68_whirlpool_partial : forall split bd cs inHex b expectHex, splits split -> hcalls_ok cs -> bytes_ok inHex ->
  N.of_nat (length (written [] cs ++ b)) < 2 ^ 64 ->
  ToBytes bd inHex = Ret (Some b, None) \/ (exists e, ToBytes bd inHex = Ret (None, Some e)) /\ b = [] ->
  exists rs, with_whirlpool cs (fun step h => HashHexTest split bd step h inHex expectHex) = Ret rs
  /\ (rs = [] <-> expectHex = flat_map numeral (Whirlpool (written [] cs ++ b))).
Proof. exact hash_hex_test_whirlpool. Qed.
Print Assumptions C68_whirlpool_partial.
Theorem C68_report_ripemd_partial : forall split bd v cs inHex b expectHex, hcalls_ok cs -> bytes_ok inHex ->
  ToBytes bd inHex = Ret (Some b, None) \/ (exists e, ToBytes bd inHex = Ret (None, Some e)) /\ b = [] ->
  with_ripemd v cs (fun step h => HashHexTest split bd step h inHex expectHex)
  = StringMatchTitle split ([72; 97; 115; 104; 72; 101; 120; 40] ++ shortened inHex ++ [41]) [] expectHex
      (flat_map numeral (ripemd_variant v (written [] cs ++ b))).
Proof. exact hash_hex_test_ripemd_is. Qed.
Print Assumptions C68_report_ripemd_partial.
Theorem C68_report_whirlpool_partial : forall split bd cs inHex b expectHex, hcalls_ok cs -> bytes_ok inHex ->
  N.of_nat (length (written [] cs ++ b)) < 2 ^ 64 ->
  ToBytes bd inHex = Ret (Some b, None) \/ (exists e, ToBytes bd inHex = Ret (None, Some e)) /\ b = [] ->
  with_whirlpool cs (fun step h => HashHexTest split bd step h inHex expectHex)
  = StringMatchTitle split ([72; 97; 115; 104; 72; 101; 120; 40] ++ shortened inHex ++ [41]) [] expectHex
      (flat_map numeral (Whirlpool (written [] cs ++ b))).
Proof. exact hash_hex_test_whirlpool_is. Qed.
Print Assumptions C68_report_whirlpool_partial.
Example C68_nonvacuous :
  ToBytes Tiny [54; 49] = Ret (Some [97], None)
  /\ with_ripemd Model.Ripemd.V128 [] (fun step h => HashHexTest explode_replacing Tiny step h [54; 49]
    [56;54;66;69;55;65;70;65;51;51;57;68;48;70;67;55;67;70;67;55;56;53;69;55;50;70;53;55;56;68;51;51]) = Ret [].
Proof. split; vm_compute; reflexivity. Qed.
