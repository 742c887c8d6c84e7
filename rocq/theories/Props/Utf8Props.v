(** Properties C83 and C84, and the UTF-8 part of C65: package test on UTF-8.
    Theorem names start with the property id. *)
From Verif Require Import Base.Go Base.GoStrings Base.TestApi Model.TestPkg Spec.TestSpec Spec.Utf8Spec
  Proofs.TestProofs Proofs.Utf8Proofs Proofs.Utf8More.
Local Open Scope N_scope.

(** ** C83 the characters StringMatch compares are the code points *)

(** strings.Split(s, "") of any string is its characters, in the newer and in
    the older version. *)
Theorem C83_split : forall s l,
  (explode s = l <-> characters s l) /\ (explode_replacing s = l <-> characters_fffd s l).
Proof.
  exact (fun s l => conj (iff_sym (explode_characters s l)) (iff_sym (explode_replacing_characters s l))).
Qed.
Print Assumptions C83_split.

(** Of valid UTF-8 it is the code points, one by one. *)
Theorem C83_valid : forall cs, Forall scalar cs ->
  explode (flat_map utf8 cs) = map utf8 cs /\ explode_replacing (flat_map utf8 cs) = map utf8 cs.
Proof. exact explode_valid. Qed.
Print Assumptions C83_valid.
Theorem C83_unique : forall cs ds, Forall scalar cs -> Forall scalar ds -> flat_map utf8 cs = flat_map utf8 ds -> cs = ds.
Proof. exact flat_map_inj. Qed.
Print Assumptions C83_unique.

(** So the report of two valid strings is about code points: the alignment is
    one of the code points and there is one mark per code point. The two style
    markers are as many bytes from the ends as there are common code points. *)
Theorem C83_report : forall split title prefix ce cf,
  split = explode \/ split = explode_replacing ->
  Forall scalar ce -> Forall scalar cf -> ce <> cf ->
  let expect := flat_map utf8 ce in
  let found := flat_map utf8 cf in
  exists P De Df S p de df s,
    aligned ce cf P De Df S
    /\ (0 < longer_part expect found De Df)%nat
    /\ length p = length P /\ length s = length S
    /\ expect = p ++ de ++ s /\ found = p ++ df ++ s
    /\ StringMatchTitle split title prefix expect found
       = Ret ((if Nat.eqb (length found) (length expect) then [] else [LengthDiffers (length expect) (length found)])
              ++ [Mismatch (report_text title prefix
                   (line p de (length found - length expect) s) (line p df (length expect - length found) s)
                   (map mark P ++ carets (longer_part expect found De Df) ++ repeat 45 (length S) ++ [0]))])
    /\ (Forall (fun c => c < 128) P <-> p = flat_map utf8 P)
    /\ (Forall (fun c => c < 128) S <-> s = flat_map utf8 S).
Proof.
  intros split title prefix ce cf [->| ->].
  - exact (report_utf8 explode title prefix ce cf (fun cs H => proj1 (explode_valid cs H)) explode_splits).
  - exact (report_utf8 explode_replacing title prefix ce cf (fun cs H => proj2 (explode_valid cs H)) explode_replacing_splits).
Qed.
Print Assumptions C83_report.

(** The boundaries of every length of encoding, and bytes no encoding starts at:
    a continuation byte, an overlong form, a surrogate, beyond U+10FFFF, cut off. *)
Example C83_nonvacuous :
  Forall scalar [0; 0x7F; 0x80; 0x7FF; 0x800; 0xD7FF; 0xE000; 0xFFFF; 0x10000; 0x10FFFF]
  /\ map utf8 [0; 0x7F; 0x80; 0x7FF; 0x800; 0xD7FF; 0xE000; 0xFFFF; 0x10000; 0x10FFFF]
     = [[0]; [0x7F]; [0xC2; 0x80]; [0xDF; 0xBF]; [0xE0; 0xA0; 0x80]; [0xED; 0x9F; 0xBF]; [0xEE; 0x80; 0x80];
        [0xEF; 0xBF; 0xBF]; [0xF0; 0x90; 0x80; 0x80]; [0xF4; 0x8F; 0xBF; 0xBF]]
  /\ characters [0x80; 0xC1; 0xBF; 0xED; 0xA0; 0x80; 0xF4; 0x90; 0x80; 0x80; 0xE2; 0x82]
     [[0x80]; [0xC1]; [0xBF]; [0xED]; [0xA0]; [0x80]; [0xF4]; [0x90]; [0x80]; [0x80]; [0xE2]; [0x82]]
  /\ explode_replacing [97; 0xE2; 0x82] = [[97]; utf8 0xFFFD; utf8 0xFFFD].
Proof.
  split; [repeat (constructor; [unfold scalar; lia|]); constructor|].
  split; [vm_compute; reflexivity|]. split; [apply C83_split|]; vm_compute; reflexivity.
Qed.

(** ** C65 for valid UTF-8 *)

(** The two lines of the report are valid UTF-8 exactly when the style markers
    stand between characters. *)
Theorem C65_valid_partial : forall split title prefix expect found, split = explode \/ split = explode_replacing ->
  valid expect -> valid found -> expect <> found ->
  exists p de df s marker, expect = p ++ de ++ s /\ found = p ++ df ++ s
    /\ (let l1 := line p de (length found - length expect) s in
        let l2 := line p df (length expect - length found) s in
        StringMatchTitle split title prefix expect found
        = Ret ((if Nat.eqb (length found) (length expect) then [] else [LengthDiffers (length expect) (length found)])
               ++ [Mismatch (report_text title prefix l1 l2 marker)])
        /\ (valid l1 <-> valid p /\ valid s) /\ (valid l2 <-> valid p /\ valid s)).
Proof.
  intros split title prefix expect found HS (ce & Hce & Ee) (cf & Hcf & Ef) NE.
  destruct (C83_report split title prefix ce cf HS Hce Hcf ltac:(intros ->; congruence))
    as (P & De & Df & S0 & p & de & df & s & _ & _ & _ & _ & E1 & E2 & R & _).
  rewrite <- Ee, <- Ef in *. exists p, de, df, s. eexists. split; [exact E1|]. split; [exact E2|].
  cbv zeta. split; [exact R|]. split; apply line_valid; [rewrite <- E1|rewrite <- E2].
  - exists ce. auto.
  - exists cf. auto.
Qed.
Print Assumptions C65_valid_partial.

(** Not so for e-acute 1 against e-acute 2: c3 is not valid. *)
Example C65_valid_nonvacuous :
  valid [0xc3; 0xa9; 49] /\ valid [0xc3; 0xa9; 50] /\ ~ valid (line [0xc3] [0xa9; 49] 0 []).
Proof.
  split; [exists [0xE9; 49]|split; [exists [0xE9; 50]|]];
    try (split; [repeat (constructor; [unfold scalar; lia|]); constructor|vm_compute; reflexivity]).
  intros H. assert (V : valid ([0xc3] ++ [0xa9; 49] ++ [])).
  { exists [0xE9; 49]. split; [repeat (constructor; [unfold scalar; lia|]); constructor|vm_compute; reflexivity]. }
  destruct (proj1 (line_valid _ _ 0 _ V) H) as [(cs & Hcs & E) _].
  pose proof (proj1 (explode_valid cs Hcs)) as X. rewrite <- E in X.
  change (explode [0xc3]) with [[0xc3]] in X. destruct cs as [|c [|]]; try discriminate X.
  cbn [map] in X. assert (X1 := f_equal (hd []) X). cbn [hd] in X1.
  destruct (utf8_shape c (Forall_inv Hcs)) as (b & t & Eb & _ & _ & L). rewrite Eb in X1.
  injection X1 as <- <-. discriminate L.
Qed.

(** ** C84 Abbr counts characters and gives valid UTF-8 *)

(** False: eleven e-acutes, 22 bytes, are shortened, in the middle of the tenth. *)
Theorem C84_characters_refuted : exists cs t, Forall scalar cs /\ (length cs <= 20)%nat
  /\ Abbr (flat_map utf8 cs) = Ret t /\ t <> flat_map utf8 cs /\ ~ valid t.
Proof.
  exists (repeat 0xE9 11). destruct (abbr_valid (flat_map utf8 (repeat 0xE9 11))) as (t & E & V).
  { exists (repeat 0xE9 11). split; [repeat (constructor; [unfold scalar; lia|]); constructor|reflexivity]. }
  exists t. split; [repeat (constructor; [unfold scalar; lia|]); constructor|]. split; [cbn; lia|]. split; [exact E|].
  assert (NV : ~ valid t).
  { rewrite V. intros [H|H].
    - revert H. vm_compute. intros H. repeat (apply le_S_n in H). inversion H.
    - destruct (valid_start _ (repeat 0xE9 11) (skipn 19 (flat_map utf8 (repeat 0xE9 11)))
        ltac:(repeat (constructor; [unfold scalar; lia|]); constructor) (firstn_skipn _ _) H) as (k & K).
      apply (f_equal (@length N)) in K. do 12 (destruct k as [|k]; [vm_compute in K; discriminate K|]).
      vm_compute in K. discriminate K. }
  split; [|exact NV]. intros ->. apply NV. exists (repeat 0xE9 11).
  split; [repeat (constructor; [unfold scalar; lia|]); constructor|reflexivity].
Qed.
Print Assumptions C84_characters_refuted.

(** For every valid string: valid exactly when it has at most 20 bytes or its
    20th byte starts a character; unchanged exactly when it has at most 20 bytes
    or ends in U+2026 right there. *)
Theorem C84_valid_partial : forall s, valid s ->
  exists t, Abbr s = Ret t
    /\ (valid t <-> (length s <= 20)%nat \/ valid (firstn 19 s))
    /\ (t = s <-> (length s <= 20)%nat \/ skipn 19 s = utf8 0x2026).
Proof.
  intros s V. destruct (abbr_valid s V) as (t & E & H). exists t. split; [exact E|]. split; [exact H|].
  rewrite Abbr_ok in E. injection E as <-. change (utf8 0x2026) with [0xe2; 0x80; 0xa6].
  destruct (Nat.leb_spec (length s) 20) as [L|L]; [tauto|]. split.
  - intros X. right. rewrite <- (firstn_skipn 19 s) in X at 2. apply app_inv_head in X. symmetry. exact X.
  - intros [X|X]; [lia|]. rewrite <- (firstn_skipn 19 s) at 2. rewrite X. reflexivity.
Qed.
Print Assumptions C84_valid_partial.
(** The 20th byte starts a character exactly when whole characters fill 19 bytes. *)
Theorem C84_boundary_partial : forall cs, Forall scalar cs ->
  valid (firstn 19 (flat_map utf8 cs)) <-> exists k, firstn 19 (flat_map utf8 cs) = flat_map utf8 (firstn k cs).
Proof.
  intros cs H. split.
  - intros V. exact (valid_start _ cs _ H (firstn_skipn _ _) V).
  - intros (k & E). exists (firstn k cs). split; [|exact E]. apply Forall_forall. intros c Hc.
    assert (In c (firstn k cs ++ skipn k cs)) as HI by (apply in_or_app; auto).
    rewrite firstn_skipn in HI. exact (proj1 (Forall_forall _ _) H c HI).
Qed.
Print Assumptions C84_boundary_partial.
(** For ASCII characters are bytes, and all is well. *)
Theorem C84_ascii_partial : forall s, ascii s ->
  exists t, Abbr s = Ret t /\ valid t /\ ((length s <= 20)%nat <-> t = s).
Proof.
  intros s A. destruct (C84_valid_partial s (valid_ascii s A)) as (t & E & V & U).
  exists t. split; [exact E|]. split.
  - apply V. right. apply valid_ascii. apply Forall_forall. intros c Hc.
    assert (In c (firstn 19 s ++ skipn 19 s)) as HI by (apply in_or_app; auto).
    rewrite firstn_skipn in HI. exact (proj1 (Forall_forall _ _) A c HI).
  - rewrite U. split; [auto|]. intros [H|H]; [exact H|]. exfalso.
    assert (HI : In 0xe2 (firstn 19 s ++ skipn 19 s)) by (rewrite H; apply in_or_app; right; left; reflexivity).
    rewrite firstn_skipn in HI. pose proof (proj1 (Forall_forall _ _) A _ HI). cbn beta in *. lia.
Qed.
Print Assumptions C84_ascii_partial.
(** Ten e-acutes and a letter in front: 21 bytes, cut between characters. *)
Example C84_nonvacuous : Forall scalar (97 :: repeat 0xE9 10)
  /\ Abbr (flat_map utf8 (97 :: repeat 0xE9 10)) = Ret (flat_map utf8 (97 :: repeat 0xE9 9 ++ [0x2026])).
Proof. split; [repeat (constructor; [unfold scalar; lia|]); constructor|vm_compute; reflexivity]. Qed.
