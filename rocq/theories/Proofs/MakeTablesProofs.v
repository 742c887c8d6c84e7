(** The text written by make_tables.go, read back. *)
From Coq Require Import String Ascii.
From Verif Require Import Base.Go Model.Hex Model.WhirlpoolTables Model.Whirlpool Model.MakeTables
  Spec.HexSpec Spec.DigestSpec Spec.GoSourceSpec Proofs.Util Proofs.HexProofs Proofs.WhirlpoolProofs.
Local Open Scope list_scope.
Local Open Scope N_scope.

Lemma lex_app l a b : lex l (a ++ b) = lex (lex l a) b.
Proof. apply fold_left_app. Qed.

Lemma lex_word w : forall s ts, Forall (fun d => is_letter d || is_digit d = true) w ->
  lex (InName s, ts) w = (InName (s ++ w), ts).
Proof.
  induction w as [|c w IH]; intros s ts H; cbn [lex fold_left].
  - rewrite app_nil_r. reflexivity.
  - inversion H as [|? ? Hc Hw]; subst. unfold read at 2. rewrite Hc. fold (lex (InName (s ++ [c]), ts) w).
    rewrite IH by exact Hw. rewrite <- app_assoc. reflexivity.
Qed.
Lemma letter_not c : is_letter c = true -> c <> 32 /\ c <> 9 /\ c <> 13 /\ c <> 10.
Proof.
  unfold is_letter. intros H. repeat split; intros ->; discriminate H.
Qed.
Lemma lex_name name ts : identifier name -> lex (Between, ts) name = (InName name, ts).
Proof.
  unfold identifier. destruct name as [|c w]; [intros [[] _]|]. intros [[Hc Hw] _].
  cbn [lex fold_left read]. unfold fresh. rewrite Hc.
  destruct (letter_not c Hc) as (A & B & C & D).
  rewrite (proj2 (N.eqb_neq _ _) A), (proj2 (N.eqb_neq _ _) B), (proj2 (N.eqb_neq _ _) C), (proj2 (N.eqb_neq _ _) D).
  cbn [orb]. exact (lex_word w [c] ts Hw).
Qed.

(** ** Numbers *)

Lemma lower_value d : d < 16 -> digit_value (lower_digit d) = Some d.
Proof. intros H. destruct d as [|p]; [reflexivity|]. repeat (destruct p as [p|p|]; try reflexivity; try lia). Qed.
Lemma upper_value d : d < 16 -> digit_value (upper_digit d) = Some d.
Proof. intros H. destruct d as [|p]; [reflexivity|]. repeat (destruct p as [p|p|]; try reflexivity; try lia). Qed.

Lemma lex_digits n : forall m v ts, lex (InHex m, ts) (hex_digits n v) = (InHex (m * 16 ^ N.of_nat n + v mod 16 ^ N.of_nat n), ts).
Proof.
  induction n as [|n IH]; intros m v ts.
  - cbn [hex_digits lex fold_left N.of_nat]. change (16 ^ 0) with 1. rewrite N.mod_1_r. f_equal. f_equal. lia.
  - cbn [hex_digits]. rewrite lex_app, IH. cbn [lex fold_left read].
    change 15 with (N.ones 4). rewrite N.land_ones, N.shiftr_div_pow2. change (2 ^ 4) with 16.
    rewrite lower_value by (apply N.mod_lt; lia). f_equal. f_equal.
    replace (N.of_nat (S n)) with (N.succ (N.of_nat n)) by lia. rewrite N.pow_succ_r'.
    rewrite (N.mod_mul_r v 16 (16 ^ N.of_nat n)) by (try apply N.pow_nonzero; lia). lia.
Qed.
Lemma hex_digits_head n : forall v, exists d r, hex_digits (S n) v = lower_digit d :: r /\ d < 16.
Proof.
  induction n as [|n IH]; intros v.
  - exists (N.land v 15), []. split; [reflexivity|]. change 15 with (N.ones 4). rewrite N.land_ones. apply N.mod_lt. lia.
  - destruct (IH (N.shiftr v 4)) as (d & r & E & L). exists d, (r ++ [lower_digit (N.land v 15)]). split; [|exact L].
    change (hex_digits (S (S n)) v) with (hex_digits (S n) (N.shiftr v 4) ++ [lower_digit (N.land v 15)]).
    rewrite E. reflexivity.
Qed.
Lemma lex_hex v ts : v < 2 ^ 64 -> lex (Between, ts) (str "0x" ++ fmt_016x v ++ str ",") = (Between, Op 44 :: Int v :: ts).
Proof.
  intros H. rewrite lex_app. change (lex (Between, ts) (str "0x")) with (InX, ts).
  assert (G : lex (InX, ts) (fmt_016x v) = lex (InHex 0, ts) (fmt_016x v)).
  { unfold fmt_016x. destruct (hex_digits_head 15 v) as (d & r & E & L). rewrite E. cbn [lex fold_left].
    unfold read at 2 4. rewrite lower_value by exact L. rewrite N.mul_0_r. reflexivity. }
  rewrite lex_app, G. unfold fmt_016x. rewrite lex_digits. change (16 ^ N.of_nat 16) with (2 ^ 64).
  rewrite N.mod_small by exact H. cbn [N.mul N.add]. reflexivity.
Qed.

(** ** Comments and line ends *)

Lemma lex_comment_text s ts : Forall (fun c => c <> 10) s -> lex (InComment, ts) s = (InComment, ts).
Proof.
  induction s as [|c s IH]; intros H; [reflexivity|]. inversion H as [|? ? Hc Hs]; subst.
  cbn [lex fold_left read]. rewrite (proj2 (N.eqb_neq _ _) Hc). exact (IH Hs).
Qed.
Lemma lex_comment i ts : ends_line ts = false -> lex (Between, ts) (str "//" ++ fmt_d (Z.of_nat i) ++ nl) = (Between, ts).
Proof.
  intros E. rewrite lex_app. change (lex (Between, ts) (str "//")) with (InComment, ts).
  rewrite lex_app, lex_comment_text.
  - change (lex (InComment, ts) nl) with (newline ts). unfold newline. rewrite E. reflexivity.
  - destruct (fmt_d_value (Z.of_nat i)) as (_ & F & _); [lia|]. eapply Forall_impl; [|exact F]. cbn. intros; lia.
Qed.

(** ** genVar *)

Definition items (data : list N) : list token := flat_map (fun v => [Int v; Op 44]) data.

Lemma genVar_loop_lex data : forall i ts, Forall (fun v => v < 2 ^ 64) data -> ends_line ts = false ->
  lex (Between, ts) (genVar_loop i data) = (Between, rev (items data) ++ ts).
Proof.
  induction data as [|v data IH]; intros i ts H E; [reflexivity|]. inversion H as [|? ? Hv Hd]; subst.
  cbn [genVar_loop].
  rewrite (lex_app _ (if Nat.ltb 0 i then _ else _)).
  replace (lex (Between, ts) (if Nat.ltb 0 i then _ else _)) with (Between, ts).
  2: { destruct (Nat.ltb 0 i); [|reflexivity]. destruct (Nat.eqb (Nat.modulo i 4) 0); [|reflexivity].
       change (lex (Between, ts) nl) with (newline ts). unfold newline. rewrite E. reflexivity. }
  rewrite (lex_app _ (if Nat.eqb _ 0 then _ else _)).
  replace (lex (Between, ts) (if Nat.eqb _ 0 then _ else _)) with (Between, ts).
  2: { destruct (Nat.eqb (Nat.modulo i 16) 0); [|reflexivity]. symmetry. apply lex_comment, E. }
  rewrite !app_assoc, <- (app_assoc (str "0x")), lex_app, lex_hex by exact Hv.
  rewrite IH by (exact Hd || reflexivity). unfold items. cbn [flat_map app]. cbn [rev]. rewrite <- !app_assoc. reflexivity.
Qed.
Definition var_tokens (name : list N) (data : list N) : list token :=
  [Name (chars "var"); Name name; Op 61; Op 91; Dots; Op 93; Name (chars "uint64"); Op 123] ++ items data ++ [Op 125; Semi].
Lemma lex_after_name name ts c rest : is_letter c || is_digit c = false ->
  lex (InName name, ts) (c :: rest) = lex (Between, Name name :: ts) (c :: rest).
Proof. intros H. cbn [lex fold_left]. unfold read at 2. rewrite H. reflexivity. Qed.
Lemma genVar_lex name data ts : identifier name -> Forall (fun v => v < 2 ^ 64) data ->
  lex (Between, ts) (genVar name data) = (Between, rev (var_tokens name data) ++ ts).
Proof.
  intros Hn Hd. unfold genVar. rewrite lex_app.
  change (lex (Between, ts) (str "var ")) with (Between, Name (chars "var") :: ts).
  rewrite lex_app, lex_name by exact Hn.
  rewrite lex_app. change (str " =[...]uint64{") with (32 :: str "=[...]uint64{").
  rewrite lex_after_name by reflexivity.
  change (lex (Between, Name name :: Name (chars "var") :: ts) (32 :: str "=[...]uint64{"))
    with (Between, [Op 123; Name (chars "uint64"); Op 93; Dots; Op 91; Op 61; Name name; Name (chars "var")] ++ ts).
  rewrite lex_app. cbn [app].
  change (lex (Between, ?t) nl) with (newline t). unfold newline. cbn [ends_line N.eqb orb].
  change (Pos.eqb 123 125) with false. change (Pos.eqb 123 93) with false. change (Pos.eqb 123 41) with false. cbn [orb].
  rewrite lex_app, genVar_loop_lex by (exact Hd || reflexivity).
  rewrite lex_app. 
  set (u := rev (items data) ++ _).
  change (lex (Between, u) (str "}")) with (Between, Op 125 :: u).
  rewrite lex_app. change (lex (Between, Op 125 :: u) nl) with (Between, Semi :: Op 125 :: u).
  change (lex (Between, Semi :: Op 125 :: u) nl) with (Between, Semi :: Op 125 :: u).
  unfold var_tokens, u. rewrite !rev_app_distr, <- !app_assoc. reflexivity.
Qed.
Lemma elements_items data rest : Forall (fun v => v < 2 ^ 64) data ->
  elements (items data ++ Op 125 :: rest) = Some (data, rest).
Proof.
  induction data as [|v data IH]; intros H; [reflexivity|]. inversion H as [|? ? Hv Hd]; subst.
  unfold items in *. cbn [flat_map app elements]. rewrite (proj2 (N.ltb_lt _ _) Hv), IH by exact Hd. reflexivity.
Qed.
Lemma declare_var name data rest : Forall (fun v => v < 2 ^ 64) data ->
  declare (var_tokens name data ++ rest) = Some (VarU64 name data, Semi :: rest).
Proof.
  intros H. unfold var_tokens. rewrite <- !app_assoc. cbn [app declare].
  change (eqs (chars "var") (chars "package")) with false. change (eqs (chars "var") (chars "const")) with false.
  change (eqs (chars "var") (chars "var")) with true. change (eqs (chars "uint64") (chars "uint64")) with true.
  cbn [app]. cbv iota. rewrite elements_items by exact H. reflexivity.
Qed.

(** ** genConst *)

Lemma le64_le v : le64 v = little_endian 8 v.
Proof.
  unfold le64, be64. cbn [rev app little_endian].
  unfold u8. rewrite !N.shiftr_div_pow2, !N.div_div by lia. reflexivity.
Qed.
Lemma le64_bytes v : bytes_ok (le64 v).
Proof. unfold le64. apply Forall_rev. repeat constructor; apply N.mod_lt; lia. Qed.
Lemma numeral_lex b s ts : is_byte b -> lex (InStr s, ts) (str "\x" ++ numeral b) = (InStr (s ++ [b]), ts).
Proof.
  intros H. unfold is_byte in H. rewrite lex_app. change (lex (InStr s, ts) (str "\x")) with (InEscX s, ts).
  unfold numeral. cbn [lex fold_left read].
  rewrite upper_value by (apply N.div_lt_upper_bound; lia). cbn [read].
  rewrite upper_value by (apply N.mod_lt; lia). rewrite <- N.div_mod by lia. reflexivity.
Qed.
Lemma write_loop_ok l : forall pre, write_loop (length l) (2 * length pre) (flat_map numeral (pre ++ l))
  = Ret (flat_map (fun b => str "\x" ++ numeral b) l).
Proof.
  induction l as [|b l IH]; intros pre; [reflexivity|]. cbn [length write_loop].
  assert (L : length (flat_map numeral pre) = (2 * length pre)%nat) by apply numeral_length.
  assert (E : slice_of (flat_map numeral (pre ++ b :: l)) (2 * length pre) (2 * length pre + 2) = Ret (numeral b)).
  { unfold slice_of. rewrite flat_map_app, app_length, L. cbn [flat_map]. rewrite app_length.
    change (length (numeral b)) with 2%nat.
    rewrite (proj2 (Nat.leb_le _ _)) by lia. rewrite (proj2 (Nat.leb_le _ _)) by lia. cbn [andb].
    rewrite <- L, skipn_app, skipn_all, Nat.sub_diag. cbn [app skipn].
    replace (length (flat_map numeral pre) + 2 - length (flat_map numeral pre))%nat with 2%nat by lia. reflexivity. }
  rewrite E. cbn [bind]. specialize (IH (pre ++ [b])). rewrite <- app_assoc in IH. cbn [app] in IH.
  rewrite app_length in IH. cbn [length] in IH.
  replace (2 * (length pre + 1))%nat with (2 * length pre + 2)%nat in IH by lia. rewrite IH. cbn [bind flat_map].
  rewrite <- app_assoc. reflexivity.
Qed.
Lemma writeU64LE_ok v : writeU64LE v = Ret (flat_map (fun b => str "\x" ++ numeral b) (le64 v)).
Proof.
  unfold writeU64LE. rewrite fromBytes_correct by apply le64_bytes. cbn [bind]. exact (write_loop_ok (le64 v) []).
Qed.
Lemma bytes_lex l : forall s ts, bytes_ok l ->
  lex (InStr s, ts) (flat_map (fun b => str "\x" ++ numeral b) l) = (InStr (s ++ l), ts).
Proof.
  induction l as [|b l IH]; intros s ts H; cbn [flat_map].
  - rewrite app_nil_r. reflexivity.
  - inversion H as [|? ? Hb Hl]; subst. rewrite lex_app, numeral_lex, IH by assumption. rewrite <- app_assoc. reflexivity.
Qed.

(** The tokens after the first one of the sum. *)
Definition pieces (data : list N) : list token := flat_map (fun v => [Op 43; Str (little_endian 8 v)]) data.

Lemma genConst_loop_ok data : forall i, exists w, genConst_loop i data = Ret w.
Proof.
  induction data as [|v data IH]; intros i; [eexists; reflexivity|]. cbn [genConst_loop]. rewrite writeU64LE_ok. cbn [bind].
  destruct (IH (i + 1)%nat) as (w & ->). eexists. reflexivity.
Qed.
Lemma Ret_inj {A} (a b : A) : Ret a = Ret b -> a = b.
Proof. congruence. Qed.
(** After index 0 each element begins with its own plus sign. *)
Lemma genConst_loop_lex data : forall i w ts, (0 < i)%nat -> genConst_loop i data = Ret w ->
  lex (Between, ts) w = (Between, rev (pieces data) ++ ts).
Proof.
  induction data as [|v data IH]; intros i w ts Hi E; [injection E as <-; reflexivity|].
  cbn [genConst_loop] in E. rewrite writeU64LE_ok in E. cbn [bind] in E.
  destruct (genConst_loop_ok data (i + 1)) as (w' & E'). rewrite E' in E. cbn [bind] in E. apply Ret_inj in E. subst w.
  rewrite (proj2 (Nat.ltb_lt _ _) Hi).
  rewrite (lex_app _ (if Nat.eqb (Nat.modulo i 2) 0 then _ else _)).
  replace (lex (Between, ts) (if Nat.eqb (Nat.modulo i 2) 0 then _ else _)) with (Between, Op 43 :: ts)
    by (destruct (Nat.eqb (Nat.modulo i 2) 0); reflexivity).
  rewrite (lex_app _ (if Nat.eqb (Nat.modulo i 16) 0 then _ else _)).
  replace (lex (Between, Op 43 :: ts) (if Nat.eqb (Nat.modulo i 16) 0 then _ else _)) with (Between, Op 43 :: ts).
  2: { destruct (Nat.eqb (Nat.modulo i 16) 0); [|reflexivity]. symmetry. apply lex_comment. reflexivity. }
  rewrite lex_app. change (lex (Between, Op 43 :: ts) quote) with (InStr [], Op 43 :: ts).
  rewrite lex_app, bytes_lex by apply le64_bytes. rewrite lex_app. cbn [app].
  change (lex (InStr (le64 v), Op 43 :: ts) quote) with (Between, Str (le64 v) :: Op 43 :: ts).
  rewrite (IH (i + 1)%nat w' _ ltac:(lia) E'). rewrite le64_le. unfold pieces. cbn [flat_map]. rewrite rev_app_distr, <- app_assoc. reflexivity.
Qed.
Definition const_tokens (name : list N) (data : list N) : list token :=
  [Name (chars "const"); Name name; Op 61; Str []] ++ pieces data ++ [Semi].
Lemma genConst_lex name v data ts : identifier name -> exists w, genConst name (v :: data) = Ret w /\
  lex (Between, ts) w = (Between, rev (const_tokens name (v :: data)) ++ ts).
Proof.
  intros Hn. unfold genConst. cbn [genConst_loop]. rewrite writeU64LE_ok. cbn [bind].
  destruct (genConst_loop_ok data (0 + 1)) as (w' & E'). rewrite E'. cbn [bind]. eexists. split; [reflexivity|].
  rewrite lex_app. change (lex (Between, ts) (str "const ")) with (Between, Name (chars "const") :: ts).
  rewrite lex_app, lex_name by exact Hn.
  change (str " =" ++ ?r) with (32 :: str "=" ++ r).
  rewrite lex_after_name by reflexivity.
  set (u := Name name :: Name (chars "const") :: ts).
  change (Nat.ltb 0 0) with false. change (Nat.eqb (Nat.modulo 0 16) 0) with true. cbv iota. 
  change (lex (Between, u) (32 :: str "=" ++ quote ++ quote ++ str "+" ++ nl ++ ?r)) with (lex (Between, Op 43 :: Str [] :: Op 61 :: u) r).
  set (u' := Op 43 :: Str [] :: Op 61 :: u). change ([] ++ ?r) with r.
  rewrite <- !app_assoc, !app_assoc, <- (app_assoc (str "//")).
  rewrite <- !app_assoc, (app_assoc (fmt_d _) nl), (app_assoc (str "//")), lex_app.
  rewrite lex_comment by reflexivity.
  rewrite lex_app. change (lex (Between, u') quote) with (InStr [], u').
  rewrite lex_app, bytes_lex by apply le64_bytes. rewrite lex_app. cbn [app].
  change (lex (InStr (le64 v), u') quote) with (Between, Str (le64 v) :: u').
  rewrite lex_app, (genConst_loop_lex data (0 + 1)%nat w' _ ltac:(lia) E').
  assert (Q : ends_line (rev (pieces data) ++ Str (le64 v) :: u') = true).
  { unfold pieces. destruct data as [|x data] using rev_ind; [reflexivity|].
    rewrite flat_map_app, rev_app_distr. reflexivity. }
  set (z := rev (pieces data) ++ _) in *.
  change (10 :: 10 :: []) with (nl ++ nl) || idtac. 
  rewrite lex_app. change (lex (Between, z) nl) with (newline z). unfold newline. rewrite Q.
  change (lex (Between, Semi :: z) nl) with (Between, Semi :: z).
  unfold z, u', u, const_tokens. unfold pieces at 2. cbn [flat_map]. rewrite le64_le.
  rewrite !rev_app_distr, <- !app_assoc. reflexivity.
Qed.
Lemma sum_pieces data rest : forall s, match rest with Op 43 :: _ => False | _ => True end ->
  sum s (pieces data ++ rest) = Some (s ++ flat_map (little_endian 8) data, rest).
Proof.
  induction data as [|v data IH]; intros s H; cbn [pieces flat_map app].
  - rewrite app_nil_r. destruct rest as [|[| | |c| |] rest]; cbn [sum]; try reflexivity.
    destruct c as [|p]; cbn [sum]; try reflexivity.
    repeat (destruct p as [p|p|]; try reflexivity; try contradiction).
  - cbn [sum]. fold (pieces data). rewrite IH by exact H. rewrite <- app_assoc. reflexivity.
Qed.
Lemma declare_const name data rest :
  declare (const_tokens name data ++ rest) = Some (ConstStr name (flat_map (little_endian 8) data), Semi :: rest).
Proof.
  unfold const_tokens. rewrite <- !app_assoc. cbn [app declare].
  change (eqs (chars "const") (chars "package")) with false. change (eqs (chars "const") (chars "const")) with true.
  cbv iota. rewrite sum_pieces by exact I. reflexivity.
Qed.

(** ** The properties *)

Lemma tokens_of s ts : lex (Between, []) s = (Between, ts) -> hd_error ts = Some Semi -> tokens s = Some (rev ts).
Proof.
  intros E H. unfold tokens. rewrite lex_app, E. destruct ts as [|t ts]; [discriminate|]. injection H as ->. reflexivity.
Qed.
Theorem genVar_source name data : identifier name -> Forall (fun v => v < 2 ^ 64) data ->
  go_source (genVar name data) = Some [VarU64 name data].
Proof.
  intros Hn Hd. unfold go_source. rewrite (tokens_of _ (rev (var_tokens name data))).
  - rewrite rev_involutive. pose proof (declare_var name data [] Hd) as D. rewrite app_nil_r in D.
    change (length (var_tokens name data)) with (S (length (tl (var_tokens name data)))). cbn [declarations].
    change (var_tokens name data) with (Name (chars "var") :: tl (var_tokens name data)) at 1.
    cbv iota. rewrite D. destruct (length _); reflexivity.
  - rewrite genVar_lex by assumption. rewrite app_nil_r. reflexivity.
  - unfold var_tokens. rewrite !rev_app_distr. reflexivity.
Qed.
Theorem genConst_source name data : identifier name -> data <> [] ->
  exists w, genConst name data = Ret w /\ go_source w = Some [ConstStr name (flat_map (little_endian 8) data)].
Proof.
  intros Hn Hd. destruct data as [|v data]; [congruence|]. destruct (genConst_lex name v data [] Hn) as (w & E & L).
  exists w. split; [exact E|]. rewrite app_nil_r in L. unfold go_source. rewrite (tokens_of _ _ L).
  - rewrite rev_involutive. pose proof (declare_const name (v :: data) []) as D. rewrite app_nil_r in D.
    change (length (const_tokens name (v :: data))) with (S (length (tl (const_tokens name (v :: data))))). cbn [declarations].
    change (const_tokens name (v :: data)) with (Name (chars "const") :: tl (const_tokens name (v :: data))) at 1.
    cbv iota. rewrite D. destruct (length _); reflexivity.
  - unfold const_tokens. rewrite !rev_app_distr. reflexivity.
Qed.

Definition small (l : list N) : bool := forallb (fun v => v <? 2 ^ 64) l.
Lemma small_ok l : small l = true -> Forall (fun v => v < 2 ^ 64) l.
Proof.
  unfold small. rewrite forallb_forall. intros H. apply Forall_forall. intros x I0. apply N.ltb_lt, H, I0.
Qed.
Lemma ct_small : small ct = true.
Proof. vm_compute. reflexivity. Qed.
Lemma rc_small : small rc = true.
Proof. vm_compute. reflexivity. Qed.
Local Opaque ct rc.

(** The text of main with any two tables. *)
Lemma text_source r c : Forall (fun v => v < 2 ^ 64) r -> Forall (fun v => v < 2 ^ 64) c ->
  go_source (header ++ str "const rounds=" ++ fmt_d (Z.of_nat rounds) ++ nl ++ nl ++ genVar (str "rc") r ++ genVar (str "ct") c)
  = Some [Package (chars "whirlpool"); ConstInt (chars "rounds") 10; VarU64 (chars "rc") r; VarU64 (chars "ct") c].
Proof.
  intros Hr Hc.
  set (start := [Name (chars "package"); Name (chars "whirlpool"); Semi;
    Name (chars "const"); Name (chars "rounds"); Op 61; Int 10; Semi]).
  assert (S0 : lex (Between, []) (header ++ str "const rounds=" ++ fmt_d (Z.of_nat rounds) ++ nl ++ nl) = (Between, rev start))
    by (vm_compute; reflexivity).
  assert (Ir : identifier (str "rc")) by (split; [split; [reflexivity|repeat constructor]|reflexivity]).
  assert (Ic : identifier (str "ct")) by (split; [split; [reflexivity|repeat constructor]|reflexivity]).
  unfold go_source. rewrite (tokens_of _ (rev (start ++ var_tokens (str "rc") r ++ var_tokens (str "ct") c))).
  - rewrite rev_involutive.
    assert (L : exists n, length (start ++ var_tokens (str "rc") r ++ var_tokens (str "ct") c) = (5 + n)%nat)
      by (eexists; reflexivity).
    destruct L as (n & ->). cbn [Nat.add].
    set (tail := var_tokens (str "rc") r ++ var_tokens (str "ct") c).
    change (declarations (S (S (S (S (S n))))) (start ++ tail)) with
      (option_map (cons (Package (chars "whirlpool"))) (option_map (cons (ConstInt (chars "rounds") 10))
        (declarations (S (S (S n))) tail))).
    assert (D1 : declarations (S (S (S n))) tail = option_map (cons (VarU64 (chars "rc") r)) (declarations (S (S n)) (var_tokens (str "ct") c))).
    { unfold tail. pose proof (declare_var (str "rc") r (var_tokens (str "ct") c) Hr) as D. cbn [declarations].
      change (var_tokens (str "rc") r) with (Name (chars "var") :: tl (var_tokens (str "rc") r)) at 1.
      cbn [app]. cbv iota. 
      change (Name (chars "var") :: tl (var_tokens (str "rc") r) ++ var_tokens (str "ct") c)
        with (var_tokens (str "rc") r ++ var_tokens (str "ct") c). rewrite D. reflexivity. }
    assert (D2 : declarations (S (S n)) (var_tokens (str "ct") c) = Some [VarU64 (chars "ct") c]).
    { pose proof (declare_var (str "ct") c [] Hc) as D. rewrite app_nil_r in D. cbn [declarations].
      change (var_tokens (str "ct") c) with (Name (chars "var") :: tl (var_tokens (str "ct") c)) at 1.
      cbv iota. rewrite D. reflexivity. }
    rewrite D1, D2. reflexivity.
  - replace (header ++ _) with ((header ++ str "const rounds=" ++ fmt_d (Z.of_nat rounds) ++ nl ++ nl)
      ++ genVar (str "rc") r ++ genVar (str "ct") c) by (rewrite <- !app_assoc; reflexivity).
    rewrite lex_app, S0, lex_app.
    rewrite genVar_lex by assumption. rewrite genVar_lex by assumption.
    rewrite !rev_app_distr, <- !app_assoc. reflexivity.
  - unfold var_tokens. rewrite !app_assoc, rev_app_distr. reflexivity.
Qed.
Theorem main_written : exists s, main_source = Ret s /\
  go_source s = Some [Package (chars "whirlpool"); ConstInt (chars "rounds") (N.of_nat rounds);
    VarU64 (chars "rc") rc; VarU64 (chars "ct") ct].
Proof.
  eexists. split.
  - unfold main_source. destruct generated as [E1 E2]. rewrite E1. cbn [bind]. rewrite E2. cbn [bind]. reflexivity.
  - exact (text_source rc ct (small_ok rc rc_small) (small_ok ct ct_small)).
Qed.
