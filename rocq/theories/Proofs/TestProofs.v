(** Package test: the report of StringMatch. *)
From Verif Require Import Base.Go Base.TestApi Base.GoStrings Model.TestPkg Spec.TestSpec Proofs.Util.
Local Open Scope N_scope.

Lemma str_eqb_true a b : str_eqb a b = true <-> a = b.
Proof. unfold str_eqb. destruct (list_eq_dec N.eq_dec a b); split; congruence. Qed.
Lemma str_eqb_refl a : str_eqb a a = true.
Proof. apply str_eqb_true. reflexivity. Qed.
Lemma str_eqb_false a b : a <> b -> str_eqb a b = false.
Proof. intros H. destruct (str_eqb a b) eqn:E; [|reflexivity]. apply str_eqb_true in E. contradiction. Qed.

(** ** Alignment *)

Section Align.
Variables (A : Type) (dec : forall a b : A, {a = b} + {a <> b}).
Lemma common_start (e f : list A) : exists P e' f',
  e = P ++ e' /\ f = P ++ f' /\ (e' = [] \/ f' = [] \/ exists a b e2 f2, e' = a :: e2 /\ f' = b :: f2 /\ a <> b).
Proof.
  revert f; induction e as [|a e IH]; intros f.
  - exists [], [], f. auto.
  - destruct f as [|b f].
    + exists [], (a :: e), []. auto.
    + destruct (dec a b) as [->|N].
      * destruct (IH f) as (P & e' & f' & -> & -> & H). exists (b :: P), e', f'. auto.
      * exists [], (a :: e), (b :: f). do 2 (split; [reflexivity|]). right; right. exists a, b, e, f. auto.
Qed.

Lemma common_end (e f : list A) : exists S e' f',
  e = e' ++ S /\ f = f' ++ S /\ (e' = [] \/ f' = [] \/ exists a b e2 f2, e' = e2 ++ [a] /\ f' = f2 ++ [b] /\ a <> b).
Proof.
  destruct (common_start (rev e) (rev f)) as (P & e' & f' & E & F & H).
  exists (rev P), (rev e'), (rev f').
  assert (E2 : e = rev e' ++ rev P) by (rewrite <- rev_app_distr, <- E, rev_involutive; reflexivity).
  assert (F2 : f = rev f' ++ rev P) by (rewrite <- rev_app_distr, <- F, rev_involutive; reflexivity).
  split; [exact E2|]. split; [exact F2|].
  destruct H as [->|[->|(a & b & e2 & f2 & -> & -> & N)]]; [now left|right; now left|].
  right; right. exists a, b, (rev e2), (rev f2). auto.
Qed.

Lemma align (e f : list A) : exists P De Df S, aligned e f P De Df S.
Proof.
  destruct (common_start e f) as (P & e' & f' & -> & -> & H).
  destruct H as [->|[->|(a & b & e2 & f2 & -> & -> & N)]].
  - exists P, [], f', []. unfold aligned. rewrite !app_nil_r. repeat split; auto; congruence.
  - exists P, e', [], []. unfold aligned. rewrite !app_nil_r. repeat split; auto; congruence.
  - destruct (common_end e2 f2) as (S & e3 & f3 & -> & -> & H).
    exists P, (a :: e3), (b :: f3), S. unfold aligned. cbn [app].
    repeat split; try discriminate.
    + right; right. exists a, b, e3, f3. auto.
    + right; right. destruct H as [->|[->|(x & y & e4 & f4 & -> & -> & M)]]; [now left|right; now left|].
      right; right. exists x, y, (a :: e4), (b :: f4). auto.
Qed.
End Align.

(** ** The first mismatch *)

Lemma first_loop_common P2 : forall P1 e f m rest k,
  Forall (fun p => p <> []) P2 -> length m = length P1 ->
  k = (length P2 + length e)%nat ->
  first_loop k (length P1) (P1 ++ P2 ++ e) (P1 ++ P2 ++ f) (m ++ repeat 0 (length P2) ++ rest)
  = first_loop (length e) (length (P1 ++ P2)) ((P1 ++ P2) ++ e) ((P1 ++ P2) ++ f) ((m ++ map below_char P2) ++ rest).
Proof.
  induction P2 as [|p P2 IH]; intros P1 e f m rest k HP Hm ->.
  - cbn [length app repeat map Nat.add]. rewrite !app_nil_r. reflexivity.
  - inversion HP as [|? ? Hp HP']; subst. cbn [length app repeat map Nat.add first_loop].
    destruct (Nat.leb_spec (length (P1 ++ p :: P2 ++ f)) (length P1)) as [L|L].
    { rewrite app_length in L. cbn [length] in L. lia. }
    rewrite !idx_app by reflexivity. cbn [bind]. rewrite str_eqb_refl. cbn [negb].
    assert (B : (if str_eqb p [0x7f] then Ret 0x7f
         else let! c := idx p 0 in if c <? 32 then Ret c else Ret 45) = Ret (below_char p)).
    { destruct p as [|c p]; [congruence|]. change (idx (c :: p) 0) with (@Ret N c). cbn [bind].
      destruct (str_eqb (c :: p) [127]) eqn:Q.
      - apply str_eqb_true in Q. inversion Q; subst. reflexivity.
      - destruct p as [|d p].
        + cbn [below_char]. destruct (N.eqb_spec c 127) as [->|Nc]; [discriminate Q|].
          rewrite orb_false_r. destruct (c <? 32); reflexivity.
        + cbn [below_char]. destruct (c <? 32); reflexivity. }
    rewrite B. cbn [bind].
    rewrite upd_app' by (symmetry; exact Hm). cbn [bind].
    specialize (IH (P1 ++ [p]) e f (m ++ [below_char p]) rest (length P2 + length e)%nat HP').
    rewrite !app_length, <- !app_assoc in IH. cbn [length app] in IH.
    rewrite IH by (rewrite ?app_length; cbn [length]; lia).
    rewrite !app_length, <- !app_assoc. cbn [length app]. 
    replace (length P1 + 1 + length P2)%nat with (length P1 + S (length P2))%nat by lia. reflexivity.
Qed.

Lemma map_below_length P : length (map below_char P) = length P.
Proof. apply map_length. Qed.

Lemma findFirst_ok e f P De Df S n :
  aligned e f P De Df S -> Forall (fun p => p <> []) e -> (length P <= n)%nat ->
  findFirstMismatch e f (repeat 0 (n + 1)) = Ret (length P, map below_char P ++ 94 :: repeat 0 (n - length P)).
Proof.
  intros (-> & -> & HS & H1 & _) NE Hn. unfold findFirstMismatch.
  apply Forall_app in NE as [NP _].
  replace (n + 1)%nat with (length P + Datatypes.S (n - length P))%nat by lia.
  rewrite repeat_app.
  rewrite (first_loop_common P [] (De ++ S) (Df ++ S) [] (repeat 0 (Datatypes.S (n - length P))))
    by (try exact NP; rewrite ?app_length; cbn [length]; lia).
  cbn [app].
  assert (E : first_loop (length (De ++ S)) (length P) (P ++ De ++ S) (P ++ Df ++ S)
     (map below_char P ++ repeat 0 (Datatypes.S (n - length P)))
     = Ret (length P, map below_char P ++ repeat 0 (Datatypes.S (n - length P)))).
  { assert (X : De ++ S = [] \/ Df ++ S = [] \/ exists a b e' f', De ++ S = a :: e' /\ Df ++ S = b :: f' /\ a <> b).
    { destruct S as [|s S].
      - rewrite !app_nil_r. exact H1.
      - destruct (HS ltac:(discriminate)) as [D1 D2].
        destruct H1 as [?|[?|(a & b & e' & f' & -> & -> & N)]]; try contradiction.
        right; right. exists a, b, (e' ++ s :: S), (f' ++ s :: S). auto. }
    destruct X as [->|[->|(a & b & e' & f' & -> & -> & N)]].
    - reflexivity.
    - destruct (length (De ++ S)) as [|k]; [reflexivity|]. cbn [first_loop].
      rewrite app_nil_r. rewrite Nat.leb_refl. reflexivity.
    - cbn [length first_loop].
      destruct (Nat.leb_spec (length (P ++ b :: f')) (length P)) as [L|L];
        [rewrite app_length in L; cbn [length] in L; lia|].
      rewrite !idx_app by reflexivity. cbn [bind]. rewrite (str_eqb_false _ _ N). reflexivity. }
  rewrite E. cbn [bind repeat].
  rewrite upd_app' by (symmetry; apply map_length). reflexivity.
Qed.

(** ** The last mismatch *)

Lemma zupd_at {A} (m : list A) x rest v i :
  i = Z.of_nat (length m) -> zupd (m ++ x :: rest) i v = Ret (m ++ v :: rest).
Proof.
  intros ->. unfold zupd. destruct (Z.leb_spec 0 (Z.of_nat (length m))) as [_|L]; [|lia].
  rewrite Nat2Z.id. apply upd_app.
Qed.

Lemma repeat_snoc {A} (x : A) n : repeat x (S n) = repeat x n ++ [x].
Proof. induction n as [|n IH]; [reflexivity|]. cbn [repeat app] in *. rewrite IH at 1. reflexivity. Qed.

Lemma fill_loop_ok j : forall m rest c fuel, Z.of_nat (length m) = (c + 1)%Z -> (j <= fuel)%nat ->
  fill_loop fuel (c + Z.of_nat j) c (m ++ repeat 0 j ++ rest) = Ret (m ++ repeat 32 j ++ rest).
Proof.
  induction j as [|j IH]; intros m rest c fuel Hm Hf.
  - destruct fuel; cbn [fill_loop]; destruct (Z.ltb_spec c (c + Z.of_nat 0)) as [L|L]; try lia; reflexivity.
  - destruct fuel as [|fuel]; [lia|]. cbn [fill_loop].
    destruct (Z.ltb_spec c (c + Z.of_nat (S j))) as [L|L]; [|lia].
    rewrite repeat_snoc, <- app_assoc, app_assoc. cbn [app].
    rewrite zupd_at by (rewrite app_length, repeat_length; lia). cbn [bind].
    replace (c + Z.of_nat (S j) - 1)%Z with (c + Z.of_nat j)%Z by lia.
    rewrite <- app_assoc, (IH m (32 :: rest) c fuel Hm) by lia.
    rewrite (repeat_snoc 32), <- app_assoc. reflexivity.
Qed.

Lemma fill_loop_none i c m fuel : (i <= c)%Z -> fill_loop fuel i c m = Ret m.
Proof. intros H. destruct fuel; cbn [fill_loop]; destruct (Z.ltb_spec c i); try lia; reflexivity. Qed.

(** The loop over the common end. [c] = length P, [d] = number of differing
    places of the marker. *)
Lemma last_loop_ok S1 : forall S2 P De Df d U fuel,
  (S1 <> [] -> De <> [] /\ Df <> [] /\ (0 < d)%nat) ->
  (De = [] \/ Df = [] \/ length De = 1%nat \/ length Df = 1%nat
      \/ exists a b e' f', De = e' ++ [a] /\ Df = f' ++ [b] /\ a <> b) ->
  length U = length P -> (length S1 <= fuel)%nat -> (De <> [] -> Df <> [] -> (length De + length S1 <= fuel)%nat) ->
  last_loop fuel (Z.of_nat (length P + length De + length S1) - 1) (Z.of_nat (length P + length Df + length S1) - 1)
    (P ++ De ++ S1 ++ S2) (P ++ Df ++ S1 ++ S2) (Z.of_nat d - Z.of_nat (length De)) (Z.of_nat (length P))
    (U ++ 94 :: repeat 0 (d - 1 + length S1) ++ repeat 45 (length S2) ++ [0])
  = Ret ((Z.of_nat (length P + length De) - 1)%Z,
         U ++ 94 :: repeat 0 (d - 1) ++ repeat 45 (length S1 + length S2) ++ [0]).
Proof.
  induction S1 as [|s S1 IH] using rev_ind; intros S2 P De Df d U fuel HS H2 HU Hf Hf2.
  - cbn [length app Nat.add]. rewrite !Nat.add_0_r.
    assert (X : last_loop fuel (Z.of_nat (length P + length De) - 1) (Z.of_nat (length P + length Df) - 1)
      (P ++ De ++ S2) (P ++ Df ++ S2) (Z.of_nat d - Z.of_nat (length De)) (Z.of_nat (length P))
      (U ++ 94 :: repeat 0 (d - 1) ++ repeat 45 (length S2) ++ [0])
      = Ret ((Z.of_nat (length P + length De) - 1)%Z, U ++ 94 :: repeat 0 (d - 1) ++ repeat 45 (length S2) ++ [0]));
      [|exact X].
    destruct (Nat.leb_spec (length De) 1) as [L1|L1]; [|destruct (Nat.leb_spec (length Df) 1) as [L2|L2]].
    + destruct fuel; cbn [last_loop];
        (destruct (Z.ltb_spec (Z.of_nat (length P)) (Z.of_nat (length P + length De) - 1)) as [L|L]; [lia|]); reflexivity.
    + destruct fuel; cbn [last_loop];
        (destruct (Z.ltb_spec (Z.of_nat (length P)) (Z.of_nat (length P + length Df) - 1)) as [L|L]; [lia|]);
        rewrite andb_false_r; reflexivity.
    + destruct H2 as [->|[->|[X|[X|(a & b & e' & f' & -> & -> & N)]]]]; cbn [length] in *; try lia.
      rewrite !app_length in *. cbn [length] in *.
      destruct fuel as [|fuel].
      { exfalso. assert (e' ++ [a] <> []) by (intros X; apply app_eq_nil in X as [_ X]; discriminate).
        assert (f' ++ [b] <> []) by (intros X; apply app_eq_nil in X as [_ X]; discriminate).
        specialize (Hf2 H H0). lia. }
      cbn [last_loop].
      destruct (Z.ltb_spec (Z.of_nat (length P)) (Z.of_nat (length P + (length e' + 1)) - 1)) as [L|L]; [|lia].
      destruct (Z.ltb_spec (Z.of_nat (length P)) (Z.of_nat (length P + (length f' + 1)) - 1)) as [L'|L']; [|lia].
      cbn [andb].
      destruct (Z.leb_spec 0 (Z.of_nat (length P + (length e' + 1)) - 1)) as [_|?]; [|lia].
      destruct (Z.leb_spec 0 (Z.of_nat (length P + (length f' + 1)) - 1)) as [_|?]; [|lia].
      rewrite <- !(app_assoc _ [a]), <- !(app_assoc _ [b]), !(app_assoc P). cbn [app].
      rewrite !idx_app by (rewrite app_length; lia). cbn [bind].
      rewrite (str_eqb_false _ _ N). reflexivity.
  - destruct (HS ltac:(intros X; apply app_eq_nil in X as [_ X]; discriminate)) as (D1 & D2 & D3).
    specialize (Hf2 D1 D2).
    assert (0 < length De)%nat by (destruct De; [congruence|cbn [length]; lia]).
    assert (0 < length Df)%nat by (destruct Df; [congruence|cbn [length]; lia]).
    rewrite !app_length in *. cbn [length] in *.
    destruct fuel as [|fuel]; [lia|]. cbn [last_loop].
    destruct (Z.ltb_spec (Z.of_nat (length P)) (Z.of_nat (length P + length De + (length S1 + 1)) - 1)) as [L|L]; [|lia].
    destruct (Z.ltb_spec (Z.of_nat (length P)) (Z.of_nat (length P + length Df + (length S1 + 1)) - 1)) as [L'|L']; [|lia].
    cbn [andb].
    destruct (Z.leb_spec 0 (Z.of_nat (length P + length De + (length S1 + 1)) - 1)) as [_|?]; [|lia].
    destruct (Z.leb_spec 0 (Z.of_nat (length P + length Df + (length S1 + 1)) - 1)) as [_|?]; [|lia].
    assert (I : forall D, idx (P ++ D ++ (S1 ++ [s]) ++ S2) (Z.to_nat (Z.of_nat (length P + length D + (length S1 + 1)) - 1)) = Ret s).
    { intros D. replace (P ++ D ++ (S1 ++ [s]) ++ S2) with ((P ++ D ++ S1) ++ s :: S2) by (rewrite <- !app_assoc; reflexivity).
      apply idx_app. rewrite !app_length. lia. }
    rewrite !I. cbn [bind]. rewrite str_eqb_refl. cbn [negb].
    replace (d - 1 + (length S1 + 1))%nat with (S (d - 1 + length S1)) by lia.
    rewrite repeat_snoc.
    replace (U ++ 94 :: (repeat 0 (d - 1 + length S1) ++ [0]) ++ repeat 45 (length S2) ++ [0])
      with ((U ++ 94 :: repeat 0 (d - 1 + length S1)) ++ 0 :: repeat 45 (length S2) ++ [0])
      by (rewrite <- !app_assoc; reflexivity).
    rewrite zupd_at by (rewrite app_length; cbn [length]; rewrite repeat_length; lia). cbn [bind].
    specialize (IH (s :: S2) P De Df d U fuel ltac:(auto) H2 HU ltac:(lia) ltac:(intros; lia)).
    cbn [length repeat app] in IH. rewrite <- !app_assoc in *. cbn [app] in *.
    replace (Z.of_nat (length P + length De + (length S1 + 1)) - 1 - 1)%Z
      with (Z.of_nat (length P + length De + length S1) - 1)%Z by lia.
    replace (Z.of_nat (length P + length Df + (length S1 + 1)) - 1 - 1)%Z
      with (Z.of_nat (length P + length Df + length S1) - 1)%Z by lia.
    rewrite IH. replace (length S1 + 1 + length S2)%nat with (length S1 + S (length S2))%nat by lia. reflexivity.
Qed.

(** The final marker when at least one place differs. *)
Lemma findLast_ok e f P De Df S d :
  aligned e f P De Df S -> (d = length De \/ d = length Df) -> (0 < d)%nat ->
  findLastMismatch e f (map below_char P ++ 94 :: repeat 0 (d - 1 + length S) ++ [0]) (Z.of_nat (length P))
  = Ret ((- Z.of_nat (length S))%Z, marker_line P d (length S) ++ [0]).
Proof.
  intros (-> & -> & HS & _ & H2) Hd D0. unfold findLastMismatch. cbv zeta.
  pose proof (last_loop_ok S [] P De Df d (map below_char P) (length (P ++ De ++ S))) as L.
  rewrite !app_nil_r in L. cbn [length repeat app] in L.
  assert (EL : length (map below_char P ++ 94 :: repeat 0 (d - 1 + length S) ++ [0]) = (length P + d + length S + 1)%nat).
  { rewrite app_length, map_length. cbn [length]. rewrite app_length, repeat_length. cbn [length]. lia. }
  rewrite EL. rewrite !app_length in *.
  replace (Z.of_nat (length P + d + length S + 1) - Z.of_nat (length P + (length De + length S)) - 1)%Z
    with (Z.of_nat d - Z.of_nat (length De))%Z by lia.
  rewrite !Nat.add_assoc in *.
  rewrite L; clear L; [| intros X; destruct (HS X); repeat split; auto | exact H2 | apply map_length | lia | intros; lia].
  cbn [bind]. rewrite Nat.add_0_r.
  replace (Z.of_nat (length P + length De) - 1 - 1 + (Z.of_nat d - Z.of_nat (length De)))%Z
    with (Z.of_nat (length P + d) - 2)%Z by lia.
  replace (Z.of_nat (length P + length De) - 1 + (Z.of_nat d - Z.of_nat (length De)))%Z
    with (Z.of_nat (length P + d) - 1)%Z by lia.
  replace (Z.of_nat (length P + length De) - 1 - Z.of_nat (length P + length De + length S) + 1)%Z
    with (- Z.of_nat (length S))%Z by lia.
  unfold marker_line. destruct d as [|[|d]]; [lia| |].
  - rewrite fill_loop_none by lia. cbn [bind Nat.sub repeat app carets].
    rewrite zupd_at by (rewrite map_length; lia). cbn [bind]. rewrite <- !app_assoc. reflexivity.
  - replace (Datatypes.S (Datatypes.S d) - 1)%nat with (Datatypes.S d) by lia.
    rewrite repeat_snoc.
    replace (map below_char P ++ 94 :: (repeat 0 d ++ [0]) ++ repeat 45 (length S) ++ [0])
      with ((map below_char P ++ [94]) ++ repeat 0 d ++ 0 :: repeat 45 (length S) ++ [0])
      by (rewrite <- !app_assoc; reflexivity).
    replace (Z.of_nat (length P + Datatypes.S (Datatypes.S d)) - 2)%Z with (Z.of_nat (length P) + Z.of_nat d)%Z by lia.
    rewrite fill_loop_ok by (rewrite ?app_length, ?map_length, ?repeat_length; cbn [length]; lia).
    cbn [bind]. rewrite (app_assoc _ (repeat 32 d)).
    rewrite zupd_at by (rewrite !app_length, map_length, repeat_length; cbn [length]; lia).
    cbn [bind carets]. rewrite <- !app_assoc. reflexivity.
Qed.

(** And when none of the longer string does (the split can give the longer
    string fewer characters, or cannot tell the two apart). *)
Lemma findLast_same P De Df : P <> [] -> De = [] \/ Df = [] ->
  exists m, findLastMismatch (P ++ De) (P ++ Df) (map below_char P ++ [94]) (Z.of_nat (length P)) = Ret (0%Z, m).
Proof.
  intros NE D. unfold findLastMismatch. cbv zeta.
  assert (0 < length P)%nat by (destruct P; [congruence|cbn [length]; lia]).
  assert (E : forall fuel m dl, last_loop fuel (Z.of_nat (length (P ++ De)) - 1) (Z.of_nat (length (P ++ Df)) - 1)
      (P ++ De) (P ++ Df) dl (Z.of_nat (length P)) m = Ret ((Z.of_nat (length (P ++ De)) - 1)%Z, m)).
  { intros fuel m dl. rewrite !app_length.
    assert (C : ((Z.of_nat (length P) <? Z.of_nat (length P + length De) - 1)
       && (Z.of_nat (length P) <? Z.of_nat (length P + length Df) - 1))%Z = false).
    { apply andb_false_iff. destruct D as [->| ->]; cbn [length]; [left|right]; apply Z.ltb_ge; lia. }
    destruct fuel; cbn [last_loop]; rewrite C; reflexivity. }
  rewrite E. cbn [bind]. rewrite !app_length, map_length. cbn [length].
  rewrite fill_loop_none by lia. cbn [bind]. unfold zupd.
  match goal with |- context [Z.leb 0 ?i] => destruct (Z.leb_spec 0 i) as [_|L]; [|lia] end.
  rewrite upd_in by (rewrite app_length, map_length; cbn [length]; lia). cbn [bind].
  match goal with |- exists m, Ret (?z, _) = _ => replace z with 0%Z by lia end. eexists. reflexivity.
Qed.

(** ** renderText *)

Lemma zcopy_at t u rest p i : i = Z.of_nat (length t) -> length u = length p ->
  zcopy (t ++ u ++ rest) i p = Ret (t ++ p ++ rest).
Proof.
  intros -> E. unfold zcopy.
  destruct (Z.leb_spec 0 (Z.of_nat (length t))) as [_|?]; [|lia].
  destruct (Z.leb_spec (Z.of_nat (length t)) (Z.of_nat (length (t ++ u ++ rest)))) as [_|L]; [|rewrite app_length in L; lia].
  cbn [andb]. rewrite Nat2Z.id. f_equal. unfold copy_at. rewrite !app_length, E.
  replace (Nat.min (length t + (length p + length rest) - length t) (length p)) with (length p) by lia.
  rewrite firstn_app, firstn_all, Nat.sub_diag. cbn [firstn]. rewrite app_nil_r, firstn_all.
  f_equal. f_equal. rewrite skipn_app. rewrite skipn_all2 by lia. cbn [app].
  replace (length t + length p - length t)%nat with (length u) by lia.
  rewrite skipn_app, skipn_all, Nat.sub_diag. reflexivity.
Qed.

Lemma zslice_mid {A} (a d z : list A) i j : i = Z.of_nat (length a) -> j = Z.of_nat (length a + length d) ->
  zslice (a ++ d ++ z) i j = Ret d.
Proof.
  intros -> ->. unfold zslice. destruct (Z.leb_spec 0 (Z.of_nat (length a))) as [_|?]; [|lia].
  destruct (Z.leb_spec 0 (Z.of_nat (length a + length d))) as [_|?]; [|lia]. cbn [andb]. rewrite !Nat2Z.id.
  unfold slice_of. destruct (Nat.leb_spec (length a) (length a + length d)) as [_|?]; [|lia].
  destruct (Nat.leb_spec (length a + length d) (length (a ++ d ++ z))) as [_|L]; [|rewrite !app_length in L; lia].
  cbn [andb]. rewrite skipn_app, skipn_all, Nat.sub_diag. cbn [skipn app].
  replace (length a + length d - length a)%nat with (length d) by lia.
  rewrite firstn_app, firstn_all, Nat.sub_diag. cbn [firstn]. rewrite app_nil_r. reflexivity.
Qed.

Lemma dots_length n : length (dots n) = (2 * n)%nat.
Proof. unfold dots. induction n as [|n IH]; [reflexivity|]. cbn [repeat concat app length]. rewrite IH. lia. Qed.
Lemma dots_snoc n : dots (S n) = dots n ++ [0xc2; 0xb7].
Proof. unfold dots. rewrite repeat_snoc, concat_app. reflexivity. Qed.

Lemma blank_loop_ok n : forall k m rest (markEnd : Z),
  Z.of_nat (length m) = (markEnd + 4)%Z ->
  blank_loop n (Z.of_nat k) markEnd (m ++ dots k ++ repeat 0 (2 * n) ++ rest) = Ret (m ++ dots (k + n) ++ rest).
Proof.
  induction n as [|n IH]; intros k m rest markEnd Hm.
  - change (2 * 0)%nat with 0%nat. cbn [blank_loop repeat app]. rewrite Nat.add_0_r. reflexivity.
  - cbn [blank_loop]. replace (2 * S n)%nat with (S (S (2 * n))) by lia. cbn [repeat app].
    rewrite (app_assoc m).
    rewrite zupd_at by (rewrite app_length, dots_length; lia). cbn [bind].
    replace ((m ++ dots k) ++ 194 :: 0 :: repeat 0 (2 * n) ++ rest)
      with (((m ++ dots k) ++ [194]) ++ 0 :: repeat 0 (2 * n) ++ rest) by (rewrite <- !app_assoc; reflexivity).
    rewrite zupd_at by (rewrite !app_length, dots_length; cbn [length]; lia). cbn [bind].
    replace (Z.of_nat k + 1)%Z with (Z.of_nat (S k)) by lia.
    replace (((m ++ dots k) ++ [194]) ++ 183 :: repeat 0 (2 * n) ++ rest)
      with (m ++ dots (S k) ++ repeat 0 (2 * n) ++ rest) by (rewrite dots_snoc, <- !app_assoc; reflexivity).
    rewrite IH by exact Hm. replace (S k + n)%nat with (k + S n)%nat by lia. reflexivity.
Qed.

Lemma renderText_ok p d s b :
  renderText (p ++ d ++ s) (Z.of_nat b) (Z.of_nat (length p)) (- Z.of_nat (length s)) = Ret (line p d b s).
Proof.
  unfold renderText. cbv zeta. rewrite !app_length.
  replace (Z.of_nat (length p + (length d + length s)) + (4 + 4) + Z.of_nat b * 2)%Z
    with (Z.of_nat (length p + (4 + (length d + (2 * b + (4 + length s)))))) by lia.
  rewrite make_bytes_nat. cbn [bind].
  replace (Z.of_nat (length p + (length d + length s)) + - Z.of_nat (length s))%Z
    with (Z.of_nat (length p + length d)) by lia.
  change (zslice (p ++ d ++ s) 0) with (zslice ([] ++ p ++ d ++ s) 0).
  rewrite (zslice_mid [] p (d ++ s)) by (cbn [length]; lia). cbn [bind].
  rewrite !repeat_app.
  change (zcopy (repeat 0 (length p) ++ ?r) 0) with (zcopy ([] ++ repeat 0 (length p) ++ r) 0).
  rewrite (zcopy_at [] (repeat 0 (length p))) by (rewrite ?repeat_length; reflexivity). cbn [app bind].
  rewrite zcopy_at by reflexivity. cbn [bind].
  rewrite zslice_mid by lia. cbn [bind].
  rewrite (app_assoc p).
  rewrite zcopy_at by (rewrite ?app_length, ?repeat_length; cbn [length]; lia). cbn [bind].
  rewrite (app_assoc _ d).
  rewrite Nat2Z.id.
  change (repeat 0 (2 * b) ++ ?r) with (dots 0 ++ repeat 0 (2 * b) ++ r).
  change 0%Z with (Z.of_nat 0).
  rewrite blank_loop_ok by (rewrite !app_length; cbn [length]; lia). cbn [bind Nat.add].
  rewrite (app_assoc _ (dots b)).
  rewrite zcopy_at by (rewrite ?app_length, ?dots_length, ?repeat_length; cbn [length]; lia). cbn [bind].
  replace (p ++ d ++ s) with ((p ++ d) ++ s ++ []) by (rewrite app_nil_r, <- app_assoc; reflexivity).
  rewrite zslice_mid by (rewrite ?app_length; lia). cbn [bind].
  rewrite (app_assoc _ [27; 91; 48; 109]).
  rewrite <- (app_nil_r (repeat 0 (length s))).
  rewrite zcopy_at by (rewrite ?app_length, ?dots_length, ?repeat_length; cbn [length]; lia).
  unfold line. rewrite app_nil_r, <- !app_assoc. reflexivity.
Qed.

(** ** StringMatchTitle *)

Lemma cut3 {A} (t : list A) (a z : nat) : (a + z <= length t)%nat ->
  exists p d s, t = p ++ d ++ s /\ length p = a /\ length s = z.
Proof.
  intros H. exists (firstn a t), (firstn (length t - a - z) (skipn a t)), (skipn (length t - a - z) (skipn a t)).
  rewrite !firstn_skipn. split; [reflexivity|]. rewrite firstn_length, skipn_length, skipn_length. lia.
Qed.

Lemma report_at split title prefix expect found P De Df S pe de se pf df sf :
  splits split -> expect <> found -> aligned (split expect) (split found) P De Df S ->
  expect = pe ++ de ++ se -> length pe = length P -> length se = length S ->
  found = pf ++ df ++ sf -> length pf = length P -> length sf = length S ->
  exists marker,
    StringMatchTitle split title prefix expect found
    = Ret ((if Nat.eqb (length found) (length expect) then [] else [LengthDiffers (length expect) (length found)])
           ++ [Mismatch (report_text title prefix
                (line pe de (length found - length expect) se) (line pf df (length expect - length found) sf) marker)])
    /\ ((0 < longer_part expect found De Df)%nat ->
        marker = marker_line P (longer_part expect found De Df) (length S) ++ [0]).
Proof.
  intros HS NE AL He Lpe Lse Hf Lpf Lsf. unfold StringMatchTitle.
  rewrite str_eqb_false by congruence. cbv zeta.
  pose proof AL as (Ee & Ef & HS0 & _).
  destruct (HS expect) as (N1 & L1 & Z1). destruct (HS found) as (N2 & L2 & Z2).
  set (d := longer_part expect found De Df).
  assert (ED : (if Nat.ltb (length expect) (length found) then (length found, length (split found))
      else (length expect, length (split expect)))
      = (Nat.max (length expect) (length found), (length P + d + length S)%nat)).
  { subst d. unfold longer_part. rewrite Ee, Ef, !app_length.
    destruct (Nat.ltb_spec (length expect) (length found)); f_equal; lia. }
  rewrite ED. cbv iota.
  replace (Z.of_nat (length P + d + length S) + 1)%Z with (Z.of_nat ((length P + d + length S) + 1)) by lia.
  rewrite make_bytes_nat. cbn [bind].
  rewrite (findFirst_ok _ _ _ _ _ _ _ AL N1) by lia. cbn [bind].
  replace (length P + d + length S - length P)%nat with (d + length S)%nat by lia.
  assert (FL : exists marker, findLastMismatch (split expect) (split found)
      (map below_char P ++ 94 :: repeat 0 (d + length S)) (Z.of_nat (length P))
      = Ret ((- Z.of_nat (length S))%Z, marker)
      /\ ((0 < d)%nat -> marker = marker_line P d (length S) ++ [0])).
  { destruct (Nat.eq_dec d 0) as [D0|D0].
    - assert (SN : S = []).
      { subst d. unfold longer_part in D0. destruct S as [|x S]; [reflexivity|].
        destruct (HS0 ltac:(discriminate)) as [X Y].
        destruct De; [congruence|]. destruct Df; [congruence|].
        destruct (Nat.ltb (length expect) (length found)); discriminate D0. }
      subst S. rewrite !app_nil_r in Ee, Ef.
      assert (X : (De = [] \/ Df = []) /\ P <> []).
      { subst d. unfold longer_part in D0.
        destruct (Nat.ltb_spec (length expect) (length found)) as [L|L]; apply length_zero_iff_nil in D0;
          (split; [auto|]); intros ->.
        - apply Z2; [|rewrite Ef, D0; reflexivity]. intros X. rewrite X in L. cbn [length] in L. lia.
        - apply Z1; [|rewrite Ee, D0; reflexivity]. intros X. apply NE. rewrite X in *. cbn [length] in L.
          symmetry. apply length_zero_iff_nil. lia. }
      destruct X as [X NP]. rewrite Ee, Ef, D0.
      destruct (findLast_same P De Df NP X) as (m & E). exists m. split; [exact E|lia].
    - eexists. split; [|reflexivity].
      rewrite <- (findLast_ok _ _ _ _ _ _ d AL); [| |lia].
      + replace (d + length S)%nat with (Datatypes.S (d - 1 + length S)) by lia.
        rewrite repeat_snoc. reflexivity.
      + subst d. unfold longer_part. destruct (Nat.ltb (length expect) (length found)); auto. }
  destruct FL as (marker & -> & HM). cbn [bind]. exists marker. split; [|exact HM].
  assert (R1 : renderText expect (Z.of_nat (Nat.max (length expect) (length found)) - Z.of_nat (length expect))
      (Z.of_nat (length P)) (- Z.of_nat (length S)) = Ret (line pe de (length found - length expect) se)).
  { rewrite <- renderText_ok, <- He, Lpe, Lse. f_equal. lia. }
  assert (R2 : renderText found (Z.of_nat (Nat.max (length expect) (length found)) - Z.of_nat (length found))
      (Z.of_nat (length P)) (- Z.of_nat (length S)) = Ret (line pf df (length expect - length found) sf)).
  { rewrite <- renderText_ok, <- Hf, Lpf, Lsf. f_equal. lia. }
  rewrite R1, R2. cbn [bind]. unfold report_text, header, etx_nl. destruct title; reflexivity.
Qed.

(** A report exactly when the strings differ, whatever the split. *)
Theorem reports_iff split title prefix expect found : splits split ->
  exists rs, StringMatchTitle split title prefix expect found = Ret rs
  /\ (rs = [] <-> expect = found)
  /\ (expect <> found -> exists msg,
        rs = (if Nat.eqb (length found) (length expect) then [] else [LengthDiffers (length expect) (length found)])
             ++ [Mismatch msg]).
Proof.
  intros HS. destruct (list_eq_dec N.eq_dec expect found) as [->|NE].
  - exists []. unfold StringMatchTitle. rewrite str_eqb_refl. split; [reflexivity|]. split; [tauto|congruence].
  - destruct (align _ (list_eq_dec N.eq_dec) (split expect) (split found)) as (P & De & Df & S & AL).
    pose proof AL as (Ee & Ef & _).
    destruct (HS expect) as (_ & L1 & _). destruct (HS found) as (_ & L2 & _).
    rewrite Ee, !app_length in L1. rewrite Ef, !app_length in L2.
    destruct (cut3 expect (length P) (length S)) as (pe & de & se & He & Lpe & Lse); [lia|].
    destruct (cut3 found (length P) (length S)) as (pf & df & sf & Hf & Lpf & Lsf); [lia|].
    destruct (report_at split title prefix expect found P De Df S pe de se pf df sf) as (m & E & _); auto.
    eexists. split; [exact E|]. split.
    + split; [|congruence]. intros X. apply app_eq_nil in X as [_ X]. discriminate.
    + intros _. eexists. reflexivity.
Qed.

Lemma concat_long (P : list (list N)) : Forall (fun p => p <> []) P -> (length P <= length (concat P))%nat.
Proof.
  induction 1 as [|p P Hp _ IH]; [reflexivity|]. cbn [concat length]. rewrite app_length.
  destruct p; [congruence|]. cbn [length]. lia.
Qed.

Lemma lossless_splits split : lossless split -> splits split.
Proof.
  intros H s. destruct (H s) as [N C]. split; [exact N|]. split.
  - rewrite <- C at 2. apply concat_long, N.
  - intros NE X. rewrite X in C. cbn in C. congruence.
Qed.

Lemma app_eq_len {A} (a b c d : list A) : a ++ b = c ++ d -> length a = length c -> a = c /\ b = d.
Proof.
  revert c; induction a as [|x a IH]; intros [|y c] E L; cbn [length] in L; try discriminate; [auto|].
  inversion E; subst. injection L as L. destruct (IH c H1 L) as [-> ->]. auto.
Qed.

(** Without loss, what is outside the style markers is common to both strings
    and the marker line has the exact form. *)
Theorem report_exact_at split title prefix expect found : splits split ->
  concat (split expect) = expect -> concat (split found) = found -> expect <> found ->
  exists P De Df S p de df s,
    aligned (split expect) (split found) P De Df S
    /\ length p = length P /\ length s = length S
    /\ expect = p ++ de ++ s /\ found = p ++ df ++ s
    /\ StringMatchTitle split title prefix expect found
       = Ret ((if Nat.eqb (length found) (length expect) then [] else [LengthDiffers (length expect) (length found)])
              ++ [Mismatch (report_text title prefix
                   (line p de (length found - length expect) s) (line p df (length expect - length found) s)
                   (marker_line P (longer_part expect found De Df) (length S) ++ [0]))])
    /\ (0 < longer_part expect found De Df)%nat.
Proof.
  intros HS C1 C2 NE.
  destruct (align _ (list_eq_dec N.eq_dec) (split expect) (split found)) as (P & De & Df & S & AL).
  pose proof AL as (Ee & Ef & HS0 & _).
  destruct (HS expect) as (N1 & _). destruct (HS found) as (N2 & _).
  rewrite Ee, !concat_app in C1. rewrite Ef, !concat_app in C2.
  rewrite Ee in N1. rewrite Ef in N2.
  apply Forall_app in N1 as [NP N1]. apply Forall_app in N1 as [NDe NS]. apply Forall_app in N2 as [_ N2].
  apply Forall_app in N2 as [NDf _].
  pose proof (concat_long P NP) as LP. pose proof (concat_long S NS) as LS.
  destruct (cut3 (concat P) (length P) 0) as (p & d1 & z & EP & Lp & Lz); [lia|].
  apply length_zero_iff_nil in Lz. subst z. rewrite app_nil_r in EP.
  destruct (cut3 (concat S) 0 (length S)) as (z & d2 & s & ES & Lz & Ls); [lia|].
  apply length_zero_iff_nil in Lz. subst z. cbn [app] in ES.
  rewrite EP, ES in C1, C2. rewrite <- !app_assoc in C1, C2.
  set (de := d1 ++ concat De ++ d2). set (df := d1 ++ concat Df ++ d2).
  assert (He : expect = p ++ de ++ s) by (subst de; rewrite <- C1, <- !app_assoc; reflexivity).
  assert (Hf : found = p ++ df ++ s) by (subst df; rewrite <- C2, <- !app_assoc; reflexivity).
  assert (D : (0 < longer_part expect found De Df)%nat).
  { unfold longer_part.
    assert (Q : length expect = (length p + (length d1 + length (concat De) + length d2) + length s)%nat)
      by (rewrite <- C1, !app_length; lia).
    assert (Q' : length found = (length p + (length d1 + length (concat Df) + length d2) + length s)%nat)
      by (rewrite <- C2, !app_length; lia).
    destruct (Nat.ltb_spec (length expect) (length found)) as [L|L].
    - destruct Df; [cbn [concat length] in *; lia|cbn [length]; lia].
    - destruct De as [|x De]; [|cbn [length]; lia]. exfalso.
      destruct Df as [|y Df]; [subst de df; congruence|]. pose proof (Forall_inv NDf) as Hy.
      cbn [concat length] in *. rewrite app_length in Q'. destruct y; [congruence|]. cbn [length] in Q'. lia. }
  destruct (report_at split title prefix expect found P De Df S p de s p df s) as (m & E & M); auto.
  rewrite (M D) in E. exists P, De, Df, S, p, de, df, s. auto 10.
Qed.
Theorem report_exact split title prefix expect found : lossless split -> expect <> found ->
  exists P De Df S p de df s,
    aligned (split expect) (split found) P De Df S
    /\ length p = length P /\ length s = length S
    /\ expect = p ++ de ++ s /\ found = p ++ df ++ s
    /\ StringMatchTitle split title prefix expect found
       = Ret ((if Nat.eqb (length found) (length expect) then [] else [LengthDiffers (length expect) (length found)])
              ++ [Mismatch (report_text title prefix
                   (line p de (length found - length expect) s) (line p df (length expect - length found) s)
                   (marker_line P (longer_part expect found De Df) (length S) ++ [0]))])
    /\ (0 < longer_part expect found De Df)%nat.
Proof.
  intros HL. apply report_exact_at; [exact (lossless_splits split HL)|apply HL..].
Qed.

(** ** strings.Split(s, "") *)

Lemma rune_size_pos s : (0 < rune_size s)%nat.
Proof.
  unfold rune_size.
  repeat match goal with
  | |- context [match ?x with _ => _ end] => destruct x
  end; lia.
Qed.

Lemma explode_fuel_ok n : forall s, (length s <= n)%nat ->
  Forall (fun p => p <> []) (explode_fuel n s) /\ concat (explode_fuel n s) = s.
Proof.
  induction n as [|n IH]; intros s H.
  - destruct s; [|cbn [length] in H; lia]. split; [constructor|reflexivity].
  - destruct s as [|b s]; [split; [constructor|reflexivity]|]. cbn [explode_fuel].
    pose proof (rune_size_pos (b :: s)) as R.
    destruct (IH (skipn (rune_size (b :: s)) (b :: s))) as [I1 I2].
    { rewrite skipn_length. cbn [length] in *. lia. }
    split.
    + constructor; [|exact I1]. destruct (rune_size (b :: s)); [lia|discriminate].
    + cbn [concat]. rewrite I2. apply firstn_skipn.
Qed.

Theorem explode_lossless : lossless explode.
Proof. intros s. apply explode_fuel_ok. reflexivity. Qed.
Theorem explode_splits : splits explode.
Proof. apply lossless_splits, explode_lossless. Qed.
Theorem explode_replacing_splits : splits explode_replacing.
Proof.
  intros s. destruct (explode_splits s) as (N & L & Z). unfold explode_replacing. rewrite map_length.
  split; [|split; [exact L|]].
  - apply Forall_map. eapply Forall_impl; [|exact N]. intros p Hp. unfold replaced.
    destruct p as [|c [|]]; try congruence. destruct (c <? 128); discriminate.
  - intros NE X. apply map_eq_nil in X. exact (Z NE X).
Qed.

Lemma explode_ascii s : ascii s -> explode s = singles s.
Proof.
  unfold explode, ascii, singles. induction s as [|c s IH]; intros H; [reflexivity|].
  inversion H as [|? ? Hc Hs]; subst. cbn [length explode_fuel map].
  assert (R : rune_size (c :: s) = 1%nat).
  { unfold rune_size, in_range.
    assert (B : forall lo, 128 <= lo -> (lo <=? c) = false) by (intros; apply N.leb_gt; lia).
    assert (B' : forall v, 128 <= v -> (c =? v) = false) by (intros; apply N.eqb_neq; lia).
    destruct s as [|b1 s]; [reflexivity|].
    rewrite !B, !B' by lia. cbn [andb orb]. destruct s as [|b2 s]; [reflexivity|].
    destruct s; reflexivity. }
  rewrite R. cbn [firstn skipn]. f_equal. apply IH, Hs.
Qed.
Lemma explode_replacing_ascii s : ascii s -> explode_replacing s = singles s.
Proof.
  intros H. unfold explode_replacing. rewrite explode_ascii by exact H. unfold singles. rewrite map_map.
  apply map_ext_in. intros c Hc. unfold replaced.
  rewrite (proj2 (N.ltb_lt c 128)); [reflexivity|]. exact (proj1 (Forall_forall _ _) H c Hc).
Qed.

Lemma aligned_singles e f p de df s : aligned e f p de df s ->
  aligned (singles e) (singles f) (singles p) (singles de) (singles df) (singles s).
Proof.
  unfold singles. intros (-> & -> & H0 & H1 & H2). unfold aligned. rewrite !map_app, !map_length.
  do 2 (split; [reflexivity|]). split; [|split].
  - intros X. destruct (H0 ltac:(intros ->; apply X; reflexivity)) as [A B].
    split; intros Y; apply map_eq_nil in Y; contradiction.
  - destruct H1 as [->|[->|(a & b & e' & f' & -> & -> & N)]]; [now left|right; now left|].
    right; right. exists [a], [b], (map (fun c => [c]) e'), (map (fun c => [c]) f'). repeat split. congruence.
  - destruct H2 as [->|[->|[X|[X|(a & b & e' & f' & -> & -> & N)]]]]; [now left|right; now left|auto|auto|].
    do 4 right. exists [a], [b], (map (fun c => [c]) e'), (map (fun c => [c]) f').
    rewrite !map_app. repeat split. congruence.
Qed.

(** For ASCII the alignment is of bytes, for either version of the split. *)
Theorem report_ascii split title prefix expect found :
  (forall s, ascii s -> split s = singles s) -> splits split ->
  ascii expect -> ascii found -> expect <> found ->
  exists p de df s, aligned expect found p de df s
    /\ StringMatchTitle split title prefix expect found
       = Ret ((if Nat.eqb (length found) (length expect) then [] else [LengthDiffers (length expect) (length found)])
              ++ [Mismatch (report_text title prefix
                   (line p de (length found - length expect) s) (line p df (length expect - length found) s)
                   (marker_line (singles p) (Nat.max (length de) (length df)) (length s) ++ [0]))]).
Proof.
  intros SA HS Ae Af NE.
  destruct (align _ N.eq_dec expect found) as (p & de & df & s & AL).
  exists p, de, df, s. split; [exact AL|]. pose proof AL as (He & Hf & _).
  assert (MX : longer_part expect found (singles de) (singles df) = Nat.max (length de) (length df)).
  { unfold longer_part, singles. rewrite !map_length. subst expect found. rewrite !app_length.
    match goal with |- context [Nat.ltb ?x ?y] => destruct (Nat.ltb_spec x y) end; lia. }
  destruct (report_at split title prefix expect found (singles p) (singles de) (singles df) (singles s)
              p de s p df s) as (m & E & M); auto;
    try (unfold singles; rewrite map_length; reflexivity).
  { rewrite !SA by assumption. apply aligned_singles, AL. }
  rewrite E, M; rewrite MX.
  - unfold singles at 2. rewrite map_length. reflexivity.
  - destruct de as [|]; [|cbn [length]; lia]. destruct df as [|]; [|cbn [length]; lia].
    exfalso. congruence.
Qed.

(** ** Abbr *)

Theorem Abbr_ok s : Abbr s = Ret (if Nat.leb (length s) 20 then s else firstn 19 s ++ [0xe2; 0x80; 0xa6]).
Proof.
  unfold Abbr. cbv zeta. destruct (Nat.leb_spec (length s) 20) as [L|L].
  - destruct (Nat.ltb_spec 20 (length s)); [lia|reflexivity].
  - destruct (Nat.ltb_spec 20 (length s)); [|lia]. unfold slice_of.
    destruct (Nat.leb_spec 19 (length s)); [reflexivity|lia].
Qed.

(** The lines keep the text, whatever the split. *)
Theorem report_text_kept split title prefix expect found : splits split -> expect <> found ->
  exists pe de se pf df sf marker,
    expect = pe ++ de ++ se /\ found = pf ++ df ++ sf
    /\ length pe = length pf /\ length se = length sf
    /\ StringMatchTitle split title prefix expect found
       = Ret ((if Nat.eqb (length found) (length expect) then [] else [LengthDiffers (length expect) (length found)])
              ++ [Mismatch (report_text title prefix
                   (line pe de (length found - length expect) se) (line pf df (length expect - length found) sf) marker)]).
Proof.
  intros HS NE.
  destruct (align _ (list_eq_dec N.eq_dec) (split expect) (split found)) as (P & De & Df & S & AL).
  pose proof AL as (Ee & Ef & _).
  destruct (HS expect) as (_ & L1 & _). destruct (HS found) as (_ & L2 & _).
  rewrite Ee, !app_length in L1. rewrite Ef, !app_length in L2.
  destruct (cut3 expect (length P) (length S)) as (pe & de & se & He & Lpe & Lse); [lia|].
  destruct (cut3 found (length P) (length S)) as (pf & df & sf & Hf & Lpf & Lsf); [lia|].
  destruct (report_at split title prefix expect found P De Df S pe de se pf df sf) as (m & E & _); auto.
  exists pe, de, se, pf, df, sf, m. repeat split; try assumption; congruence.
Qed.

Lemma concat_singles (l : list (list N)) : Forall (fun c => length c = 1%nat) l -> length (concat l) = length l.
Proof. induction 1 as [|c l H _ IH]; [reflexivity|]. cbn [concat length]. rewrite app_length, H, IH. reflexivity. Qed.
Lemma singles_concat (l : list (list N)) : Forall (fun p => p <> []) l -> length (concat l) = length l ->
  Forall (fun c => length c = 1%nat) l.
Proof.
  induction 1 as [|c l H Hl IH]; intros E; [constructor|]. cbn [concat length] in E. rewrite app_length in E.
  pose proof (concat_long l Hl). destruct c as [|x c]; [congruence|]. cbn [length] in *.
  constructor; [cbn [length]; lia|apply IH; lia].
Qed.

(** Where the style markers stand. *)
Theorem report_position split title prefix expect found : lossless split -> expect <> found ->
  exists P De Df S p de df s,
    aligned (split expect) (split found) P De Df S
    /\ length p = length P /\ length s = length S
    /\ expect = p ++ de ++ s /\ found = p ++ df ++ s
    /\ (exists marker, StringMatchTitle split title prefix expect found
       = Ret ((if Nat.eqb (length found) (length expect) then [] else [LengthDiffers (length expect) (length found)])
              ++ [Mismatch (report_text title prefix
                   (line p de (length found - length expect) s) (line p df (length expect - length found) s) marker)]))
    /\ (Forall (fun c => length c = 1%nat) P <-> p = concat P)
    /\ (Forall (fun c => length c = 1%nat) S <-> s = concat S).
Proof.
  intros HL NE. destruct (report_exact split title prefix expect found HL NE)
    as (P & De & Df & S & p & de & df & s & AL & Lp & Ls & He & Hf & R & _).
  exists P, De, Df, S, p, de, df, s. do 5 (split; [assumption|]). split; [eexists; exact R|].
  destruct AL as (Ee & _). destruct (HL expect) as [_ C]. rewrite Ee, !concat_app in C.
  destruct (HL expect) as [NE0 _]. rewrite Ee in NE0. apply Forall_app in NE0 as [NP NE0].
  apply Forall_app in NE0 as [_ NS].
  split; (split; [intros F; apply concat_singles in F|intros ->; apply singles_concat; assumption]).
  - symmetry. rewrite He in C. apply (app_eq_len _ _ _ _ C). congruence.
  - symmetry. rewrite He in C. rewrite (app_assoc p) in C. rewrite (app_assoc (concat P)) in C.
    apply (app_eq_len _ _ _ _ C). pose proof (f_equal (@length _) C) as Y. rewrite !(app_length (_ ++ _)) in Y. lia.
Qed.

Lemma marker_length P d s : length (marker_line P d s) = (length P + d + s)%nat.
Proof.
  unfold marker_line. rewrite !app_length, map_length, repeat_length.
  destruct d as [|[|d]]; cbn [carets length]; rewrite ?app_length, ?repeat_length; cbn [length]; lia.
Qed.
