(** C96, C97: computing with checksums. *)
From Verif Require Import Base.Go Base.HashApi Model.Bcc Model.Lrc Model.Fletcher Spec.ChecksumSpec Spec.BurstSpec Spec.CombineSpec.
From Verif Require Import Proofs.ChecksumProofs Proofs.BurstProofs Proofs.CombineProofs.
Local Open Scope N_scope.

(** ** C96 joining, patching and sliding *)

(** The value for the writes [ws1] and then [ws2], from the values for each. *)
Theorem C96_join_bcc : forall ws1 ws2, exists v w,
  shows Bcc.step Bcc.New ws1 v /\ shows Bcc.step Bcc.New ws2 w /\ shows Bcc.step Bcc.New (ws1 ++ ws2) (N.lxor v w).
Proof.
  intros ws1 ws2. exists (xor_all (concat ws1)), (xor_all (concat ws2)). split; [apply bcc_shows|]. split; [apply bcc_shows|].
  rewrite <- xor_all_app, <- concat_app. apply bcc_shows.
Qed.
Theorem C96_join_lrc : forall p q, exists v w,
  shows Lrc.step Lrc.New [p] v /\ shows Lrc.step Lrc.New [q] w /\ shows Lrc.step Lrc.New [p ++ q] ((v + w) mod 256).
Proof.
  intros p q. eexists _, _. split; [apply lrc_shows|]. split; [apply lrc_shows|].
  match goal with |- shows _ _ _ ?v => replace v with (Z.to_N ((- Z.of_N (sum_all (p ++ q))) mod 256)); [apply lrc_shows|] end.
  rewrite sum_all_app, N2Z.inj_add. generalize (Z.of_N (sum_all p)) (Z.of_N (sum_all q)). intros a b.
  apply N2Z.inj. rewrite N2Z.inj_mod, N2Z.inj_add, !Z2N.id by (apply Z.mod_pos_bound; reflexivity). change (Z.of_N 256) with 256%Z.
  rewrite <- Zplus_mod. f_equal. lia.
Qed.
Theorem C96_join16 : forall ws1 ws2, Forall bytes_ok (ws1 ++ ws2) -> Forall (fun p => N.of_nat (length p) <= 5802) (ws1 ++ ws2) ->
  exists v w, shows Fletcher.step16 Fletcher.New ws1 v /\ shows Fletcher.step16 Fletcher.New ws2 w
  /\ shows Fletcher.step16 Fletcher.New (ws1 ++ ws2) (join 255 (2 ^ 8) (words_in 1 ws2) v w).
Proof.
  intros ws1 ws2 B L. pose proof (proj1 (Forall_app _ _ _) B) as [B1 B2]. pose proof (proj1 (Forall_app _ _ _) L) as [L1 L2].
  eexists _, _. split; [apply shows16; assumption|]. split; [apply shows16; assumption|].
  rewrite words_in_1, <- join_fletcher, <- concat_app by discriminate. apply shows16; assumption.
Qed.
Theorem C96_join32 : forall ws1 ws2, Forall bytes_ok (ws1 ++ ws2) ->
  exists v w, shows Fletcher.step32 Fletcher.New ws1 v /\ shows Fletcher.step32 Fletcher.New ws2 w
  /\ shows Fletcher.step32 Fletcher.New (ws1 ++ ws2) (join 65535 (2 ^ 16) (words_in 2 ws2) v w).
Proof.
  intros ws1 ws2 B. pose proof (proj1 (Forall_app _ _ _) B) as [B1 B2].
  eexists _, _. split; [apply shows32; assumption|]. split; [apply shows32; assumption|].
  rewrite words_in_2, <- join_fletcher, <- flat_map_app by discriminate. apply shows32; assumption.
Qed.
Theorem C96_join64 : forall ws1 ws2, Forall bytes_ok (ws1 ++ ws2) ->
  exists v w, shows Fletcher.step64 Fletcher.New ws1 v /\ shows Fletcher.step64 Fletcher.New ws2 w
  /\ shows Fletcher.step64 Fletcher.New (ws1 ++ ws2) (join 4294967295 (2 ^ 32) (words_in 4 ws2) v w).
Proof.
  intros ws1 ws2 B. pose proof (proj1 (Forall_app _ _ _) B) as [B1 B2].
  eexists _, _. split; [apply shows64; assumption|]. split; [apply shows64; assumption|].
  rewrite words_in_4, <- join_fletcher, <- flat_map_app by discriminate. apply shows64; assumption.
Qed.
(** "abcdef" from "abcd" and "ef" (Fletcher-32: 0x56502D2A). *)
Example C96_join_nonvacuous :
  shows Fletcher.step32 Fletcher.New [[97;98;99;100]] 0x2926c6c4
  /\ shows Fletcher.step32 Fletcher.New [[101;102]] 0x66656665
  /\ join 65535 (2 ^ 16) (words_in 2 [[101;102]]) 0x2926c6c4 0x66656665 = 0x56502d2a.
Proof. split; [|split]; vm_compute; reflexivity. Qed.

(** Replacing one word of a message, from the value before. *)
Theorem C96_patch_bcc : forall A x y C, exists v,
  shows Bcc.step Bcc.New [A ++ x :: C] v /\ shows Bcc.step Bcc.New [A ++ y :: C] (N.lxor (N.lxor v x) y).
Proof.
  intros A x y C. eexists. split; [apply bcc_shows|].
  match goal with |- shows _ _ _ ?v => replace v with (xor_all (concat [A ++ y :: C])); [apply bcc_shows|] end.
  cbn [concat]. rewrite !app_nil_r, !xor_all_app. unfold xor_all at 2 4. cbn [fold_right]. fold (xor_all C).
  apply N.bits_inj. intros k. rewrite !N.lxor_spec. destruct (N.testbit (xor_all A) k), (N.testbit (xor_all C) k), (N.testbit x k), (N.testbit y k); reflexivity.
Qed.
Theorem C96_patch_lrc : forall A x y C, exists v,
  shows Lrc.step Lrc.New [A ++ x :: C] v /\ shows Lrc.step Lrc.New [A ++ y :: C] ((v + x + minus 256 y) mod 256).
Proof.
  intros A x y C. eexists. split; [apply lrc_shows|].
  match goal with |- shows _ _ _ ?v => replace v with (Z.to_N ((- Z.of_N (sum_all (A ++ y :: C))) mod 256)); [apply lrc_shows|] end.
  rewrite !sum_all_app, !sum_cons. destruct (minus_of 256 256 (ltac:(intros Z0; discriminate Z0)) (N.le_refl _) y) as [q E].
  rewrite !N2Z.inj_add. generalize (Z.of_N (sum_all A)) (Z.of_N (sum_all C)). intros a c.
  apply N2Z.inj. rewrite N2Z.inj_mod, !N2Z.inj_add, !Z2N.id by (apply Z.mod_pos_bound; reflexivity). change (Z.of_N 256) with 256%Z in *.
  rewrite <- Z.add_assoc, Zplus_mod_idemp_l, E. rewrite <- (Z.mod_add (- (a + (Z.of_N y + c))) q 256) by discriminate. f_equal. ring.
Qed.
(** The words of a write, the one replaced being the [k]-th from its end. *)
Theorem C96_patch16 : forall A x y C, bytes_ok (A ++ x :: C) -> y < 2 ^ 8 -> N.of_nat (length (A ++ x :: C)) <= 5802 ->
  exists v, shows Fletcher.step16 Fletcher.New [A ++ x :: C] v
  /\ shows Fletcher.step16 Fletcher.New [A ++ y :: C] (patched 255 (2 ^ 8) (1 + words_in 1 [C]) v x y).
Proof.
  intros A x y C B Y L. pose proof (proj1 (Forall_app _ _ _) B) as [BA BC]. inversion BC as [|? ? X BC']; subst.
  rewrite app_length in L. cbn [length] in L.
  eexists. split; [apply shows16; [constructor; [exact B|constructor]|constructor; [rewrite app_length; cbn [length]; exact L|constructor]]|].
  rewrite words_in_1. cbn [concat]. rewrite !app_nil_r, (N.add_comm 1), <- patched_fletcher by discriminate.
  rewrite <- (app_nil_r (A ++ y :: C)) at 2. change ((A ++ y :: C) ++ []) with (concat [A ++ y :: C]).
  apply shows16; [|constructor; [rewrite app_length; cbn [length]; exact L|constructor]]. constructor; [|constructor]. apply Forall_app. split; [exact BA|constructor; assumption].
Qed.
Theorem C96_patch32 : forall A x y C tail, Forall (fun w => w < 2 ^ 16) (A ++ x :: C) -> y < 2 ^ 16 -> bytes_ok tail ->
  exists v, shows Fletcher.step32 Fletcher.New [message 2 (A ++ x :: C) tail] v
  /\ shows Fletcher.step32 Fletcher.New [message 2 (A ++ y :: C) tail] (patched 65535 (2 ^ 16) (1 + words_in 2 [message 2 C tail]) v x y).
Proof.
  intros A x y C tail B Y T. pose proof (proj1 (Forall_app _ _ _) B) as [BA BC]. inversion BC as [|? ? X BC']; subst.
  assert (B' : Forall (fun w => w < 2 ^ 16) (A ++ y :: C)) by (apply Forall_app; split; [exact BA|constructor; assumption]).
  eexists. split; [apply shows32; constructor; [apply message_ok, T|constructor]|].
  rewrite words_in_2. cbn [flat_map]. rewrite !app_nil_r, (N.add_comm 1), !message16, <- app_assoc by assumption. cbn [app].
  rewrite <- patched_fletcher by discriminate.
  match goal with |- shows _ _ _ ?v => replace v with (fletcher 65535 (2 ^ 16) (flat_map words16 [message 2 (A ++ y :: C) tail])) end.
  - apply shows32. constructor; [apply message_ok, T|constructor].
  - cbn [flat_map]. rewrite app_nil_r, message16, <- app_assoc by assumption. reflexivity.
Qed.
Theorem C96_patch64 : forall A x y C tail, Forall (fun w => w < 2 ^ 32) (A ++ x :: C) -> y < 2 ^ 32 -> bytes_ok tail ->
  exists v, shows Fletcher.step64 Fletcher.New [message 4 (A ++ x :: C) tail] v
  /\ shows Fletcher.step64 Fletcher.New [message 4 (A ++ y :: C) tail] (patched 4294967295 (2 ^ 32) (1 + words_in 4 [message 4 C tail]) v x y).
Proof.
  intros A x y C tail B Y T. pose proof (proj1 (Forall_app _ _ _) B) as [BA BC]. inversion BC as [|? ? X BC']; subst.
  assert (B' : Forall (fun w => w < 2 ^ 32) (A ++ y :: C)) by (apply Forall_app; split; [exact BA|constructor; assumption]).
  eexists. split; [apply shows64; constructor; [apply message_ok, T|constructor]|].
  rewrite words_in_4. cbn [flat_map]. rewrite !app_nil_r, (N.add_comm 1), !message32, <- app_assoc by assumption. cbn [app].
  rewrite <- patched_fletcher by discriminate.
  match goal with |- shows _ _ _ ?v => replace v with (fletcher 4294967295 (2 ^ 32) (flat_map words32 [message 4 (A ++ y :: C) tail])) end.
  - apply shows64. constructor; [apply message_ok, T|constructor].
  - cbn [flat_map]. rewrite app_nil_r, message32, <- app_assoc by assumption. reflexivity.
Qed.

(** Moving a window of fixed length one word on. *)
Theorem C96_slide_bcc : forall x l y, exists v,
  shows Bcc.step Bcc.New [x :: l] v /\ shows Bcc.step Bcc.New [l ++ [y]] (N.lxor (N.lxor v x) y).
Proof.
  intros x l y. eexists. split; [apply bcc_shows|].
  match goal with |- shows _ _ _ ?v => replace v with (xor_all (concat [l ++ [y]])); [apply bcc_shows|] end.
  cbn [concat]. rewrite !app_nil_r, xor_all_app. unfold xor_all at 2 3. cbn [fold_right]. fold (xor_all l).
  apply N.bits_inj. intros k. rewrite !N.lxor_spec, N.bits_0. destruct (N.testbit (xor_all l) k), (N.testbit x k), (N.testbit y k); reflexivity.
Qed.
Theorem C96_slide_lrc : forall x l y, exists v,
  shows Lrc.step Lrc.New [x :: l] v /\ shows Lrc.step Lrc.New [l ++ [y]] ((v + x + minus 256 y) mod 256).
Proof.
  intros x l y. destruct (C96_patch_lrc [] x y l) as (v & A & B). exists v. split; [exact A|].
  match goal with |- shows _ _ _ ?w => replace w with (Z.to_N ((- Z.of_N (sum_all (l ++ [y]))) mod 256)); [apply lrc_shows|] end.
  pose proof (lrc_shows ([] ++ y :: l)) as C. cbn [app] in B, C.
  unfold shows in B, C. rewrite B in C. clear A B.
  set (w := (v + x + minus 256 y) mod 256) in *. clearbody w. injection C as E. rewrite E. f_equal. f_equal. f_equal. f_equal.
  rewrite sum_all_app, !sum_cons. unfold sum_all at 2. cbn [fold_right]. lia.
Qed.
Theorem C96_slide16 : forall x l y, bytes_ok (x :: l ++ [y]) -> N.of_nat (length (x :: l)) <= 5802 ->
  exists v, shows Fletcher.step16 Fletcher.New [x :: l] v
  /\ shows Fletcher.step16 Fletcher.New [l ++ [y]] (slid 255 (2 ^ 8) (words_in 1 [x :: l]) v x y).
Proof.
  intros x l y B L. change (bytes_ok ((x :: l) ++ [y])) in B. pose proof (proj1 (Forall_app _ _ _) B) as [B1 B2].
  inversion B1 as [|? ? X Bl]; subst.
  eexists. split; [apply shows16; [constructor; [exact B1|constructor]|constructor; [exact L|constructor]]|].
  rewrite words_in_1. cbn [concat]. rewrite !app_nil_r. cbn [length]. rewrite Nat2N.inj_succ, <- N.add_1_r, <- slid_fletcher by discriminate.
  rewrite <- (app_nil_r (l ++ [y])) at 2. change ((l ++ [y]) ++ []) with (concat [l ++ [y]]).
  apply shows16; [constructor; [|constructor]|constructor; [|constructor]].
  - apply Forall_app. split; assumption.
  - rewrite app_length. cbn [length] in *. lia.
Qed.
Theorem C96_slide32 : forall x l y, Forall (fun w => w < 2 ^ 16) (x :: l ++ [y]) ->
  exists v, shows Fletcher.step32 Fletcher.New [message 2 (x :: l) []] v
  /\ shows Fletcher.step32 Fletcher.New [message 2 (l ++ [y]) []] (slid 65535 (2 ^ 16) (N.of_nat (length (x :: l))) v x y).
Proof.
  intros x l y B. pose proof (proj1 (Forall_app _ (x :: l) [y]) B) as [B1 _]. inversion B as [|? ? _ B2]; subst.
  eexists. split; [apply shows32; constructor; [apply message_ok; constructor|constructor]|].
  cbn [flat_map]. rewrite app_nil_r, message16 by exact B1. change (words16 []) with (@nil N). rewrite app_nil_r.
  cbn [length]. rewrite Nat2N.inj_succ, <- N.add_1_r, <- slid_fletcher by discriminate.
  match goal with |- shows _ _ _ ?v => replace v with (fletcher 65535 (2 ^ 16) (flat_map words16 [message 2 (l ++ [y]) []])) end.
  - apply shows32. constructor; [apply message_ok; constructor|constructor].
  - cbn [flat_map]. rewrite app_nil_r, message16 by exact B2. change (words16 []) with (@nil N). rewrite app_nil_r. reflexivity.
Qed.
Theorem C96_slide64 : forall x l y, Forall (fun w => w < 2 ^ 32) (x :: l ++ [y]) ->
  exists v, shows Fletcher.step64 Fletcher.New [message 4 (x :: l) []] v
  /\ shows Fletcher.step64 Fletcher.New [message 4 (l ++ [y]) []] (slid 4294967295 (2 ^ 32) (N.of_nat (length (x :: l))) v x y).
Proof.
  intros x l y B. pose proof (proj1 (Forall_app _ (x :: l) [y]) B) as [B1 _]. inversion B as [|? ? _ B2]; subst.
  eexists. split; [apply shows64; constructor; [apply message_ok; constructor|constructor]|].
  cbn [flat_map]. rewrite app_nil_r, message32 by exact B1. change (words32 []) with (@nil N). rewrite app_nil_r.
  cbn [length]. rewrite Nat2N.inj_succ, <- N.add_1_r, <- slid_fletcher by discriminate.
  match goal with |- shows _ _ _ ?v => replace v with (fletcher 4294967295 (2 ^ 32) (flat_map words32 [message 4 (l ++ [y]) []])) end.
  - apply shows64. constructor; [apply message_ok; constructor|constructor].
  - cbn [flat_map]. rewrite app_nil_r, message32 by exact B2. change (words32 []) with (@nil N). rewrite app_nil_r. reflexivity.
Qed.
(** "abcde" (Fletcher-16: 0xC8F0) with the d made an x, and "bcdef" after "abcde". *)
Example C96_patch_nonvacuous :
  shows Fletcher.step16 Fletcher.New [[97;98;99;100;101]] 0xc8f0
  /\ shows Fletcher.step16 Fletcher.New [[97;98;99;120;101]] (patched 255 (2 ^ 8) 2 0xc8f0 100 120)
  /\ shows Fletcher.step16 Fletcher.New [[98;99;100;101;102]] (slid 255 (2 ^ 8) 5 0xc8f0 97 102)
  /\ patched 255 (2 ^ 8) 2 0xc8f0 100 120 <> 0xc8f0.
Proof. split; [|split; [|split]]; vm_compute; solve [reflexivity|discriminate]. Qed.
Print Assumptions C96_join_bcc.
Print Assumptions C96_join_lrc.
Print Assumptions C96_join16.
Print Assumptions C96_join32.
Print Assumptions C96_join64.
Print Assumptions C96_patch_bcc.
Print Assumptions C96_patch_lrc.
Print Assumptions C96_patch16.
Print Assumptions C96_patch32.
Print Assumptions C96_patch64.
Print Assumptions C96_slide_bcc.
Print Assumptions C96_slide_lrc.
Print Assumptions C96_slide16.
Print Assumptions C96_slide32.
Print Assumptions C96_slide64.

(** ** C97 check words *)

(** After the value [v], two more words [c0], [c1] give zero exactly when they
    are the check words of [v] modulo M; the check words fit in a word. *)
Theorem C97_check16 : forall p, bytes_ok p -> N.of_nat (length p) + 2 <= 5802 ->
  exists v, shows Fletcher.step16 Fletcher.New [p] v /\ Forall (fun c => c < 2 ^ 8) (check_words 255 (2 ^ 8) v) /\
  forall c0 c1, c0 < 2 ^ 8 -> c1 < 2 ^ 8 ->
  (shows Fletcher.step16 Fletcher.New [p ++ [c0; c1]] 0 <->
   map (fun c => c mod 255) [c0; c1] = map (fun c => c mod 255) (check_words 255 (2 ^ 8) v)).
Proof.
  intros p B L. eexists. split; [apply shows16; [constructor; [exact B|constructor]|constructor; [lia|constructor]]|].
  cbn [concat]. rewrite app_nil_r. split; [apply check_words_fit; reflexivity|]. intros c0 c1 C0 C1.
  rewrite <- check_fletcher by discriminate.
  apply shows_iff. rewrite <- (app_nil_r (p ++ [c0; c1])) at 2. change ((p ++ [c0; c1]) ++ []) with (concat [p ++ [c0; c1]]). apply shows16.
  - constructor; [|constructor]. apply Forall_app. split; [exact B|constructor; [exact C0|constructor; [exact C1|constructor]]].
  - constructor; [|constructor]. rewrite app_length. cbn [length]. lia.
Qed.
Theorem C97_check32 : forall ws, Forall (fun w => w < 2 ^ 16) ws ->
  exists v, shows Fletcher.step32 Fletcher.New [message 2 ws []] v /\ Forall (fun c => c < 2 ^ 16) (check_words 65535 (2 ^ 16) v) /\
  forall c0 c1, c0 < 2 ^ 16 -> c1 < 2 ^ 16 ->
  (shows Fletcher.step32 Fletcher.New [message 2 (ws ++ [c0; c1]) []] 0 <->
   map (fun c => c mod 65535) [c0; c1] = map (fun c => c mod 65535) (check_words 65535 (2 ^ 16) v)).
Proof.
  intros ws B. eexists. split; [apply shows32; constructor; [apply message_ok; constructor|constructor]|].
  cbn [flat_map]. rewrite app_nil_r, message16 by exact B. change (words16 []) with (@nil N). rewrite app_nil_r.
  split; [apply check_words_fit; reflexivity|]. intros c0 c1 C0 C1. rewrite <- check_fletcher by discriminate.
  assert (B' : Forall (fun w => w < 2 ^ 16) (ws ++ [c0; c1])) by (apply Forall_app; split; [exact B|constructor; [exact C0|constructor; [exact C1|constructor]]]).
  apply shows_iff.
  match goal with |- shows _ _ _ ?v => replace v with (fletcher 65535 (2 ^ 16) (flat_map words16 [message 2 (ws ++ [c0; c1]) []])) end.
  - apply shows32. constructor; [apply message_ok; constructor|constructor].
  - cbn [flat_map]. rewrite app_nil_r, message16 by exact B'. change (words16 []) with (@nil N). rewrite app_nil_r. reflexivity.
Qed.
Theorem C97_check64 : forall ws, Forall (fun w => w < 2 ^ 32) ws ->
  exists v, shows Fletcher.step64 Fletcher.New [message 4 ws []] v /\ Forall (fun c => c < 2 ^ 32) (check_words 4294967295 (2 ^ 32) v) /\
  forall c0 c1, c0 < 2 ^ 32 -> c1 < 2 ^ 32 ->
  (shows Fletcher.step64 Fletcher.New [message 4 (ws ++ [c0; c1]) []] 0 <->
   map (fun c => c mod 4294967295) [c0; c1] = map (fun c => c mod 4294967295) (check_words 4294967295 (2 ^ 32) v)).
Proof.
  intros ws B. eexists. split; [apply shows64; constructor; [apply message_ok; constructor|constructor]|].
  cbn [flat_map]. rewrite app_nil_r, message32 by exact B. change (words32 []) with (@nil N). rewrite app_nil_r.
  split; [apply check_words_fit; reflexivity|]. intros c0 c1 C0 C1. rewrite <- check_fletcher by discriminate.
  assert (B' : Forall (fun w => w < 2 ^ 32) (ws ++ [c0; c1])) by (apply Forall_app; split; [exact B|constructor; [exact C0|constructor; [exact C1|constructor]]]).
  apply shows_iff.
  match goal with |- shows _ _ _ ?v => replace v with (fletcher 4294967295 (2 ^ 32) (flat_map words32 [message 4 (ws ++ [c0; c1]) []])) end.
  - apply shows64. constructor; [apply message_ok; constructor|constructor].
  - cbn [flat_map]. rewrite app_nil_r, message32 by exact B'. change (words32 []) with (@nil N). rewrite app_nil_r. reflexivity.
Qed.
(** The checks of the one-byte sums: the value itself makes the value zero, and
    nothing else does. *)
Theorem C97_check_bcc : forall p, exists v, shows Bcc.step Bcc.New [p] v /\
  forall c, shows Bcc.step Bcc.New [p ++ [c]] 0 <-> c = v.
Proof.
  intros p. eexists. split; [apply bcc_shows|]. intros c. cbn [concat]. rewrite app_nil_r.
  assert (E : xor_all (p ++ [c]) = 0 <-> c = xor_all p).
  { rewrite xor_all_app. unfold xor_all at 2. cbn [fold_right]. rewrite N.lxor_0_r, N.lxor_eq_0_iff. split; intros ->; reflexivity. }
  rewrite <- E. apply shows_iff. rewrite <- (app_nil_r (p ++ [c])) at 2. apply (bcc_shows [p ++ [c]]).
Qed.
Theorem C97_check_lrc : forall p, exists v, shows Lrc.step Lrc.New [p] v /\ v < 2 ^ 8 /\
  forall c, c < 2 ^ 8 -> (shows Lrc.step Lrc.New [p ++ [c]] 0 <-> c = v).
Proof.
  intros p. eexists. split; [apply lrc_shows|]. pose proof (Z.mod_pos_bound (- Z.of_N (sum_all p)) 256 eq_refl) as R.
  split; [change (2 ^ 8) with 256; lia|]. intros c C. change (2 ^ 8) with 256 in C.
  rewrite (shows_iff _ _ _ _ (lrc_shows (p ++ [c]))), sum_all_app, sum_cons, N.add_0_r, N2Z.inj_add.
  pose proof (Z.mod_pos_bound (- (Z.of_N (sum_all p) + Z.of_N c)) 256 eq_refl) as R2.
  generalize dependent (Z.of_N (sum_all p)). intros a R R2.
  assert (D : ((- (a + Z.of_N c)) mod 256 = 0 <-> (- a) mod 256 = Z.of_N c)%Z).
  { rewrite <- (Z.mod_small (Z.of_N c) 256) at 2 by lia. split; intros E.
    - apply Z.mod_divide in E; [|discriminate]. destruct E as [q E]. replace (- a)%Z with (Z.of_N c + q * 256)%Z by lia. apply Z.mod_add. discriminate.
    - replace (- (a + Z.of_N c))%Z with (- a - Z.of_N c)%Z by ring. rewrite Zminus_mod, E, Z.sub_diag. reflexivity. }
  split; intros E; [|subst c]; lia.
Qed.
(** "abcde" (Fletcher-16: 0xC8F0) has check bytes 0x46, 0xC8. *)
Example C97_nonvacuous :
  check_words 255 (2 ^ 8) 0xc8f0 = [0x46; 0xc8]
  /\ shows Fletcher.step16 Fletcher.New [[97;98;99;100;101]] 0xc8f0
  /\ shows Fletcher.step16 Fletcher.New [[97;98;99;100;101;0x46;0xc8]] 0
  /\ shows Lrc.step Lrc.New [[1;2;3]] 250 /\ shows Lrc.step Lrc.New [[1;2;3;250]] 0.
Proof. split; [|split; [|split; [|split]]]; vm_compute; reflexivity. Qed.
Print Assumptions C97_check16.
Print Assumptions C97_check32.
Print Assumptions C97_check64.
Print Assumptions C97_check_bcc.
Print Assumptions C97_check_lrc.
