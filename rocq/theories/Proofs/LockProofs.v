(** Workers that keep the rules of Spec/LockSpec.v: every execution is one in
    which the stretches happen at once, in the order in which they began. *)
From Verif Require Import Base.Go Base.HashUse Base.Goroutine Base.GoUse Base.Lock Base.LockUse Model.HashAtom Model.LockAtom.
From Verif Require Import Spec.HashUseSpec Spec.GoUseSpec Spec.LockSpec Proofs.Util Proofs.BytesProofs Proofs.GoroutineProofs Proofs.HashAtomProofs Proofs.GoUseProofs.
From Verif Require Proofs.HashUseProofs.
Local Open Scope N_scope.

Lemma nth_snoc {A} (l : list A) x i y : nth_error (l ++ [x]) i = Some y -> nth_error l i = Some y \/ i = length l /\ y = x.
Proof.
  destruct (Nat.lt_ge_cases i (length l)) as [L|L]; [rewrite nth_error_app1 by exact L; auto|]. rewrite nth_error_app2 by exact L.
  destruct (i - length l)%nat as [|[|]] eqn:E; cbn [nth_error]; try discriminate. intros H. injection H as <-. right. split; [lia|reflexivity].
Qed.

(** ** What belongs to one goroutine *)

Definition region (r : nat) (m : memory) (u : bool -> nat) (os : list object) (w : world) : Prop :=
  (forall x, lib x = false -> who x = r -> m x = bytes w x /\ bytes w x < 256) /\ u false = made_by w r
  /\ stands_for m os (kept w r) /\ owns r u os.
Definition keeps (r : nat) (w w' : world) : Prop :=
  (forall x, who x = r -> bytes w' x = bytes w x) /\ made_by w' r = made_by w r /\ kept w' r = kept w r.
Lemma keeps_refl r w : keeps r w w.
Proof. repeat split. Qed.
Lemma keeps_trans r w w1 w2 : keeps r w w1 -> keeps r w1 w2 -> keeps r w w2.
Proof. intros (A & B & C) (A' & B' & C'). split; [|split; congruence]. intros x Hx. rewrite A', A by exact Hx. reflexivity. Qed.

Lemma region_ext r m m' u os w w' : region r m u os w -> (forall x, who x = r -> m' x = m x) -> keeps r w w' -> region r m' u os w'.
Proof.
  intros (R1 & R2 & R3 & R4) E (K1 & K2 & K3). unfold region. rewrite K2, K3. split; [|split; [exact R2|split; [|exact R4]]].
  - intros x Lx Wx. rewrite (E x Wx), (K1 x Wx). apply R1; assumption.
  - apply (stands_for_same m); [exact R3|]. intros i k c j Ei Hj. apply E. cbn [who shift]. apply (proj1 R4 i k c Ei).
Qed.
(** Bytes change or are made, objects stay. *)
Lemma region_bytes r m u os w m' u' w' : region r m u os w ->
  (forall y, lib y = true -> who y = r -> (num y < u true)%nat -> m' y = m y) -> (u true <= u' true)%nat ->
  (forall x, lib x = false -> who x = r -> m' x = bytes w' x /\ bytes w' x < 256) -> u' false = made_by w' r -> kept w' r = kept w r ->
  region r m' u' os w'.
Proof.
  intros (R1 & R2 & R3 & R4) K U T E F. unfold region. rewrite F. split; [exact T|]. split; [exact E|]. split.
  - apply (stands_for_same m); [exact R3|]. intros i k c j Ei Hj. destruct (proj1 R4 i k c Ei) as [Wc Nc]. apply K.
    + cbn [lib shift]. apply (proj2 R3 i k c Ei).
    + exact Wc.
    + cbn [num shift]. lia.
  - destruct R4 as [R4 D]. split; [|exact D]. intros i k c Ei. destruct (R4 i k c Ei). split; [assumption|lia].
Qed.
Lemma is_now_same {A} (f : nat -> A) i x : is_now f i x i = x.
Proof. unfold is_now. rewrite Nat.eqb_refl. reflexivity. Qed.
Lemma is_now_other {A} (f : nat -> A) i x j : j <> i -> is_now f i x j = f j.
Proof. intros H. unfold is_now. rewrite (proj2 (Nat.eqb_neq _ _) H). reflexivity. Qed.
(** An object changes. *)
Lemma region_object r m u os w i k c ws m' ws' : region r m u os w -> nth_error os i = Some (k, c) -> nth_error (kept w r) i = Some (k, ws) ->
  outside c (size_of k) m m' -> stands k m' c ws' -> Forall bytes_ok ws' ->
  region r m' u os (mkWorld (bytes w) (made_by w) (is_now (kept w) r (replaced i (k, ws') (kept w r)))).
Proof.
  intros (R1 & R2 & R3 & R4) Ei Eh O St F. unfold region. cbn [bytes made_by kept]. rewrite is_now_same.
  pose proof (proj2 R3 i k c Ei) as (Lc & _). destruct (proj1 R4 i k c Ei) as [Wc Nc].
  split; [|split; [exact R2|split; [|exact R4]]].
  - intros x Lx Wx. rewrite (O x); [apply R1; assumption|]. apply within_not. intros (_ & X & _). congruence.
  - split; [rewrite replaced_length; apply R3|]. intros j k' c' Ej. destruct (proj2 R3 j k' c' Ej) as (Lc' & ws1 & Eh' & St' & F'). split; [exact Lc'|].
    rewrite nth_replaced. destruct (Nat.eqb_spec i j) as [<-|N].
    + rewrite Ei in Ej. injection Ej as <- <-. rewrite Eh. exists ws'. auto.
    + exists ws1. split; [exact Eh'|]. split; [|exact F']. apply (stands_same k' m m' c' ws1); [|exact St']. intros b Hb. apply O, within_not.
      cbn [who lib num shift]. destruct (proj2 R4 i j k c k' c' N Ei Ej); lia.
Qed.
Lemma region_new r m u os w k m' : region r m u os w -> outside (fresh_at r u) (size_of k) m m' -> stands k m' (fresh_at r u) [] ->
  region r m' (grow u true (size_of k)) (os ++ [(k, fresh_at r u)]) (mkWorld (bytes w) (made_by w) (is_now (kept w) r (kept w r ++ [(k, [])]))).
Proof.
  intros (R1 & R2 & R3 & R4) O St. unfold region. cbn [bytes made_by kept]. rewrite is_now_same.
  split; [|split; [exact R2|split]].
  - intros x Lx Wx. rewrite (O x); [apply R1; assumption|]. apply within_not. cbn [lib fresh_at]. intros (_ & X & _). congruence.
  - split; [rewrite !app_length; cbn [length]; f_equal; apply R3|]. intros i k' c Ei. apply nth_snoc in Ei. destruct Ei as [Ei|[-> Ei]].
    + destruct (proj2 R3 i k' c Ei) as (Lc & ws & Eh & St' & F). split; [exact Lc|]. exists ws.
      rewrite nth_error_app1 by (apply nth_error_Some; congruence). split; [exact Eh|]. split; [|exact F].
      apply (stands_same k' m m' c ws); [|exact St']. intros b Hb. apply O, within_not. cbn [who lib num shift fresh_at].
      destruct (proj1 R4 i k' c Ei). lia.
    + injection Ei as -> ->. split; [reflexivity|]. exists []. rewrite nth_error_app2 by (rewrite (proj1 R3); lia).
      rewrite (proj1 R3), Nat.sub_diag. split; [reflexivity|]. split; [exact St|constructor].
  - destruct R4 as [R4 D]. split.
    + intros i k' c Ei. rewrite grow_same. apply nth_snoc in Ei. destruct Ei as [Ei|[-> Ei]]; [destruct (R4 i k' c Ei); split; [assumption|lia]|].
      injection Ei as -> ->. split; [reflexivity|]. cbn [num fresh_at]. lia.
    + intros i j k1 c1 k2 c2 N Ei Ej. apply nth_snoc in Ei, Ej. destruct Ei as [Ei|[-> Ei]], Ej as [Ej|[-> Ej]].
      * apply (D i j k1 c1 k2 c2 N Ei Ej).
      * injection Ej as -> ->. left. destruct (R4 i k1 c1 Ei). cbn [num fresh_at]. lia.
      * injection Ei as -> ->. right. destruct (R4 j k2 c2 Ej). cbn [num fresh_at]. lia.
      * contradiction.
Qed.

(** ** Rights with and without the lock *)

Lemma open_visible id l r : open id l r -> visible id l r.
Proof. intros [H|[-> H]]; [left; exact H|right; split; [discriminate|exact H]]. Qed.
Definition rights (l : hold) (id : nat) : perm :=
  mkPerm id (visible id l) (open id l) (or_introl eq_refl) (open_visible id l).

Section Stretch.
Context (l : hold) (id : nat) (Hid : id <> O) (u0 : bool -> nat) (shared : list object).

(** What the goroutine can see is as the world says. *)
Definition sees (m : memory) (u : bool -> nat) (mine : list object) (w : world) : Prop :=
  region id m u mine w /\ (l <> Without -> region 0 m u0 shared w).
Definition objects (mine : list object) (h : handle) : list object := match h with Mine _ => mine | Ours _ => shared end.
Definition uses (u : bool -> nat) (h : handle) : bool -> nat := match h with Mine _ => u | Ours _ => u0 end.

Lemma sees_byte m u mine w x : sees m u mine w -> lib x = false -> visible id l (who x) -> m x = bytes w x /\ bytes w x < 256.
Proof. intros [[R _] S] L [W|[Hl W]]; [apply R; assumption|]. destruct (S Hl) as [R0 _]. apply R0; assumption. Qed.
Lemma text_cells m u mine w s : sees m u mine w -> slice_visible id l w s -> slice_text w s = cells m (base s) (slen s) /\ bytes_ok (slice_text w s).
Proof.
  intros Sv (_ & Ls & Os & _). split.
  - apply map_ext. intros j. symmetry. apply (sees_byte m u mine w _ Sv); [exact Ls|exact Os].
  - apply Forall_forall. intros x Hx. apply in_map_iff in Hx. destruct Hx as (j & <- & _). apply (sees_byte m u mine w _ Sv); [exact Ls|exact Os].
Qed.
Lemma over_bytes m u mine w a xs x : sees m u mine w -> bytes_ok xs -> lib x = false -> visible id l (who x) ->
  over m a xs x = overwrite (bytes w) a xs x /\ overwrite (bytes w) a xs x < 256.
Proof.
  intros Sv B Lx Ox. unfold over, overwrite. destruct (within_spec a (length xs) x) as [(_ & _ & W)|_].
  - split; [reflexivity|]. apply (proj1 (Forall_forall _ _) B). apply nth_In. lia.
  - apply (sees_byte m u mine w _ Sv); assumption.
Qed.
(** The objects it may use. *)
Lemma object_there m u mine w h k ws : sees m u mine w -> visible id l (maker id h) -> texts_of id w h = Some (k, ws) ->
  exists c, object_of shared mine h = Return (k, c) /\ nth_error (objects mine h) (place h) = Some (k, c) /\ lib c = true /\ who c = maker id h
    /\ (num c + size_of k <= uses u h true)%nat /\ stands k m c ws /\ Forall bytes_ok ws /\ region (maker id h) m (uses u h) (objects mine h) w.
Proof.
  intros [R S] Op E. assert (Rh : region (maker id h) m (uses u h) (objects mine h) w).
  { destruct h as [i|i]; [exact R|]. apply S. destruct Op as [X|[X _]]; [|exact X]. cbn [maker] in X. congruence. }
  pose proof Rh as (_ & _ & R3 & R4). destruct (stands_for_at 1 [] 0 ltac:(discriminate) _ _ _ _ _ _ R3 E) as (c & Ec & Lc & St & F). exists c.
  destruct (proj1 R4 _ _ _ Ec) as [Wc Nc]. split.
  - unfold object_of. destruct h; cbn [objects place] in Ec; rewrite (HashUseProofs.idx_obj _ _ _ Ec); reflexivity.
  - repeat (split; [assumption|]). exact Rh.
Qed.
(** A change of one object. *)
Lemma sees_object m u mine w h k c ws m' f : sees m u mine w -> texts_of id w h = Some (k, ws) ->
  nth_error (objects mine h) (place h) = Some (k, c) -> who c = maker id h -> open id l (maker id h) ->
  outside c (size_of k) m m' -> stands k m' c (f ws) -> Forall bytes_ok (f ws) -> sees m' u mine (rewritten id w h f).
Proof.
  intros [R S] E Ec Wc Op O St F. unfold rewritten. rewrite E. unfold texts_of in E.
  assert (Oth : forall r, r <> maker id h -> forall x, who x = r -> m' x = m x).
  { intros r Hr x Hx. apply O, within_not. intros (X & _). congruence. }
  assert (Kp : forall r k0, r <> maker id h -> keeps r w (mkWorld (bytes w) (made_by w) (is_now (kept w) (maker id h) k0))).
  { intros r k0 Hr. repeat split. cbn [kept]. apply is_now_other, Hr. }
  destruct h as [i|i]; cbn [maker place objects] in *.
  - split; [apply (region_object id m u mine w i k c ws m' _ R Ec E O St F)|]. intros Hl.
    apply (region_ext 0 m m' u0 shared w); [apply S, Hl|apply Oth; auto|apply Kp; auto].
  - split; [apply (region_ext id m m' u mine w); [exact R|apply Oth, Hid|apply Kp, Hid]|]. intros Hl.
    apply (region_object 0 m u0 shared w i k c ws m' _ (S Hl) Ec E O St F).
Qed.

Lemma act_sees m u w mine a : sees m u mine w -> may_do id l w a ->
  safe (rights l id) (do_act shared mine a) m u (fun r m' u' => snd r = snd (done id w a) /\ sees m' u' (fst r) (fst (done id w a))).
Proof.
  intros Sv Al. pose proof Sv as [R S]. pose proof R as (R1 & R2 & R3 & R4).
  (* bytes of slices are written or made *)
  assert (By : forall m' u' w', (forall y, lib y = true -> ~ (who y = id /\ (u true <= num y)%nat) -> m' y = m y) -> (u true <= u' true)%nat ->
     (forall x, lib x = false -> visible id l (who x) -> m' x = bytes w' x /\ bytes w' x < 256) -> u' false = made_by w' id ->
     made_by w' 0%nat = made_by w 0%nat -> kept w' = kept w -> sees m' u' mine w').
  { intros m' u' w' A1 A2 A3 A4 A5 A6. split.
    - apply (region_bytes id m u mine w); try assumption; [|intros x Lx Wx; apply A3; [exact Lx|left; exact Wx]|rewrite A6; reflexivity].
      intros y Ly Wy Ny. apply A1; [exact Ly|lia].
    - intros Hl. pose proof (S Hl) as R0. apply (region_bytes 0 m u0 shared w); try assumption; [|lia| |rewrite A5; apply R0|rewrite A6; reflexivity].
      + intros y Ly Wy Ny. apply A1; [exact Ly|lia].
      + intros x Lx Wx. apply A3; [exact Lx|]. right. split; assumption. }
  assert (Grown : forall xs, made_by (enlarged id w xs) 0%nat = made_by w 0%nat) by (intros xs; apply is_now_other; auto).
  destruct a as [k|h p|h inp room|h|n c|s j v|s j]; cbn [may_do do_act done] in *.
  - eapply safe_seq; [apply (new_at (rights l id) k m u)|]. cbn beta. intros c m' u' (-> & -> & O & St). cbn [safe fst snd]. split; [reflexivity|].
    cbn [rights self] in *. split; [apply (region_new id m u mine w k m' R O St)|]. intros Hl.
    apply (region_ext 0 m m' u0 shared w); [apply S, Hl| |].
    + intros x Wx. apply O, within_not. cbn [who fresh_at]. lia.
    + repeat split. cbn [kept]. apply is_now_other. auto.
  - destruct Al as (Hp & Op & k & ws & Eh & Ht). destruct (object_there _ _ _ _ _ _ _ Sv (open_visible _ _ _ Op) Eh) as (c & -> & Ec & Lc & Wc & _ & St & F & _).
    destruct (text_cells _ _ _ _ _ Sv Hp) as [Eb Bb]. rewrite Eb in *. destruct Hp as (_ & Lp & Mp & _).
    assert (Cc : can (rights l id) c) by (unfold can; rewrite Wc; exact Op).
    cbn [thenc]. eapply safe_seq; [apply (write_at (rights l id) k c p m u ws St Cc Lc Mp Lp Bb Ht)|].
    cbn beta. intros n m' u' (-> & -> & O & St'). cbn [safe fst snd].
    split; [reflexivity|]. rewrite <- Eb in *. apply (sees_object m u mine w h k c ws m' _ Sv Eh Ec Wc Op O St').
    apply Forall_app. split; [exact F|]. constructor; [exact Bb|constructor].
  - destruct Al as (Hp & Op & k & ws & E & Fit). rewrite E in *.
    destruct (object_there _ _ _ _ _ _ _ Sv Op E) as (c & -> & Ec & Lc & Wc & Nc & St & F & _).
    destruct (text_cells _ _ _ _ _ Sv Hp) as [Eb Bb]. pose proof Hp as (Lp & Li & Mi & Rp). pose proof (digest_bytes k ws F) as Bd.
    assert (Mc : may (rights l id) c) by (unfold may; rewrite Wc; exact Op).
    assert (Sc : settled (rights l id) u c (size_of k)).
    { intros b Hb. cbn [who lib num shift rights self]. rewrite Wc. destruct h as [i|i]; cbn [maker uses] in *; lia. }
    cbn [thenc]. eapply safe_seq; [apply (sum_at (rights l id) k c inp room m u ws St Mc Sc Mi Li)|].
    + intros b Hb. apply within_not. cbn [who lib num shift rights self]. intros (X & Y & Z). specialize (Rp b ltac:(lia)). rewrite X in Rp. lia.
    + intros _. exact Fit.
    + cbn beta. intros s m' u' (A1 & A2 & A3). cbn [safe fst snd]. cbv zeta in A3.
      destruct (Nat.leb (slen inp + length (digest_of k ws)) (scap inp)).
      * destruct A3 as (-> & A3 & A4). cbn [fst snd]. split; [reflexivity|].
        apply (By m' u' _ A1 A2); try reflexivity; [|cbn [changed made_by]; congruence]. intros x Lx Ox. rewrite (A4 x Lx).
        apply (over_bytes _ _ _ _ _ _ _ Sv Bd Lx Ox).
      * destruct A3 as (-> & A3 & A4). cbn [fst snd]. cbn [rights self] in *. split; [rewrite R2; reflexivity|].
        apply (By m' u' _ A1 A2); try reflexivity; [| |apply Grown].
        -- intros x Lx Ox. rewrite (A4 x Lx), <- Eb, R2.
           apply (over_bytes _ _ _ _ _ _ _ Sv); [|exact Lx|exact Ox]. apply bytes_ok_app. split; [exact Bb|]. apply bytes_ok_app. split; [exact Bd|].
           apply Forall_forall. intros y Hy. apply repeat_spec in Hy. subst y. reflexivity.
        -- cbn [enlarged made_by]. rewrite is_now_same, A3, R2, !app_length, repeat_length. unfold slice_text. rewrite map_length, seq_length. lia.
  - destruct Al as (Op & Eh). destruct (texts_of id w h) as [[k ws]|] eqn:E; [|contradiction]. clear Eh.
    destruct (object_there _ _ _ _ _ _ _ Sv (open_visible _ _ _ Op) E) as (c & -> & Ec & Lc & Wc & Nc & St & F & _).
    assert (Cc : can (rights l id) c) by (unfold can; rewrite Wc; exact Op).
    cbn [thenc]. eapply safe_seq; [apply (reset_at (rights l id) k c m u (ready_stands _ _ _ _ St) Cc)|]. cbn beta. intros _ m' u' (-> & O & St'). cbn [safe fst snd].
    split; [reflexivity|]. apply (sees_object m u mine w h k c ws m' _ Sv E Ec Wc Op O St'). constructor.
  - apply safe_then, safe_new'. cbn [rights self]. intros m' O. cbn [safe fst snd]. rewrite R2 in *. split; [reflexivity|]. apply By.
    + intros y Ly _. apply (over_out _ _ _ _ _ O), within_not. cbn [lib]. intros (_ & X & _). congruence.
    + unfold grow. cbn [Bool.eqb]. lia.
    + intros x Lx Ox. rewrite O. apply (over_bytes _ _ _ _ _ _ _ Sv); [|exact Lx|exact Ox].
      apply Forall_forall. intros y Hy. apply repeat_spec in Hy. subst y. reflexivity.
    + rewrite grow_same, R2. cbn [enlarged made_by]. rewrite is_now_same, repeat_length. reflexivity.
    + apply Grown.
    + reflexivity.
  - destruct Al as (Hs & Os & Hj & Hv). rewrite (proj2 (Nat.ltb_lt _ _) Hj). destruct Hs as (_ & Lo & _ & _).
    apply safe_then, safe_set'; [exact Os|]. intros m' O. cbn [safe fst snd]. split; [reflexivity|]. apply By; try reflexivity; try assumption.
    + intros y Ly _. apply (over_out _ _ _ _ _ O), within_not. cbn [lib shift]. intros (_ & X & _). congruence.
    + intros x Lx Ox. rewrite O. apply (over_bytes _ _ _ _ _ _ _ Sv); [|exact Lx|exact Ox]. constructor; [exact Hv|constructor].
  - destruct Al as (Hs & Hj). rewrite (proj2 (Nat.ltb_lt _ _) Hj). destruct Hs as (_ & Ls & Os & _).
    apply safe_then, safe_get; [exact Os|]. cbn [safe fst snd]. split; [|exact Sv]. f_equal. apply (sees_byte _ _ _ _ _ Sv); [exact Ls|exact Os].
Qed.

Lemma stretch_sees g : forall m u w mine, sees m u mine w -> proper id l w g ->
  safe (rights l id) (behave shared mine g) m u (fun r m' u' => fst r = fst (outcome_of id w g) /\ sees m' u' (snd r) (snd (outcome_of id w g))).
Proof.
  induction g as [|a k IH]; intros m u w mine Sv Pr; cbn [proper behave outcome_of] in *.
  - cbn [safe fst snd]. split; [reflexivity|exact Sv].
  - destruct Pr as [Al Pr]. eapply safe_seq; [apply (act_sees m u w mine a Sv Al)|]. cbn beta. intros [mine' r] m' u' [Er Sv']. cbn [fst snd] in *.
    destruct (done id w a) as [w' r'] eqn:Ee. cbn [fst snd] in *. subst r'.
    eapply safe_seq; [apply (IH r m' u' w' mine' Sv' Pr)|]. cbn beta. intros [rs mine''] m'' u'' [Ers Sv'']. cbn [safe fst snd] in *.
    destruct (outcome_of id w' (k r)) as [rs' w'']. cbn [fst snd] in *. subst rs'. split; [reflexivity|exact Sv''].
Qed.

(** To others it changes nothing. *)
Lemma act_keeps w a r : may_do id l w a -> ~ open id l r -> keeps r w (fst (done id w a)).
Proof.
  intros Al Nr.
  assert (Ch : forall b xs x, who x = r -> open id l (who b) -> overwrite (bytes w) b xs x = bytes w x).
  { intros b xs x Wx Ob. unfold overwrite. destruct (within_spec b (length xs) x) as [(W & _)|_]; [|reflexivity]. congruence. }
  assert (Ne : r <> id) by (intros ->; apply Nr; left; reflexivity).
  assert (Rw : forall h f, open id l (maker id h) -> keeps r w (rewritten id w h f)).
  { intros h f Op. unfold rewritten. destruct (texts_of id w h) as [[k ws]|]; [|apply keeps_refl]. repeat split. cbn [kept]. apply is_now_other. congruence. }
  assert (En : forall xs, keeps r w (enlarged id w xs)).
  { intros xs. split; [|split; [|reflexivity]]; cbn [enlarged bytes made_by]; [|apply is_now_other, Ne]. intros x Wx. apply Ch; [exact Wx|left; reflexivity]. }
  destruct a as [k|h p|h inp room|h|n c|s j v|s j]; cbn [may_do done fst] in *.
  - repeat split. cbn [kept]. apply is_now_other, Ne.
  - apply Rw, Al.
  - destruct Al as (_ & _ & k & ws & E & Fit). rewrite E. destruct (Nat.leb_spec (slen inp + length (digest_of k ws)) (scap inp)) as [Le|Le]; cbn [fst]; [|apply En].
    repeat split. intros x Wx. apply Ch; [exact Wx|apply Fit, Le].
  - apply Rw, Al.
  - apply En.
  - repeat split. intros x Wx. apply Ch; [exact Wx|apply Al].
  - apply keeps_refl.
Qed.
Lemma stretch_keeps g r : ~ open id l r -> forall w, proper id l w g -> keeps r w (snd (outcome_of id w g)).
Proof.
  intros Nr. induction g as [|a k IH]; intros w Pr; cbn [proper outcome_of] in *; [apply keeps_refl|]. destruct Pr as [Al Pr].
  pose proof (act_keeps w a r Al Nr) as K. destruct (done id w a) as [w' rp]. cbn [fst snd] in *. specialize (IH rp w' Pr).
  destruct (outcome_of id w' (k rp)) as [rs w'']. cbn [snd] in *. apply (keeps_trans _ _ w'); assumption.
Qed.
End Stretch.

(** ** Goroutines with a lock *)

Lemma safe_ext_used {A} (pm : perm) (c : code A) (Q : A -> memory -> (bool -> nat) -> Prop)
  (L : forall x m m' u, agree pm m m' -> Q x m u -> Q x m' u) : forall m m' u, agree pm m m' -> safe pm c m u Q -> safe pm c m' u Q.
Proof.
  induction c as [x| |a k IH|a v k IH|l n k IH]; cbn [safe]; intros m m' u H S; try assumption.
  - apply (L x m); assumption.
  - destruct S as [M S]. split; [exact M|]. rewrite (H a M). apply (IH _ m m'); assumption.
  - destruct S as [M S]. split; [exact M|]. apply (IH (put m a v)); [|exact S]. intros b Hb. unfold put. rewrite (H b Hb). reflexivity.
  - apply (IH _ (clear m (mkA (self pm) l (u l)) n)); [|exact S]. intros b Hb. unfold clear. rewrite (H b Hb). reflexivity.
Qed.
Lemma safe_advance {A} (pm : perm) (c : code A) m u Q m' t' : safe pm c m u Q -> advance (self pm) m (mkT c u) = Some (m', t') ->
  safe pm (todo t') m' (used t') Q /\ forall x, ~ can pm x -> m' x = m x.
Proof.
  intros Sf Ha. unfold advance in Ha. destruct c as [x| |a k|a v k|l n k]; cbn [safe todo used] in *; try discriminate; injection Ha as <- <-; cbn [todo used].
  - split; [apply Sf|reflexivity].
  - split; [apply Sf|]. intros b Hb. unfold put. destruct (same_spec b a) as [->|]; [destruct Sf; contradiction|reflexivity].
  - split; [exact Sf|]. intros b Hb. unfold clear. destruct (within_spec (mkA (self pm) l (u l)) n b) as [(W & _)|]; [|reflexivity].
    destruct Hb. unfold can. rewrite W. apply self_wr.
Qed.

(** Those who hold the lock may hold it together. *)
Definition together {B} (ts : list (runner B)) : Prop :=
  forall i j ti tj li ci ki lj cj kj, i <> j -> nth_error ts i = Some ti -> at_stage ti = Inside li ci ki ->
    nth_error ts j = Some tj -> at_stage tj = Inside lj cj kj -> ~ excludes li lj.
Lemma excludes_sym l l' : excludes l l' -> excludes l' l.
Proof. destruct l, l'; auto. Qed.
Lemma alone_excludes l : ~ excludes Alone l -> l = Without.
Proof. destruct l; cbn; tauto. Qed.
Lemma together_replaced {B} (ts : list (runner B)) i t s u g : together ts -> nth_error ts i = Some t ->
  (forall l c k, s = Inside l c k -> forall j tj lj cj kj, j <> i -> nth_error ts j = Some tj -> at_stage tj = Inside lj cj kj -> ~ excludes l lj) ->
  together (replaced i (mkR s u g) ts).
Proof.
  intros Tg Ht Hs a b ta tb la ca ka lb cb kb N Ha Ea Hb Eb. rewrite nth_replaced in Ha. rewrite nth_replaced in Hb.
  destruct (Nat.eqb_spec i a) as [<-|Na], (Nat.eqb_spec i b) as [<-|Nb]; rewrite ?Ht in *.
  - contradiction.
  - injection Ha as <-. cbn [at_stage] in Ea. apply (Hs la ca ka Ea b tb lb cb kb); auto.
  - injection Hb as <-. cbn [at_stage] in Eb. intros X. apply excludes_sym in X. apply (Hs lb cb kb Eb a ta la ca ka) in X; auto.
  - apply (Tg a b ta tb la ca ka lb cb kb); assumption.
Qed.
Lemma unlocked_replaced {B} (ts : list (runner B)) i t s u g : unlocked (replaced i (mkR s u g) ts) -> nth_error ts i = Some t ->
  (forall c k, at_stage t <> Inside Alone c k) -> unlocked ts.
Proof.
  intros U Ht Nt j tj c k Hj Ej. destruct (Nat.eq_dec i j) as [<-|N]; [rewrite Ht in Hj; injection Hj as <-; apply (Nt c k Ej)|].
  apply (U j tj c k); [|exact Ej]. rewrite nth_replaced, (proj2 (Nat.eqb_neq _ _) N). exact Hj.
Qed.
Lemma unlocked_not {B} (ts : list (runner B)) i t c k u g : nth_error ts i = Some t -> ~ unlocked (replaced i (mkR (Inside Alone c k) u g) ts).
Proof. intros Ht U. eapply (U i); [rewrite nth_replaced, Nat.eqb_refl, Ht; reflexivity|reflexivity]. Qed.

Lemma search {A} (P : A -> Prop) (dec : forall x, P x \/ ~ P x) (l : list A) :
  (exists i x, nth_error l i = Some x /\ P x) \/ forall i x, nth_error l i = Some x -> ~ P x.
Proof.
  induction l as [|y l IH]; [right; intros [|i] x; discriminate|]. destruct (dec y) as [Y|Y]; [left; exists O, y; auto|].
  destruct IH as [(i & x & H & Px)|R]; [left; exists (S i), x; auto|]. right. intros [|i] x H; [injection H as <-; exact Y|apply (R i x H)].
Qed.

Section System.
Context (u0 : bool -> nat) (shared : list object) (st : local) (ws : list worker) (Or : orderly st ws).
Notation result := (list reply * list object)%type.

(** Goroutine number [i] and a worker whose stretches happen when they begin. *)
Definition tracks (i : nat) (m : memory) (t : runner result) (w : world) (q : worker * list (list reply)) : Prop :=
  match at_stage t with
  | Between tk => snd q = map fst (got t) /\ exists mine, tk = labour shared mine (fst q) /\ region (S i) m (taken t) mine w
  | Inside l c k => exists rs, snd q = map fst (got t) ++ [rs] /\ (forall r, fst r = rs -> k r = labour shared (snd r) (fst q))
      /\ safe (rights l (S i)) c m (taken t) (fun r m' u' => fst r = rs /\ sees l (S i) u0 shared m' u' (snd r) w)
  end.
Definition follows (y : locking result) (p : shop) : Prop :=
  let '(m, ts) := y in
  length ts = length (snd p) /\ (forall i t q, nth_error ts i = Some t -> nth_error (snd p) i = Some q -> tracks i m t (fst p) q)
  /\ together ts /\ (unlocked ts -> region 0 m u0 shared (fst p)).

Lemma sees_ext l i m m' u mine w w' : sees l (S i) u0 shared m u mine w -> (forall x, who x = S i -> m' x = m x) -> keeps (S i) w w' ->
  (l <> Without -> (forall x, who x = O -> m' x = m x) /\ keeps 0 w w') -> sees l (S i) u0 shared m' u mine w'.
Proof.
  intros [R S] E K L. split; [apply (region_ext (Datatypes.S i) m m' u mine w w' R E K)|]. intros Hl. destruct (L Hl) as [E0 K0].
  apply (region_ext 0 m m' u0 shared w w' (S Hl) E0 K0).
Qed.
Lemma tracks_ext j m m' t w w' q : tracks j m t w q -> (forall x, who x = S j -> m' x = m x) -> keeps (S j) w w' ->
  (forall l c k, at_stage t = Inside l c k -> l <> Without -> (forall x, who x = O -> m' x = m x) /\ keeps 0 w w') -> tracks j m' t w' q.
Proof.
  unfold tracks. intros T E K L. destruct (at_stage t) as [tk|l c k].
  - destruct T as (T1 & mine & T2 & T3). split; [exact T1|]. exists mine. split; [exact T2|]. apply (region_ext (S j) m m' _ mine w w' T3 E K).
  - destruct T as (rs & T1 & T2 & T3). exists rs. split; [exact T1|]. split; [exact T2|].
    specialize (L l c k eq_refl).
    eapply safe_mono; [apply (safe_ext_used _ c _) with (m := m); [| |exact T3]|].
    + cbn beta. intros r m1 m2 u A [Er Sv]. split; [exact Er|]. apply (sees_ext l j m1 m2 u _ w w Sv); try apply keeps_refl.
      * intros x Hx. apply A. left. exact Hx.
      * intros Hl. split; [|apply keeps_refl]. intros x Hx. apply A. right. split; assumption.
    + intros x [Hx|[Hl Hx]]; [apply E, Hx|]. apply (L Hl). exact Hx.
    + cbn beta. intros r m1 u [Er Sv]. split; [exact Er|]. apply (sees_ext l j m1 m1 u _ w w' Sv); try reflexivity; try exact K.
      intros Hl. split; [reflexivity|]. apply (L Hl).
Qed.

(** One step. *)
Lemma follows_step y p y' : turns (opening st ws) p -> follows y p -> steps y y' ->
  exists p', (p' = p \/ turn p p') /\ follows y' p'.
Proof.
  intros T F [i M]. destruct p as [w ps]. destruct M as [m ts t l c k Ht Et Hl|m ts t l c k m' t' Ht Et Ha|m ts t l x k Ht Et];
    destruct F as (Len & Tr & Hd & R0); cbn [fst snd] in *;
    (assert (Hq : exists q, nth_error ps i = Some q)
       by (destruct (nth_error ps i) as [q|] eqn:Eq; [eauto|]; apply nth_error_None in Eq; assert (i < length ts)%nat by (apply nth_error_Some; congruence); lia));
    destruct Hq as [q Hq]; pose proof (Tr i t q Ht Hq) as Ti; unfold tracks in Ti; rewrite Et in Ti.
  - (* a stretch begins: the worker takes its turn *)
    destruct Ti as (Sq & mine & El & Ri). destruct q as [[|l' g kk] said]; cbn [fst snd labour] in *; [discriminate|]. injection El as <- -> ->.
    pose proof (Or w ps T i l g kk said Hq) as Pr.
    exists (snd (outcome_of (S i) w g), replaced i (kk (fst (outcome_of (S i) w g)), said ++ [fst (outcome_of (S i) w g)]) ps).
    split; [right; apply (Turn w ps i l g kk said Hq)|].
    assert (K0 : l <> Alone -> keeps 0 w (snd (outcome_of (S i) w g))).
    { intros E. apply (stretch_keeps l (S i) g 0); [|exact Pr]. intros [X|[X _]]; [discriminate|congruence]. }
    unfold follows. cbn [fst snd]. split; [rewrite !replaced_length; exact Len|]. split; [|split].
    + intros j tj q Hj Hqj. rewrite nth_replaced in Hj. rewrite nth_replaced in Hqj. destruct (Nat.eqb_spec i j) as [<-|N].
      * rewrite Ht in Hj. rewrite Hq in Hqj. injection Hj as <-. injection Hqj as <-. unfold tracks. cbn [at_stage taken got fst snd].
        exists (fst (outcome_of (S i) w g)). split; [rewrite Sq; reflexivity|]. split; [intros r ->; reflexivity|].
        apply stretch_sees; [discriminate| |exact Pr]. split; [exact Ri|]. intros E. apply R0. intros j tj c k Hj Ej.
        apply (Hl j tj Alone c k Hj Ej). destruct l; cbn; auto.
      * apply (tracks_ext j m m tj w); [apply (Tr j tj q Hj Hqj)|reflexivity| |].
        -- apply (stretch_keeps l (S i) g (S j)); [|exact Pr]. intros [X|[_ X]]; [injection X as X; congruence|discriminate].
        -- intros lj c k Ej Nj. split; [reflexivity|]. apply K0. intros ->. apply Nj, alone_excludes, (Hl j tj lj c k Hj Ej).
    + apply (together_replaced ts i t); [exact Hd|exact Ht|]. intros l' c' k' E j tj lj cj kj _ Hj Ej. injection E as <- _ _. apply (Hl j tj lj cj kj Hj Ej).
    + intros U. destruct l; [destruct (unlocked_not _ _ _ _ _ _ _ Ht U)| |]; (apply (region_ext 0 m m u0 shared w); [|reflexivity|apply K0; discriminate]);
        apply R0; (apply (unlocked_replaced _ _ _ _ _ _ U Ht); rewrite Et; discriminate).
  - (* a memory access *)
    destruct Ti as (rs & Sq & Kk & Sf). exists (w, ps). split; [left; reflexivity|].
    destruct (safe_advance (rights l (S i)) c m (taken t) _ m' t' Sf Ha) as [Sf' O].
    assert (O0 : l <> Alone -> forall x, who x = 0%nat -> m' x = m x).
    { intros E x Hx. apply O. unfold can. cbn [wr rights]. rewrite Hx. intros [X|[X _]]; [discriminate|congruence]. }
    unfold follows. cbn [fst snd]. split; [rewrite !replaced_length; exact Len|]. split; [|split].
    + intros j tj qj Hj Hqj. rewrite nth_replaced in Hj. destruct (Nat.eqb_spec i j) as [<-|N].
      * rewrite Ht in Hj. rewrite Hq in Hqj. injection Hj as <-. injection Hqj as <-. unfold tracks. cbn [at_stage taken got].
        exists rs. split; [exact Sq|]. split; [exact Kk|exact Sf'].
      * apply (tracks_ext j m m' tj w); [apply (Tr j tj qj Hj Hqj)| |apply keeps_refl|].
        -- intros x Hx. apply O. unfold can. cbn [wr rights]. rewrite Hx. intros [X|[_ X]]; [injection X as X; congruence|discriminate].
        -- intros lj c' k' Ej Nj. split; [|apply keeps_refl]. apply O0. intros ->. apply Nj, alone_excludes, (Hd i j t tj Alone c k lj c' k' N Ht Et Hj Ej).
    + apply (together_replaced ts i t); [exact Hd|exact Ht|]. intros l' c' k' E j tj lj cj kj N Hj Ej. injection E as <- _ _.
      apply (Hd i j t tj l c k lj cj kj (not_eq_sym N) Ht Et Hj Ej).
    + intros U. destruct l; [destruct (unlocked_not _ _ _ _ _ _ _ Ht U)| |]; (apply (region_ext 0 m m' u0 shared w); [|apply O0; discriminate|apply keeps_refl]);
        apply R0; (apply (unlocked_replaced _ _ _ _ _ _ U Ht); rewrite Et; discriminate).
  - (* a stretch ends *)
    destruct Ti as (rs & Sq & Kk & Sf). cbn [safe] in Sf. destruct Sf as [Er [Ri Rs]]. exists (w, ps). split; [left; reflexivity|].
    unfold follows. cbn [fst snd]. split; [rewrite !replaced_length; exact Len|]. split; [|split].
    + intros j tj qj Hj Hqj. rewrite nth_replaced in Hj. destruct (Nat.eqb_spec i j) as [<-|N]; [|apply (Tr j tj qj Hj Hqj)].
      rewrite Ht in Hj. rewrite Hq in Hqj. injection Hj as <-. injection Hqj as <-. unfold tracks. cbn [at_stage taken got].
      split; [rewrite map_app; cbn [map]; rewrite Er; exact Sq|]. exists (snd x). split; [apply Kk, Er|exact Ri].
    + apply (together_replaced ts i t); [exact Hd|exact Ht|]. discriminate.
    + intros U. destruct l; [apply Rs; discriminate| |]; apply R0, (unlocked_replaced _ _ _ _ _ _ U Ht); rewrite Et; discriminate.
Qed.
Lemma turns_trans p p1 p2 : turns p p1 -> turns p1 p2 -> turns p p2.
Proof. intros A B. revert A. induction B as [|p1 p2 p3 _ IH T]; intros A; [exact A|]. apply (A_turn _ p2); [apply IH, A|exact T]. Qed.
Lemma follows_leads y y' : leads y y' -> forall p, turns (opening st ws) p -> follows y p -> exists p', turns p p' /\ follows y' p'.
Proof.
  induction 1 as [y|y y1 y2 _ IH M]; intros p T F; [exists p; split; [constructor|exact F]|].
  destruct (IH p T F) as (p1 & T1 & F1). destruct (follows_step y1 p1 y2 (turns_trans _ _ _ T T1) F1 M) as (p2 & [->|T2] & F2); [exists p1; auto|].
  exists p2. split; [|exact F2]. apply (A_turn _ p1); assumption.
Qed.

(** ** What follows *)

Lemma follows_worker y p i t : follows y p -> nth_error (snd y) i = Some t -> exists q, nth_error (snd p) i = Some q /\ tracks i (fst y) t (fst p) q.
Proof.
  destruct y as [m ts]. intros (Len & Tr & _) Ht. cbn [fst snd] in *. destruct (nth_error (snd p) i) as [q|] eqn:Eq.
  - exists q. split; [reflexivity|]. apply (Tr i t q Ht Eq).
  - apply nth_error_None in Eq. assert (i < length ts)%nat by (apply nth_error_Some; congruence). lia.
Qed.
Lemma follows_no_conflict y p : follows y p -> ~ conflict y.
Proof.
  intros F (i & j & ti & tj & li & ci & ki & lj & cj & kj & a & N & Hi & Ei & Hj & Ej & Wi & X).
  destruct (follows_worker _ _ _ _ F Hi) as (qi & _ & Ti). destruct (follows_worker _ _ _ _ F Hj) as (qj & _ & Tj).
  unfold tracks in Ti, Tj. rewrite Ei in Ti. rewrite Ej in Tj. destruct Ti as (rsi & _ & _ & Si), Tj as (rsj & _ & _ & Sj).
  assert (Oi : can (rights li (S i)) a).
  { unfold writes in Wi. cbn [todo used] in Wi. destruct ci; cbn [safe] in Si; try contradiction; [subst; apply Si|].
    apply within_iff in Wi. left. apply Wi. }
  assert (Oj : may (rights lj (S j)) a).
  { destruct X as [X|X]; [unfold reads in X|unfold writes in X]; cbn [todo used] in X; destruct cj; cbn [safe] in Sj; try contradiction; subst; try apply Sj; try (apply can_may, Sj).
    apply within_iff in X. left. apply X. }
  destruct y as [m ts]. destruct F as (_ & _ & Hd & _). cbn [snd] in *.
  destruct Oi as [Oi|[-> Oi]], Oj as [Oj|[Nj Oj]]; try congruence.
  apply Nj, alone_excludes, (Hd i j ti tj Alone ci ki lj cj kj N Hi Ei Hj Ej).
Qed.
Lemma follows_no_crash y p i t l c k : follows y p -> nth_error (snd y) i = Some t -> at_stage t = Inside l c k -> c <> Crash.
Proof.
  intros F Ht Et. destruct (follows_worker _ _ _ _ F Ht) as (q & _ & T). unfold tracks in T. rewrite Et in T. destruct T as (rs & _ & _ & Sf).
  intros ->. exact Sf.
Qed.
Lemma inside_goes y p i t l c k : follows y p -> nth_error (snd y) i = Some t -> at_stage t = Inside l c k -> exists y', goes i y y'.
Proof.
  intros F Ht Et. pose proof (follows_no_crash y p i t l c k F Ht Et) as NC. destruct y as [m ts]. cbn [snd] in *.
  destruct (advance (S i) m (mkT c (taken t))) as [[m' t']|] eqn:Ea; [eexists; eapply Accesses; eassumption|].
  unfold advance in Ea. destruct c as [x| |a f|a v f|b n f]; cbn [todo] in Ea; try discriminate; [eexists; eapply Finishes; eassumption|contradiction].
Qed.
Lemma follows_goes_on y p : follows y p -> unhindered y.
Proof.
  intros F i t Ht. destruct (at_stage t) as [[|l c k]|l c k] eqn:Et; [left; reflexivity| |right; left; apply (inside_goes y p i t l c k F Ht Et)].
  right. destruct (search (fun tj : runner result => exists lj cj kj, at_stage tj = Inside lj cj kj /\ excludes l lj)) with (l := snd y) as [(j & tj & Hj & lj & cj & kj & Ej & X)|No].
  - intros tj. destruct (at_stage tj) as [tk|lj cj kj]; [right; intros (lj & cj & kj & X & _); discriminate X|].
    assert (D : excludes l lj \/ ~ excludes l lj) by (destruct l, lj; cbn; auto).
    destruct D as [D|D]; [left; exists lj, cj, kj; auto|right; intros (l' & c' & k' & E & X); injection E as <- _ _; contradiction].
  - right. exists l, c, k, j, tj, lj, cj, kj. repeat (split; [auto|]). apply (inside_goes y p j tj lj cj kj F Hj Ej).
  - left. destruct y as [m ts]. cbn [snd] in *. eexists. eapply Begins; [exact Ht|exact Et|]. intros j tj lj cj kj Hj Ej X. apply (No j tj Hj). exists lj, cj, kj. auto.
Qed.
End System.

(** At the start. *)
Lemma follows_opened objs m u st ws : Inv 0 [] [] m u st objs -> (forall a, who a <> 0%nat -> m a = 0) ->
  follows u objs (opened objs m ws) (opening st ws).
Proof.
  intros (I1 & I2 & I3 & I4 & _) Z. unfold follows, opened, opening. cbn [fst snd]. split; [rewrite !map_length; reflexivity|]. split; [|split].
  - intros i t q Ht Hq. rewrite nth_error_map in Ht. rewrite nth_error_map in Hq. destruct (nth_error ws i) as [w|]; [|discriminate]. injection Ht as <-. injection Hq as <-.
    unfold tracks. cbn [at_stage got taken fst snd map]. split; [reflexivity|]. exists []. split; [reflexivity|].
    split; [|split; [reflexivity|split]].
    + intros x _ Wx. cbn [bytes text found]. rewrite Wx. cbn [Nat.eqb]. rewrite (Z x) by congruence. split; reflexivity.
    + split; [reflexivity|]. intros j k c E. destruct j; discriminate E.
    + split; [intros j k c E; destruct j; discriminate E|]. intros j j' k c k' c' _ E. destruct j; discriminate E.
  - intros i j ti tj li ci ki lj cj kj _ Ht Et _ _. rewrite nth_error_map in Ht. destruct (nth_error ws i); [|discriminate]. injection Ht as <-. discriminate Et.
  - intros _. split; [|split; [exact I2|split; [exact I3|exact I4]]]. intros x Lx Wx. cbn [bytes text found]. rewrite Wx. cbn [Nat.eqb].
    apply I1; [exact Lx|left; exact Wx].
Qed.

(** The first goroutine goes on when nobody holds the lock. *)
Definition remains (w : world) : local := mkLocal (bytes w) (made_by w 0) (kept w 0).
Lemma follows_after objs u m ts p : unlocked ts -> follows u objs (m, ts) p -> Inv 0 [] [] m u (remains (fst p)) objs.
Proof.
  intros U (_ & _ & _ & R). destruct (R U) as (R1 & R2 & R3 & R4). unfold Inv, remains. cbn [text made hashes].
  split; [|split; [exact R2|split; [exact R3|split; [exact R4|]]]].
  - intros x Lx [Wx|Wx]; apply R1; assumption.
  - split; [split; [reflexivity|]|]; intros j k c E; destruct j; discriminate E.
Qed.

(** ** There is no infinite execution *)

Inductive sooner {B} : stage B -> stage B -> Prop :=
| To_begin l c k : sooner (Inside l c k) (Between (Part l c k))
| To_access l c c' k : later c' c -> sooner (Inside l c' k) (Inside l c k)
| To_end l x k : sooner (Between (k x)) (Inside l (Return x) k).
Lemma sooner_inside {B} l (k : B -> task B) : (forall x, Acc sooner (Between (k x))) -> forall c, Acc sooner (Inside l c k).
Proof.
  intros H c. induction (later_wf c) as [c _ IH]. constructor. intros s So. inversion So; subst; [apply IH; assumption|apply H].
Qed.
Lemma sooner_wf {B} : forall s : stage B, Acc sooner s.
Proof.
  assert (T : forall t : task B, Acc sooner (Between t)).
  { induction t as [|l c k IH]; constructor; intros s So; inversion So; subst. apply sooner_inside, IH. }
  intros [t|l c k]; [apply T|]. apply sooner_inside. intros x. apply T.
Qed.
Inductive one_of {X} (R : X -> X -> Prop) : list X -> list X -> Prop :=
| This x' x l : R x' x -> one_of R (x' :: l) (x :: l)
| That x l' l : one_of R l' l -> one_of R (x :: l') (x :: l).
Lemma one_of_wf {X} (R : X -> X -> Prop) : (forall x, Acc R x) -> forall l, Acc (one_of R) l.
Proof.
  intros W. induction l as [|c l IH]; [constructor; intros l' H; inversion H|].
  revert l IH. induction (W c) as [c _ IHc]. intros l IH. induction IH as [l Hl IHl].
  constructor. intros l' H. inversion H as [c' ? ? L|? l1 ? L]; subst.
  - apply IHc; [exact L|constructor; exact Hl].
  - apply IHl, L.
Qed.
Lemma one_replaced {X Y} (R : Y -> Y -> Prop) (f : X -> Y) x' : forall l i x, nth_error l i = Some x -> R (f x') (f x) -> one_of R (map f (replaced i x' l)) (map f l).
Proof.
  induction l as [|y l IH]; intros [|i] x Hi H; try discriminate; cbn [replaced map].
  - injection Hi as <-. constructor. exact H.
  - constructor. apply (IH i x Hi H).
Qed.
Lemma steps_sooner {B} (y y' : locking B) : steps y y' -> one_of sooner (map at_stage (snd y')) (map at_stage (snd y)).
Proof.
  intros [i M]. destruct M as [m ts t l c k Ht Et _|m ts t l c k m' t' Ht Et Ha|m ts t l x k Ht Et]; cbn [snd];
    apply (one_replaced _ _ _ _ _ t Ht); cbn [at_stage]; rewrite Et; constructor.
  unfold advance in Ha. destruct c; try discriminate; injection Ha as <- <-; cbn [later todo]; eauto.
Qed.
Lemma no_infinite_steps {B} (f : nat -> locking B) : ~ (forall n, steps (f n) (f (S n))).
Proof.
  intros M. assert (forall l, Acc (one_of sooner) l -> forall n, l = map at_stage (snd (f n)) -> False) as X.
  { induction 1 as [l _ IH]. intros n ->. apply (IH (map at_stage (snd (f (S n)))) (steps_sooner _ _ (M n)) (S n) eq_refl). }
  apply (X _ (one_of_wf _ sooner_wf _) O eq_refl).
Qed.

(** ** Executions step by step *)

Definition bars {B} (l : hold) (t : runner B) : bool :=
  match l, at_stage t with
  | Alone, Inside Alone _ _ | Alone, Inside Reading _ _ | Reading, Inside Alone _ _ => true
  | _, _ => false
  end.
Definition step_of {B} (i : nat) (y : locking B) : locking B :=
  let '(m, ts) := y in
  match nth_error ts i with
  | Some t =>
      match at_stage t with
      | Between (Part l c k) => if existsb (bars l) ts then y else (m, replaced i (mkR (Inside l c k) (taken t) (got t)) ts)
      | Inside l (Return x) k => (m, replaced i (mkR (Between (k x)) (taken t) (got t ++ [x])) ts)
      | Inside l c k =>
          match advance (S i) m (mkT c (taken t)) with
          | Some (m', t') => (m', replaced i (mkR (Inside l (todo t') k) (used t') (got t)) ts)
          | None => y
          end
      | _ => y
      end
  | None => y
  end.
Lemma step_leads {B} i (y y0 : locking B) : leads y0 y -> leads y0 (step_of i y).
Proof.
  intros L. destruct y as [m ts]. unfold step_of. destruct (nth_error ts i) as [t|] eqn:Ht; [|exact L].
  destruct (at_stage t) as [[|l c k]|l c k] eqn:Et; try exact L.
  - destruct (existsb (bars l) ts) eqn:Eb; [exact L|]. apply (Goes _ _ _ L). exists i. apply (Begins i m ts t l c k Ht Et).
    intros j tj l' c' k' Hj Ej X. assert (existsb (bars l) ts = true); [|congruence]. apply existsb_exists. exists tj.
    split; [apply (nth_error_In _ _ Hj)|]. unfold bars. rewrite Ej. destruct l, l'; cbn in X; tauto.
  - assert (A : leads y0 match advance (S i) m (mkT c (taken t)) with
      | Some (m', t') => (m', replaced i (mkR (Inside l (todo t') k) (used t') (got t)) ts) | None => (m, ts) end).
    { destruct (advance (S i) m (mkT c (taken t))) as [[m' t']|] eqn:Ea; [|exact L]. apply (Goes _ _ _ L). exists i. apply (Accesses i m ts t l c k m' t' Ht Et Ea). }
    destruct c; try exact A. apply (Goes _ _ _ L). exists i. apply (Finishes i m ts t l x k Ht Et).
Qed.
Lemma steps_leads {B} is : forall y y0 : locking B, leads y0 y -> leads y0 (fold_left (fun y i => step_of i y) is y).
Proof. induction is as [|i is IH]; intros y y0 L; [exact L|]. apply IH, step_leads, L. Qed.
