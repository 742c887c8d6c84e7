(** The goroutines of Spec/PadSpec.v are well synchronised, get the right bytes, and
    come to their end. *)
From Coq Require Import Lia.
From Verif Require Import Base.Go Base.Goroutine Base.HashUse Base.Sync Model.SyncAtom Spec.HashUseSpec Spec.SyncSpec Spec.PadSpec
  Proofs.GoroutineProofs Proofs.AreaProofs Proofs.SyncProofs Proofs.SyncEndProofs Proofs.RelayProofs Proofs.PostProofs.
Local Open Scope N_scope.

Notation own n i := (mkS (mkA i false 0) n n).

Lemma inv_xor i w d o w' r : does i w (Xor_bytes d o) w' r ->
  w' = set_bytes w (base d) (map (fun j => N.lxor (bytes w (shift (base d) j)) (bytes w (shift (base o) j))) (seq 0 (Nat.min (slen d) (slen o)))).
Proof.
  intros D. inversion D as [| | | | | | | | | |c t x cs H| |c r' H|c xs H| |c a xs r' H]; subst; try discriminate H; try contradiction.
  cbn [overwrites] in H. injection H as <- <- <-. reflexivity.
Qed.
Lemma inv_zero i w s w' r : does i w (Zero_bytes s) w' r -> w' = set_bytes w (base s) (repeat 0 (slen s)).
Proof.
  intros D. inversion D as [| | | | | | | | | |c t x cs H| |c r' H|c xs H| |c a xs r' H]; subst; try discriminate H; try contradiction.
  cbn [overwrites] in H. injection H as <- <- <-. reflexivity.
Qed.
Lemma zero_at w i n k : (k < n)%nat -> bytes (set_bytes w (mkA i false 0) (repeat 0 n)) (mkA i false k) = 0.
Proof.
  intros Hk. cbn [set_bytes bytes]. unfold overwritten. rewrite repeat_length.
  destruct (within_spec (mkA i false 0) n (mkA i false k)) as [_|X]; [apply nth_repeat|]. exfalso. apply X. cbn [who lib num]. repeat split; lia.
Qed.
Lemma set_far w a xs y : who y <> who a -> bytes (set_bytes w a xs) y = bytes w y.
Proof. intros D. cbn [set_bytes bytes]. unfold overwritten. destruct (within_spec a (length xs) y) as [(X & _)|_]; [contradiction|reflexivity]. Qed.
Lemma xor_at w i n m k : (k < n)%nat ->
  bytes (set_bytes w (mkA i false 0) (map (fun j => N.lxor (bytes w (shift (mkA i false 0) j)) (bytes w (shift (mkA 0 false 0) j))) (seq 0 (Nat.min n m)))) (mkA i false k)
  = if Nat.ltb k m then N.lxor (bytes w (mkA i false k)) (bytes w (mkA 0 false k)) else bytes w (mkA i false k).
Proof.
  intros Hk. set (F := fun j => N.lxor _ _). cbn [set_bytes bytes]. unfold overwritten. rewrite map_length, seq_length.
  destruct (within_spec (mkA i false 0) (Nat.min n m) (mkA i false k)) as [(_ & _ & X)|X]; cbn [who lib num] in X.
  - destruct (Nat.ltb_spec k m); [|lia]. cbn [num]. rewrite Nat.sub_0_r, nth_indep with (d' := F O) by (rewrite map_length, seq_length; lia).
    rewrite map_nth, seq_nth by lia. reflexivity.
  - destruct (Nat.ltb_spec k m); [exfalso; apply X; repeat split; lia|reflexivity].
Qed.
Lemma xored_next key xs r q : xored key xs (S r) q = N.lxor (xored key xs r q) (nth q key 0).
Proof.
  unfold xored. rewrite Nat.even_succ, <- Nat.negb_even. destruct (Nat.even r); cbn [negb]; [reflexivity|].
  rewrite N.lxor_assoc, N.lxor_nilpotent, N.lxor_0_r. reflexivity.
Qed.
Lemma scribes_nth ms : forall i j, nth_error (scribes i ms) j = option_map (scribe (i + j)) (nth_error ms j).
Proof.
  induction ms as [|m ms IH]; intros i [|j]; cbn [scribes nth_error option_map]; try reflexivity; [rewrite Nat.add_0_r; reflexivity|].
  rewrite IH, <- plus_n_Sm. reflexivity.
Qed.

Section Pad.
Context (key : list N) (ms : list (list N * nat)) (Hk : bytes_ok key) (Hm : Forall (fun m => bytes_ok (fst m)) ms).

Definition holds (w : world) (i : nat) (n : nat) (f : nat -> N) : Prop := forall k, (k < n)%nat -> bytes w (mkA i false k) = f k.
(** What goroutine [i] fills its slice with, and what it does then. *)
Definition task (i : nat) : option (list N * (gslice -> prog table)) :=
  match i with
  | O => Some (key, lays_out (length ms))
  | S j => option_map (fun m => (fst m, waits_for_key j (snd m))) (nth_error ms j)
  end.
(** Where it may be. *)
Inductive at_work (w : world) (b : table) (i : nat) : prog table -> Prop :=
| Wk_end : (i = O -> key_at b <> None /\ length (finished b) = length ms /\ holds w 0 (length key) (fun _ => 0)) -> (forall j, i = S j -> exists s, In (j, s) (finished b)) -> at_work w b i Finish
| Wk_start xs k : task i = Some (xs, k) -> made_by w i = O -> (i = O -> key_at b = None) -> at_work w b i (prepares xs k)
| Wk_fills xs k ys zs : task i = Some (xs, k) -> made_by w i = length xs -> (i = O -> key_at b = None) -> xs = ys ++ zs -> holds w i (length ys) (fun q => nth q ys 0) ->
    at_work w b i (fills (own (length xs) i) (length ys) zs (k (own (length xs) i)))
| Wk_xors j xs r d : i = S j -> nth_error ms j = Some (xs, (d + r)%nat) -> made_by w i = length xs -> key_at b <> None ->
    holds w i (length xs) (xored key xs d) -> at_work w b i (xors j (own (length xs) i) (own (length key) 0) r)
| Wk_waits : i = O -> key_at b <> None -> at_work w b i (waits_for_all (length ms) (own (length key) 0))
| Wk_wipes : i = O -> key_at b <> None -> length (finished b) = length ms -> at_work w b i (wipes (own (length key) 0)).
Definition key_ok (w : world) (b : table) : Prop :=
  forall s, key_at b = Some s -> s = own (length key) 0 /\ made_by w 0 = length key /\ ((length (finished b) < length ms)%nat -> holds w 0 (length key) (fun q => nth q key 0)).
Definition told_ok (w : world) (gs : list (prog table)) (j : nat) (s : gslice) : Prop :=
  exists xs r, nth_error ms j = Some (xs, r) /\ s = own (length xs) (S j) /\ made_by w (S j) = length xs /\ holds w (S j) (length xs) (xored key xs r)
    /\ nth_error gs (S j) = Some Finish.
Definition in_order (p : scene (G := table)) : Prop :=
  let '(w, b, gs) := p in
  key_ok w b /\ (forall j s, In (j, s) (finished b) -> told_ok w gs j s) /\ NoDup (map fst (finished b)) /\ length gs = S (length ms)
  /\ forall i g, nth_error gs i = Some g -> at_work w b i g.

Lemma order_start : in_order (nothing_yet, empty_table, office key ms).
Proof.
  split; [intros s X; discriminate X|]. split; [intros j s []|]. split; [constructor|]. split.
  - unfold office. cbn [length]. f_equal. generalize O as i. clear. induction ms as [|m l IH]; intros i; cbn [scribes length]; [reflexivity|f_equal; apply IH].
  - intros [|i] g E; cbn [office nth_error] in E.
    + injection E as <-. apply Wk_start; reflexivity.
    + rewrite scribes_nth in E. cbn [Nat.add] in E. destruct (nth_error ms i) as [m|] eqn:Em; [|discriminate]. injection E as <-.
      apply Wk_start; [cbn [task]; rewrite Em; reflexivity|reflexivity|discriminate].
Qed.

(** The bytes of [i] stay. *)
Definition same_at (w w' : world) (i : nat) : Prop := made_by w' i = made_by w i /\ forall k, bytes w' (mkA i false k) = bytes w (mkA i false k).
Lemma holds_same w w' i n f : same_at w w' i -> holds w i n f -> holds w' i n f.
Proof. intros (_ & S) H k Lk. rewrite S. apply H, Lk. Qed.
Lemma work_same w w' b b' i g : same_at w w' i -> (i <> O -> key_at b <> None -> key_at b' <> None) ->
  (i = O -> key_at b' = key_at b /\ (finished b' = finished b \/ (length (finished b) < length ms)%nat)) -> incl (finished b) (finished b') ->
  at_work w b i g -> at_work w' b' i g.
Proof.
  intros Sm K K0 F P. pose proof (proj1 Sm) as M. destruct P as [A B|xs k T A B|xs k ys zs T A B C D|j xs r d E T A B C|E A|E A B].
  - apply Wk_end; [|intros j Ej; destruct (B j Ej) as (s & Is); exists s; apply F, Is]. intros Z. destruct (K0 Z) as (-> & Q), (A Z) as (A1 & A2 & A3). split; [exact A1|].
    destruct Q as [-> |Q]; [|lia]. split; [exact A2|]. subst i. exact (holds_same _ _ _ _ _ Sm A3).
  - apply Wk_start; [exact T|congruence|]. intros Z. rewrite (proj1 (K0 Z)). auto.
  - apply Wk_fills; [exact T|congruence| |exact C|exact (holds_same _ _ _ _ _ Sm D)]. intros Z. rewrite (proj1 (K0 Z)). auto.
  - apply (Wk_xors w' b' i j xs r d); [exact E|exact T|congruence| |exact (holds_same _ _ _ _ _ Sm C)]. apply K; [congruence|exact B].
  - apply Wk_waits; [exact E|]. rewrite (proj1 (K0 E)). exact A.
  - destruct (K0 E) as (Ke & [Q|Q]); [|lia]. apply Wk_wipes; [exact E|congruence|congruence].
Qed.

(** Counting the finished. *)
Lemma few w b gs j : (forall j s, In (j, s) (finished b) -> told_ok w gs j s) -> NoDup (map fst (finished b)) -> (j < length ms)%nat -> (forall s, ~ In (j, s) (finished b)) ->
  (length (finished b) < length ms)%nat.
Proof.
  intros Fi Nd Lj No. rewrite <- (map_length fst (finished b)), <- (seq_length (length ms) 0). apply (NoDup_incl_length (l := j :: map fst (finished b)) (l' := seq 0 (length ms))).
  - constructor; [|exact Nd]. intros X. apply in_map_iff in X as ([j0 s] & E & Is). cbn [fst] in E. subst j0. exact (No s Is).
  - intros x [<-|X]; [apply in_seq; lia|]. apply in_map_iff in X as ([j0 s] & E & Is). cbn [fst] in E. subst j0. destruct (Fi x s Is) as (xs & r & F1 & _). apply in_seq.
    assert (x < length ms)%nat by (apply nth_error_Some; congruence). lia.
Qed.
Lemma all_in w b gs j : (forall j s, In (j, s) (finished b) -> told_ok w gs j s) -> NoDup (map fst (finished b)) -> length (finished b) = length ms -> (j < length ms)%nat ->
  nth_error gs (S j) = Some Finish.
Proof.
  intros Fi Nd Ln Lj. destruct (in_dec Nat.eq_dec j (map fst (finished b))) as [X|X].
  - apply in_map_iff in X as ([j0 s] & E & Is). cbn [fst] in E. subst j0. destruct (Fi j s Is) as (xs & r & _ & _ & _ & _ & F5). exact F5.
  - exfalso. enough (length (finished b) < length ms)%nat by lia. apply (few w b gs j Fi Nd Lj). intros s Is. apply X. apply in_map_iff. exists (j, s). split; [reflexivity|exact Is].
Qed.
Lemma all_out b : NoDup (map fst (finished b)) -> (forall j, (j < length ms)%nat -> exists s, In (j, s) (finished b)) -> (length ms <= length (finished b))%nat.
Proof.
  intros Nd H. rewrite <- (map_length fst (finished b)), <- (seq_length (length ms) 0). apply NoDup_incl_length; [apply seq_NoDup|]. intros j Ij. apply in_seq in Ij.
  destruct (H j ltac:(lia)) as (s & Is). apply in_map_iff. exists (j, s). split; [reflexivity|exact Is].
Qed.
Lemma at_most w b gs : (forall j s, In (j, s) (finished b) -> told_ok w gs j s) -> NoDup (map fst (finished b)) -> (length (finished b) <= length ms)%nat.
Proof.
  intros Fi Nd. rewrite <- (map_length fst (finished b)), <- (seq_length (length ms) 0). apply NoDup_incl_length; [exact Nd|]. intros x X. apply in_map_iff in X as ([j0 s] & E & Is). cbn [fst] in E. subst j0.
  destruct (Fi x s Is) as (xs & r & F1 & _). apply in_seq. assert (x < length ms)%nat by (apply nth_error_Some; congruence). lia.
Qed.

Lemma fill_inv (n i : nat) j zs k c h : fills (own n i) j zs k = Call c h ->
  (exists z zs', zs = z :: zs' /\ c = Store_byte (own n i) j z /\ h = fun _ => fills (own n i) (S j) zs' k) \/ (zs = [] /\ k = Call c h).
Proof. destruct zs as [|z zs]; cbn [fills]; intros E; [right; auto|left]. injection E as <- <-. exists z, zs. auto. Qed.
Lemma task_sync i xs k s : task i = Some (xs, k) -> exists f, k s = Sync f.
Proof. destruct i as [|i]; cbn [task]; [|destruct (nth_error ms i); cbn [option_map]; [|discriminate]]; intros E; injection E as _ <-; eexists; reflexivity. Qed.
Lemma task_bytes i xs k : task i = Some (xs, k) -> bytes_ok xs.
Proof.
  destruct i as [|i]; cbn [task]; [intros E; injection E as <- _; exact Hk|]. destruct (nth_error ms i) as [m|] eqn:Em; cbn [option_map]; [|discriminate]. intros E. injection E as <- _.
  exact (proj1 (Forall_forall _ _) Hm _ (nth_error_In _ _ Em)).
Qed.

(** The calls there are. *)
Lemma work_asks w b i c h : key_ok w b -> at_work w b i (Call c h) ->
  (exists xs k, task i = Some (xs, k) /\ c = Make_bytes (length xs) (length xs) /\ made_by w i = O /\ (i = O -> key_at b = None)
     /\ h = (fun r => match r with GotSlice s => fills s 0 xs (k s) | _ => Finish end))
  \/ (exists xs k ys z zs, task i = Some (xs, k) /\ c = Store_byte (own (length xs) i) (length ys) z /\ made_by w i = length xs /\ (i = O -> key_at b = None)
     /\ xs = ys ++ z :: zs /\ z < 256 /\ holds w i (length ys) (fun q => nth q ys 0)
     /\ h = (fun _ => fills (own (length xs) i) (S (length ys)) zs (k (own (length xs) i))))
  \/ (exists j xs r d, i = S j /\ nth_error ms j = Some (xs, (d + S r)%nat) /\ c = Xor_bytes (own (length xs) i) (own (length key) 0) /\ made_by w i = length xs
     /\ key_at b <> None /\ holds w i (length xs) (xored key xs d) /\ h = (fun _ => xors j (own (length xs) i) (own (length key) 0) r))
  \/ (i = O /\ c = Zero_bytes (own (length key) 0) /\ key_at b <> None /\ length (finished b) = length ms /\ h = (fun _ => Finish)).
Proof.
  intros K P. remember (Call c h) as g eqn:EE in P. destruct P as [A B|xs k T A B|xs k ys zs T A B C D|j xs r d E T A B C|E A|E A B]; [discriminate EE| | | |discriminate EE|].
  - left. unfold prepares in EE. injection EE as <- <-. exists xs, k. auto.
  - right. left. apply fill_inv in EE as [(z & zs' & -> & -> & ->)|(_ & E)]; [|destruct (task_sync i xs k (own (length xs) i) T) as (f & Ef); congruence].
    exists xs, k, ys, z, zs'. split; [exact T|]. split; [reflexivity|]. split; [exact A|]. split; [exact B|]. split; [exact C|]. split; [|split; [exact D|reflexivity]].
    pose proof (task_bytes i xs k T) as X. rewrite C in X. apply Forall_app in X as (_ & X). inversion X; assumption.
  - right. right. left. destruct r as [|r]; cbn [xors] in EE; [discriminate EE|]. injection EE as <- <-. exists j, xs, r, d. auto 10.
  - right. right. right. unfold wipes in EE. injection EE as <- <-. auto.
Qed.

Lemma order_step p q : in_order p -> turn p q -> in_order q.
Proof.
  intros H T. destruct T as [w b gs i c h w' a E D|w b gs i f m b' g E F].
  - destruct H as (K & Fi & Nd & Ln & P). pose proof (work_asks w b i c h K (P i _ E)) as A.
    assert (Go : forall w', (forall j, j <> i -> same_at w w' j) -> (i = O -> key_at b = None \/ (length (finished b) = length ms /\ made_by w' O = made_by w O)) -> at_work w' b i (h a) -> in_order (w', b, replaced i (h a) gs)).
    { intros w1 Sm Z W. split; [|split; [|split; [exact Nd|split; [rewrite GoroutineProofs.replaced_length; exact Ln|]]]].
      - intros s Es. destruct (K s Es) as (K1 & K2 & K3). split; [exact K1|]. destruct (Nat.eq_dec O i) as [D0|D0].
        + destruct (Z (eq_sym D0)) as [Z0|(Z1 & Z2)]; [congruence|]. split; [congruence|lia].
        + split; [rewrite (proj1 (Sm O D0)); exact K2|]. intros Lf. exact (holds_same _ _ _ _ _ (Sm O D0) (K3 Lf)).
      - intros j s Is. destruct (Fi j s Is) as (xs & r & F1 & F2 & F3 & F4 & F5). assert (Dj : S j <> i) by (intros <-; congruence).
        exists xs, r. split; [exact F1|]. split; [exact F2|]. split; [rewrite (proj1 (Sm _ Dj)); exact F3|]. split; [exact (holds_same _ _ _ _ _ (Sm _ Dj) F4)|].
        rewrite at_replaced_other by exact Dj. exact F5.
      - intros j g Ej. apply at_replaced in Ej as [[-> ->]|[Dj Ej]]; [exact W|]. apply (work_same w w1 b b j g); [apply Sm, Dj|auto|auto|apply incl_refl|apply P, Ej]. }
    assert (Run : forall j c' h', nth_error gs (S j) = Some (Call c' h') -> (length (finished b) < length ms)%nat).
    { intros j c' h' Ej. assert (Lj : (S j < length gs)%nat) by (apply nth_error_Some; congruence). apply (few w b gs j Fi Nd ltac:(lia)). intros s Is. destruct (Fi j s Is) as (? & ? & _ & _ & _ & _ & X). congruence. }
    destruct A as [(xs & k & T & -> & M & Z & ->)|[(xs & k & ys & z & zs & T & -> & M & Z & X & Lz & Ho & ->)|[(j & xs & r & d & -> & T & -> & M & Z & Ho & ->)|(-> & -> & Z & Fl & ->)]]].
    + apply inv_make in D as (-> & ->). apply Go; [|intros i0; left; exact (Z i0)|].
      * intros j Dj. split; [cbn [add_bytes made_by]; destruct (Nat.eqb_spec j i); [contradiction|reflexivity]|]. intros q. apply add_far. exact Dj.
      * rewrite M. apply (Wk_fills _ b i xs k [] xs); [exact T| |exact Z|reflexivity|intros q Lq; inversion Lq].
        cbn [add_bytes made_by]. rewrite Nat.eqb_refl, repeat_length, M. reflexivity.
    + apply inv_store in D as (-> & ->). cbn [base]. apply Go; [|intros i0; left; exact (Z i0)|].
      * intros j Dj. split; [reflexivity|]. intros q. apply set_far. exact Dj.
      * replace (S (length ys)) with (length (ys ++ [z])) by (rewrite app_length; cbn [length]; lia).
        apply Wk_fills; [exact T|exact M|exact Z|rewrite <- app_assoc; exact X|]. intros q Lq. rewrite app_length in Lq. cbn [length] in Lq.
        destruct (Nat.eq_dec q (length ys)) as [->|Dq].
        -- rewrite app_nth2, Nat.sub_diag by lia. apply set_at.
        -- rewrite app_nth1 by lia. rewrite <- Ho by lia. apply set_one. unfold shift. cbn [who lib num]. intros Y. injection Y as Y. lia.
    + apply inv_xor in D as ->. cbn [base slen]. destruct (key_at b) as [s|] eqn:Es; [|contradiction]. destruct (K s Es) as (_ & _ & Kb0). pose proof (Kb0 (Run j _ _ E)) as Kb. apply Go; [|discriminate|].
      * intros i0 Di. split; [reflexivity|]. intros q. apply set_far. exact Di.
      * apply (Wk_xors _ b (S j) j xs r (S d)); [reflexivity|rewrite Nat.add_succ_l, Nat.add_succ_r in *; exact T|exact M|congruence|].
        intros q Lq. rewrite xor_at, xored_next by exact Lq. pose proof (Ho q Lq) as Hq. cbv beta in Hq. rewrite Hq. destruct (Nat.ltb_spec q (length key)) as [X|X].
        -- rewrite (Kb q X). reflexivity.
        -- rewrite (nth_overflow key) by exact X. symmetry. apply N.lxor_0_r.
    + apply inv_zero in D as ->. cbn [base slen]. apply Go; [|right; split; [exact Fl|reflexivity]|].
      * intros i0 Di. split; [reflexivity|]. intros q. apply set_far. exact Di.
      * apply Wk_end; [|discriminate]. intros _. split; [exact Z|]. split; [exact Fl|]. intros q Lq. apply zero_at, Lq.
  - destruct H as (K & Fi & Nd & Ln & P). pose proof (P i _ E) as A. remember (Sync f) as g0 eqn:EE in A.
    assert (Sa : forall j, same_at w w j) by (intros j; split; reflexivity).
    assert (Not : forall j s, In (j, s) (finished b) -> S j <> i) by (intros j s Is <-; destruct (Fi j s Is) as (? & ? & _ & _ & _ & _ & X); congruence).
    assert (Fi' : forall j s, In (j, s) (finished b) -> told_ok w (replaced i g gs) j s).
    { intros j s Is. destruct (Fi j s Is) as (xs & r & F1 & F2 & F3 & F4 & F5). exists xs, r. do 4 (split; [assumption|]). rewrite at_replaced_other by exact (Not j s Is). exact F5. }
    assert (Ln' : length (replaced i g gs) = S (length ms)) by (rewrite GoroutineProofs.replaced_length; exact Ln).
    destruct A as [A B|xs k T A B|xs k ys zs T A B C D|j xs r d Ei T A B C|Ei A|Ei A B]; [discriminate EE|discriminate EE| | | |discriminate EE].
    + destruct zs as [|z zs]; [cbn [fills] in EE|discriminate EE]. rewrite app_nil_r in C. subst ys. destruct i as [|j]; cbn [task] in T.
      * injection T as <- <-. unfold lays_out in EE. injection EE as <-. injection F as <- <-. split; [|split; [exact Fi'|split; [exact Nd|split; [exact Ln'|]]]].
        -- cbn [key_at]. intros s X. injection X as <-. auto.
        -- intros j g Ej. apply at_replaced in Ej as [[-> ->]|[Dj Ej]]; [apply Wk_waits; [reflexivity|discriminate]|].
           apply (work_same w w b _ j g (Sa j)); [discriminate|intros ->; contradiction|apply incl_refl|apply P, Ej].
      * destruct (nth_error ms j) as [[xs' r]|] eqn:Em; [|discriminate T]. cbn [option_map fst snd] in T. injection T as -> <-. unfold waits_for_key in EE. injection EE as <-.
        destruct (key_at b) as [s|] eqn:Es; [|discriminate F]. injection F as <- <-. destruct (K s Es) as (-> & _).
        split; [exact K|split; [exact Fi'|split; [exact Nd|split; [exact Ln'|]]]].
        intros i g Ej. apply at_replaced in Ej as [[-> ->]|[Dj Ej]]; [|apply P, Ej]. apply (Wk_xors w b (S j) j xs r O); [reflexivity|exact Em|exact A|congruence|exact D].
    + subst i. destruct r as [|r]; [|discriminate EE]. cbn [xors] in EE. unfold hands_in in EE. injection EE as <-. injection F as <- <-. rewrite Nat.add_0_r in T.
      assert (Fw : (length (finished b) < length ms)%nat) by (apply (few w b gs j Fi Nd); [apply nth_error_Some; congruence|intros s0 Is; exact (Not j s0 Is eq_refl)]).
      split; [|split; [|split; [|split; [exact Ln'|]]]]; cbn [finished].
      * intros s0 Es. destruct (K s0 Es) as (K1 & K2 & K3). split; [exact K1|]. split; [exact K2|]. intros _. exact (K3 Fw).
      * intros j0 s0 Is. apply in_app_or in Is as [Is|[Is|[]]]; [apply Fi', Is|]. injection Is as <- <-. exists xs, d. do 4 (split; [first [assumption|reflexivity]|]). apply (at_replaced_same _ _ _ _ E).
      * rewrite map_app. cbn [map fst]. apply NoDup_Add with (a := j) (l := map fst (finished b)).
        -- rewrite <- (app_nil_r (map fst (finished b))) at 1. apply Add_app.
        -- split; [exact Nd|]. intros X. apply in_map_iff in X as ([j0 s0] & Ej & Is). cbn [fst] in Ej. subst j0. exact (Not j s0 Is eq_refl).
      * intros i g Ej. apply at_replaced in Ej as [[-> ->]|[Dj Ej]].
        -- apply Wk_end; [discriminate|]. intros j0 Ej. injection Ej as <-. eexists. apply in_or_app. right. left. reflexivity.
        -- apply (work_same w w b _ i g (Sa i)); [auto|intros _; split; [reflexivity|right; exact Fw]|apply incl_appl, incl_refl|apply P, Ej].
    + subst i. unfold waits_for_all in EE. injection EE as <-. destruct (Nat.eqb_spec (length (finished b)) (length ms)) as [Fl|_]; [|discriminate F]. injection F as <- <-.
      split; [exact K|split; [exact Fi'|split; [exact Nd|split; [exact Ln'|]]]].
      intros j g Ej. apply at_replaced in Ej as [[-> ->]|[Dj Ej]]; [apply Wk_wipes; [reflexivity|exact A|exact Fl]|apply P, Ej].
Qed.
Lemma order_all p : turns (nothing_yet, empty_table, office key ms) p -> in_order p.
Proof.
  intros T. remember (nothing_yet, empty_table, office key ms) as p0 eqn:E0. induction T as [p|p p1 p2 T IH St]; [|apply (order_step p1 p2); auto].
  subst p. apply order_start.
Qed.

Lemma pad_synchronised : well_synchronised empty_table (office key ms).
Proof.
  intros [[w b] gs] T. apply order_all in T. destruct T as (K & Fi & Nd & Ln & P).
  assert (Full : length (finished b) = length ms -> forall j c h, nth_error gs (S j) <> Some (Call c h)).
  { intros Fl j c h Ej. assert (Lj : (S j < length gs)%nat) by (apply nth_error_Some; congruence). pose proof (all_in w b gs j Fi Nd Fl ltac:(lia)). congruence. }
  split.
  - intros i c h E. destruct (work_asks w b i c h K (P i _ E)) as [(xs & k & _ & -> & _)|[(xs & k & ys & z & zs & _ & -> & M & _ & X & Lz & _)|[(j & xs & r & d & -> & _ & -> & M & Z & _)|(-> & -> & Z & _)]]]; cbn [proper].
    + apply Nat.le_refl.
    + split; [|split; [|exact Lz]].
      * split; [apply Nat.le_refl|split; [reflexivity|]]. cbn [scap base num who]. intros; lia.
      * cbn [slen]. rewrite X, app_length. cbn [length]. lia.
    + destruct (key_at b) as [s|] eqn:Es; [|contradiction]. destruct (K s Es) as (_ & K2 & _).
      split; [|split; [|intros i0 j0 _ _ _ Y; cbn [base shift who] in Y; discriminate Y]];
        (split; [apply Nat.le_refl|split; [reflexivity|]]); cbn [scap base num who]; intros; lia.
    + destruct (key_at b) as [s|] eqn:Es; [|contradiction]. destruct (K s Es) as (_ & K2 & _).
      split; [apply Nat.le_refl|split; [reflexivity|]]. cbn [scap base num who]. intros; lia.
  - intros i i' c c' h h' Di E E' (t & Al & Lk).
    destruct (work_asks w b i c h K (P i _ E)) as [(xs & k & _ & -> & _)|[(xs & k & ys & z & zs & _ & -> & _ & Z & _)|[(j & xs & r & d & -> & _ & -> & _)|(-> & -> & _ & Fl & _)]]]; cbn [alters] in Al; [contradiction| | |].
    + subst t. destruct (work_asks w b i' c' h' K (P i' _ E')) as [(xs' & k' & _ & -> & _)|[(xs' & k' & ys' & z' & zs' & _ & -> & _)|[(j' & xs' & r' & d' & -> & _ & -> & _ & Z' & _)|(-> & -> & _ & Fl & _)]]]; cbn [alters looks] in Lk.
      * tauto.
      * destruct Lk as [[]|Y]. injection Y as Y _. congruence.
      * destruct Lk as [[(q & _ & Y)|(q & _ & Y)]|(q & _ & Y)]; injection Y as Y _; cbn in Y; try congruence. apply Z', Z, Y.
      * destruct Lk as [[]|(q & _ & Y)]. injection Y as Y _. cbn in Y. congruence.
    + destruct Al as (q0 & _ & ->). destruct (work_asks w b i' c' h' K (P i' _ E')) as [(xs' & k' & _ & -> & _)|[(xs' & k' & ys' & z' & zs' & _ & -> & _)|[(j' & xs' & r' & d' & -> & _ & -> & _)|(-> & -> & _ & Fl & _)]]]; cbn [alters looks] in Lk.
      * tauto.
      * destruct Lk as [[]|Y]. injection Y as Y _. cbn in Y. congruence.
      * destruct Lk as [[(q & _ & Y)|(q & _ & Y)]|(q & _ & Y)]; injection Y as Y _; cbn in Y; congruence.
      * exact (Full Fl _ _ _ E).
    + destruct i' as [|i']; [contradiction|]. exact (Full Fl _ _ _ E').
Qed.
(** Nobody is about to change what is finished, or the key as long as it is used. *)
Lemma pad_done w b gs : turns (nothing_yet, empty_table, office key ms) (w, b, gs) ->
  NoDup (map fst (finished b))
  /\ (forall j s, In (j, s) (finished b) -> exists xs r, nth_error ms j = Some (xs, r) /\ slen s = length xs
        /\ forall q, (q < slen s)%nat -> bytes w (shift (base s) q) = xored key xs r q /\ lib (shift (base s) q) = false
             /\ (num (shift (base s) q) < made_by w (who (shift (base s) q)))%nat /\ forall i c h, nth_error gs i = Some (Call c h) -> ~ alters w c (TheByte (shift (base s) q)))
  /\ (forall s, key_at b = Some s -> (length (finished b) < length ms)%nat -> slen s = length key
        /\ forall q, (q < slen s)%nat -> bytes w (shift (base s) q) = nth q key 0 /\ lib (shift (base s) q) = false
             /\ (num (shift (base s) q) < made_by w (who (shift (base s) q)))%nat /\ forall i c h, nth_error gs i = Some (Call c h) -> ~ alters w c (TheByte (shift (base s) q)))
  /\ (nth_error gs 0 = Some Finish -> exists s, key_at b = Some s /\ slen s = length key
        /\ forall q, (q < slen s)%nat -> bytes w (shift (base s) q) = 0 /\ lib (shift (base s) q) = false /\ (num (shift (base s) q) < made_by w (who (shift (base s) q)))%nat).
Proof.
  intros T. apply order_all in T. destruct T as (K & Fi & Nd & _ & P). split; [exact Nd|].
  assert (Al : forall i0 q, (i0 = O -> key_at b <> None /\ (length (finished b) < length ms)%nat) -> (forall c h, nth_error gs i0 <> Some (Call c h)) \/ i0 = O ->
    forall i c h, nth_error gs i = Some (Call c h) -> ~ alters w c (TheByte (mkA i0 false q))).
  { intros i0 q Z No i c h E. destruct (work_asks w b i c h K (P i _ E)) as [(xs & k & _ & -> & _)|[(xs & k & ys & z & zs & _ & -> & _ & Z' & _)|[(j & xs & r & d & -> & _ & -> & _)|(-> & -> & _ & Fl & _)]]]; cbn [alters]; [tauto| | |].
    - intros Y. injection Y as -> _. destruct No as [No| ->]; [exact (No _ _ E)|]. apply (proj1 (Z eq_refl)). apply Z'. reflexivity.
    - intros (q0 & _ & Y). injection Y as -> _. destruct No as [No|No]; [exact (No _ _ E)|discriminate No].
    - intros (q0 & _ & Y). injection Y as -> _. destruct (Z eq_refl) as (_ & Lf). lia. }
  split; [|split].
  - intros j s Is. destruct (Fi j s Is) as (xs & r & F1 & -> & F3 & F4 & F5). exists xs, r. cbn [slen base]. split; [exact F1|]. split; [reflexivity|]. intros q Lq. cbn [shift lib num who].
    split; [apply F4, Lq|]. split; [reflexivity|]. split; [lia|]. apply Al; [discriminate|]. left. cbn [base who shift]. intros c h Y. rewrite F5 in Y. discriminate Y.
  - intros s Es Lf. destruct (K s Es) as (-> & K2 & K3). specialize (K3 Lf). cbn [slen base]. split; [reflexivity|]. intros q Lq. cbn [shift lib num who].
    split; [apply K3, Lq|]. split; [reflexivity|]. split; [lia|]. apply Al; [intros _; split; [congruence|exact Lf]|]. right. reflexivity.
  - intros E0. pose proof (P O _ E0) as A. remember Finish as g eqn:EE in A.
    destruct A as [A B|xs k T0 A B|xs k ys zs T0 A B C D|j xs r d E T0 A B C|E A|E A B]; [|discriminate EE| |discriminate E|discriminate EE|discriminate EE].
    + destruct (A eq_refl) as (A1 & _ & A3). destruct (key_at b) as [s|] eqn:Es; [|contradiction]. destruct (K s Es) as (-> & K2 & _). exists (own (length key) 0). split; [reflexivity|].
      cbn [slen base]. split; [reflexivity|]. intros q Lq. cbn [shift lib num who]. split; [apply A3, Lq|]. split; [reflexivity|]. lia.
    + destruct zs; [|discriminate EE]. cbn [fills task] in *. injection T0 as <- <-. discriminate EE.
Qed.

(** Ends. *)
Definition over (v : worker table) : Prop := stands_at v = Between Finish.
Lemma work_sync w b i f : key_ok w b -> at_work w b i (Sync f) -> (i = O -> key_at b = None \/ length (finished b) = length ms) -> (i <> O -> key_at b <> None) -> exists r, f O b = Some r.
Proof.
  intros K A Z Z'. remember (Sync f) as g eqn:EE in A. destruct A as [A B|xs k T A B|xs k ys zs T A B C D|j xs r d E T A B C|E A|E A B]; [discriminate EE|discriminate EE| | | |discriminate EE].
  - destruct zs as [|z zs]; [cbn [fills] in EE|discriminate EE]. destruct i as [|j]; cbn [task] in T.
    + injection T as <- <-. unfold lays_out in EE. injection EE as <-. eexists. reflexivity.
    + destruct (nth_error ms j); [|discriminate T]. injection T as <- <-. unfold waits_for_key in EE. injection EE as <-. specialize (Z' ltac:(discriminate)).
      destruct (key_at b); [eexists; reflexivity|contradiction].
  - destruct r as [|r]; [|discriminate EE]. cbn [xors] in EE. unfold hands_in in EE. injection EE as <-. eexists. reflexivity.
  - unfold waits_for_all in EE. injection EE as <-. destruct (Z E) as [Z0|Z0]; [contradiction|]. rewrite Z0, Nat.eqb_refl. eexists. reflexivity.
Qed.
Lemma finish_in w b j : at_work w b (S j) Finish -> exists s, In (j, s) (finished b).
Proof.
  intros A. remember Finish as g eqn:EE in A. destruct A as [A B|xs k T0 A B|xs k ys zs T0 A B C D|j0 xs r d E T0 A B C|E A|E A B]; [apply B; reflexivity|discriminate EE| |destruct r; discriminate EE|discriminate E|discriminate E].
  destruct zs; [|discriminate EE]. cbn [fills] in EE. destruct (task_sync _ _ _ (own (length xs) (S j)) T0) as (f & Ef). congruence.
Qed.
Lemma pad_moves m b ws : leads do_ask (started empty_table (office key ms)) (m, b, ws) -> (exists q, moves1 do_ask (m, b, ws) q) \/ forall i v, nth_error ws i = Some v -> over v.
Proof.
  intros L. destruct (all_stand _ _ pad_synchronised m b ws L) as [M|Al]; [left; exact M|].
  destruct (follows _ _ pad_synchronised m b ws L) as (w & gs & bb & T & R). apply order_all in T. destruct T as (K & Fi & Nd & Ln & P).
  assert (At : forall i v f, nth_error ws i = Some v -> stands_at v = Between (Sync f) -> (i = O -> key_at b = None \/ length (finished b) = length ms) -> (i <> O -> key_at b <> None) -> exists q, moves1 do_ask (m, b, ws) q).
  { intros i [st u] f E X Z Z'. cbn [stands_at] in X. subst st. destruct (rl_at _ _ _ _ _ R i _ E) as (g & Eg & H). cbn [stands_at] in H. destruct H as (-> & _).
    destruct (work_sync w b i f K (P i _ Eg) Z Z') as ([b' g'] & Ef). eexists. eapply Syncs; [exact E|exact Ef]. }
  pose proof (rl_len _ _ _ _ _ R) as Lw. destruct ws as [|v0 l]; [cbn [length] in Lw; lia|].
  assert (Y : key_at b <> None -> (exists q, moves1 do_ask (m, b, v0 :: l) q) \/ forall v, In v l -> over v).
  { intros Kb. assert (Y : forall l', incl l' l -> (exists q, moves1 do_ask (m, b, v0 :: l) q) \/ forall v, In v l' -> over v).
    { induction l' as [|v l' IH]; intros Hl; [right; intros v []|]. pose proof (Hl v (or_introl eq_refl)) as Iv. destruct (Al v (or_intror Iv)) as [Xv|(f & Xv)].
      - destruct IH as [M|IH]; [intros v' Iv'; apply Hl; right; exact Iv'|left; exact M|right]. intros v' [<-|Iv']; [exact Xv|apply IH, Iv'].
      - left. destruct (In_nth_error _ _ Iv) as (i & E). apply (At (S i) v f E Xv); [discriminate|intros _; exact Kb]. }
    apply Y, incl_refl. }
  destruct (Al v0 (or_introl eq_refl)) as [X|(f & X)].
  - assert (Kb : key_at b <> None).
    { destruct (rl_at _ _ _ _ _ R O v0 eq_refl) as (g & Eg & H). rewrite X in H. destruct H as (-> & _). pose proof (P O _ Eg) as A. remember Finish as g eqn:EE in A.
      destruct A as [A B|xs k T0 A B|xs k ys zs T0 A B C D|j xs r d E T0 A B C|E A|E A B]; [apply A; reflexivity|discriminate EE| |discriminate E|discriminate EE|discriminate EE].
      destruct zs; [|discriminate EE]. cbn [fills task] in *. injection T0 as <- <-. discriminate EE. }
    destruct (Y Kb) as [M|Y']; [left; exact M|right]. intros [|i] v E; cbn [nth_error] in E; [injection E as <-; exact X|apply Y', (nth_error_In _ _ E)].
  - left. destruct (key_at b) as [s|] eqn:Es; [|apply (At O v0 f eq_refl X); [left; reflexivity|contradiction]].
    destruct Y as [M|Y']; [discriminate|exact M|]. apply (At O v0 f eq_refl X); [|contradiction]. intros _. right.
    pose proof (at_most w b gs Fi Nd) as Am. enough (length ms <= length (finished b))%nat by lia. apply (all_out b Nd). intros j Lj.
    cbn [length] in Lw. destruct (nth_error l j) as [v|] eqn:Ev; [|apply nth_error_None in Ev; lia].
    destruct (rl_at _ _ _ _ _ R (S j) v Ev) as (g & Eg & H). rewrite (Y' v (nth_error_In _ _ Ev)) in H. destruct H as (-> & _). exact (finish_in w b j (P _ _ Eg)).
Qed.
Lemma pad_over m b ws : leads do_ask (started empty_table (office key ms)) (m, b, ws) -> (forall i v, nth_error ws i = Some v -> over v) ->
  length ws = S (length ms) /\ forall j x, nth_error ms j = Some x -> exists s, In (j, s) (finished b).
Proof.
  intros L O'. destruct (follows _ _ pad_synchronised m b ws L) as (w & gs & bb & T & R). apply order_all in T. destruct T as (K & _ & _ & Ln & P).
  pose proof (rl_len _ _ _ _ _ R) as Lw. split; [congruence|]. intros j x Ej. assert (Hj : (j < length ms)%nat) by (apply nth_error_Some; congruence).
  destruct (nth_error ws (S j)) as [v|] eqn:Ev; [|apply nth_error_None in Ev; lia]. destruct (rl_at _ _ _ _ _ R _ _ Ev) as (g & Eg & H). rewrite (O' _ _ Ev) in H. destruct H as (-> & _).
  exact (finish_in w b j (P _ _ Eg)).
Qed.
Lemma pad_ends m b ws : leads do_ask (started empty_table (office key ms)) (m, b, ws) ->
  exists m' b' ws', leads do_ask (m, b, ws) (m', b', ws') /\ forall i v, nth_error ws' i = Some v -> over v.
Proof.
  intros L. destruct (comes_to_stand (m, b, ws) (fun q => forall i v, nth_error (snd q) i = Some v -> over v)) as ([[m' b'] ws'] & L' & F).
  - intros [[m1 b1] ws1] L1. destruct (pad_moves m1 b1 ws1 (leads_trans _ _ _ L L1)) as [M|F]; [right; exact M|left; exact F].
  - exists m', b', ws'. split; [exact L'|exact F].
Qed.
End Pad.
