(** Which memory the functions of Model/BytesAtom.v use, and that alone they are
    those of Model/Bytes.v. *)
From Verif Require Import Base.Go Base.Mem Base.Goroutine Base.BytesUse Spec.BytesUseSpec.
From Verif Require Import Proofs.GoroutineProofs Proofs.ShareProofs.
From Verif Require Model.Bytes Model.BytesAtom.
Import Model.BytesAtom.
Local Open Scope N_scope.

Lemma sub_inv s i j z : sub s i j = Ret z -> off z = (off s + i)%nat /\ len z = (j - i)%nat /\ (i <= j <= len s)%nat.
Proof.
  unfold sub. destruct (Nat.leb_spec i j), (Nat.leb_spec j (len s)); cbn [andb]; intros E; try discriminate. injection E as <-.
  cbn [off len]. auto.
Qed.
Lemma keeps_lift {A B} R W (x : outcome A) (f : A -> code B) : (forall y, x = Ret y -> keeps R W (f y)) -> keeps R W (thenc (lift x) f).
Proof. destruct x; cbn [lift thenc keeps]; auto. Qed.

(** ** Memory used *)

Section Uses.
Context (R W : addr -> Prop).
(** The first [n] bytes may be read; may be written. *)
Definition rd (s : slice) (n : nat) : Prop := forall i, (i < len s)%nat -> (i < n)%nat -> R (cell (off s + i)) \/ W (cell (off s + i)).
Definition wr (s : slice) (n : nat) : Prop := forall i, (i < len s)%nat -> (i < n)%nat -> W (cell (off s + i)).
Lemma wr_rd s n : wr s n -> rd s n.
Proof. intros H i H1 H2. right. apply H; assumption. Qed.
Lemma rd_sub s n i j z k : sub s i j = Ret z -> rd s n -> (i + k <= n)%nat -> rd z k.
Proof. intros E H L x H1 H2. apply sub_inv in E as (-> & E2 & E3). rewrite <- Nat.add_assoc. apply H; lia. Qed.
Lemma wr_sub s n i j z k : sub s i j = Ret z -> wr s n -> (i + k <= n)%nat -> wr z k.
Proof. intros E H L x H1 H2. apply sub_inv in E as (-> & E2 & E3). rewrite <- Nat.add_assoc. apply H; lia. Qed.
Lemma rd_all_sub s i j z : sub s i j = Ret z -> rd s (len s) -> rd z (len z).
Proof. intros E H x H1 H2. pose proof (sub_inv _ _ _ _ E) as (-> & E2 & E3). rewrite <- Nat.add_assoc. apply H; lia. Qed.
Lemma rd_more s n k : rd s n -> (k <= n)%nat -> rd s k.
Proof. intros H L i H1 H2. apply H; lia. Qed.
Lemma wr_more s n k : wr s n -> (k <= n)%nat -> wr s k.
Proof. intros H L i H1 H2. apply H; lia. Qed.
Lemma rd_all s n : rd s (len s) -> rd s n.
Proof. intros H i H1 H2. apply H; lia. Qed.

Lemma shift_cell x i : shift (cell x) i = cell (x + i).
Proof. reflexivity. Qed.

(** Results of code that keeps to its memory. *)
Fixpoint gives {A} (P : A -> Prop) (c : code A) : Prop :=
  match c with
  | Return x => P x
  | Crash => True
  | Get a k => (R a \/ W a) /\ forall v, gives P (k v)
  | Put a v k => W a /\ gives P k
  | New _ _ _ => False
  end.
Lemma gives_then {A B} (P : A -> Prop) (Q : B -> Prop) (c : code A) (f : A -> code B) :
  gives P c -> (forall x, P x -> gives Q (f x)) -> gives Q (thenc c f).
Proof.
  induction c as [x| |a k IH|a v k IH|l n k IH]; cbn [gives thenc]; intros K F; auto.
  - split; [apply K|]. intros v. apply IH; [apply K|exact F].
  - split; [apply K|]. apply IH; [apply K|exact F].
Qed.
Lemma gives_more {A} (P Q : A -> Prop) (c : code A) : (forall x, P x -> Q x) -> gives P c -> gives Q c.
Proof.
  intros PQ. induction c as [x| |a k IH|a v k IH|l n k IH]; cbn [gives]; auto.
  - intros [H1 H2]. split; [exact H1|]. intros v. apply IH, H2.
  - intros [H1 H2]. split; [exact H1|apply IH, H2].
Qed.
Definition any {A} (x : A) : Prop := True.
Lemma gives_keeps {A} (P : A -> Prop) c : gives P c -> keeps R W c.
Proof.
  induction c as [x| |a k IH|a v k IH|l n k IH]; cbn [gives keeps]; auto.
  - intros [H1 H2]. split; [exact H1|]. intros v. apply IH, H2.
  - intros [H1 H2]. split; [exact H1|apply IH, H2].
Qed.
Lemma gives_lift {A B} Q (x : outcome A) (f : A -> code B) : (forall y, x = Ret y -> gives Q (f y)) -> gives Q (thenc (lift x) f).
Proof. destruct x; cbn [lift thenc gives]; auto. Qed.

Lemma load_gives s n i : rd s n -> (i < n)%nat -> gives any (load s i).
Proof. intros H L. unfold load. destruct (Nat.ltb_spec i (len s)); [|exact Logic.I]. split; [apply H; lia|intros; exact Logic.I]. Qed.
Lemma store_gives s n i v : wr s n -> (i < n)%nat -> gives any (store s i v).
Proof. intros H L. unfold store. destruct (Nat.ltb_spec i (len s)); [|exact Logic.I]. split; [apply H; lia|exact Logic.I]. Qed.
Lemma check_gives s i : gives any (check s i).
Proof. unfold check. destruct (Nat.ltb i (len s)); exact Logic.I. Qed.
Lemma gets_gives n : forall a, (forall i, (i < n)%nat -> R (shift a i) \/ W (shift a i)) -> gives (fun xs => length xs = n) (gets a n).
Proof.
  induction n as [|n IH]; intros a H; [reflexivity|]. cbn [gets]. apply (gives_then any).
  - split; [|intros v; exact Logic.I]. rewrite <- (shift_0 a). apply H. lia.
  - intros v _. apply (gives_then (fun xs => length xs = n)).
    + apply IH. intros i Hi. rewrite shift_shift. apply H. lia.
    + intros xs E. cbn [gives length]. rewrite E. reflexivity.
Qed.
Lemma sets_gives vs : forall a, (forall i, (i < length vs)%nat -> W (shift a i)) -> gives any (sets a vs).
Proof.
  induction vs as [|v vs IH]; intros a H; [exact Logic.I|]. cbn [sets]. cbn [length] in H. apply (gives_then any).
  - split; [|exact Logic.I]. rewrite <- (shift_0 a). apply H. lia.
  - intros _ _. apply IH. intros i Hi. rewrite shift_shift. apply H. lia.
Qed.
Lemma copy_gives d s : wr d (len s) -> rd s (len d) -> gives any (copy d s).
Proof.
  intros Hd Hs. unfold copy. apply (gives_then (fun xs => length xs = Nat.min (len d) (len s))).
  - apply gets_gives. intros i Hi. rewrite shift_cell. apply Hs; lia.
  - intros xs E. apply sets_gives. intros i Hi. rewrite shift_cell. apply Hd; lia.
Qed.
Lemma copy_text_gives d text : wr d (len d) -> gives any (copy_text d text).
Proof.
  intros H. apply sets_gives. intros i Hi. rewrite firstn_length in Hi. rewrite shift_cell. apply H; lia.
Qed.
Ltac step := first [apply (gives_then any); [|intros ? _] | exact Logic.I].
Ltac loads s n := first [apply (load_gives s n); [assumption|lia] | apply (store_gives s n); [assumption|lia] | apply check_gives].
Lemma le_uint16_gives s : rd s 2 -> gives any (le_uint16 s).
Proof. intros H. unfold le_uint16. repeat (step; [loads s 2%nat|]). exact Logic.I. Qed.
Lemma be_uint16_gives s : rd s 2 -> gives any (be_uint16 s).
Proof. intros H. unfold be_uint16. repeat (step; [loads s 2%nat|]). exact Logic.I. Qed.
Lemma le_uint32_gives s : rd s 4 -> gives any (le_uint32 s).
Proof. intros H. unfold le_uint32. repeat (step; [loads s 4%nat|]). exact Logic.I. Qed.
Lemma be_uint32_gives s : rd s 4 -> gives any (be_uint32 s).
Proof. intros H. unfold be_uint32. repeat (step; [loads s 4%nat|]). exact Logic.I. Qed.
Lemma le_put16_gives s v : wr s 2 -> gives any (le_put16 s v).
Proof. intros H. unfold le_put16. repeat (step; [loads s 2%nat|]). loads s 2%nat. Qed.
Lemma be_put16_gives s v : wr s 2 -> gives any (be_put16 s v).
Proof. intros H. unfold be_put16. repeat (step; [loads s 2%nat|]). loads s 2%nat. Qed.
Lemma le_put32_gives s v : wr s 4 -> gives any (le_put32 s v).
Proof. intros H. unfold le_put32. repeat (step; [loads s 4%nat|]). loads s 4%nat. Qed.
Lemma be_put32_gives s v : wr s 4 -> gives any (be_put32 s v).
Proof. intros H. unfold be_put32. repeat (step; [loads s 4%nat|]). loads s 4%nat. Qed.

Lemma zero_loop_gives fuel : forall t, wr t (len t) -> gives any (zero_loop fuel t).
Proof.
  induction fuel as [|fuel IH]; intros t H; cbn [zero_loop]; destruct (Nat.ltb 8 (len t)); try exact Logic.I; try (apply copy_text_gives, H).
  step; [apply copy_text_gives, H|]. apply gives_lift. intros z E. apply IH.
  apply (wr_sub t (len t) 8 (len t) z); [exact E|exact H|]. apply sub_inv in E. lia.
Qed.
Lemma Zero_gives t : wr t (len t) -> gives any (Zero t).
Proof. apply zero_loop_gives. Qed.
Lemma xor_loop_gives d o n : wr d n -> rd o n -> forall k i, (i + k <= n)%nat -> gives any (xor_loop k i d o).
Proof.
  intros Hd Ho. induction k as [|k IH]; intros i L; cbn [xor_loop]; [exact Logic.I|].
  step; [apply (load_gives d n); [apply wr_rd, Hd|lia]|]. step; [apply (load_gives o n); [exact Ho|lia]|].
  step; [apply (store_gives d n); [exact Hd|lia]|]. apply IH. lia.
Qed.
Lemma XorEq_gives d o : wr d (len o) -> rd o (len d) -> gives any (XorEq d o).
Proof.
  intros Hd Ho. unfold XorEq. step; [|exact Logic.I].
  apply (xor_loop_gives d o (Nat.min (len d) (len o))); [apply (wr_more _ _ _ Hd); lia|apply (rd_more _ _ _ Ho); lia|].
  destruct (Nat.ltb_spec (len o) (len d)); lia.
Qed.

Lemma padLE_gives d s n : wr d n -> rd s (len s) -> gives any (padLE d s n).
Proof.
  intros Hd Hs. unfold padLE. destruct (Nat.ltb_spec (len d) n); [exact Logic.I|].
  destruct (_ && _)%bool; [exact Logic.I|].
  assert (L : ((if Nat.ltb (len s) n then len s else n) <= n)%nat) by (destruct (Nat.ltb_spec (len s) n); lia).
  set (sn := if Nat.ltb (len s) n then len s else n) in *.
  apply gives_lift. intros z Ez. pose proof (sub_inv _ _ _ _ Ez) as (_ & E2 & E3).
  step; [apply copy_gives; [apply (wr_more _ _ _ Hd); lia|apply rd_all, (rd_all_sub _ _ _ _ Ez Hs)]|].
  destruct (Nat.ltb_spec sn n); [|exact Logic.I].
  apply gives_lift. intros t Et. pose proof (sub_inv _ _ _ _ Et) as (_ & F2 & F3).
  step; [|exact Logic.I]. apply Zero_gives, (wr_sub _ _ _ _ _ _ Et Hd). lia.
Qed.
(** copy takes all of src. *)
Lemma padBE_gives d s n : wr d (Nat.max n (len s)) -> rd s (len s) -> gives any (padBE d s n).
Proof.
  intros Hd Hs. unfold padBE. destruct (Nat.ltb_spec (len d) n); [exact Logic.I|].
  assert (L : ((if Nat.ltb (len s) n then len s else n) = Nat.min (len s) n)) by (destruct (Nat.ltb_spec (len s) n); lia).
  rewrite L. step.
  - destruct (Nat.ltb_spec (Nat.min (len s) n) n); [|exact Logic.I].
    apply gives_lift. intros t Et. pose proof (sub_inv _ _ _ _ Et) as (_ & F2 & F3).
    apply Zero_gives, (wr_sub _ _ _ _ _ _ Et Hd). lia.
  - apply gives_lift. intros t Et. step; [|exact Logic.I]. apply copy_gives; [|apply rd_all, Hs].
    apply (wr_sub _ _ _ _ _ _ Et Hd). lia.
Qed.

Lemma acc32LE_gives b k : rd b (len b) -> forall i v, gives any (acc32LE k i b v).
Proof. intros H. induction k as [|k IH]; intros i v; cbn [acc32LE]; [exact Logic.I|]. step; [apply (load_gives b (S i)); [apply rd_all, H|lia]|apply IH]. Qed.
Lemma acc16LE_gives b k : rd b (len b) -> forall i v, gives any (acc16LE k i b v).
Proof. intros H. induction k as [|k IH]; intros i v; cbn [acc16LE]; [exact Logic.I|]. step; [apply (load_gives b (S i)); [apply rd_all, H|lia]|apply IH]. Qed.
Lemma acc32BE_gives b k : rd b (len b) -> forall i v, gives any (acc32BE k i b v).
Proof. intros H. induction k as [|k IH]; intros i v; cbn [acc32BE]; [exact Logic.I|]. step; [apply (load_gives b (S i)); [apply rd_all, H|lia]|apply IH]. Qed.
Lemma acc16BE_gives b k : rd b (len b) -> forall i v, gives any (acc16BE k i b v).
Proof. intros H. induction k as [|k IH]; intros i v; cbn [acc16BE]; [exact Logic.I|]. step; [apply (load_gives b (S i)); [apply rd_all, H|lia]|apply IH]. Qed.
Lemma addEq32LE_gives s b c : wr s 4 -> rd b (len b) -> gives any (addEq32LE s b c).
Proof.
  intros Hs Hb. unfold addEq32LE. step; [apply le_uint32_gives, wr_rd, Hs|]. step; [apply acc32LE_gives, Hb|].
  step; [apply le_put32_gives, Hs|exact Logic.I].
Qed.
Lemma addEq16LE_gives s b c : wr s 2 -> rd b (len b) -> gives any (addEq16LE s b c).
Proof.
  intros Hs Hb. unfold addEq16LE. step; [apply le_uint16_gives, wr_rd, Hs|]. step; [apply acc16LE_gives, Hb|].
  step; [apply le_put16_gives, Hs|exact Logic.I].
Qed.
Lemma addEq32BE_gives s b c : wr s 4 -> rd b (len b) -> gives any (addEq32BE s b c).
Proof.
  intros Hs Hb. unfold addEq32BE. step; [apply be_uint32_gives, wr_rd, Hs|]. step; [apply acc32BE_gives, Hb|].
  step; [apply be_put32_gives, Hs|exact Logic.I].
Qed.
Lemma addEq16BE_gives s b c : wr s 2 -> rd b (len b) -> gives any (addEq16BE s b c).
Proof.
  intros Hs Hb. unfold addEq16BE. step; [apply be_uint16_gives, wr_rd, Hs|]. step; [apply acc16BE_gives, Hb|].
  step; [apply be_put16_gives, Hs|exact Logic.I].
Qed.
Lemma empty_rd n : rd Bytes.empty n.
Proof. intros i Hi. cbn [Bytes.empty len] in Hi. lia. Qed.

Section Any.
Context (s : slice) (K : nat).
Hypothesis Hs : wr s (K * 4).
Lemma fullLE_gives k : forall j b c, (j + k = K)%nat -> rd b (len b) ->
  gives (fun '(k', j', b', _) => (j' + k' = K)%nat /\ rd b' (len b')) (fullLE k j s b c).
Proof.
  induction k as [|k IH]; intros j b c E Hb; cbn [fullLE]; [cbn [gives]; auto|].
  destruct (Nat.ltb 4 (len b)); [|cbn [gives]; auto].
  apply gives_lift. intros z Ez. apply (gives_then any).
  - apply addEq32LE_gives; [|exact Hb]. apply (wr_sub _ _ _ _ _ _ Ez Hs). lia.
  - intros c' _. apply gives_lift. intros b' Eb. apply IH; [lia|]. apply (rd_all_sub _ _ _ _ Eb Hb).
Qed.
Lemma restLE_gives k : forall j c, (j + k = K)%nat -> gives any (restLE k j s c).
Proof.
  induction k as [|k IH]; intros j c E; cbn [restLE]; [exact Logic.I|].
  apply gives_lift. intros z Ez. step.
  - apply addEq32LE_gives; [|apply empty_rd]. apply (wr_sub _ _ _ _ _ _ Ez Hs). lia.
  - apply IH. lia.
Qed.
Lemma addAnyLE_gives a b : rd a (len a) -> rd b (len b) -> gives any (addAnyLE s a b (K * 4)).
Proof.
  intros Ha Hb. unfold addAnyLE. step; [apply padLE_gives; assumption|]. destruct x; [exact Logic.I|].
  rewrite Nat.div_mul, Nat.mod_mul by lia.
  eapply gives_then; [apply fullLE_gives; [reflexivity|exact Hb]|]. intros [[[k j] b1] c1] [E Hb1].
  apply (gives_then (fun '(k', j', b', _) => (j' + k' = K)%nat /\ rd b' (len b'))).
  - destruct k as [|k]; [cbn [gives]; auto|]. destruct (Nat.ltb 0 (len b1)); [|cbn [gives]; auto].
    apply gives_lift. intros z Ez. apply (gives_then any).
    + apply addEq32LE_gives; [|exact Hb1]. apply (wr_sub _ _ _ _ _ _ Ez Hs). lia.
    + intros c' _. apply gives_lift. intros b' Eb. cbn [gives]. split; [lia|]. apply (rd_all_sub _ _ _ _ Eb Hb1).
  - intros [[[k' j'] b2] c2] [E2 Hb2]. step; [apply restLE_gives; exact E2|]. destruct x as [j3 c3].
    cbn [Nat.ltb Nat.leb]. cbn [thenc]. cbn [Nat.ltb Nat.leb]. exact Logic.I.
Qed.
Lemma fullBE_gives k : forall b c, (k <= K)%nat -> rd b (len b) ->
  gives (fun '(k', b', _) => (k' <= K)%nat /\ rd b' (len b')) (fullBE k s b c).
Proof.
  induction k as [|k IH]; intros b c E Hb; cbn [fullBE]; [cbn [gives]; auto with arith|].
  destruct (Nat.ltb 4 (len b)); [|cbn [gives]; auto].
  apply gives_lift. intros z Ez. apply gives_lift. intros t Et. apply (gives_then any).
  - apply addEq32BE_gives; [|apply (rd_all_sub _ _ _ _ Et Hb)]. apply (wr_sub _ _ _ _ _ _ Ez Hs). lia.
  - intros c' _. apply gives_lift. intros b' Eb. apply IH; [lia|]. apply (rd_all_sub _ _ _ _ Eb Hb).
Qed.
Lemma restBE_gives k : forall c, (k <= K)%nat -> gives any (restBE k s c).
Proof.
  induction k as [|k IH]; intros c E; cbn [restBE]; [exact Logic.I|].
  apply gives_lift. intros z Ez. step.
  - apply addEq32BE_gives; [|apply empty_rd]. apply (wr_sub _ _ _ _ _ _ Ez Hs). lia.
  - apply IH. lia.
Qed.
Lemma addAnyBE_gives a b : wr s (Nat.max (K * 4) (len a)) -> rd a (len a) -> rd b (len b) -> gives any (addAnyBE s a b (K * 4)).
Proof.
  intros Hp Ha Hb. unfold addAnyBE. step; [apply padBE_gives; assumption|]. destruct x; [exact Logic.I|].
  rewrite Nat.div_mul, Nat.mod_mul by lia.
  eapply gives_then; [apply fullBE_gives; [reflexivity|exact Hb]|]. intros [[k b1] c1] [E Hb1].
  apply (gives_then (fun '(k', b', _) => (k' <= K)%nat /\ rd b' (len b'))).
  - destruct k as [|k]; [cbn [gives]; auto|]. destruct (Nat.ltb 0 (len b1)); [|cbn [gives]; auto].
    apply gives_lift. intros z Ez. apply (gives_then any).
    + apply addEq32BE_gives; [|exact Hb1]. apply (wr_sub _ _ _ _ _ _ Ez Hs). lia.
    + intros c' _. apply gives_lift. intros b' Eb. cbn [gives]. split; [lia|]. apply (rd_all_sub _ _ _ _ Eb Hb1).
  - intros [[k' b2] c2] [E2 Hb2]. step; [apply restBE_gives; exact E2|].
    cbn [Nat.ltb Nat.leb]. cbn [thenc]. cbn [Nat.ltb Nat.leb]. exact Logic.I.
Qed.
End Any.

Lemma AddLE_gives w s a b : wr s (width_bytes w) -> rd a (len a) -> rd b (len b) -> gives any (AddLE w s a b).
Proof.
  intros Hs Ha Hb. destruct w; cbn [AddLE width_bytes] in *.
  - unfold Add16LE. step; [apply padLE_gives; assumption|]. destruct x; [exact Logic.I|]. step; [apply addEq16LE_gives; assumption|exact Logic.I].
  - unfold Add32LE. step; [apply padLE_gives; assumption|]. destruct x; [exact Logic.I|]. step; [apply addEq32LE_gives; assumption|exact Logic.I].
  - apply (addAnyLE_gives s 2); assumption.
  - apply (addAnyLE_gives s 4); assumption.
  - apply (addAnyLE_gives s 8); assumption.
  - apply (addAnyLE_gives s 16); assumption.
Qed.
Lemma AddBE_gives w s a b : wr s (Nat.max (width_bytes w) (len a)) -> rd a (len a) -> rd b (len b) -> gives any (AddBE w s a b).
Proof.
  intros Hs Ha Hb. assert (H : wr s (width_bytes w)) by (apply (wr_more _ _ _ Hs); lia). destruct w; cbn [AddBE width_bytes] in *.
  - unfold Add16BE. step; [apply padBE_gives; assumption|]. destruct x; [exact Logic.I|]. step; [apply addEq16BE_gives; assumption|exact Logic.I].
  - unfold Add32BE. step; [apply padBE_gives; assumption|]. destruct x; [exact Logic.I|]. step; [apply addEq32BE_gives; assumption|exact Logic.I].
  - apply (addAnyBE_gives s 2); assumption.
  - apply (addAnyBE_gives s 4); assumption.
  - apply (addAnyBE_gives s 8); assumption.
  - apply (addAnyBE_gives s 16); assumption.
Qed.
Lemma Add_gives p w s a b : wr s (add_reach p w a) -> rd a (len a) -> rd b (len b) -> gives any (Add p w s a b).
Proof.
  intros Hs Ha Hb. destruct p; cbn [add_reach] in Hs.
  - destruct w; cbn [Add]; try (apply AddLE_gives; assumption); cbn [width_bytes] in Hs.
    + step; [apply padLE_gives; assumption|]. step; [apply addEq16LE_gives; assumption|exact Logic.I].
    + step; [apply padLE_gives; assumption|]. step; [apply addEq32LE_gives; assumption|exact Logic.I].
  - destruct w; cbn [Add]; try (apply AddBE_gives; assumption); cbn [width_bytes] in Hs.
    + step; [apply padBE_gives; assumption|]. step; [apply addEq16BE_gives; [apply (wr_more _ _ _ Hs); lia|assumption]|exact Logic.I].
    + step; [apply padBE_gives; assumption|]. step; [apply addEq32BE_gives; [apply (wr_more _ _ _ Hs); lia|assumption]|exact Logic.I].
Qed.
End Uses.

(** ** Calls *)

Definition at_cells (P : nat -> Prop) (a : addr) : Prop := exists x, a = cell x /\ P x.
Lemma in_cells (P : nat -> Prop) x : P x -> at_cells P (cell x).
Proof. intros H. exists x. auto. Qed.

Lemma call_keeps (R W : nat -> Prop) c : (forall x, writes_to c x -> W x) -> (forall x, reads_from c x -> R x \/ W x) ->
  keeps (at_cells R) (at_cells W) (do_call c).
Proof.
  intros Hw Hr. apply (gives_keeps _ _ any).
  assert (Rd : forall s n, (forall x, first_of s n x -> R x \/ W x) -> rd (at_cells R) (at_cells W) s n).
  { intros s n H i H1 H2. destruct (H (off s + i)%nat) as [Q|Q]; [split; lia|left|right]; apply in_cells, Q. }
  assert (Wr : forall s n, (forall x, first_of s n x -> W x) -> wr (at_cells W) s n).
  { intros s n H i H1 H2. apply in_cells, H. split; lia. }
  destruct c as [t|d o|e w s a b|p w s a b|s j|s j v]; cbn [writes_to reads_from] in Hw, Hr; cbn [do_call].
  - apply (gives_then _ _ any); [apply Zero_gives, Wr, Hw|intros; exact Logic.I].
  - apply (gives_then _ _ any); [apply XorEq_gives; [apply Wr, Hw|apply Rd, Hr]|intros; exact Logic.I].
  - destruct e; (apply (gives_then _ _ any); [|intros; exact Logic.I]).
    + apply AddLE_gives; [apply Wr, Hw| |]; apply Rd; intros x Hx; apply Hr; auto.
    + apply AddBE_gives; [apply Wr, Hw| |]; apply Rd; intros x Hx; apply Hr; auto.
  - apply (gives_then _ _ any); [|intros; exact Logic.I].
    apply Add_gives; [apply Wr, Hw| |]; apply Rd; intros x Hx; apply Hr; auto.
  - apply (gives_then _ _ any); [|intros; exact Logic.I]. unfold load. destruct (Nat.ltb j (len s)); [|exact Logic.I].
    split; [|intros; exact Logic.I]. destruct (Hr _ eq_refl); [left|right]; apply in_cells; assumption.
  - apply (gives_then _ _ any); [|intros; exact Logic.I]. unfold store. destruct (Nat.ltb j (len s)); [|exact Logic.I].
    split; [|exact Logic.I]. apply in_cells, Hw. reflexivity.
Qed.
Lemma behave_keeps (R W : nat -> Prop) g : stays R W g -> keeps (at_cells R) (at_cells W) (behave g).
Proof.
  induction g as [|c k IH]; cbn [stays behave]; [intros _; exact Logic.I|]. intros (H1 & H2 & H3).
  apply keeps_then; [apply call_keeps; assumption|]. intros r. apply keeps_then; [apply IH, H3|intros; exact Logic.I].
Qed.

(** ** Alone *)

Section Alone.
Context (id : nat) (u : bool -> nat).
Definition runs {A B} (M : memory) (c : code A) (r : outcome B) (rel : A -> memory -> B -> Prop) : Prop :=
  match r with
  | Ret y => exists x M', alone id c M u = Some (x, M', u) /\ rel x M' y
  | _ => alone id c M u = None
  end.
Lemma runs_bind {A B A' B'} M (c : code A) (r : outcome B) rel (f : A -> code A') (g : B -> outcome B') rel' :
  runs M c r rel -> (forall x M' y, rel x M' y -> runs M' (f x) (g y) rel') -> runs M (thenc c f) (bind r g) rel'.
Proof.
  intros H F. destruct r as [y| |]; cbn [runs bind] in *.
  - destruct H as (x & M' & E & Rl). specialize (F x M' y Rl). unfold runs in *. destruct (g y).
    + destruct F as (x2 & M2 & E2 & R2). exists x2, M2. rewrite alone_then, E. auto.
    + rewrite alone_then, E. exact F.
    + rewrite alone_then, E. exact F.
  - rewrite alone_then, H. reflexivity.
  - rewrite alone_then, H. reflexivity.
Qed.
Lemma runs_ret {A B} M (x : A) (y : B) (rel : A -> memory -> B -> Prop) : rel x M y -> runs M (Return x) (Ret y) rel.
Proof. intros H. exists x, M. auto. Qed.

Definition agrees (M : memory) (m : mem) : Prop := forall n, M (cell n) = m n.
(** A value, the memory as it was; a new memory; both. *)
Definition val_of {A} (M : memory) (x : A) (M' : memory) (y : A) : Prop := M' = M /\ x = y.
Definition mem_of {A} (x : A) (M' : memory) (m : mem) : Prop := agrees M' m.
Definition both {A} (x : A) (M' : memory) (y : mem * A) : Prop := agrees M' (fst y) /\ x = snd y.

Lemma runs_lift {A} M (x : outcome A) : runs M (lift x) x (val_of M).
Proof. destruct x as [y| |]; cbn [lift runs alone]; try reflexivity. exists y, M. repeat split. Qed.
Lemma same_cell i j : same (cell i) (cell j) = Nat.eqb i j.
Proof. unfold same, cell. cbn [who lib num]. reflexivity. Qed.
Lemma put_agrees M m n v : agrees M m -> agrees (put M (cell n) v) (Mem.set m n v).
Proof. intros H x. unfold put, Mem.set. rewrite same_cell. destruct (Nat.eqb x n); [reflexivity|apply H]. Qed.
Lemma agrees_eq M m m' : agrees M m -> (forall a, m a = m' a) -> agrees M m'.
Proof. intros H E n. rewrite H. apply E. Qed.

Lemma load_runs M m s i : agrees M m -> runs M (load s i) (Mem.load m s i) (val_of M).
Proof.
  intros H. unfold load, Mem.load. destruct (Nat.ltb i (len s)); [|reflexivity]. cbn [runs get alone]. exists (M (cell (off s + i))), M.
  split; [reflexivity|]. split; [reflexivity|apply H].
Qed.
Lemma store_runs M m s i v : agrees M m -> runs M (store s i v) (Mem.store m s i v) mem_of.
Proof.
  intros H. unfold store, Mem.store. destruct (Nat.ltb i (len s)); [|reflexivity]. cbn [runs set alone]. exists tt, (put M (cell (off s + i)) v).
  split; [reflexivity|]. apply put_agrees, H.
Qed.
Lemma check_runs M m s i : agrees M m -> runs M (check s i) (Mem.load m s i) (fun _ M' _ => M' = M).
Proof.
  intros H. unfold check, Mem.load. destruct (Nat.ltb i (len s)); [|reflexivity]. exists tt, M. auto.
Qed.
Lemma gets_alone M m : agrees M m -> forall n x, alone id (gets (cell x) n) M u = Some (map (fun i => m (x + i)%nat) (seq 0 n), M, u).
Proof.
  intros H. induction n as [|n IH]; intros x; [reflexivity|]. cbn [gets]. rewrite alone_then. cbn [get alone]. rewrite alone_then.
  rewrite shift_cell, IH. cbn [alone seq map]. rewrite H. do 3 f_equal. f_equal; [f_equal; lia|].
  rewrite <- seq_shift, map_map. apply map_ext. intros i. f_equal. lia.
Qed.
Lemma sets_alone vs : forall M m x, agrees M m -> exists M', alone id (sets (cell x) vs) M u = Some (tt, M', u)
  /\ agrees M' (fun a => if (Nat.leb x a && Nat.ltb a (x + length vs))%bool then nth (a - x) vs 0 else m a).
Proof.
  induction vs as [|v vs IH]; intros M m x H.
  - exists M. split; [reflexivity|]. apply (agrees_eq _ m); [exact H|]. intros a. cbn [length].
    destruct (Nat.leb_spec x a), (Nat.ltb_spec a (x + 0)); cbn [andb]; reflexivity || lia.
  - cbn [sets]. destruct (IH (put M (cell x) v) (Mem.set m x v) (x + 1)%nat) as (M' & E & G); [apply put_agrees, H|].
    exists M'. split; [rewrite alone_then; cbn [set alone]; rewrite shift_cell; exact E|].
    apply (agrees_eq _ _ _ G). intros a. cbn [length]. unfold Mem.set.
    destruct (Nat.leb_spec (x + 1) a), (Nat.ltb_spec a (x + 1 + length vs)), (Nat.leb_spec x a), (Nat.ltb_spec a (x + S (length vs)));
      cbn [andb]; try lia; destruct (Nat.eqb_spec a x); try lia; try reflexivity.
    + replace (a - x)%nat with (S (a - (x + 1)))%nat by lia. reflexivity.
    + subst a. rewrite Nat.sub_diag. reflexivity.
Qed.
Lemma copy_runs M m d s : agrees M m -> runs M (copy d s) (Ret (Mem.copy m d s)) mem_of.
Proof.
  intros H. cbn [runs]. unfold copy. set (k := Nat.min (len d) (len s)).
  destruct (sets_alone (map (fun i => m (off s + i)%nat) (seq 0 k)) M m (off d) H) as (M' & E & G).
  exists tt, M'. split; [rewrite alone_then, (gets_alone M m H); exact E|].
  apply (agrees_eq _ _ _ G). intros a. unfold Mem.copy. fold k. rewrite map_length, seq_length.
  destruct (Nat.leb_spec (off d) a), (Nat.ltb_spec a (off d + k)); cbn [andb]; try reflexivity.
  rewrite (nth_indep _ 0 (m (off s + 0)%nat)) by (rewrite map_length, seq_length; lia).
  rewrite (map_nth (fun i => m (off s + i)%nat)). rewrite seq_nth by lia. reflexivity.
Qed.
Lemma copy_text_runs M m d text : agrees M m -> runs M (copy_text d text) (Ret (Mem.copy_text m d text)) mem_of.
Proof.
  intros H. cbn [runs]. unfold copy_text.
  destruct (sets_alone (firstn (len d) text) M m (off d) H) as (M' & E & G).
  exists tt, M'. split; [exact E|]. apply (agrees_eq _ _ _ G). intros a. unfold Mem.copy_text. rewrite firstn_length.
  destruct (Nat.leb_spec (off d) a), (Nat.ltb_spec a (off d + Nat.min (len d) (length text))); cbn [andb]; try reflexivity.
  rewrite <- (firstn_skipn (len d) text) at 2. rewrite app_nth1; [reflexivity|]. rewrite firstn_length. lia.
Qed.

(** Steps of a proof that follows the text of both. *)
Ltac val_step L := eapply runs_bind; [apply L; eassumption|]; intros ? ? ? [-> ->].
Ltac lift_step := eapply runs_bind; [apply runs_lift|]; intros ? ? ? [-> ->].
Ltac mem_step L := eapply runs_bind; [apply L; eassumption|]; intros ? ? ? ?.
Ltac both_step L := eapply runs_bind; [apply L; eassumption|]; intros ? ? [? ?] [? ->]; cbn [fst snd] in *.
Lemma runs_plain {A B B'} M (c : code A) (y : B) rel (f : A -> code B') {D} (g : outcome D) rel' :
  runs M c (Ret y) rel -> (forall x M', rel x M' y -> runs M' (f x) g rel') -> runs M (thenc c f) g rel'.
Proof.
  intros (x & M' & E & Rl) F. specialize (F x M' Rl). unfold runs in *. destruct g; [|rewrite alone_then, E; exact F|rewrite alone_then, E; exact F].
  destruct F as (x2 & M2 & E2 & R2). exists x2, M2. rewrite alone_then, E. auto.
Qed.
Lemma runs_last {A B A'} M (c : code A) (r : outcome B) rel (f : A -> code A') rel' :
  runs M c r rel -> (forall x M' y, rel x M' y -> runs M' (f x) (Ret y) rel') -> runs M (thenc c f) r rel'.
Proof.
  intros H F. destruct r as [y| |]; cbn [runs] in *; [|rewrite alone_then, H; reflexivity|rewrite alone_then, H; reflexivity].
  destruct H as (x & M' & E & Rl). destruct (F x M' y Rl) as (x2 & M2 & E2 & R2). exists x2, M2. rewrite alone_then, E. auto.
Qed.
Lemma runs_map {A B} M (c : code A) (r : outcome B) (rel rel' : A -> memory -> B -> Prop) :
  runs M c r rel -> (forall x M' y, rel x M' y -> rel' x M' y) -> runs M c r rel'.
Proof. intros H F. destruct r; cbn [runs] in *; auto. destruct H as (x & M' & E & Rl). exists x, M'. auto. Qed.

Lemma le_uint16_runs M m s : agrees M m -> runs M (le_uint16 s) (Mem.le_uint16 m s) (val_of M).
Proof. intros H. unfold le_uint16, Mem.le_uint16. repeat (val_step load_runs). apply runs_ret. split; reflexivity. Qed.
Lemma be_uint16_runs M m s : agrees M m -> runs M (be_uint16 s) (Mem.be_uint16 m s) (val_of M).
Proof. intros H. unfold be_uint16, Mem.be_uint16. repeat (val_step load_runs). apply runs_ret. split; reflexivity. Qed.
Lemma le_uint32_runs M m s : agrees M m -> runs M (le_uint32 s) (Mem.le_uint32 m s) (val_of M).
Proof. intros H. unfold le_uint32, Mem.le_uint32. repeat (val_step load_runs). apply runs_ret. split; reflexivity. Qed.
Lemma be_uint32_runs M m s : agrees M m -> runs M (be_uint32 s) (Mem.be_uint32 m s) (val_of M).
Proof. intros H. unfold be_uint32, Mem.be_uint32. repeat (val_step load_runs). apply runs_ret. split; reflexivity. Qed.
Ltac put_proof := eapply runs_bind; [apply check_runs; eassumption|]; intros ? ? ? ->; repeat (mem_step store_runs); apply store_runs; assumption.
Lemma le_put16_runs M m s v : agrees M m -> runs M (le_put16 s v) (Mem.le_put16 m s v) mem_of.
Proof. intros H. unfold le_put16, Mem.le_put16. put_proof. Qed.
Lemma be_put16_runs M m s v : agrees M m -> runs M (be_put16 s v) (Mem.be_put16 m s v) mem_of.
Proof. intros H. unfold be_put16, Mem.be_put16. put_proof. Qed.
Lemma le_put32_runs M m s v : agrees M m -> runs M (le_put32 s v) (Mem.le_put32 m s v) mem_of.
Proof. intros H. unfold le_put32, Mem.le_put32. put_proof. Qed.
Lemma be_put32_runs M m s v : agrees M m -> runs M (be_put32 s v) (Mem.be_put32 m s v) mem_of.
Proof. intros H. unfold be_put32, Mem.be_put32. put_proof. Qed.

Lemma zero_loop_runs fuel : forall M m t, agrees M m -> runs M (zero_loop fuel t) (Bytes.zero_loop fuel m t) mem_of.
Proof.
  induction fuel as [|fuel IH]; intros M m t H; cbn [zero_loop Bytes.zero_loop]; destruct (Nat.ltb 8 (len t)); try reflexivity;
    try (apply copy_text_runs, H).
  eapply runs_plain; [apply copy_text_runs, H|]. intros x M' H'. lift_step. apply IH, H'.
Qed.
Lemma Zero_runs M m t : agrees M m -> runs M (Zero t) (Bytes.Zero m t) mem_of.
Proof. apply zero_loop_runs. Qed.
Lemma xor_loop_runs d o k : forall i M m, agrees M m -> runs M (xor_loop k i d o) (Bytes.xor_loop k i m d o) mem_of.
Proof.
  induction k as [|k IH]; intros i M m H; cbn [xor_loop Bytes.xor_loop]; [apply runs_ret, H|].
  do 2 (val_step load_runs). mem_step store_runs. apply IH. assumption.
Qed.
Lemma XorEq_runs M m d o : agrees M m -> runs M (XorEq d o) (Bytes.XorEq m d o) both.
Proof. intros H. unfold XorEq, Bytes.XorEq. mem_step xor_loop_runs. apply runs_ret. split; [assumption|reflexivity]. Qed.
Lemma padLE_runs M m d s n : agrees M m -> runs M (padLE d s n) (Bytes.padLE m d s n) both.
Proof.
  intros H. unfold padLE, Bytes.padLE. destruct (Nat.ltb (len d) n); [apply runs_ret; split; [assumption|reflexivity]|].
  destruct (_ && _)%bool; [apply runs_ret; split; [assumption|reflexivity]|]. lift_step.
  eapply runs_plain; [apply copy_runs, H|]. intros x M' H'. destruct (Nat.ltb _ n); [|apply runs_ret; split; [assumption|reflexivity]].
  lift_step. unfold mem_of in H'. mem_step Zero_runs. apply runs_ret. split; [assumption|reflexivity].
Qed.
Lemma padBE_runs M m d s n : agrees M m -> runs M (padBE d s n) (Bytes.padBE m d s n) both.
Proof.
  intros H. unfold padBE, Bytes.padBE. destruct (Nat.ltb (len d) n); [apply runs_ret; split; [assumption|reflexivity]|].
  apply (runs_bind _ _ _ mem_of).
  - destruct (Nat.ltb _ n); [|apply runs_ret, H]. lift_step. apply Zero_runs, H.
  - intros x M' m' H'. lift_step. eapply runs_plain; [apply copy_runs, H'|]. intros x2 M2 H2. apply runs_ret. split; [exact H2|reflexivity].
Qed.

Lemma addEq8_runs M m s b c : agrees M m -> runs M (addEq8 s b c) (Bytes.addEq8 m s b c) both.
Proof.
  intros H. unfold addEq8, Bytes.addEq8. val_step load_runs. eapply (runs_bind _ _ _ (val_of M)).
  - destruct (Nat.ltb 0 (len b)); [apply load_runs, H|apply runs_ret; split; reflexivity].
  - intros ? ? ? [-> ->]. mem_step store_runs. apply runs_ret. split; [assumption|reflexivity].
Qed.
Lemma acc32LE_runs M m b k : agrees M m -> forall i v, runs M (acc32LE k i b v) (Bytes.acc32LE k i m b v) (val_of M).
Proof. intros H. induction k as [|k IH]; intros i v; cbn [acc32LE Bytes.acc32LE]; [apply runs_ret; split; reflexivity|]. val_step load_runs. apply IH. Qed.
Lemma acc16LE_runs M m b k : agrees M m -> forall i v, runs M (acc16LE k i b v) (Bytes.acc16LE k i m b v) (val_of M).
Proof. intros H. induction k as [|k IH]; intros i v; cbn [acc16LE Bytes.acc16LE]; [apply runs_ret; split; reflexivity|]. val_step load_runs. apply IH. Qed.
Lemma acc32BE_runs M m b k : agrees M m -> forall i v, runs M (acc32BE k i b v) (Bytes.acc32BE k i m b v) (val_of M).
Proof. intros H. induction k as [|k IH]; intros i v; cbn [acc32BE Bytes.acc32BE]; [apply runs_ret; split; reflexivity|]. val_step load_runs. apply IH. Qed.
Lemma acc16BE_runs M m b k : agrees M m -> forall i v, runs M (acc16BE k i b v) (Bytes.acc16BE k i m b v) (val_of M).
Proof. intros H. induction k as [|k IH]; intros i v; cbn [acc16BE Bytes.acc16BE]; [apply runs_ret; split; reflexivity|]. val_step load_runs. apply IH. Qed.
Lemma addEq32LE_runs M m s b c : agrees M m -> runs M (addEq32LE s b c) (Bytes.addEq32LE m s b c) both.
Proof.
  intros H. unfold addEq32LE, Bytes.addEq32LE. val_step le_uint32_runs. val_step acc32LE_runs. mem_step le_put32_runs.
  apply runs_ret. split; [assumption|reflexivity].
Qed.
Lemma addEq16LE_runs M m s b c : agrees M m -> runs M (addEq16LE s b c) (Bytes.addEq16LE m s b c) both.
Proof.
  intros H. unfold addEq16LE, Bytes.addEq16LE. val_step le_uint16_runs. val_step acc16LE_runs. mem_step le_put16_runs.
  apply runs_ret. split; [assumption|reflexivity].
Qed.
Lemma addEq32BE_runs M m s b c : agrees M m -> runs M (addEq32BE s b c) (Bytes.addEq32BE m s b c) both.
Proof.
  intros H. unfold addEq32BE, Bytes.addEq32BE. val_step be_uint32_runs. val_step acc32BE_runs. mem_step be_put32_runs.
  apply runs_ret. split; [assumption|reflexivity].
Qed.
Lemma addEq16BE_runs M m s b c : agrees M m -> runs M (addEq16BE s b c) (Bytes.addEq16BE m s b c) both.
Proof.
  intros H. unfold addEq16BE, Bytes.addEq16BE. val_step be_uint16_runs. val_step acc16BE_runs. mem_step be_put16_runs.
  apply runs_ret. split; [assumption|reflexivity].
Qed.

Definition full (x : nat * nat * slice * N) (M' : memory) (y : nat * mem * nat * slice * N) : Prop :=
  let '(k, m, j, b, c) := y in agrees M' m /\ x = (k, j, b, c).
Lemma fullLE_runs s k : forall j M m b c, agrees M m -> runs M (fullLE k j s b c) (Bytes.fullLE k j m s b c) full.
Proof.
  induction k as [|k IH]; intros j M m b c H; cbn [fullLE Bytes.fullLE]; [apply runs_ret; split; [assumption|reflexivity]|].
  destruct (Nat.ltb 4 (len b)); [|apply runs_ret; split; [assumption|reflexivity]].
  lift_step. both_step addEq32LE_runs. lift_step. apply IH. assumption.
Qed.
Lemma restLE_runs s k : forall j M m c, agrees M m -> runs M (restLE k j s c) (Bytes.restLE k j m s c)
  (fun x M' y => let '(m, j, c) := y in agrees M' m /\ x = (j, c)).
Proof.
  induction k as [|k IH]; intros j M m c H; cbn [restLE Bytes.restLE]; [apply runs_ret; split; [assumption|reflexivity]|].
  lift_step. both_step addEq32LE_runs. apply IH. assumption.
Qed.
Definition sums (x : N * option Bytes.error) (M' : memory) (y : mem * N * option Bytes.error) : Prop :=
  let '(m, c, e) := y in agrees M' m /\ x = (c, e).
Lemma addAnyLE_runs M m s a b n : agrees M m -> runs M (addAnyLE s a b n) (Bytes.addAnyLE m s a b n) sums.
Proof.
  intros H. unfold addAnyLE, Bytes.addAnyLE. both_step padLE_runs. destruct o as [e|]; [apply runs_ret; split; [assumption|reflexivity]|].
  eapply runs_bind; [apply fullLE_runs; eassumption|]. intros ? M1 [[[[k m1] j] b1] c1] [H1 ->].
  apply (runs_bind _ _ _ full).
  { destruct k as [|k]; [apply runs_ret; split; [assumption|reflexivity]|].
    destruct (Nat.ltb 0 (len b1)); [|apply runs_ret; split; [assumption|reflexivity]].
    lift_step. both_step addEq32LE_runs. lift_step. apply runs_ret. split; [assumption|reflexivity]. }
  intros ? M2 [[[[k2 m2] j2] b2] c2] [H2 ->].
  eapply runs_bind; [apply restLE_runs; eassumption|]. intros ? M3 [[m3 j3] c3] [H3 ->].
  apply (runs_bind _ _ _ (fun x M' y => let '(m, b, c, n, i) := y in agrees M' m /\ x = (b, c, n, i))).
  { destruct (Nat.ltb 1 (n mod 4)); [|apply runs_ret; split; [assumption|reflexivity]].
    lift_step. both_step addEq16LE_runs. lift_step. apply runs_ret. split; [assumption|reflexivity]. }
  intros ? M4 [[[[m4 b4] c4] n4] i4] [H4 ->]. apply (runs_bind _ _ _ both).
  { destruct (Nat.ltb 0 i4); [|apply runs_ret; split; [assumption|reflexivity]]. lift_step. apply addEq8_runs, H4. }
  intros ? M5 [m5 c5] [H5 ->]. apply runs_ret. split; [assumption|reflexivity].
Qed.

Definition fullb (x : nat * slice * N) (M' : memory) (y : nat * mem * slice * N) : Prop :=
  let '(k, m, b, c) := y in agrees M' m /\ x = (k, b, c).
Lemma fullBE_runs s k : forall M m b c, agrees M m -> runs M (fullBE k s b c) (Bytes.fullBE k m s b c) fullb.
Proof.
  induction k as [|k IH]; intros M m b c H; cbn [fullBE Bytes.fullBE]; [apply runs_ret; split; [assumption|reflexivity]|].
  destruct (Nat.ltb 4 (len b)); [|apply runs_ret; split; [assumption|reflexivity]].
  do 2 lift_step. both_step addEq32BE_runs. lift_step. apply IH. assumption.
Qed.
Lemma restBE_runs s k : forall M m c, agrees M m -> runs M (restBE k s c) (Bytes.restBE k m s c) both.
Proof.
  induction k as [|k IH]; intros M m c H; cbn [restBE Bytes.restBE]; [apply runs_ret; split; [assumption|reflexivity]|].
  lift_step. both_step addEq32BE_runs. apply IH. assumption.
Qed.
Lemma addAnyBE_runs M m s a b n : agrees M m -> runs M (addAnyBE s a b n) (Bytes.addAnyBE m s a b n) sums.
Proof.
  intros H. unfold addAnyBE, Bytes.addAnyBE. both_step padBE_runs. destruct o as [e|]; [apply runs_ret; split; [assumption|reflexivity]|].
  eapply runs_bind; [apply fullBE_runs; eassumption|]. intros ? M1 [[[k m1] b1] c1] [H1 ->].
  apply (runs_bind _ _ _ fullb).
  { destruct k as [|k]; [apply runs_ret; split; [assumption|reflexivity]|].
    destruct (Nat.ltb 0 (len b1)); [|apply runs_ret; split; [assumption|reflexivity]].
    lift_step. both_step addEq32BE_runs. lift_step. apply runs_ret. split; [assumption|reflexivity]. }
  intros ? M2 [[[k2 m2] b2] c2] [H2 ->].
  both_step restBE_runs.
  apply (runs_bind _ _ _ (fun x M' y => let '(m, b, c, i) := y in agrees M' m /\ x = (b, c, i))).
  { destruct (Nat.ltb 1 (n mod 4)); [|apply runs_ret; split; [assumption|reflexivity]].
    cbv zeta. lift_step. both_step addEq16BE_runs. lift_step. apply runs_ret. split; [assumption|reflexivity]. }
  intros ? M4 [[[m4 b4] c4] i4] [H4 ->]. apply (runs_bind _ _ _ both).
  { destruct (Nat.ltb 0 i4); [|apply runs_ret; split; [assumption|reflexivity]]. apply addEq8_runs, H4. }
  intros ? M5 [m5 c5] [H5 ->]. apply runs_ret. split; [assumption|reflexivity].
Qed.

Lemma AddLE_runs M m w s a b : agrees M m -> runs M (AddLE w s a b) (nth_add Bytes.le_functions w m s a b) sums.
Proof.
  intros H. destruct w; cbn [nth_add AddLE Bytes.le_functions nth snd]; try (apply addAnyLE_runs, H).
  - unfold Add16LE, Bytes.Add16LE. both_step padLE_runs. destruct o as [e|]; [apply runs_ret; split; [assumption|reflexivity]|].
    both_step addEq16LE_runs. apply runs_ret. split; [assumption|reflexivity].
  - unfold Add32LE, Bytes.Add32LE. both_step padLE_runs. destruct o as [e|]; [apply runs_ret; split; [assumption|reflexivity]|].
    both_step addEq32LE_runs. apply runs_ret. split; [assumption|reflexivity].
Qed.
Lemma AddBE_runs M m w s a b : agrees M m -> runs M (AddBE w s a b) (nth_add Bytes.be_functions w m s a b) sums.
Proof.
  intros H. destruct w; cbn [nth_add AddBE Bytes.be_functions nth snd]; try (apply addAnyBE_runs, H).
  - unfold Add16BE, Bytes.Add16BE. both_step padBE_runs. destruct o as [e|]; [apply runs_ret; split; [assumption|reflexivity]|].
    both_step addEq16BE_runs. apply runs_ret. split; [assumption|reflexivity].
  - unfold Add32BE, Bytes.Add32BE. both_step padBE_runs. destruct o as [e|]; [apply runs_ret; split; [assumption|reflexivity]|].
    both_step addEq32BE_runs. apply runs_ret. split; [assumption|reflexivity].
Qed.
Lemma Add_runs M m p w s a b : agrees M m -> runs M (Add p w s a b) (nth_add (Bytes.platform_functions p) w m s a b) sums.
Proof.
  intros H. destruct p.
  - destruct w; [| |exact (AddLE_runs M m W64 s a b H)|exact (AddLE_runs M m W128 s a b H)|exact (AddLE_runs M m W256 s a b H)|exact (AddLE_runs M m W512 s a b H)]; cbn [nth_add Add Bytes.platform_functions nth snd].
    + unfold Bytes.Add16. both_step padLE_runs. both_step addEq16LE_runs. apply runs_ret. split; [assumption|reflexivity].
    + unfold Bytes.Add32. both_step padLE_runs. both_step addEq32LE_runs. apply runs_ret. split; [assumption|reflexivity].
  - destruct w; [| |exact (AddBE_runs M m W64 s a b H)|exact (AddBE_runs M m W128 s a b H)|exact (AddBE_runs M m W256 s a b H)|exact (AddBE_runs M m W512 s a b H)]; cbn [nth_add Add Bytes.platform_functions nth snd].
    + unfold Bytes.Add16. both_step padBE_runs. both_step addEq16BE_runs. apply runs_ret. split; [assumption|reflexivity].
    + unfold Bytes.Add32. both_step padBE_runs. both_step addEq32BE_runs. apply runs_ret. split; [assumption|reflexivity].
Qed.
Lemma call_runs M m c : agrees M m -> runs M (do_call c) (whole_call m c) both.
Proof.
  intros H. destruct c as [t|d o|e w s a b|p w s a b|s j|s j v]; cbn [do_call whole_call].
  - mem_step Zero_runs. apply runs_ret. split; [assumption|reflexivity].
  - both_step XorEq_runs. apply runs_ret. split; [assumption|reflexivity].
  - destruct e; unfold added_at; (eapply runs_bind; [first [apply AddLE_runs, H|apply AddBE_runs, H]|]; intros ? M1 [[m1 c1] e1] [H1 ->]; apply runs_ret; split; [assumption|reflexivity]).
  - unfold added_at. eapply runs_bind; [apply Add_runs, H|]; intros ? M1 [[m1 c1] e1] [H1 ->]; apply runs_ret; split; [assumption|reflexivity].
  - val_step load_runs. apply runs_ret. split; [assumption|reflexivity].
  - mem_step store_runs. apply runs_ret. split; [assumption|reflexivity].
Qed.
End Alone.
Lemma behave_runs (id : nat) u g : forall M m, agrees M m -> runs id u M (behave g) (whole m g) both.
Proof.
  induction g as [|c k IH]; intros M m H; cbn [behave whole]; [apply runs_ret; split; [assumption|reflexivity]|].
  eapply runs_bind; [apply call_runs, H|]. intros r M1 [m1 r1] [H1 ->]. cbn [fst snd] in *.
  eapply runs_bind; [apply IH, H1|]. intros rs M2 [m2 rs2] [H2 ->]. cbn [fst snd] in *. apply runs_ret. split; [assumption|reflexivity].
Qed.
