(** Packages hex and codegen once more, as in HexAtomProofs.v, but with what may be
    read and written said address by address: they read the bytes of the slice
    they are given, and read and write memory they allocate. *)
From Verif Require Import Base.Go Base.HashUse Base.Goroutine Base.GoUse Base.LibUse.
From Verif Require Import Model.Hex Model.HashAtom Model.HexAtom Spec.HexSpec Spec.CodegenSpec Spec.GoUseSpec Spec.LibUseSpec.
From Verif Require Import Proofs.Util Proofs.HeapProofs Proofs.HexProofs Proofs.CodegenProofs Proofs.GoroutineProofs Proofs.HashAtomProofs Proofs.GoUseProofs Proofs.HexAtomProofs Proofs.AreaProofs Proofs.HashAreaProofs.
From Verif Require Model.Codegen.
Local Open Scope N_scope.

Local Coercion me : area >-> nat.
Section Filling.
Context (id : area) (a : addr) (n : nat) (m0 : memory) (u : bool -> nat) (Wa : owns id a n).

Lemma set_at_in i v l l' m (Q : unit -> memory -> (bool -> nat) -> Prop) : filling a n m0 l m -> upd l i v = Ret l' ->
  (forall m', filling a n m0 l' m' -> Q tt m' u) -> stays id (set_at a n i v) m u Q.
Proof.
  intros [El O] U H. apply (upd_copy 0 (Nat.le_0_l 10)) in U. destruct U as [-> L]. subst l. rewrite cells_length in L. unfold set_at.
  rewrite (proj2 (Nat.ltb_lt i n)) by lia. apply stays_set; [apply Wa; lia|]. intros m' O'. apply H. split.
  - apply cells_over_at; [exact O'|exact L].
  - apply (outside_trans _ _ _ m); [exact O|]. apply (outside_in a n i 1); [apply (over_outside _ _ _ _ O')|exact L].
Qed.
Lemma set_at_then_in {B} i v l l' m (f : unit -> code B) (Q : B -> memory -> (bool -> nat) -> Prop) : filling a n m0 l m -> upd l i v = Ret l' ->
  (forall m', filling a n m0 l' m' -> stays id (f tt) m' u Q) -> stays id (thenc (set_at a n i v) f) m u Q.
Proof. intros F U H. apply stays_then. apply (set_at_in i v l l' m _ F U H). Qed.

(** A slice somewhere else that is only read. *)
Context (h : addr) (xs : list N) (Mh : sees id h (length xs)) (Eh : cells m0 h (length xs) = xs)
  (D : forall j, (j < length xs)%nat -> within a n (shift h j) = false).
Lemma read_at_in i l m : filling a n m0 l m -> (i < length xs)%nat -> m (shift h i) = nth i xs 0.
Proof.
  intros [_ O] Hi. rewrite (O _ (D i Hi)). rewrite <- (nth_cells m0 h (length xs) i 0 Hi). rewrite Eh. reflexivity.
Qed.
Lemma from_loop_in cnt : forall i ptr l l' m, (i + cnt = length xs)%nat -> filling a n m0 l m ->
  Hex.fromBytes_loop (skipn i xs) ptr l = Ret l' ->
  stays id (fromBytes_loop h a n cnt i ptr) m u (fun _ m' u' => u' = u /\ filling a n m0 l' m').
Proof.
  induction cnt as [|cnt IH]; intros i ptr l l' m Hi F E.
  - rewrite skipn_all2 in E by lia. cbn [Hex.fromBytes_loop] in E. injection E as <-. cbn [fromBytes_loop stays]. auto.
  - rewrite skip_at in E by lia. cbn [Hex.fromBytes_loop fromBytes_loop] in *. apply bind_ret in E. destruct E as (hi & E1 & E). apply bind_ret in E. destruct E as (l1 & E2 & E).
    apply bind_ret in E. destruct E as (lo & E3 & E). apply bind_ret in E. destruct E as (l2 & E4 & E).
    apply stays_then, stays_get; [apply Mh; lia|]. rewrite (read_at_in i l m F) by lia. apply stays_then, (stays_lift _ _ _ _ _ _ E1).
    apply (set_at_then_in _ _ _ _ _ _ _ F E2). intros m1 F1.
    apply stays_then, stays_get; [apply Mh; lia|]. rewrite (read_at_in i l1 m1 F1) by lia. apply stays_then, (stays_lift _ _ _ _ _ _ E3).
    apply (set_at_then_in _ _ _ _ _ _ _ F1 E4). intros m2 F2. apply (IH (i + 1)%nat (ptr + 2)%nat l2 l' m2); [lia|exact F2|exact E].
Qed.
Ltac put_one F E := 
  let l := fresh "l" in let U := fresh "U" in apply bind_ret in E; destruct E as (l & U & E); apply (set_at_then_in _ _ _ _ _ _ _ F U); clear F U;
  let m := fresh "m" in intros m F.
Lemma string_loop_in cnt : forall i ptr l l' p m, (i + cnt = length xs)%nat -> filling a n m0 l m ->
  Codegen.string_loop (skipn i xs) i ptr l = Ret (l', p) ->
  stays id (string_loop h a n cnt i ptr) m u (fun q m' u' => q = p /\ u' = u /\ filling a n m0 l' m').
Proof.
  induction cnt as [|cnt IH]; intros i ptr l l' p m Hi F E.
  - rewrite skipn_all2 in E by lia. cbn [Codegen.string_loop] in E. injection E as <- <-. cbn [string_loop stays]. auto.
  - rewrite skip_at in E by lia. cbn [Codegen.string_loop string_loop] in *.
    apply stays_then, stays_get; [apply Mh; lia|]. rewrite (read_at_in i l m F) by lia.
    apply bind_ret in E. destruct E as ([l1 p1] & E1 & E). apply bind_ret in E. destruct E as (l2 & E2 & E).
    apply stays_seq with (P := fun q m' u' => q = p1 /\ u' = u /\ filling a n m0 l1 m').
    + destruct (Nat.even i).
      * put_one F E1. put_one F E1. injection E1 as <- <-. cbn [stays]. auto.
      * injection E1 as <- <-. cbn [stays]. auto.
    + intros q m' u' (-> & -> & F'). apply (set_at_then_in _ _ _ _ _ _ _ F' E2). intros m2 F2. apply (IH (i + 1)%nat (p1 + 1)%nat l2 l' p m2); [lia|exact F2|exact E].
Qed.
Lemma string_sep_loop_in hps cnt : forall i ptr l l' p m, (i + cnt = length xs)%nat -> filling a n m0 l m ->
  Codegen.string_sep_loop hps (skipn i xs) i ptr l = Ret (l', p) ->
  stays id (string_sep_loop hps h a n cnt i ptr) m u (fun q m' u' => q = p /\ u' = u /\ filling a n m0 l' m').
Proof.
  induction cnt as [|cnt IH]; intros i ptr l l' p m Hi F E.
  - rewrite skipn_all2 in E by lia. cbn [Codegen.string_sep_loop] in E. injection E as <- <-. cbn [string_sep_loop stays]. auto.
  - rewrite skip_at in E by lia. cbn [Codegen.string_sep_loop string_sep_loop] in *.
    apply stays_then, stays_get; [apply Mh; lia|]. rewrite (read_at_in i l m F) by lia.
    apply bind_ret in E. destruct E as ([l1 p1] & E1 & E). apply bind_ret in E. destruct E as (l2 & E2 & E).
    apply stays_seq with (P := fun q m' u' => q = p1 /\ u' = u /\ filling a n m0 l1 m').
    + destruct (Nat.even i).
      * apply bind_ret in E1. destruct E1 as ([l3 p3] & E3 & E1).
        apply stays_seq with (P := fun q m' u' => q = p3 /\ u' = u /\ filling a n m0 l3 m').
        -- destruct (Z.eqb (Z.rem (Z.of_nat i) hps) 0 && Nat.ltb 1 ptr)%bool.
           ++ put_one F E3. put_one F E3. put_one F E3. injection E3 as <- <-. cbn [stays]. auto.
           ++ injection E3 as <- <-. cbn [stays]. auto.
        -- intros q m' u' (-> & -> & F'). put_one F' E1. put_one F' E1. injection E1 as <- <-. cbn [stays]. auto.
      * injection E1 as <- <-. cbn [stays]. auto.
    + intros q m' u' (-> & -> & F'). apply (set_at_then_in _ _ _ _ _ _ _ F' E2). intros m2 F2. apply (IH (i + 1)%nat (p1 + 1)%nat l2 l' p m2); [lia|exact F2|exact E].
Qed.
Lemma hex_sep_loop_in hps cnt : forall i ptr l l' p m, (i + cnt = length xs)%nat -> filling a n m0 l m ->
  Codegen.hex_sep_loop hps (skipn i xs) i ptr l = Ret (l', p) ->
  stays id (hex_sep_loop hps h a n cnt i ptr) m u (fun q m' u' => q = p /\ u' = u /\ filling a n m0 l' m').
Proof.
  induction cnt as [|cnt IH]; intros i ptr l l' p m Hi F E.
  - rewrite skipn_all2 in E by lia. cbn [Codegen.hex_sep_loop] in E. injection E as <- <-. cbn [hex_sep_loop stays]. auto.
  - rewrite skip_at in E by lia. cbn [Codegen.hex_sep_loop hex_sep_loop] in *.
    apply stays_then, stays_get; [apply Mh; lia|]. rewrite (read_at_in i l m F) by lia.
    apply bind_ret in E. destruct E as ([l1 p1] & E1 & E). apply bind_ret in E. destruct E as (l2 & E2 & E).
    apply stays_seq with (P := fun q m' u' => q = p1 /\ u' = u /\ filling a n m0 l1 m').
    + destruct (Nat.even i).
      * apply bind_ret in E1. destruct E1 as ([l3 p3] & E3 & E1).
        apply stays_seq with (P := fun q m' u' => q = p3 /\ u' = u /\ filling a n m0 l3 m').
        -- destruct (Nat.ltb 1 ptr).
           ++ put_one F E3. put_one F E3. destruct (Z.eqb (Z.rem (Z.of_nat i) hps) 0).
              ** put_one F E3. injection E3 as <- <-. cbn [stays]. auto.
              ** injection E3 as <- <-. cbn [stays]. auto.
           ++ injection E3 as <- <-. cbn [stays]. auto.
        -- intros q m' u' (-> & -> & F'). put_one F' E1. put_one F' E1. injection E1 as <- <-. cbn [stays]. auto.
      * injection E1 as <- <-. cbn [stays]. auto.
    + intros q m' u' (-> & -> & F'). apply (set_at_then_in _ _ _ _ _ _ _ F' E2). intros m2 F2. apply (IH (i + 1)%nat (p1 + 1)%nat l2 l' p m2); [lia|exact F2|exact E].
Qed.
End Filling.

(** ** The functions that make a string *)

Lemma make_slice_in (id : area) l z zs m u (Q : addr * nat -> memory -> (bool -> nat) -> Prop) : ample id u -> make_bytes z = Ret zs ->
  (forall m', is_over m (mkA id l (u l)) zs m' -> Q (mkA id l (u l), length zs) m' (grow u l (length zs))) -> stays id (make_slice l z) m u Q.
Proof.
  intros Am E H. unfold make_slice. apply stays_then, (stays_lift _ _ _ _ _ _ E), stays_then, stays_new; [apply (ample_owns id u l (u l) _ Am), Nat.le_refl|]. intros m' O. cbn [stays]. apply H.
  unfold make_bytes in E. destruct (z <? 0)%Z; [discriminate|]. injection E as <-. rewrite repeat_length in O. exact O.
Qed.
Lemma ample_later (id : area) (u u' : bool -> nat) : ample id u -> (u true <= u' true)%nat -> u' false = u false -> ample id u'.
Proof. intros H L E y W N. apply H; [exact W|]. destruct (lib y); [|rewrite E in N]; lia. Qed.
Lemma quiet_ample (id : area) m u m' u' : ample id u -> quiet id m u m' u' -> ample id u'.
Proof. intros H (_ & L & E). apply (ample_later id u); assumption. Qed.

Lemma bytes_from_in (id : area) s m u : ample id u -> stays id (bytes_from s) m u (fun h m' u' => owns id h (length s) /\ who h = me id /\ lib h = true /\ cells m' h (length s) = s
  /\ (num h + length s <= u' true)%nat /\ quiet id m u m' u').
Proof.
  intros Am. unfold bytes_from. assert (Ow : owns id (mkA id true (u true)) (length s)) by (apply (ample_owns id u _ _ _ Am), Nat.le_refl).
  apply stays_then, stays_new; [exact Ow|]. intros m1 O1. apply stays_then, stays_sets; [exact Ow|]. intros m2 O2. cbn [stays].
  split; [exact Ow|]. split; [reflexivity|]. split; [reflexivity|]. split; [apply (cells_over_all _ _ _ _ O2)|].
  split; [rewrite grow_same; apply Nat.le_refl|]. destruct (quiet_new _ _ _ _ _ O1) as (S1 & L1 & E1). split; [|split; [exact L1|exact E1]].
  apply (scratched_trans _ _ _ m1); [exact S1|]. apply (outside_scratched id (mkA id true (u true)) (length s)); [apply (over_outside _ _ _ _ O2)|reflexivity|reflexivity|apply Nat.le_refl].
Qed.

(** A slice that may be read. *)
Definition source_in (id : area) (src : gslice) (m : memory) (xs : list N) : Prop :=
  sees id (base src) (slen src) /\ lib (base src) = false /\ cells m (base src) (slen src) = xs.
Lemma source_length_in (id : area) src m xs : source_in id src m xs -> length xs = slen src.
Proof. intros (_ & _ & <-). apply cells_length. Qed.

Lemma FromBytes_in (id : area) src m u xs s : ample id u -> source_in id src m xs -> Hex.FromBytes xs = Ret s ->
  stays id (FromBytes src) m u (fun t m' u' => t = s /\ quiet id m u m' u').
Proof.
  intros Am Sr E. pose proof (source_length_in _ _ _ _ Sr) as Ls. destruct Sr as (Mh & Lh & Eh). unfold Hex.FromBytes in E. apply bind_ret in E. destruct E as (zs & Ez & E).
  rewrite Ls in Ez. unfold FromBytes. apply stays_then, (make_slice_in _ _ _ _ _ _ _ Am Ez). intros m1 O1.
  pose proof O1 as O1'. rewrite (zero_zeros _ _ Ez) in O1'. pose proof (quiet_new _ _ _ _ _ O1') as Q1. set (a := mkA id true (u true)) in *.
  assert (Ow : owns id a (length zs)) by (apply (ample_owns id u _ _ _ Am), Nat.le_refl).
  assert (F1 : filling a (length zs) m1 zs m1) by (split; [apply (cells_over_all _ _ _ _ O1)|apply outside_refl]).
  assert (Eh1 : cells m1 (base src) (length xs) = xs) by (rewrite Ls, (quiet_cells _ _ _ _ _ _ _ Q1); [exact Eh|congruence]).
  assert (D : forall j, (j < length xs)%nat -> within a (length zs) (shift (base src) j) = false).
  { intros j _. apply within_not. unfold a. cbn [who lib num shift]. intros (_ & X & _). congruence. }
  rewrite <- Ls in Mh.
  eapply stays_seq; [apply (from_loop_in id a (length zs) m1 _ Ow (base src) xs Mh Eh1 D (slen src) 0 0 zs s m1); [cbn [Nat.add]; congruence|exact F1|exact E]|].
  cbn beta. intros _ m2 u2 (-> & F2). apply stays_gets; [apply owns_sees, Ow|]. split; [apply F2|].
  apply (quiet_filling _ _ _ _ _ _ _ _ _ Q1 F2 eq_refl eq_refl (Nat.le_refl _)).
Qed.

(** The part after h is made. *)
Lemma emit_in (id : area) s h m u z c0 c1 (lp : addr -> nat -> code nat) (f : list N -> outcome (list N * nat)) t :
  (forall ret n m0 l l' p m1 u1, owns id ret n -> cells m0 h (length s) = s -> (forall j, (j < length s)%nat -> within ret n (shift h j) = false) ->
     filling ret n m0 l m1 -> f l = Ret (l', p) -> stays id (lp ret n) m1 u1 (fun q m' u' => q = p /\ u' = u1 /\ filling ret n m0 l' m')) ->
  (let! ret := make_bytes z in let! ret := upd ret 0 c0 in let! (ret, ptr) := f ret in upd ret ptr c1) = Ret t ->
  ample id u -> lib h = true -> cells m h (length s) = s -> (num h + length s <= u true)%nat ->
  stays id (do (ret, n) <- make_slice true z; set_at ret n 0 c0 ;; do ptr <- lp ret n; set_at ret n ptr c1 ;; string_of ret n) m u
    (fun x m' u' => x = t /\ quiet id m u m' u').
Proof.
  intros Lp E Am Lh Eh Nh. apply bind_ret in E. destruct E as (zs & Ez & E). apply bind_ret in E. destruct E as (l1 & E1 & E).
  apply bind_ret in E. destruct E as ([l2 p] & E2 & E). apply stays_then, (make_slice_in _ _ _ _ _ _ _ Am Ez). intros m1 O1.
  pose proof O1 as O1'. rewrite (zero_zeros _ _ Ez) in O1'. pose proof (quiet_new _ _ _ _ _ O1') as Q1. set (a := mkA id true (u true)) in *.
  assert (Ow : owns id a (length zs)) by (apply (ample_owns id u _ _ _ Am), Nat.le_refl).
  assert (F1 : filling a (length zs) m1 zs m1) by (split; [apply (cells_over_all _ _ _ _ O1)|apply outside_refl]).
  assert (Eh1 : cells m1 h (length s) = s) by (rewrite (quiet_cells _ _ _ _ _ _ _ Q1); [exact Eh|intros _ _; exact Nh]).
  assert (D : forall j, (j < length s)%nat -> within a (length zs) (shift h j) = false).
  { intros j Hj. apply within_not. unfold a. cbn [who lib num shift]. lia. }
  apply (set_at_then_in id a _ m1 _ Ow _ _ _ _ _ _ _ F1 E1). intros m2 F2.
  eapply stays_seq; [apply (Lp a (length zs) m1 l1 l2 p m2 _ Ow Eh1 D F2 E2)|]. cbn beta. intros q m3 u3 (-> & -> & F3).
  apply (set_at_then_in id a _ m1 _ Ow _ _ _ _ _ _ _ F3 E). intros m4 F4. apply stays_gets; [apply owns_sees, Ow|]. split; [apply F4|].
  apply (quiet_filling _ _ _ _ _ _ _ _ _ Q1 F4 eq_refl eq_refl (Nat.le_refl _)).
Qed.

Lemma BytesToString_in (id : area) inp m u xs t : ample id u -> source_in id inp m xs -> Codegen.BytesToString xs = Ret t ->
  stays id (BytesToString inp) m u (fun x m' u' => x = t /\ quiet id m u m' u').
Proof.
  intros Am Sr E. unfold Codegen.BytesToString in E. apply bind_ret in E. destruct E as (s & Es & E). unfold BytesToString.
  eapply stays_seq; [apply (FromBytes_in _ _ _ _ _ _ Am Sr Es)|]. cbn beta. intros s' m1 u1 (-> & Q1). pose proof (quiet_ample _ _ _ _ _ Am Q1) as Am1.
  eapply stays_seq; [apply (bytes_from_in id s m1 u1 Am1)|]. cbn beta. intros h m2 u2 (Oh & Wh & Lh & Eh & Nh & Q2). pose proof (quiet_ample _ _ _ _ _ Am1 Q2) as Am2.
  eapply stays_mono; [apply (emit_in id s h m2 u2 _ 34 34 (fun ret n => string_loop h ret n (length s) 0 1) (Codegen.string_loop s 0 1) t); try assumption|].
  - intros ret n m0 l l' p m3 u3 Wr Ec D F El. apply (string_loop_in id ret n m0 u3 Wr h s (owns_sees _ _ _ Oh) Ec D (length s) 0 1 l l' p m3); [reflexivity|exact F|exact El].
  - cbn beta. intros x m3 u3 (-> & Q3). split; [reflexivity|]. apply (quiet_trans _ _ _ m2 u2); [|exact Q3]. apply (quiet_trans _ _ _ m1 u1); assumption.
Qed.
Lemma BytesToStringSep_in (id : area) inp k m u xs t : ample id u -> source_in id inp m xs -> Codegen.BytesToStringSep xs k = Ret t ->
  stays id (BytesToStringSep inp k) m u (fun x m' u' => x = t /\ quiet id m u m' u').
Proof.
  intros Am Sr E. unfold Codegen.BytesToStringSep in E. unfold BytesToStringSep. destruct (k <? 1)%Z; [discriminate|].
  apply bind_ret in E. destruct E as (s & Es & E). cbv zeta in E. apply bind_ret in E. destruct E as (q & Eq & E).
  eapply stays_seq; [apply (FromBytes_in _ _ _ _ _ _ Am Sr Es)|]. cbn beta. intros s' m1 u1 (-> & Q1). pose proof (quiet_ample _ _ _ _ _ Am Q1) as Am1.
  eapply stays_seq; [apply (bytes_from_in id s m1 u1 Am1)|]. cbn beta zeta. intros h m2 u2 (Oh & Wh & Lh & Eh & Nh & Q2). pose proof (quiet_ample _ _ _ _ _ Am1 Q2) as Am2.
  apply stays_then, (stays_lift _ _ _ _ _ _ Eq).
  eapply stays_mono; [apply (emit_in id s h m2 u2 _ 34 34 (fun ret n => string_sep_loop (Codegen.int64 (k * 2)) h ret n (length s) 0 1) (Codegen.string_sep_loop (Codegen.int64 (k * 2)) s 0 1) t); try assumption|].
  - intros ret n m0 l l' p m3 u3 Wr Ec D F El. apply (string_sep_loop_in id ret n m0 u3 Wr h s (owns_sees _ _ _ Oh) Ec D _ (length s) 0 1 l l' p m3); [reflexivity|exact F|exact El].
  - cbn beta. intros x m3 u3 (-> & Q3). split; [reflexivity|]. apply (quiet_trans _ _ _ m2 u2); [|exact Q3]. apply (quiet_trans _ _ _ m1 u1); assumption.
Qed.
Lemma BytesToHexSep_in (id : area) inp k m u xs t : ample id u -> source_in id inp m xs -> Codegen.BytesToHexSep xs k = Ret t ->
  stays id (BytesToHexSep inp k) m u (fun x m' u' => x = t /\ quiet id m u m' u').
Proof.
  intros Am Sr E. unfold Codegen.BytesToHexSep in E. rewrite (source_length_in _ _ _ _ Sr) in E. unfold BytesToHexSep. destruct (k <? 1)%Z; [discriminate|].
  apply bind_ret in E. destruct E as (s & Es & E). cbv zeta in E. apply bind_ret in E. destruct E as (q & Eq & E).
  eapply stays_seq; [apply (FromBytes_in _ _ _ _ _ _ Am Sr Es)|]. cbn beta. intros s' m1 u1 (-> & Q1). pose proof (quiet_ample _ _ _ _ _ Am Q1) as Am1.
  eapply stays_seq; [apply (bytes_from_in id s m1 u1 Am1)|]. cbn beta zeta. intros h m2 u2 (Oh & Wh & Lh & Eh & Nh & Q2). pose proof (quiet_ample _ _ _ _ _ Am1 Q2) as Am2.
  apply stays_then, (stays_lift _ _ _ _ _ _ Eq).
  eapply stays_mono; [apply (emit_in id s h m2 u2 _ 123 125 (fun ret n => hex_sep_loop (Codegen.int64 (k * 2)) h ret n (length s) 0 1) (Codegen.hex_sep_loop (Codegen.int64 (k * 2)) s 0 1) t); try assumption|].
  - intros ret n m0 l l' p m3 u3 Wr Ec D F El. apply (hex_sep_loop_in id ret n m0 u3 Wr h s (owns_sees _ _ _ Oh) Ec D _ (length s) 0 1 l l' p m3); [reflexivity|exact F|exact El].
  - cbn beta. intros x m3 u3 (-> & Q3). split; [reflexivity|]. apply (quiet_trans _ _ _ m2 u2); [|exact Q3]. apply (quiet_trans _ _ _ m1 u1); assumption.
Qed.

(** ** The functions that read a text *)

Lemma stays_and {A} (id : area) (c : code A) : forall m u (P Q : A -> memory -> (bool -> nat) -> Prop), stays id c m u P -> stays id c m u Q ->
  stays id c m u (fun x m' u' => P x m' u' /\ Q x m' u').
Proof.
  induction c as [x| |a k IH|a v k IH|l n k IH]; cbn [stays]; intros m u P Q S1 S2.
  - auto.
  - exact S1.
  - destruct S1, S2. auto.
  - destruct S1, S2. auto.
  - destruct S1, S2. auto.
Qed.

(** What they return *)
Section Returned.
Context (bd : build) (hex : list N) (id : area) (a : addr) (n : nat) (m0 : memory) (u : bool -> nat) (Wa : owns id a n).
Lemma to_loop_returns_in fuel : forall i ptr l r m, filling a n m0 l m -> Hex.toBytes_loop bd hex fuel i ptr l = Ret r ->
  stays id (toBytes_loop bd hex a n fuel i ptr) m u (fun x _ _ => match r with TbError e => x = inl e | TbDone j _ => x = inr j end).
Proof.
  induction fuel as [|fuel IH]; intros i ptr l r m F E; cbn [Hex.toBytes_loop toBytes_loop] in *; [discriminate|].
  destruct (Nat.ltb i (length hex)).
  - apply bind_ret in E. destruct E as (c0 & E0 & E). apply bind_ret in E. destruct E as (hi & E1 & E). apply bind_ret in E. destruct E as (c1 & E2 & E).
    apply bind_ret in E. destruct E as (lo & E3 & E).
    apply stays_then, (stays_lift _ _ _ _ _ _ E0), stays_then, (stays_lift _ _ _ _ _ _ E1), stays_then, (stays_lift _ _ _ _ _ _ E2), stays_then, (stays_lift _ _ _ _ _ _ E3).
    destruct (negb (N.land hi 240 =? 0)); [injection E as <-; reflexivity|]. destruct (negb (N.land lo 240 =? 0)); [injection E as <-; reflexivity|].
    apply bind_ret in E. destruct E as (l1 & E4 & E). apply (set_at_then_in id a n m0 u Wa _ _ _ _ _ _ _ F E4). intros m1 F1. apply (IH _ _ _ _ _ F1 E).
  - injection E as <-. reflexivity.
Qed.
Lemma fast_loop_returns_in fuel : forall i ptr l r m, filling a n m0 l m -> Hex.toBytesFast_loop bd hex fuel i ptr l = Ret r ->
  stays id (toBytesFast_loop bd hex a n fuel i ptr) m u (fun x _ _ => x = match r with None => false | Some _ => true end).
Proof.
  induction fuel as [|fuel IH]; intros i ptr l r m F E; cbn [Hex.toBytesFast_loop toBytesFast_loop] in *; [discriminate|].
  destruct (Nat.ltb i (length hex)).
  - apply bind_ret in E. destruct E as (c0 & E0 & E). apply bind_ret in E. destruct E as (hi & E1 & E). apply bind_ret in E. destruct E as (c1 & E2 & E).
    apply bind_ret in E. destruct E as (lo & E3 & E).
    apply stays_then, (stays_lift _ _ _ _ _ _ E0), stays_then, (stays_lift _ _ _ _ _ _ E1), stays_then, (stays_lift _ _ _ _ _ _ E2), stays_then, (stays_lift _ _ _ _ _ _ E3).
    destruct (negb (N.land (N.lor hi lo) 240 =? 0)); [injection E as <-; reflexivity|].
    apply bind_ret in E. destruct E as (l1 & E4 & E). apply (set_at_then_in id a n m0 u Wa _ _ _ _ _ _ _ F E4). intros m1 F1. apply (IH _ _ _ _ _ F1 E).
  - injection E as <-. reflexivity.
Qed.
End Returned.

(** What they write *)
Section Written.
Context (bd : build) (id : area) (a : addr) (n : nat) (m0 : memory) (u : bool -> nat) (Wa : owns id a n).
Lemma to_loop_writes_in s : forall pre out k fuel m, bytes_ok s -> (Nat.div2 (length s) <= k)%nat -> (length s < fuel)%nat ->
  filling a n m0 (out ++ repeat 0 k) m ->
  stays id (toBytes_loop bd (pre ++ s) a n fuel (S (length pre)) (length out)) m u
    (fun _ m' u' => u' = u /\ filling a n m0 (out ++ pairs s ++ repeat 0 (k - length (pairs s))) m').
Proof.
  induction s as [|x|x y s IH] using list_pair_ind; intros pre out k fuel m B Hk Hf F; (destruct fuel as [|fuel]; [lia|]); cbn [toBytes_loop].
  - rewrite app_nil_r, (proj2 (Nat.ltb_ge _ _)) by lia. cbn [stays pairs app length]. rewrite Nat.sub_0_r. auto.
  - rewrite (proj2 (Nat.ltb_ge _ _)) by (rewrite app_length; cbn [length]; lia). cbn [stays pairs app length]. rewrite Nat.sub_0_r. auto.
  - rewrite (proj2 (Nat.ltb_lt _ _)) by (rewrite app_length; cbn [length]; lia). destruct (idx_two _ a eq_refl pre x y s) as [E0 E2].
    apply Forall_cons_iff in B. destruct B as [Bx B]. apply Forall_cons_iff in B. destruct B as [By B].
    destruct (decodes bd _ a eq_refl x Bx) as (hi & E1 & _ & Nx & Vx). destruct (decodes bd _ a eq_refl y By) as (lo & E3 & _ & Ny & Vy).
    apply stays_then, (stays_lift _ _ _ _ _ _ E0), stays_then, (stays_lift _ _ _ _ _ _ E1), stays_then, (stays_lift _ _ _ _ _ _ E2), stays_then, (stays_lift _ _ _ _ _ _ E3).
    cbn [pairs]. destruct (digit_value x) as [vx|].
    2:{ rewrite (Nx eq_refl). cbn [negb stays app length]. rewrite Nat.sub_0_r. auto. }
    destruct (Vx vx eq_refl) as [-> Lx]. rewrite (land_F0_small vx Lx). cbn [N.eqb negb]. destruct (digit_value y) as [vy|].
    2:{ rewrite (Ny eq_refl). cbn [negb stays app length]. rewrite Nat.sub_0_r. auto. }
    destruct (Vy vy eq_refl) as [-> Ly]. rewrite (land_F0_small vy Ly). cbn [N.eqb negb]. rewrite lor_nibbles by assumption.
    cbn [length Nat.div2] in Hk, Hf. destruct k as [|k]; [lia|]. apply (set_at_then_in id a n m0 u Wa _ _ _ _ _ _ _ F (upd_at _ _ _)). intros m1 F1.
    specialize (IH (pre ++ [x; y]) (out ++ [16 * vx + vy]) k fuel m1 B ltac:(lia) ltac:(lia) F1).
    rewrite <- !app_assoc in IH. cbn [app] in IH. rewrite !app_length in IH. cbn [length] in IH.
    replace (S (length pre) + 2)%nat with (S (length pre + 2)) by lia. exact IH.
Qed.
Lemma fast_loop_writes_in s : forall pre out k fuel m, bytes_ok s -> (Nat.div2 (length s) <= k)%nat -> (length s < fuel)%nat ->
  filling a n m0 (out ++ repeat 0 k) m ->
  stays id (toBytesFast_loop bd (pre ++ s) a n fuel (S (length pre)) (length out)) m u
    (fun _ m' u' => u' = u /\ filling a n m0 (out ++ pairs s ++ repeat 0 (k - length (pairs s))) m').
Proof.
  induction s as [|x|x y s IH] using list_pair_ind; intros pre out k fuel m B Hk Hf F; (destruct fuel as [|fuel]; [lia|]); cbn [toBytesFast_loop].
  - rewrite app_nil_r, (proj2 (Nat.ltb_ge _ _)) by lia. cbn [stays pairs app length]. rewrite Nat.sub_0_r. auto.
  - rewrite (proj2 (Nat.ltb_ge _ _)) by (rewrite app_length; cbn [length]; lia). cbn [stays pairs app length]. rewrite Nat.sub_0_r. auto.
  - rewrite (proj2 (Nat.ltb_lt _ _)) by (rewrite app_length; cbn [length]; lia). destruct (idx_two _ a eq_refl pre x y s) as [E0 E2].
    apply Forall_cons_iff in B. destruct B as [Bx B]. apply Forall_cons_iff in B. destruct B as [By B].
    destruct (decodes bd _ a eq_refl x Bx) as (hi & E1 & Hx & Nx & Vx). destruct (decodes bd _ a eq_refl y By) as (lo & E3 & Hy & Ny & Vy).
    apply stays_then, (stays_lift _ _ _ _ _ _ E0), stays_then, (stays_lift _ _ _ _ _ _ E1), stays_then, (stays_lift _ _ _ _ _ _ E2), stays_then, (stays_lift _ _ _ _ _ _ E3).
    rewrite land_lor_F0 by assumption. cbn [pairs]. destruct (digit_value x) as [vx|].
    2:{ rewrite (Nx eq_refl). cbn [andb negb stays app length]. rewrite Nat.sub_0_r. auto. }
    destruct (Vx vx eq_refl) as [-> Lx]. rewrite (land_F0_small vx Lx). cbn [N.eqb negb andb]. destruct (digit_value y) as [vy|].
    2:{ rewrite (Ny eq_refl). cbn [negb stays app length]. rewrite Nat.sub_0_r. auto. }
    destruct (Vy vy eq_refl) as [-> Ly]. rewrite (land_F0_small vy Ly). cbn [N.eqb negb]. rewrite lor_nibbles by assumption.
    cbn [length Nat.div2] in Hk, Hf. destruct k as [|k]; [lia|]. apply (set_at_then_in id a n m0 u Wa _ _ _ _ _ _ _ F (upd_at _ _ _)). intros m1 F1.
    specialize (IH (pre ++ [x; y]) (out ++ [16 * vx + vy]) k fuel m1 B ltac:(lia) ltac:(lia) F1).
    rewrite <- !app_assoc in IH. cbn [app] in IH. rewrite !app_length in IH. cbn [length] in IH.
    replace (S (length pre) + 2)%nat with (S (length pre + 2)) by lia. exact IH.
Qed.
End Written.

Lemma ToBytes_in bd (id : area) s m u : ample id u -> bytes_ok s ->
  stays id (ToBytes bd s) m u (fun r m' u' => made_pairs id s m u m' u' /\
    r = (match fst (toBytes_fun s) with Some _ => Some (mkS (mkA id false (u false)) (Nat.div2 (length s)) (Nat.div2 (length s))) | None => None end, snd (toBytes_fun s))).
Proof.
  intros Am B. pose proof (toBytes_correct bd s B) as E. destruct (toBytes_fun s) as [r e]. cbn [fst snd]. unfold Hex.ToBytes in E. cbv zeta in E.
  rewrite make_half in E. cbn [bind] in E. apply bind_ret in E. destruct E as (x & Ex & E). unfold ToBytes.
  apply stays_then, (make_slice_in _ _ _ _ _ _ _ Am (make_half (length s))). rewrite repeat_length. intros m1 O1.
  set (a := mkA id false (u false)) in *. set (k := Nat.div2 (length s)) in *.
  assert (Ow : owns id a k) by (apply (ample_owns id u _ _ _ Am), Nat.le_refl).
  assert (F1 : filling a k m1 (repeat 0 k) m1). { split; [|apply outside_refl]. rewrite <- (repeat_length 0 k) at 1. apply (cells_over_all _ _ _ _ O1). }
  eapply stays_seq.
  { apply stays_and; [apply (to_loop_returns_in bd s id a k m1 _ Ow _ _ _ _ _ _ F1 Ex)|].
    apply (to_loop_writes_in bd id a k m1 (grow u false k) Ow s [] [] k); [exact B|apply Nat.le_refl|lia|exact F1]. }
  cbn beta. cbn [app]. intros y m2 u2 [Hy [-> F2]].
  assert (Mp : made_pairs id s m u m2 (grow u false k)).
  { split; [|reflexivity]. apply (filling_over a k m (repeat 0 k) _ m1); [exact O1|apply repeat_length| |exact F2].
    rewrite app_length, repeat_length. pose proof (pairs_short s). unfold k. lia. }
  destruct x as [e1|j l]; subst y.
  - injection E as <- <-. cbn [stays]. auto.
  - destruct (Nat.eqb (length s mod 2) 1).
    + apply bind_ret in E. destruct E as (c & E1 & E). apply bind_ret in E. destruct E as (v & E2 & E).
      apply stays_then, (stays_lift _ _ _ _ _ _ E1), stays_then, (stays_lift _ _ _ _ _ _ E2). destruct (15 <? v); injection E as <- <-; cbn [stays]; auto.
    + injection E as <- <-. cbn [stays]. auto.
Qed.
Lemma ToBytesFast_in bd (id : area) s m u : ample id u -> bytes_ok s ->
  stays id (ToBytesFast bd s) m u (fun r m' u' => made_pairs id s m u m' u' /\
    r = match fst (toBytes_fun s) with Some _ => Some (mkS (mkA id false (u false)) (Nat.div2 (length s)) (Nat.div2 (length s))) | None => None end).
Proof.
  intros Am B. pose proof (toBytesFast_correct bd s B) as E. destruct (toBytes_fun s) as [r e]. cbn [fst] in *. unfold Hex.ToBytesFast in E. cbv zeta in E.
  rewrite make_half in E. cbn [bind] in E. apply bind_ret in E. destruct E as (x & Ex & E). unfold ToBytesFast.
  apply stays_then, (make_slice_in _ _ _ _ _ _ _ Am (make_half (length s))). rewrite repeat_length. intros m1 O1.
  set (a := mkA id false (u false)) in *. set (k := Nat.div2 (length s)) in *.
  assert (Ow : owns id a k) by (apply (ample_owns id u _ _ _ Am), Nat.le_refl).
  assert (F1 : filling a k m1 (repeat 0 k) m1). { split; [|apply outside_refl]. rewrite <- (repeat_length 0 k) at 1. apply (cells_over_all _ _ _ _ O1). }
  eapply stays_seq.
  { apply stays_and; [apply (fast_loop_returns_in bd s id a k m1 _ Ow _ _ _ _ _ _ F1 Ex)|].
    apply (fast_loop_writes_in bd id a k m1 (grow u false k) Ow s [] [] k); [exact B|apply Nat.le_refl|lia|exact F1]. }
  cbn beta. cbn [app]. intros y m2 u2 [Hy [-> F2]].
  assert (Mp : made_pairs id s m u m2 (grow u false k)).
  { split; [|reflexivity]. apply (filling_over a k m (repeat 0 k) _ m1); [exact O1|apply repeat_length| |exact F2].
    rewrite app_length, repeat_length. pose proof (pairs_short s). unfold k. lia. }
  destruct x as [l|]; subst y.
  - destruct (Nat.eqb (length s mod 2) 1); injection E as <-; cbn [stays]; auto.
  - injection E as <-. cbn [stays]. auto.
Qed.
