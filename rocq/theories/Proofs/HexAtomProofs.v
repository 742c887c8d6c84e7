(** Packages hex and codegen access by access against the models on lists. *)
From Verif Require Import Base.Go Base.HashUse Base.Goroutine Base.GoUse Base.LibUse.
From Verif Require Import Model.Hex Model.HashAtom Model.HexAtom Spec.HexSpec Spec.CodegenSpec Spec.GoUseSpec Spec.LibUseSpec.
From Verif Require Import Proofs.Util Proofs.HeapProofs Proofs.HexProofs Proofs.CodegenProofs Proofs.GoroutineProofs Proofs.HashAtomProofs Proofs.GoUseProofs.
From Verif Require Model.Codegen.
Local Open Scope N_scope.

(** ** One slice that is being written *)

(** In memory [m], which is [m0] but for the [n] cells at [a]. *)
Definition filling (a : addr) (n : nat) (m0 : memory) (l : list N) (m : memory) : Prop := cells m a n = l /\ outside a n m0 m.

Section Filling.
Context (id : nat) (a : addr) (n : nat) (m0 : memory) (u : bool -> nat) (Wa : who a = id).

Lemma set_at_ok i v l l' m (Q : unit -> memory -> (bool -> nat) -> Prop) : filling a n m0 l m -> upd l i v = Ret l' ->
  (forall m', filling a n m0 l' m' -> Q tt m' u) -> safe id (set_at a n i v) m u Q.
Proof.
  intros [El O] U H. apply (upd_copy 0 (Nat.le_0_l 10)) in U. destruct U as [-> L]. subst l. rewrite cells_length in L. unfold set_at.
  rewrite (proj2 (Nat.ltb_lt i n)) by lia. apply safe_set'; [exact Wa|]. intros m' O'. apply H. split.
  - apply cells_over_at; [exact O'|exact L].
  - apply (outside_trans _ _ _ m); [exact O|]. apply (outside_in a n i 1); [apply (over_outside _ _ _ _ O')|exact L].
Qed.
Lemma set_at_then {B} i v l l' m (f : unit -> code B) (Q : B -> memory -> (bool -> nat) -> Prop) : filling a n m0 l m -> upd l i v = Ret l' ->
  (forall m', filling a n m0 l' m' -> safe id (f tt) m' u Q) -> safe id (thenc (set_at a n i v) f) m u Q.
Proof. intros F U H. apply safe_then. apply (set_at_ok i v l l' m _ F U H). Qed.

(** A slice somewhere else that is only read. *)
Context (h : addr) (xs : list N) (Mh : may id h) (Eh : cells m0 h (length xs) = xs)
  (D : forall j, (j < length xs)%nat -> within a n (shift h j) = false).
Lemma read_at i l m : filling a n m0 l m -> (i < length xs)%nat -> m (shift h i) = nth i xs 0.
Proof.
  intros [_ O] Hi. rewrite (O _ (D i Hi)). rewrite <- (nth_cells m0 h (length xs) i 0 Hi). rewrite Eh. reflexivity.
Qed.
Lemma skip_at i : (i < length xs)%nat -> skipn i xs = nth i xs 0 :: skipn (i + 1) xs.
Proof.
  clear. revert i. induction xs as [|x l IH]; intros [|i] H; cbn [length skipn nth Nat.add] in *; try lia; [reflexivity|]. apply IH. lia.
Qed.

Lemma from_loop_ok cnt : forall i ptr l l' m, (i + cnt = length xs)%nat -> filling a n m0 l m ->
  Hex.fromBytes_loop (skipn i xs) ptr l = Ret l' ->
  safe id (fromBytes_loop h a n cnt i ptr) m u (fun _ m' u' => u' = u /\ filling a n m0 l' m').
Proof.
  induction cnt as [|cnt IH]; intros i ptr l l' m Hi F E.
  - rewrite skipn_all2 in E by lia. cbn [Hex.fromBytes_loop] in E. injection E as <-. cbn [fromBytes_loop safe]. auto.
  - rewrite skip_at in E by lia. cbn [Hex.fromBytes_loop fromBytes_loop] in *. apply bind_ret in E. destruct E as (hi & E1 & E). apply bind_ret in E. destruct E as (l1 & E2 & E).
    apply bind_ret in E. destruct E as (lo & E3 & E). apply bind_ret in E. destruct E as (l2 & E4 & E).
    apply safe_then, safe_get; [exact Mh|]. rewrite (read_at i l m F) by lia. apply safe_then, (safe_lift _ _ _ _ _ _ E1).
    apply (set_at_then _ _ _ _ _ _ _ F E2). intros m1 F1.
    apply safe_then, safe_get; [exact Mh|]. rewrite (read_at i l1 m1 F1) by lia. apply safe_then, (safe_lift _ _ _ _ _ _ E3).
    apply (set_at_then _ _ _ _ _ _ _ F1 E4). intros m2 F2. apply (IH (i + 1)%nat (ptr + 2)%nat l2 l' m2); [lia|exact F2|exact E].
Qed.
Ltac put_one F E := 
  let l := fresh "l" in let U := fresh "U" in apply bind_ret in E; destruct E as (l & U & E); apply (set_at_then _ _ _ _ _ _ _ F U); clear F U;
  let m := fresh "m" in intros m F.
Lemma string_loop_ok cnt : forall i ptr l l' p m, (i + cnt = length xs)%nat -> filling a n m0 l m ->
  Codegen.string_loop (skipn i xs) i ptr l = Ret (l', p) ->
  safe id (string_loop h a n cnt i ptr) m u (fun q m' u' => q = p /\ u' = u /\ filling a n m0 l' m').
Proof.
  induction cnt as [|cnt IH]; intros i ptr l l' p m Hi F E.
  - rewrite skipn_all2 in E by lia. cbn [Codegen.string_loop] in E. injection E as <- <-. cbn [string_loop safe]. auto.
  - rewrite skip_at in E by lia. cbn [Codegen.string_loop string_loop] in *.
    apply safe_then, safe_get; [exact Mh|]. rewrite (read_at i l m F) by lia.
    apply bind_ret in E. destruct E as ([l1 p1] & E1 & E). apply bind_ret in E. destruct E as (l2 & E2 & E).
    apply safe_seq with (P := fun q m' u' => q = p1 /\ u' = u /\ filling a n m0 l1 m').
    + destruct (Nat.even i).
      * put_one F E1. put_one F E1. injection E1 as <- <-. cbn [safe]. auto.
      * injection E1 as <- <-. cbn [safe]. auto.
    + intros q m' u' (-> & -> & F'). apply (set_at_then _ _ _ _ _ _ _ F' E2). intros m2 F2. apply (IH (i + 1)%nat (p1 + 1)%nat l2 l' p m2); [lia|exact F2|exact E].
Qed.
Lemma string_sep_loop_ok hps cnt : forall i ptr l l' p m, (i + cnt = length xs)%nat -> filling a n m0 l m ->
  Codegen.string_sep_loop hps (skipn i xs) i ptr l = Ret (l', p) ->
  safe id (string_sep_loop hps h a n cnt i ptr) m u (fun q m' u' => q = p /\ u' = u /\ filling a n m0 l' m').
Proof.
  induction cnt as [|cnt IH]; intros i ptr l l' p m Hi F E.
  - rewrite skipn_all2 in E by lia. cbn [Codegen.string_sep_loop] in E. injection E as <- <-. cbn [string_sep_loop safe]. auto.
  - rewrite skip_at in E by lia. cbn [Codegen.string_sep_loop string_sep_loop] in *.
    apply safe_then, safe_get; [exact Mh|]. rewrite (read_at i l m F) by lia.
    apply bind_ret in E. destruct E as ([l1 p1] & E1 & E). apply bind_ret in E. destruct E as (l2 & E2 & E).
    apply safe_seq with (P := fun q m' u' => q = p1 /\ u' = u /\ filling a n m0 l1 m').
    + destruct (Nat.even i).
      * apply bind_ret in E1. destruct E1 as ([l3 p3] & E3 & E1).
        apply safe_seq with (P := fun q m' u' => q = p3 /\ u' = u /\ filling a n m0 l3 m').
        -- destruct (Z.eqb (Z.rem (Z.of_nat i) hps) 0 && Nat.ltb 1 ptr)%bool.
           ++ put_one F E3. put_one F E3. put_one F E3. injection E3 as <- <-. cbn [safe]. auto.
           ++ injection E3 as <- <-. cbn [safe]. auto.
        -- intros q m' u' (-> & -> & F'). put_one F' E1. put_one F' E1. injection E1 as <- <-. cbn [safe]. auto.
      * injection E1 as <- <-. cbn [safe]. auto.
    + intros q m' u' (-> & -> & F'). apply (set_at_then _ _ _ _ _ _ _ F' E2). intros m2 F2. apply (IH (i + 1)%nat (p1 + 1)%nat l2 l' p m2); [lia|exact F2|exact E].
Qed.
Lemma hex_sep_loop_ok hps cnt : forall i ptr l l' p m, (i + cnt = length xs)%nat -> filling a n m0 l m ->
  Codegen.hex_sep_loop hps (skipn i xs) i ptr l = Ret (l', p) ->
  safe id (hex_sep_loop hps h a n cnt i ptr) m u (fun q m' u' => q = p /\ u' = u /\ filling a n m0 l' m').
Proof.
  induction cnt as [|cnt IH]; intros i ptr l l' p m Hi F E.
  - rewrite skipn_all2 in E by lia. cbn [Codegen.hex_sep_loop] in E. injection E as <- <-. cbn [hex_sep_loop safe]. auto.
  - rewrite skip_at in E by lia. cbn [Codegen.hex_sep_loop hex_sep_loop] in *.
    apply safe_then, safe_get; [exact Mh|]. rewrite (read_at i l m F) by lia.
    apply bind_ret in E. destruct E as ([l1 p1] & E1 & E). apply bind_ret in E. destruct E as (l2 & E2 & E).
    apply safe_seq with (P := fun q m' u' => q = p1 /\ u' = u /\ filling a n m0 l1 m').
    + destruct (Nat.even i).
      * apply bind_ret in E1. destruct E1 as ([l3 p3] & E3 & E1).
        apply safe_seq with (P := fun q m' u' => q = p3 /\ u' = u /\ filling a n m0 l3 m').
        -- destruct (Nat.ltb 1 ptr).
           ++ put_one F E3. put_one F E3. destruct (Z.eqb (Z.rem (Z.of_nat i) hps) 0).
              ** put_one F E3. injection E3 as <- <-. cbn [safe]. auto.
              ** injection E3 as <- <-. cbn [safe]. auto.
           ++ injection E3 as <- <-. cbn [safe]. auto.
        -- intros q m' u' (-> & -> & F'). put_one F' E1. put_one F' E1. injection E1 as <- <-. cbn [safe]. auto.
      * injection E1 as <- <-. cbn [safe]. auto.
    + intros q m' u' (-> & -> & F'). apply (set_at_then _ _ _ _ _ _ _ F' E2). intros m2 F2. apply (IH (i + 1)%nat (p1 + 1)%nat l2 l' p m2); [lia|exact F2|exact E].
Qed.
End Filling.

(** ** The functions that make a string *)

(** Nothing happens but in memory that the library has just allocated. *)
Definition quiet (id : nat) (m : memory) (u : bool -> nat) (m' : memory) (u' : bool -> nat) : Prop :=
  scratched id (u true) m m' /\ (u true <= u' true)%nat /\ u' false = u false.
Lemma quiet_refl (id : nat) m u : quiet id m u m u.
Proof. split; [intros y _; reflexivity|split; [apply Nat.le_refl|reflexivity]]. Qed.
Lemma quiet_trans (id : nat) m u m1 u1 m2 u2 : quiet id m u m1 u1 -> quiet id m1 u1 m2 u2 -> quiet id m u m2 u2.
Proof.
  intros (S1 & L1 & E1) (S2 & L2 & E2). split; [|split; [lia|congruence]]. intros y Hy. rewrite S2; [apply S1, Hy|]. intros (A & B & C). apply Hy. repeat split; auto; lia.
Qed.
Lemma quiet_new (id : nat) m u n m' : is_over m (mkA id true (u true)) (repeat 0 n) m' -> quiet id m u m' (grow u true n).
Proof.
  intros O. split; [|split; [rewrite grow_same; lia|reflexivity]].
  apply (outside_scratched id (mkA id true (u true)) n); [|reflexivity|reflexivity|cbn [num]; lia].
  rewrite <- (repeat_length 0 n). apply (over_outside _ _ _ _ O).
Qed.
Lemma quiet_filling (id : nat) m u m1 u1 a n l m2 : quiet id m u m1 u1 -> filling a n m1 l m2 -> who a = id -> lib a = true -> (u true <= num a)%nat ->
  quiet id m u m2 u1.
Proof.
  intros (S & L & E) [_ O] Wa La Na. split; [|split; [exact L|exact E]]. apply (scratched_trans _ _ _ m1); [exact S|].
  apply (outside_scratched id a n); assumption.
Qed.
Lemma quiet_lib (id : nat) m u m' u' a : quiet id m u m' u' -> lib a = false -> m' a = m a.
Proof. intros (S & _) L. apply S. intros (_ & X & _). congruence. Qed.
Lemma quiet_cells (id : nat) m u m' u' a k : quiet id m u m' u' -> (who a = id -> lib a = true -> (num a + k <= u true)%nat) -> cells m' a k = cells m a k.
Proof. intros (S & _) H. apply cells_ext. intros j Hj. apply S. cbn [who lib num shift]. intros (A & B & C). specialize (H A B). lia. Qed.

Lemma make_slice_ok (id : nat) l z zs m u (Q : addr * nat -> memory -> (bool -> nat) -> Prop) : make_bytes z = Ret zs ->
  (forall m', is_over m (mkA id l (u l)) zs m' -> Q (mkA id l (u l), length zs) m' (grow u l (length zs))) -> safe id (make_slice l z) m u Q.
Proof.
  intros E H. unfold make_slice. apply safe_then, (safe_lift _ _ _ _ _ _ E), safe_then, safe_new'. intros m' O. cbn [safe]. apply H.
  unfold make_bytes in E. destruct (z <? 0)%Z; [discriminate|]. injection E as <-. rewrite repeat_length in O. exact O.
Qed.
Lemma zero_zeros z zs : make_bytes z = Ret zs -> zs = repeat 0 (length zs).
Proof. unfold make_bytes. destruct (z <? 0)%Z; [discriminate|]. intros E. injection E as <-. rewrite repeat_length. reflexivity. Qed.

Lemma bytes_from_ok (id : nat) s m u : safe id (bytes_from s) m u (fun h m' u' => who h = id /\ lib h = true /\ cells m' h (length s) = s
  /\ (num h + length s <= u' true)%nat /\ quiet id m u m' u').
Proof.
  unfold bytes_from. apply safe_then, safe_new'. cbn [self usual]. intros m1 O1. apply safe_then, safe_sets; [exact eq_refl|]. intros m2 O2. cbn [safe].
  change (is_over m1 (mkA id true (u true)) s m2) in O2. split; [reflexivity|]. split; [reflexivity|]. split; [apply (cells_over_all _ _ _ _ O2)|].
  split; [rewrite grow_same; apply Nat.le_refl|]. destruct (quiet_new _ _ _ _ _ O1) as (S1 & L1 & E1). split; [|split; [exact L1|exact E1]].
  apply (scratched_trans _ _ _ m1); [exact S1|]. apply (outside_scratched id (mkA id true (u true)) (length s)); [apply (over_outside _ _ _ _ O2)|reflexivity|reflexivity|apply Nat.le_refl].
Qed.

Definition source (id : nat) (src : gslice) (m : memory) (xs : list N) : Prop :=
  may id (base src) /\ lib (base src) = false /\ cells m (base src) (slen src) = xs.
Lemma source_length (id : nat) src m xs : source id src m xs -> length xs = slen src.
Proof. intros (_ & _ & <-). apply cells_length. Qed.

Lemma FromBytes_ok (id : nat) src m u xs s : source id src m xs -> Hex.FromBytes xs = Ret s ->
  safe id (FromBytes src) m u (fun t m' u' => t = s /\ quiet id m u m' u').
Proof.
  intros Sr E. pose proof (source_length _ _ _ _ Sr) as Ls. destruct Sr as (Mh & Lh & Eh). unfold Hex.FromBytes in E. apply bind_ret in E. destruct E as (zs & Ez & E).
  rewrite Ls in Ez. unfold FromBytes. apply safe_then, (make_slice_ok _ _ _ _ _ _ _ Ez). intros m1 O1.
  pose proof O1 as O1'. rewrite (zero_zeros _ _ Ez) in O1'. pose proof (quiet_new _ _ _ _ _ O1') as Q1. set (a := mkA id true (u true)) in *.
  assert (F1 : filling a (length zs) m1 zs m1) by (split; [apply (cells_over_all _ _ _ _ O1)|apply outside_refl]).
  assert (Eh1 : cells m1 (base src) (length xs) = xs) by (rewrite Ls, (quiet_cells _ _ _ _ _ _ _ Q1); [exact Eh|congruence]).
  assert (D : forall j, (j < length xs)%nat -> within a (length zs) (shift (base src) j) = false).
  { intros j _. apply within_not. unfold a. cbn [who lib num shift]. intros (_ & X & _). congruence. }
  eapply safe_seq; [apply (from_loop_ok id a (length zs) m1 _ eq_refl (base src) xs Mh Eh1 D (slen src) 0 0 zs s m1); [cbn [Nat.add]; congruence|exact F1|exact E]|].
  cbn beta. intros _ m2 u2 (-> & F2). apply safe_gets; [left; reflexivity|]. split; [apply F2|].
  apply (quiet_filling _ _ _ _ _ _ _ _ _ Q1 F2 eq_refl eq_refl (Nat.le_refl _)).
Qed.

(** The part after h is made. *)
Lemma emit_ok (id : nat) s h m u z c0 c1 (lp : addr -> nat -> code nat) (f : list N -> outcome (list N * nat)) t :
  (forall ret n m0 l l' p m1 u1, who ret = id -> cells m0 h (length s) = s -> (forall j, (j < length s)%nat -> within ret n (shift h j) = false) ->
     filling ret n m0 l m1 -> f l = Ret (l', p) -> safe id (lp ret n) m1 u1 (fun q m' u' => q = p /\ u' = u1 /\ filling ret n m0 l' m')) ->
  (let! ret := make_bytes z in let! ret := upd ret 0 c0 in let! (ret, ptr) := f ret in upd ret ptr c1) = Ret t ->
  who h = id -> lib h = true -> cells m h (length s) = s -> (num h + length s <= u true)%nat ->
  safe id (do (ret, n) <- make_slice true z; set_at ret n 0 c0 ;; do ptr <- lp ret n; set_at ret n ptr c1 ;; string_of ret n) m u
    (fun x m' u' => x = t /\ quiet id m u m' u').
Proof.
  intros Lp E Wh Lh Eh Nh. apply bind_ret in E. destruct E as (zs & Ez & E). apply bind_ret in E. destruct E as (l1 & E1 & E).
  apply bind_ret in E. destruct E as ([l2 p] & E2 & E). apply safe_then, (make_slice_ok _ _ _ _ _ _ _ Ez). intros m1 O1.
  pose proof O1 as O1'. rewrite (zero_zeros _ _ Ez) in O1'. pose proof (quiet_new _ _ _ _ _ O1') as Q1. set (a := mkA id true (u true)) in *.
  assert (F1 : filling a (length zs) m1 zs m1) by (split; [apply (cells_over_all _ _ _ _ O1)|apply outside_refl]).
  assert (Eh1 : cells m1 h (length s) = s) by (rewrite (quiet_cells _ _ _ _ _ _ _ Q1); [exact Eh|intros _ _; exact Nh]).
  assert (D : forall j, (j < length s)%nat -> within a (length zs) (shift h j) = false).
  { intros j Hj. apply within_not. unfold a. cbn [who lib num shift]. lia. }
  apply (set_at_then id a _ m1 _ eq_refl _ _ _ _ _ _ _ F1 E1). intros m2 F2.
  eapply safe_seq; [apply (Lp a (length zs) m1 l1 l2 p m2 _ eq_refl Eh1 D F2 E2)|]. cbn beta. intros q m3 u3 (-> & -> & F3).
  apply (set_at_then id a _ m1 _ eq_refl _ _ _ _ _ _ _ F3 E). intros m4 F4. apply safe_gets; [left; reflexivity|]. split; [apply F4|].
  apply (quiet_filling _ _ _ _ _ _ _ _ _ Q1 F4 eq_refl eq_refl (Nat.le_refl _)).
Qed.

Lemma BytesToString_ok (id : nat) inp m u xs t : source id inp m xs -> Codegen.BytesToString xs = Ret t ->
  safe id (BytesToString inp) m u (fun x m' u' => x = t /\ quiet id m u m' u').
Proof.
  intros Sr E. unfold Codegen.BytesToString in E. apply bind_ret in E. destruct E as (s & Es & E). unfold BytesToString.
  eapply safe_seq; [apply (FromBytes_ok _ _ _ _ _ _ Sr Es)|]. cbn beta. intros s' m1 u1 (-> & Q1).
  eapply safe_seq; [apply (bytes_from_ok id s m1 u1)|]. cbn beta. intros h m2 u2 (Wh & Lh & Eh & Nh & Q2).
  eapply safe_mono; [apply (emit_ok id s h m2 u2 _ 34 34 (fun ret n => string_loop h ret n (length s) 0 1) (Codegen.string_loop s 0 1) t); try assumption|].
  - intros ret n m0 l l' p m3 u3 Wr Ec D F El. apply (string_loop_ok id ret n m0 u3 Wr h s (or_introl Wh) Ec D (length s) 0 1 l l' p m3); [reflexivity|exact F|exact El].
  - cbn beta. intros x m3 u3 (-> & Q3). split; [reflexivity|]. apply (quiet_trans _ _ _ m2 u2); [|exact Q3]. apply (quiet_trans _ _ _ m1 u1); assumption.
Qed.
Lemma BytesToStringSep_ok (id : nat) inp k m u xs t : source id inp m xs -> Codegen.BytesToStringSep xs k = Ret t ->
  safe id (BytesToStringSep inp k) m u (fun x m' u' => x = t /\ quiet id m u m' u').
Proof.
  intros Sr E. unfold Codegen.BytesToStringSep in E. unfold BytesToStringSep. destruct (k <? 1)%Z; [discriminate|].
  apply bind_ret in E. destruct E as (s & Es & E). cbv zeta in E. apply bind_ret in E. destruct E as (q & Eq & E).
  eapply safe_seq; [apply (FromBytes_ok _ _ _ _ _ _ Sr Es)|]. cbn beta. intros s' m1 u1 (-> & Q1).
  eapply safe_seq; [apply (bytes_from_ok id s m1 u1)|]. cbn beta zeta. intros h m2 u2 (Wh & Lh & Eh & Nh & Q2).
  apply safe_then, (safe_lift _ _ _ _ _ _ Eq).
  eapply safe_mono; [apply (emit_ok id s h m2 u2 _ 34 34 (fun ret n => string_sep_loop (Codegen.int64 (k * 2)) h ret n (length s) 0 1) (Codegen.string_sep_loop (Codegen.int64 (k * 2)) s 0 1) t); try assumption|].
  - intros ret n m0 l l' p m3 u3 Wr Ec D F El. apply (string_sep_loop_ok id ret n m0 u3 Wr h s (or_introl Wh) Ec D _ (length s) 0 1 l l' p m3); [reflexivity|exact F|exact El].
  - cbn beta. intros x m3 u3 (-> & Q3). split; [reflexivity|]. apply (quiet_trans _ _ _ m2 u2); [|exact Q3]. apply (quiet_trans _ _ _ m1 u1); assumption.
Qed.
Lemma BytesToHexSep_ok (id : nat) inp k m u xs t : source id inp m xs -> Codegen.BytesToHexSep xs k = Ret t ->
  safe id (BytesToHexSep inp k) m u (fun x m' u' => x = t /\ quiet id m u m' u').
Proof.
  intros Sr E. unfold Codegen.BytesToHexSep in E. rewrite (source_length _ _ _ _ Sr) in E. unfold BytesToHexSep. destruct (k <? 1)%Z; [discriminate|].
  apply bind_ret in E. destruct E as (s & Es & E). cbv zeta in E. apply bind_ret in E. destruct E as (q & Eq & E).
  eapply safe_seq; [apply (FromBytes_ok _ _ _ _ _ _ Sr Es)|]. cbn beta. intros s' m1 u1 (-> & Q1).
  eapply safe_seq; [apply (bytes_from_ok id s m1 u1)|]. cbn beta zeta. intros h m2 u2 (Wh & Lh & Eh & Nh & Q2).
  apply safe_then, (safe_lift _ _ _ _ _ _ Eq).
  eapply safe_mono; [apply (emit_ok id s h m2 u2 _ 123 125 (fun ret n => hex_sep_loop (Codegen.int64 (k * 2)) h ret n (length s) 0 1) (Codegen.hex_sep_loop (Codegen.int64 (k * 2)) s 0 1) t); try assumption|].
  - intros ret n m0 l l' p m3 u3 Wr Ec D F El. apply (hex_sep_loop_ok id ret n m0 u3 Wr h s (or_introl Wh) Ec D _ (length s) 0 1 l l' p m3); [reflexivity|exact F|exact El].
  - cbn beta. intros x m3 u3 (-> & Q3). split; [reflexivity|]. apply (quiet_trans _ _ _ m2 u2); [|exact Q3]. apply (quiet_trans _ _ _ m1 u1); assumption.
Qed.

(** ** The functions that read a text *)

Lemma safe_and {A} (id : nat) (c : code A) : forall m u (P Q : A -> memory -> (bool -> nat) -> Prop), safe id c m u P -> safe id c m u Q ->
  safe id c m u (fun x m' u' => P x m' u' /\ Q x m' u').
Proof.
  induction c as [x| |a k IH|a v k IH|l n k IH]; cbn [safe]; intros m u P Q S1 S2.
  - auto.
  - exact S1.
  - destruct S1, S2. auto.
  - destruct S1, S2. auto.
  - auto.
Qed.

(** What they return *)
Section Returned.
Context (bd : build) (hex : list N) (id : nat) (a : addr) (n : nat) (m0 : memory) (u : bool -> nat) (Wa : who a = id).
Lemma to_loop_returns fuel : forall i ptr l r m, filling a n m0 l m -> Hex.toBytes_loop bd hex fuel i ptr l = Ret r ->
  safe id (toBytes_loop bd hex a n fuel i ptr) m u (fun x _ _ => match r with TbError e => x = inl e | TbDone j _ => x = inr j end).
Proof.
  induction fuel as [|fuel IH]; intros i ptr l r m F E; cbn [Hex.toBytes_loop toBytes_loop] in *; [discriminate|].
  destruct (Nat.ltb i (length hex)).
  - apply bind_ret in E. destruct E as (c0 & E0 & E). apply bind_ret in E. destruct E as (hi & E1 & E). apply bind_ret in E. destruct E as (c1 & E2 & E).
    apply bind_ret in E. destruct E as (lo & E3 & E).
    apply safe_then, (safe_lift _ _ _ _ _ _ E0), safe_then, (safe_lift _ _ _ _ _ _ E1), safe_then, (safe_lift _ _ _ _ _ _ E2), safe_then, (safe_lift _ _ _ _ _ _ E3).
    destruct (negb (N.land hi 240 =? 0)); [injection E as <-; reflexivity|]. destruct (negb (N.land lo 240 =? 0)); [injection E as <-; reflexivity|].
    apply bind_ret in E. destruct E as (l1 & E4 & E). apply (set_at_then id a n m0 u Wa _ _ _ _ _ _ _ F E4). intros m1 F1. apply (IH _ _ _ _ _ F1 E).
  - injection E as <-. reflexivity.
Qed.
Lemma fast_loop_returns fuel : forall i ptr l r m, filling a n m0 l m -> Hex.toBytesFast_loop bd hex fuel i ptr l = Ret r ->
  safe id (toBytesFast_loop bd hex a n fuel i ptr) m u (fun x _ _ => x = match r with None => false | Some _ => true end).
Proof.
  induction fuel as [|fuel IH]; intros i ptr l r m F E; cbn [Hex.toBytesFast_loop toBytesFast_loop] in *; [discriminate|].
  destruct (Nat.ltb i (length hex)).
  - apply bind_ret in E. destruct E as (c0 & E0 & E). apply bind_ret in E. destruct E as (hi & E1 & E). apply bind_ret in E. destruct E as (c1 & E2 & E).
    apply bind_ret in E. destruct E as (lo & E3 & E).
    apply safe_then, (safe_lift _ _ _ _ _ _ E0), safe_then, (safe_lift _ _ _ _ _ _ E1), safe_then, (safe_lift _ _ _ _ _ _ E2), safe_then, (safe_lift _ _ _ _ _ _ E3).
    destruct (negb (N.land (N.lor hi lo) 240 =? 0)); [injection E as <-; reflexivity|].
    apply bind_ret in E. destruct E as (l1 & E4 & E). apply (set_at_then id a n m0 u Wa _ _ _ _ _ _ _ F E4). intros m1 F1. apply (IH _ _ _ _ _ F1 E).
  - injection E as <-. reflexivity.
Qed.
End Returned.

(** What they write *)
Section Written.
Context (bd : build) (id : nat) (a : addr) (n : nat) (m0 : memory) (u : bool -> nat) (Wa : who a = id).
Lemma decodes c : c < 256 -> exists v, decode bd c = Ret v /\ v < 256 /\ (digit_value c = None -> (N.land v 240 =? 0) = false)
  /\ forall x, digit_value c = Some x -> v = x /\ x < 16.
Proof.
  intros Hc. destruct (digit_value c) as [x|] eqn:E.
  - destruct (decode_valid bd c x Hc E) as [Ex Hx]. exists x. split; [exact Ex|]. split; [lia|]. split; [discriminate|]. intros y Ey. injection Ey as <-. auto.
  - destruct (decode_invalid bd c Hc E) as (v & Ev & _ & Lv & Hv). exists v. split; [exact Ev|]. split; [exact Lv|]. split; [intros _; apply N.eqb_neq, Hv|discriminate].
Qed.
Lemma upd_at out k v : upd (out ++ repeat 0 (S k)) (length out) v = Ret ((out ++ [v]) ++ repeat 0 k).
Proof. cbn [repeat]. rewrite upd_app, <- app_assoc. reflexivity. Qed.

Lemma idx_two (pre : list N) x y s : idx (pre ++ x :: y :: s) (S (length pre) - 1) = Ret x /\ idx (pre ++ x :: y :: s) (S (length pre)) = Ret y.
Proof.
  split; [apply idx_app; lia|]. change (x :: y :: s) with ([x] ++ y :: s). rewrite app_assoc. apply idx_app. rewrite app_length. cbn [length]. lia.
Qed.
Lemma to_loop_writes s : forall pre out k fuel m, bytes_ok s -> (Nat.div2 (length s) <= k)%nat -> (length s < fuel)%nat ->
  filling a n m0 (out ++ repeat 0 k) m ->
  safe id (toBytes_loop bd (pre ++ s) a n fuel (S (length pre)) (length out)) m u
    (fun _ m' u' => u' = u /\ filling a n m0 (out ++ pairs s ++ repeat 0 (k - length (pairs s))) m').
Proof.
  induction s as [|x|x y s IH] using list_pair_ind; intros pre out k fuel m B Hk Hf F; (destruct fuel as [|fuel]; [lia|]); cbn [toBytes_loop].
  - rewrite app_nil_r, (proj2 (Nat.ltb_ge _ _)) by lia. cbn [safe pairs app length]. rewrite Nat.sub_0_r. auto.
  - rewrite (proj2 (Nat.ltb_ge _ _)) by (rewrite app_length; cbn [length]; lia). cbn [safe pairs app length]. rewrite Nat.sub_0_r. auto.
  - rewrite (proj2 (Nat.ltb_lt _ _)) by (rewrite app_length; cbn [length]; lia). destruct (idx_two pre x y s) as [E0 E2].
    apply Forall_cons_iff in B. destruct B as [Bx B]. apply Forall_cons_iff in B. destruct B as [By B].
    destruct (decodes x Bx) as (hi & E1 & _ & Nx & Vx). destruct (decodes y By) as (lo & E3 & _ & Ny & Vy).
    apply safe_then, (safe_lift _ _ _ _ _ _ E0), safe_then, (safe_lift _ _ _ _ _ _ E1), safe_then, (safe_lift _ _ _ _ _ _ E2), safe_then, (safe_lift _ _ _ _ _ _ E3).
    cbn [pairs]. destruct (digit_value x) as [vx|].
    2:{ rewrite (Nx eq_refl). cbn [negb safe app length]. rewrite Nat.sub_0_r. auto. }
    destruct (Vx vx eq_refl) as [-> Lx]. rewrite (land_F0_small vx Lx). cbn [N.eqb negb]. destruct (digit_value y) as [vy|].
    2:{ rewrite (Ny eq_refl). cbn [negb safe app length]. rewrite Nat.sub_0_r. auto. }
    destruct (Vy vy eq_refl) as [-> Ly]. rewrite (land_F0_small vy Ly). cbn [N.eqb negb]. rewrite lor_nibbles by assumption.
    cbn [length Nat.div2] in Hk, Hf. destruct k as [|k]; [lia|]. apply (set_at_then id a n m0 u Wa _ _ _ _ _ _ _ F (upd_at _ _ _)). intros m1 F1.
    specialize (IH (pre ++ [x; y]) (out ++ [16 * vx + vy]) k fuel m1 B ltac:(lia) ltac:(lia) F1).
    rewrite <- !app_assoc in IH. cbn [app] in IH. rewrite !app_length in IH. cbn [length] in IH.
    replace (S (length pre) + 2)%nat with (S (length pre + 2)) by lia. exact IH.
Qed.
Lemma fast_loop_writes s : forall pre out k fuel m, bytes_ok s -> (Nat.div2 (length s) <= k)%nat -> (length s < fuel)%nat ->
  filling a n m0 (out ++ repeat 0 k) m ->
  safe id (toBytesFast_loop bd (pre ++ s) a n fuel (S (length pre)) (length out)) m u
    (fun _ m' u' => u' = u /\ filling a n m0 (out ++ pairs s ++ repeat 0 (k - length (pairs s))) m').
Proof.
  induction s as [|x|x y s IH] using list_pair_ind; intros pre out k fuel m B Hk Hf F; (destruct fuel as [|fuel]; [lia|]); cbn [toBytesFast_loop].
  - rewrite app_nil_r, (proj2 (Nat.ltb_ge _ _)) by lia. cbn [safe pairs app length]. rewrite Nat.sub_0_r. auto.
  - rewrite (proj2 (Nat.ltb_ge _ _)) by (rewrite app_length; cbn [length]; lia). cbn [safe pairs app length]. rewrite Nat.sub_0_r. auto.
  - rewrite (proj2 (Nat.ltb_lt _ _)) by (rewrite app_length; cbn [length]; lia). destruct (idx_two pre x y s) as [E0 E2].
    apply Forall_cons_iff in B. destruct B as [Bx B]. apply Forall_cons_iff in B. destruct B as [By B].
    destruct (decodes x Bx) as (hi & E1 & Hx & Nx & Vx). destruct (decodes y By) as (lo & E3 & Hy & Ny & Vy).
    apply safe_then, (safe_lift _ _ _ _ _ _ E0), safe_then, (safe_lift _ _ _ _ _ _ E1), safe_then, (safe_lift _ _ _ _ _ _ E2), safe_then, (safe_lift _ _ _ _ _ _ E3).
    rewrite land_lor_F0 by assumption. cbn [pairs]. destruct (digit_value x) as [vx|].
    2:{ rewrite (Nx eq_refl). cbn [andb negb safe app length]. rewrite Nat.sub_0_r. auto. }
    destruct (Vx vx eq_refl) as [-> Lx]. rewrite (land_F0_small vx Lx). cbn [N.eqb negb andb]. destruct (digit_value y) as [vy|].
    2:{ rewrite (Ny eq_refl). cbn [negb safe app length]. rewrite Nat.sub_0_r. auto. }
    destruct (Vy vy eq_refl) as [-> Ly]. rewrite (land_F0_small vy Ly). cbn [N.eqb negb]. rewrite lor_nibbles by assumption.
    cbn [length Nat.div2] in Hk, Hf. destruct k as [|k]; [lia|]. apply (set_at_then id a n m0 u Wa _ _ _ _ _ _ _ F (upd_at _ _ _)). intros m1 F1.
    specialize (IH (pre ++ [x; y]) (out ++ [16 * vx + vy]) k fuel m1 B ltac:(lia) ltac:(lia) F1).
    rewrite <- !app_assoc in IH. cbn [app] in IH. rewrite !app_length in IH. cbn [length] in IH.
    replace (S (length pre) + 2)%nat with (S (length pre + 2)) by lia. exact IH.
Qed.
End Written.

(** A slice is made and holds the pairs. *)
Definition made_pairs (id : nat) (s : list N) (m : memory) (u : bool -> nat) (m' : memory) (u' : bool -> nat) : Prop :=
  is_over m (mkA id false (u false)) (pairs s ++ repeat 0 (Nat.div2 (length s) - length (pairs s))) m' /\ u' = grow u false (Nat.div2 (length s)).
Lemma pairs_short s : (length (pairs s) <= Nat.div2 (length s))%nat.
Proof.
  induction s as [|x|x y s IH] using list_pair_ind; cbn [pairs length Nat.div2]; try lia. destruct (digit_value x), (digit_value y); cbn [length]; lia.
Qed.
Lemma filling_over a n m zs l m1 m' : is_over m a zs m1 -> length zs = n -> length l = n -> filling a n m1 l m' -> is_over m a l m'.
Proof.
  intros O Lz Ll [C O'] x. unfold over. destruct (within a (length l) x) eqn:W.
  - rewrite (in_shift _ _ _ W). rewrite <- (nth_cells m' a n _ 0).
    + rewrite C. f_equal. cbn [num shift]. apply within_iff in W. lia.
    + apply within_iff in W. lia.
  - rewrite (O' x) by congruence. apply (over_out _ _ _ _ _ O). congruence.
Qed.

Lemma ToBytes_ok bd (id : nat) s m u : bytes_ok s ->
  safe id (ToBytes bd s) m u (fun r m' u' => made_pairs id s m u m' u' /\
    r = (match fst (toBytes_fun s) with Some _ => Some (mkS (mkA id false (u false)) (Nat.div2 (length s)) (Nat.div2 (length s))) | None => None end, snd (toBytes_fun s))).
Proof.
  intros B. pose proof (toBytes_correct bd s B) as E. destruct (toBytes_fun s) as [r e]. cbn [fst snd]. unfold Hex.ToBytes in E. cbv zeta in E.
  rewrite make_half in E. cbn [bind] in E. apply bind_ret in E. destruct E as (x & Ex & E). unfold ToBytes.
  apply safe_then, (make_slice_ok _ _ _ _ _ _ _ (make_half (length s))). rewrite repeat_length. intros m1 O1.
  set (a := mkA id false (u false)) in *. set (k := Nat.div2 (length s)) in *.
  assert (F1 : filling a k m1 (repeat 0 k) m1). { split; [|apply outside_refl]. rewrite <- (repeat_length 0 k) at 1. apply (cells_over_all _ _ _ _ O1). }
  eapply safe_seq.
  { apply safe_and; [apply (to_loop_returns bd s id a k m1 _ eq_refl _ _ _ _ _ _ F1 Ex)|].
    apply (to_loop_writes bd id a k m1 (grow u false k) eq_refl s [] [] k); [exact B|apply Nat.le_refl|lia|exact F1]. }
  cbn beta. cbn [app]. intros y m2 u2 [Hy [-> F2]].
  assert (Mp : made_pairs id s m u m2 (grow u false k)).
  { split; [|reflexivity]. apply (filling_over a k m (repeat 0 k) _ m1); [exact O1|apply repeat_length| |exact F2].
    rewrite app_length, repeat_length. pose proof (pairs_short s). unfold k. lia. }
  destruct x as [e1|j l]; subst y.
  - injection E as <- <-. cbn [safe]. auto.
  - destruct (Nat.eqb (length s mod 2) 1).
    + apply bind_ret in E. destruct E as (c & E1 & E). apply bind_ret in E. destruct E as (v & E2 & E).
      apply safe_then, (safe_lift _ _ _ _ _ _ E1), safe_then, (safe_lift _ _ _ _ _ _ E2). destruct (15 <? v); injection E as <- <-; cbn [safe]; auto.
    + injection E as <- <-. cbn [safe]. auto.
Qed.
Lemma ToBytesFast_ok bd (id : nat) s m u : bytes_ok s ->
  safe id (ToBytesFast bd s) m u (fun r m' u' => made_pairs id s m u m' u' /\
    r = match fst (toBytes_fun s) with Some _ => Some (mkS (mkA id false (u false)) (Nat.div2 (length s)) (Nat.div2 (length s))) | None => None end).
Proof.
  intros B. pose proof (toBytesFast_correct bd s B) as E. destruct (toBytes_fun s) as [r e]. cbn [fst] in *. unfold Hex.ToBytesFast in E. cbv zeta in E.
  rewrite make_half in E. cbn [bind] in E. apply bind_ret in E. destruct E as (x & Ex & E). unfold ToBytesFast.
  apply safe_then, (make_slice_ok _ _ _ _ _ _ _ (make_half (length s))). rewrite repeat_length. intros m1 O1.
  set (a := mkA id false (u false)) in *. set (k := Nat.div2 (length s)) in *.
  assert (F1 : filling a k m1 (repeat 0 k) m1). { split; [|apply outside_refl]. rewrite <- (repeat_length 0 k) at 1. apply (cells_over_all _ _ _ _ O1). }
  eapply safe_seq.
  { apply safe_and; [apply (fast_loop_returns bd s id a k m1 _ eq_refl _ _ _ _ _ _ F1 Ex)|].
    apply (fast_loop_writes bd id a k m1 (grow u false k) eq_refl s [] [] k); [exact B|apply Nat.le_refl|lia|exact F1]. }
  cbn beta. cbn [app]. intros y m2 u2 [Hy [-> F2]].
  assert (Mp : made_pairs id s m u m2 (grow u false k)).
  { split; [|reflexivity]. apply (filling_over a k m (repeat 0 k) _ m1); [exact O1|apply repeat_length| |exact F2].
    rewrite app_length, repeat_length. pose proof (pairs_short s). unfold k. lia. }
  destruct x as [l|]; subst y.
  - destruct (Nat.eqb (length s mod 2) 1); injection E as <-; cbn [safe]; auto.
  - injection E as <-. cbn [safe]. auto.
Qed.
