(** Goroutines that use hashes, package hex and package codegen. *)
From Verif Require Import Base.Go Base.HashUse Base.Goroutine Base.GoUse Base.LibUse.
From Verif Require Import Model.Hex Model.HashAtom Model.HexAtom Spec.HexSpec Spec.CodegenSpec Spec.HashUseSpec Spec.GoUseSpec Spec.LibUseSpec.
From Verif Require Import Proofs.Util Proofs.HexProofs Proofs.CodegenProofs Proofs.GoroutineProofs Proofs.HashAtomProofs Proofs.GoUseProofs Proofs.HexAtomProofs.
Local Open Scope N_scope.

(** ** The texts *)

Lemma read_pairs_eq s : read_pairs s = pairs s.
Proof.
  induction s as [|x|x y s IH] using list_pair_ind; [reflexivity|reflexivity|]. cbn [read_pairs pairs]. rewrite IH. reflexivity.
Qed.
Lemma first_bad_eq s : forall i, first_bad s (Z.of_nat i) = match find_invalid s i with Some (c, k) => Some (c, Z.of_nat k) | None => None end.
Proof.
  induction s as [|c s IH]; intros i; [reflexivity|]. cbn [first_bad find_invalid]. destruct (digit_value c); [|reflexivity].
  rewrite <- IH. f_equal. lia.
Qed.
Lemma pairs_bytes s : bytes_ok s -> bytes_ok (pairs s).
Proof.
  induction s as [|x|x y s IH] using list_pair_ind; intros B; cbn [pairs]; try constructor.
  apply Forall_cons_iff in B. destruct B as [Bx B]. apply Forall_cons_iff in B. destruct B as [By B].
  destruct (digit_value x) as [vx|] eqn:Ex; [|constructor]. destruct (digit_value y) as [vy|] eqn:Ey; [|constructor].
  destruct (decode_valid Default x vx Bx Ex) as [_ Lx]. destruct (decode_valid Default y vy By Ey) as [_ Ly].
  constructor; [unfold is_byte; lia|apply IH, B].
Qed.

(** ** One call *)

Section Goroutine.
Context (bd : build) (id : nat) (shared : list object) (ours : list (kind * list (list N))) (before : nat).
Context (Main : id = O -> shared = [] /\ before = O).

Lemma Inv_quiet m u st mine m' u' : Inv id shared ours m u st mine -> quiet id m u m' u' -> Inv id shared ours m' u' st mine.
Proof.
  intros Iv Q. pose proof Iv as (I1 & I2 & _). destruct st as [t n hs].
  apply (Inv_bytes id shared ours before Main m u (mkLocal t n hs) mine m' u' t n Iv).
  - intros y Ly H. apply (proj1 Q). intros (A & _ & C). apply H. auto.
  - apply Q.
  - intros x Lx Mx. rewrite (quiet_lib _ _ _ _ _ _ Q Lx). apply I1; assumption.
  - rewrite (proj2 (proj2 Q)). exact I2.
Qed.
Lemma source_of m u st mine s : Inv id shared ours m u st mine -> slice_ok id before st s ->
  source id s m (bytes_of st s) /\ bytes_ok (bytes_of st s) /\ length (bytes_of st s) = slen s.
Proof.
  intros Iv Hs. destruct (bytes_cells id shared ours before m u st mine s Iv Hs) as [E B]. destruct Hs as (_ & Ls & Ms & _). split; [|split; [exact B|]].
  - split; [exact Ms|]. split; [exact Ls|]. symmetry. exact E.
  - rewrite E. apply cells_length.
Qed.
Lemma nonempty (l : list N) n : length l = n -> n <> O -> l <> [].
Proof. intros <- H ->. apply H. reflexivity. Qed.

Lemma Inv_pairs m u st mine s m' u' : bytes_ok s -> Inv id shared ours m u st mine -> made_pairs id s m u m' u' -> Inv id shared ours m' u' (decoded id st s) mine.
Proof.
  intros B Iv [O ->]. pose proof Iv as (I1 & I2 & _). unfold decoded. rewrite read_pairs_eq, <- Nat.div2_div.
  apply (Inv_bytes id shared ours before Main m u st mine m' _ _ _ Iv).
  - intros y Ly _. apply (over_out _ _ _ _ _ O), within_not. cbn [lib]. intros (_ & X & _). congruence.
  - unfold grow. cbn [Bool.eqb]. lia.
  - intros x Lx Mx. rewrite O, I2. apply (over_text id shared ours before Main m u st mine _ _ _ Iv); [|exact Lx|exact Mx].
    apply bytes_ok_app. split; [apply pairs_bytes, B|]. apply Forall_forall. intros y Hy. apply repeat_spec in Hy. subst y. reflexivity.
  - rewrite grow_same, I2. reflexivity.
Qed.

Lemma deed_ok m u st mine d : Inv id shared ours m u st mine -> permitted id ours before st d ->
  safe id (do_deed bd shared mine d) m u (fun r m' u' => snd r = snd (consequence id ours st d) /\ Inv id shared ours m' u' (fst (consequence id ours st d)) (fst r)).
Proof.
  intros Iv Al. destruct d as [a|src|s|s|inp|inp k|inp k]; cbn [permitted do_deed consequence] in *.
  - eapply safe_seq; [apply (act_ok id shared ours before Main m u st mine a Iv Al)|]. cbn beta. intros [mine' r] m' u' [Er Iv']. cbn [fst snd] in *.
    destruct (effect id ours st a) as [st' r']. cbn [fst snd safe] in *. subst r'. auto.
  - destruct (source_of m u st mine src Iv Al) as (Sr & B & _).
    eapply safe_seq; [apply (FromBytes_ok _ _ _ u _ _ Sr (fromBytes_correct _ B))|]. cbn beta. intros t m' u' (-> & Q). cbn [safe fst snd]. split; [reflexivity|].
    apply (Inv_quiet m u); assumption.
  - eapply safe_seq; [apply (ToBytes_ok bd id s m u Al)|]. cbn beta. intros r m' u' [Mp ->]. cbn [safe fst snd]. split; [|apply (Inv_pairs m u); assumption].
    unfold toBytes_fun. change 0%Z with (Z.of_nat 0). rewrite first_bad_eq. destruct (find_invalid s 0) as [[c i]|]; [reflexivity|].
    destruct (Nat.even (length s)); cbn [fst snd]; [|reflexivity]. unfold gets_bytes. pose proof Iv as (_ & I2 & _). rewrite I2, <- Nat.div2_div. reflexivity.
  - eapply safe_seq; [apply (ToBytesFast_ok bd id s m u Al)|]. cbn beta. intros r m' u' [Mp ->]. cbn [safe fst snd]. split; [|apply (Inv_pairs m u); assumption].
    unfold toBytes_fun. change 0%Z with (Z.of_nat 0). rewrite first_bad_eq. destruct (find_invalid s 0) as [[c i]|]; [reflexivity|].
    destruct (Nat.even (length s)); cbn [fst snd]; [|reflexivity]. unfold gets_bytes. pose proof Iv as (_ & I2 & _). rewrite I2, <- Nat.div2_div. reflexivity.
  - destruct Al as [Hs Hl]. destruct (source_of m u st mine inp Iv Hs) as (Sr & B & L). rewrite <- L in Hl.
    eapply safe_seq; [apply (BytesToString_ok _ _ _ u _ _ Sr (BytesToString_text _ B Hl))|]. cbn beta. intros t m' u' (-> & Q). cbn [safe fst snd]. split; [reflexivity|].
    apply (Inv_quiet m u); assumption.
  - destruct Al as (Hs & Hl & Hk & Hn & Hm). destruct (source_of m u st mine inp Iv Hs) as (Sr & B & L). rewrite <- L in Hl, Hm.
    pose proof (nonempty _ _ L Hn) as Ne.
    eapply safe_seq; [apply (BytesToStringSep_ok _ _ _ _ u _ _ Sr (StringSep_text _ _ B Hl Hk Ne Hm))|]. cbn beta. intros t m' u' (-> & Q). cbn [safe fst snd].
    rewrite strings_text by (try exact Ne; lia). split; [reflexivity|]. apply (Inv_quiet m u); assumption.
  - destruct Al as (Hs & Hl & Hk & Hn & Hm). destruct (source_of m u st mine inp Iv Hs) as (Sr & B & L). rewrite <- L in Hl, Hm.
    pose proof (nonempty _ _ L Hn) as Ne.
    eapply safe_seq; [apply (BytesToHexSep_ok _ _ _ _ u _ _ Sr (HexSep_text _ _ B Hl Hk Ne Hm))|]. cbn beta. intros t m' u' (-> & Q). cbn [safe fst snd].
    rewrite list_text by (try exact Ne; lia). split; [reflexivity|]. apply (Inv_quiet m u); assumption.
Qed.

Lemma work_ok g : forall m u st mine, Inv id shared ours m u st mine -> works_fair id ours before st g ->
  safe id (work bd shared mine g) m u (fun r m' u' => fst r = fst (foresees id ours st g) /\ Inv id shared ours m' u' (snd (foresees id ours st g)) (snd r)).
Proof.
  induction g as [|d k IH]; intros m u st mine Iv Pf; cbn [works_fair work foresees] in *.
  - cbn [safe fst snd]. split; [reflexivity|exact Iv].
  - destruct Pf as [Al Pf]. eapply safe_seq; [apply (deed_ok m u st mine d Iv Al)|]. cbn beta. intros [mine' r] m' u' [Er Iv']. cbn [fst snd] in *.
    destruct (consequence id ours st d) as [st' r'] eqn:Ee. cbn [fst snd] in *. subst r'.
    eapply safe_seq; [apply (IH r m' u' st' mine' Iv' Pf)|]. cbn beta. intros [rs mine''] m'' u'' [Ers Iv'']. cbn [safe fst snd] in *.
    destruct (foresees id ours st' (k r)) as [rs' st'']. cbn [fst snd] in *. subst rs'. split; [reflexivity|exact Iv''].
Qed.
End Goroutine.

(** ** Programs *)

Section Program.
Context (bd : build) (g0 : worker) (gs : list worker).
Let st0 := snd (foresees 0 [] start g0).
Definition ends_as_foreseen (i : nat) (r : list answer * list object) (m : memory) : Prop :=
  exists g, nth_error gs i = Some g /\ let '(rs, st) := foresees (S i) (hashes st0) (found st0) g in
    fst r = rs /\ forall x, lib x = false -> may (S i) x -> m x = text st x.
Lemma ends_local i : concerns (S i) (ends_as_foreseen i).
Proof.
  intros r m m' A (g & E & H). exists g. split; [exact E|]. destruct (foresees (S i) (hashes st0) (found st0) g) as [rs st]. destruct H as [-> H].
  split; [reflexivity|]. intros x Lx Mx. rewrite (A x Mx). apply (H x Lx Mx).
Qed.

Lemma main_work : works_fair 0 [] 0 start g0 ->
  exists objs m u, alone 0 (work bd [] [] g0) (fun _ => 0) none = Some ((fst (foresees 0 [] start g0), objs), m, u)
    /\ Inv 0 [] [] m u st0 objs /\ forall a, who a <> 0%nat -> m a = 0.
Proof.
  intros Pf. destruct (safe_alone _ _ _ _ _ (work_ok bd 0 [] [] 0 (fun _ => conj eq_refl eq_refl) g0 _ _ _ _ start_Inv Pf)) as ([rs objs] & m & u & E & [Er Iv] & F).
  cbn [fst snd] in *. subst rs. exists objs, m, u. split; [exact E|]. split; [exact Iv|exact F].
Qed.
Lemma workers_fine objs m u : (forall i g, nth_error gs i = Some g -> works_fair (S i) (hashes st0) (made st0) (found st0) g) ->
  Inv 0 [] [] m u st0 objs -> (forall a, who a <> 0%nat -> m a = 0) ->
  fine ends_as_foreseen (m, map (fun g => mkT (work bd objs [] g) none) gs).
Proof.
  intros Pf Iv Z i t Ht. cbn [fst snd] in *. rewrite nth_error_map in Ht. destruct (nth_error gs i) as [g|] eqn:Eg; [|discriminate].
  cbn [option_map] in Ht. injection Ht as <-. cbn [todo used].
  assert (Mn : S i = 0%nat -> objs = [] /\ made st0 = 0%nat) by discriminate.
  eapply safe_mono; [apply (work_ok bd (S i) objs (hashes st0) (made st0) Mn g _ _ _ _ (found_Inv i objs m u st0 Iv Z) (Pf i g Eg))|].
  cbn beta. intros [rs mine] m' u' [Er (I1 & _)]. cbn [fst snd] in *. exists g. split; [exact Eg|].
  destruct (foresees (S i) (hashes st0) (found st0) g) as [rs' st']. cbn [fst snd] in *. split; [exact Er|]. intros x Lx Mx. apply I1; assumption.
Qed.
End Program.
