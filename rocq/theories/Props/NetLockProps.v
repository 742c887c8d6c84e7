(** C110: trees and slices shared under a lock, and copies used without it. *)
From Coq Require Import Sorted.
From Verif Require Import Base.Go Base.GoNet Base.NetApi Spec.NetSpec.
From Verif Require Import Base.Goroutine Base.GoUse Base.Lock Base.NetGo Base.NetLock Model.NetAtom Model.NetLockAtom.
From Verif Require Import Spec.NetGoSpec Spec.NetLockSpec Proofs.GoroutineProofs Proofs.NetGoProofs Proofs.NetLockProofs.
From Verif Require Model.Net Proofs.NetProofs Proofs.NetUseProofs Proofs.NetGoUnique Proofs.LockProofs.
Local Open Scope N_scope.

(** A program: one goroutine does [g0], then starts the workers [ws], which use what
    it made only while they hold the lock, alone if they change it. The user has to
    check the rules only for executions in which every stretch happens at once ([orderly]). *)
Definition guarded (g0 : ngoroutine) (ws : list nworker) : Prop :=
  plays_fair 0 [] 0 start g0 /\ forall rs st0, expects 0 [] start g0 rs st0 -> orderly st0 ws.

(** What can be seen of an execution [y] is what there is in [p], where stretches
    happen at once: the replies so far, the bytes of a worker that is between two
    stretches, and the shared bytes if nobody holds the lock alone. Of a stretch
    that is going on, [p] has the replies it will get. *)
Definition shows (y : locking (list nreply * list ptree)) (p : shop) : Prop :=
  let '(m, ts) := y in
  length ts = length (snd p)
  /\ (forall i t, nth_error ts i = Some t -> exists q said, nth_error (snd p) i = Some (q, said) /\
      match at_stage t with
      | Between k => said = map fst (got t) /\ (k = Over <-> q = NRest) /\ forall a, lib a = false -> who a = S i -> m a = bytes (fst p) a
      | Inside _ _ _ => exists rs, said = map fst (got t) ++ [rs]
      end)
  /\ (unlocked ts -> forall a, lib a = false -> who a = O -> m a = bytes (fst p) a).

Lemma follows_shows u ts y p : follows u ts y p -> shows y p.
Proof.
  intros (lim & heads & F). pose proof (fun i t => follows_worker u ts lim heads y p i t F) as W. destruct y as [m rs]. destruct F as (L & _ & _ & R & _). cbn [fst snd] in *.
  split; [exact L|]. split; [|intros E a La Wa; apply (R E); assumption]. intros i t Ht. destruct (W i t Ht) as ([q said] & Eq & T).
  exists q, said. split; [exact Eq|]. unfold tracks in T. destruct (at_stage t) as [k|l c k]; cbn [fst snd] in T.
  - destruct T as (T1 & mine & T2 & T3 & _). split; [exact T1|]. split; [|intros a La Wa; apply T3; assumption].
    destruct q as [|l g f]; cbn [nlabour] in T2; subst k; split; try discriminate; reflexivity.
  - destruct T as (rp & _ & _ & T1 & _). exists rp. exact T1.
Qed.

(** Every execution, however the memory accesses interleave, looks as if every
    stretch had happened at once, in some order in which stretches that came after
    one another stay so: what is the order at one moment remains at the beginning
    of the order later. *)
Theorem C110_atomic : forall g0 ws, guarded g0 ws ->
  exists rs0 st0 ts m u,
    alone 0 (nbehave [] [] g0) (fun _ => 0) none = Some ((rs0, ts), m, u) /\ expects 0 [] start g0 rs0 st0 /\
    forall y1 y2, leads (nopened ts m ws) y1 -> leads y1 y2 ->
      exists p1 p2, turns (opening st0 ws) p1 /\ shows y1 p1 /\ turns p1 p2 /\ shows y2 p2.
Proof.
  intros g0 ws [P0 Ps]. destruct (main_ok g0 P0) as (rs0 & ts & m & u & st0 & E & Ex & Iv & Z). exists rs0, st0, ts, m, u. split; [exact E|]. split; [exact Ex|].
  intros y1 y2 L1 L2. pose proof (follows_opened ts m u st0 ws Iv Z) as F0. specialize (Ps rs0 st0 Ex).
  destruct (follows_leads u ts st0 ws Ps _ _ L1 _ (No_turn _) F0) as (p1 & T1 & F1).
  destruct (follows_leads u ts st0 ws Ps _ _ L2 _ T1 F1) as (p2 & T2 & F2).
  exists p1, p2. split; [exact T1|]. split; [apply (follows_shows _ _ _ _ F1)|]. split; [exact T2|apply (follows_shows _ _ _ _ F2)].
Qed.

(** There is no data race, no panic and no deadlock. *)
Theorem C110_safe : forall g0 ws, guarded g0 ws ->
  exists rs0 ts m u,
    alone 0 (nbehave [] [] g0) (fun _ => 0) none = Some ((rs0, ts), m, u) /\
    forall y, leads (nopened ts m ws) y ->
      ~ conflict y
      /\ (forall i t l c k, nth_error (snd y) i = Some t -> at_stage t = Inside l c k -> c <> Crash)
      /\ unhindered y.
Proof.
  intros g0 ws [P0 Ps]. destruct (main_ok g0 P0) as (rs0 & ts & m & u & st0 & E & Ex & Iv & Z). exists rs0, ts, m, u. split; [exact E|].
  intros y L. pose proof (follows_opened ts m u st0 ws Iv Z) as F0. specialize (Ps rs0 st0 Ex).
  destruct (follows_leads u ts st0 ws Ps _ _ L _ (No_turn _) F0) as (p & T & F).
  split; [apply (follows_no_conflict _ _ _ _ F)|]. split; [intros i t l c k; apply (follows_no_crash _ _ _ _ _ _ _ _ _ F)|].
  apply (follows_goes_on _ _ _ _ F).
Qed.
(** Nor an infinite execution, of these or any other workers. *)
Theorem C110_terminates : forall (f : nat -> locking (list nreply * list ptree)), ~ (forall n, steps (f n) (f (S n))).
Proof. exact LockProofs.no_infinite_steps. Qed.

(** When all workers have come to their ends, the first goroutine can go on, with
    what the workers have made of its slices and trees. *)
Theorem C110_after : forall g0 ws, guarded g0 ws ->
  exists rs0 st0 ts m u,
    alone 0 (nbehave [] [] g0) (fun _ => 0) none = Some ((rs0, ts), m, u) /\ expects 0 [] start g0 rs0 st0 /\
    forall m' rs, leads (nopened ts m ws) (m', rs) -> (forall i t, nth_error rs i = Some t -> at_stage t = Between Over) ->
      exists w ps, turns (opening st0 ws) (w, ps)
        /\ (forall i q, nth_error ps i = Some q -> fst q = NRest)
        /\ forall g, in_order 0 Without w g ->
           exists rp ts' m'' u' w', alone 0 (nbehave [] ts g) m' u = Some ((rp, ts'), m'', u') /\ comes_to 0 w g rp w'
             /\ forall a, lib a = false -> who a = O -> m'' a = bytes w' a.
Proof.
  intros g0 ws [P0 Ps]. destruct (main_ok g0 P0) as (rs0 & ts & m & u & st0 & E & Ex & Iv & Z). exists rs0, st0, ts, m, u. split; [exact E|]. split; [exact Ex|].
  intros m' rs L Fin. pose proof (follows_opened ts m u st0 ws Iv Z) as F0. specialize (Ps rs0 st0 Ex).
  destruct (follows_leads u ts st0 ws Ps _ _ L _ (No_turn _) F0) as ([w ps] & T & F). exists w, ps. split; [exact T|].
  pose proof (follows_shows _ _ _ _ F) as (Ln & Sh & _). cbn [fst snd] in *. split.
  - intros i q Hq. destruct (nth_error rs i) as [t|] eqn:Et.
    + destruct (Sh i t Et) as (q' & said & Eq & M). rewrite Hq in Eq. injection Eq as ->. rewrite (Fin i t Et) in M. apply M. reflexivity.
    + apply nth_error_None in Et. assert (i < length ps)%nat by (apply nth_error_Some; congruence). lia.
  - intros g Pg. assert (U : unlocked rs) by (intros i t c k Ht Et; rewrite (Fin i t Ht) in Et; discriminate).
    apply (follows_after _ _ _ _ _ _ U F Pg).
Qed.

(** What comes of a stretch that happens at once is one thing. *)
Theorem C110_one_outcome : forall id w g rs1 w1 rs2 w2,
  comes_to id w g rs1 w1 -> comes_to id w g rs2 w2 -> rs2 = rs1 /\ w2 = w1.
Proof. intros id w g. apply comes_fun. Qed.

(** ** Any number of goroutines add addresses to one tree

    Each adds an address while it holds the lock alone, copies the tree while it
    holds it with others, and lists the copy when it no longer does. *)
Definition look : nworker := NStretch Without (NDo (GList (Mine 0)) (fun _ => NStop)) (fun _ => NRest).
Definition take : nworker := NStretch Reading (NDo (GCopy (Ours 0)) (fun _ => NStop)) (fun _ => look).
Definition job (j : gslice * N) : nworker := NStretch Alone (NDo (GAddIp (Ours 0) (fst j) (snd j)) (fun _ => NStop)) (fun _ => take).
(** Address [x] is in one of the CIDRs of a list, by IPNet.Contains. *)
Definition lists (m : memory) (l : list (gslice * gslice * N)) (x : N) : Prop :=
  exists ip mask v, In (ip, mask, v) l /\ Contains (mkNet (cells m (base ip) (slen ip)) (cells m (base mask) (slen mask))) (NetSpec.addr x) = true.

(** The bytes of a listing. *)
Lemma nth_app_r {A} (a b : list A) j d : nth (length a + j) (a ++ b) d = nth j b d.
Proof. rewrite app_nth2 by lia. f_equal. lia. Qed.
Lemma listing_bytes id m : forall L n, (forall j, (j < 8 * length L)%nat -> m (mkA id false (n + j)) = nth j (entry_bytes L) 0) ->
  map (fun e => let '(ip, mask, v) := e in (mkNet (cells m (base ip) (slen ip)) (cells m (base mask) (slen mask)), v)) (entries id n L)
  = map (fun x => let '(y, p, z) := x in (net_of y p, z)) L.
Proof.
  induction L as [|[[y p] z] L IH]; intros n H; [reflexivity|]. cbn [entries map entry_bytes flat_map] in *. f_equal.
  - assert (X : forall k a, (k + 4 <= 8)%nat -> (forall i, (i < 4)%nat -> nth (k + i) (NetSpec.addr y ++ NetSpec.addr (2 ^ 32 - size p)) 0 = nth i (NetSpec.addr a) 0) ->
      cells m (mkA id false (n + k)) 4 = NetSpec.addr a).
    { intros k a Hk Hn. unfold cells. transitivity (map (fun i => nth i (NetSpec.addr a) 0) (seq 0 4)); [|reflexivity]. apply map_ext_in. intros i Hi. apply in_seq in Hi.
      rewrite <- Hn by lia. unfold shift. cbn [who lib num]. rewrite <- Nat.add_assoc, H by (cbn [length]; lia).
      apply app_nth1. cbn [length app NetSpec.addr]. lia. }
    cbn [base slen]. unfold net_of. do 2 f_equal; [replace n with (n + 0)%nat by lia|]; apply X; [lia| |lia|]; intros i Hi; do 4 (destruct i as [|i]; [reflexivity|]); lia.
  - apply IH. intros j Hj. rewrite <- Nat.add_assoc, H by (cbn [length]; lia).
    exact (nth_app_r (NetSpec.addr y ++ NetSpec.addr (2 ^ 32 - size p)) (flat_map (fun x => let '(y, p, _) := x in NetSpec.addr y ++ NetSpec.addr (2 ^ 32 - size p)) L) j 0).
Qed.
(** A listing covers what was added. *)
Lemma listing_covers id m n mg cs B L x : Forall proper cs -> history mg no_blocks cs B ->
  StronglySorted (fun x y => let '(y1, p, _) := x in let '(y2, _, _) := y in y1 + size p <= y2) L ->
  (forall y p z, In (y, p, z) L <-> B y p = Some z) ->
  (forall j, (j < 8 * length L)%nat -> m (mkA id false (n + j)) = nth j (entry_bytes L) 0) -> x < 2 ^ 32 ->
  lists m (entries id n L) x <-> exists c, In c cs /\ adds c x.
Proof.
  intros Pr Hi So Bl By Hx. destruct (NetProofs.coverage mg cs Pr) as (t & k & E & C). specialize (E k (le_n k)). rewrite <- (C x Hx).
  destruct (NetUseProofs.tree_list mg cs k t Pr E) as (B' & L' & Hi' & EL & So' & Bl'). rewrite <- (NetGoUnique.history_fun _ _ _ _ Hi _ Hi') in Bl'.
  assert (L' = L) as -> by (apply NetGoUnique.sorted_fun; [exact So'|exact So|]; intros [[y p] z]; rewrite Bl, Bl'; reflexivity).
  unfold listed. rewrite EL, <- (listing_bytes id m L n By). split.
  - intros (ip & mask & v & I1 & I2). exists (mkNet (cells m (base ip) (slen ip)) (cells m (base mask) (slen mask))), v. split; [|exact I2].
    apply (in_map (fun e => let '(ip, mask, v) := e in (mkNet (cells m (base ip) (slen ip)) (cells m (base mask) (slen mask)), v)) _ _ I1).
  - intros (nt & v & I1 & I2). apply in_map_iff in I1. destruct I1 as ([[ip mask] v'] & I0 & I1). injection I0 as <- <-. exists ip, mask, v'. split; assumption.
Qed.

Section Jobs.
Context (st : local) (mg : N -> N -> N) (js : list (gslice * N)).
Context (Ht : trees st = [(mg, [])]).
Context (Hs : Forall (fun j => ((slen (fst j) <= scap (fst j))%nat /\ lib (base (fst j)) = false /\ who (base (fst j)) = O
  /\ forall k, (k < scap (fst j))%nat -> (num (base (fst j)) + k < made st)%nat) /\ exists x, is_addr (bytes_of st (fst j)) x) js).
Let w0 := fst (opening st (map job js)).
Definition call (j : gslice * N) : tree_call N := CAddIp (bytes_of st (fst j)) (snd j).

(** Where a worker is. [cs]: the calls on the tree so far. *)
Definition getting_on (i : nat) (j : gslice * N) (w : world) (cs : list (tree_call N)) (q : nworker) (said : list (list nreply)) : Prop :=
  (q = job j /\ said = [] /\ made_by w (S i) = O /\ kept w (S i) = [])
  \/ (q = take /\ said = [[PDone]] /\ made_by w (S i) = O /\ kept w (S i) = [] /\ In (call j) cs)
  \/ (q = look /\ said = [[PDone]; [PTree]] /\ made_by w (S i) = O
      /\ exists cs', kept w (S i) = [(mg, cs')] /\ incl cs' cs /\ In (call j) cs')
  \/ (q = NRest /\ exists cs' B L, said = [[PDone]; [PTree]; [PList (entries (S i) 0 L)]] /\ incl cs' cs /\ In (call j) cs'
      /\ history mg no_blocks cs' B
      /\ StronglySorted (fun x y => let '(y1, p, _) := x in let '(y2, _, _) := y in y1 + size p <= y2) L
      /\ (forall y p z, In (y, p, z) L <-> B y p = Some z)
      /\ forall k, (k < 8 * length L)%nat -> bytes w (mkA (S i) false (0 + k)) = nth k (entry_bytes L) 0).

Lemma same_text w s : who (base s) = O -> (forall a, who a = O -> bytes w a = bytes w0 a) -> slice_text w s = bytes_of st s.
Proof.
  intros Ws E. apply map_ext. intros j. rewrite E by exact Ws. unfold w0. cbn [opening fst bytes found text]. cbn [who shift]. rewrite Ws. reflexivity.
Qed.
Lemma entry_bytes_length L : length (entry_bytes L) = (8 * length L)%nat.
Proof. induction L as [|[[y p] z] L IH]; [reflexivity|]. unfold entry_bytes in *. cbn [flat_map length]. rewrite !app_length, IH. cbn [length NetSpec.addr]. lia. Qed.

Lemma job_turns p : turns (opening st (map job js)) p ->
  (forall a, who a = O -> bytes (fst p) a = bytes w0 a) /\ made_by (fst p) O = made st /\ length (snd p) = length js
  /\ exists cs, kept (fst p) O = [(mg, cs)] /\ (forall c, In c cs -> exists j, In j js /\ c = call j)
  /\ forall i j q said, nth_error js i = Some j -> nth_error (snd p) i = Some (q, said) -> getting_on i j (fst p) cs q said.
Proof.
  remember (opening st (map job js)) as o eqn:Eo. induction 1 as [p|p p1 p2 _ IH T]; subst.
  - split; [reflexivity|]. split; [reflexivity|]. cbn [opening snd fst]. split; [rewrite !map_length; reflexivity|]. exists []. split; [exact Ht|]. split; [intros c []|].
    intros i j q said Ej Eq. rewrite !nth_error_map, Ej in Eq. cbn [option_map] in Eq. injection Eq as <- <-. left. repeat split.
  - destruct (IH eq_refl) as (B & M & Ln & cs & K & C & Q). clear IH. destruct T as [w ps i l g f said rs w' Hi Co]. cbn [fst snd] in *.
    assert (Ej : exists j, nth_error js i = Some j).
    { destruct (nth_error js i) as [j|] eqn:E; [eauto|]. apply nth_error_None in E. assert (i < length ps)%nat by (apply nth_error_Some; congruence). lia. }
    destruct Ej as [j Ej]. destruct (proj1 (Forall_forall _ _) Hs j (nth_error_In _ _ Ej)) as [(_ & _ & Wj & _) _].
    destruct (Q i j _ _ Ej Hi) as [(E & -> & Mi & Ki)|[(E & -> & Mi & Ki & In2)|[(E & -> & Mi & cs' & Ki & In1 & In2)|(E & _)]]]; [| | |discriminate E].
    + injection E as -> -> ->. destruct Co as (w1 & r1 & rs1 & (h & mg1 & cs1 & c1 & E1 & E2 & -> & ->) & -> & -> & ->).
      injection E1 as <- <-. unfold NetLockSpec.tree_of in *. cbn [maker place] in *. rewrite K in E2. injection E2 as <- <-.
      unfold extended in *. cbn [maker place kept bytes made_by] in *. rewrite K in *. cbn [replaced] in *.
      rewrite (same_text w (fst j) Wj B) in *. change (CAddIp (bytes_of st (fst j)) (snd j)) with (call j) in *.
      split; [exact B|]. split; [exact M|]. split; [rewrite replaced_length; exact Ln|]. exists (cs ++ [call j]).
      split; [apply is_now_same|]. split.
      * intros c Ic. apply in_app_iff in Ic. destruct Ic as [Ic|[<-|[]]]; [apply (C c Ic)|]. exists j. split; [apply (nth_error_In _ _ Ej)|reflexivity].
      * assert (Gr : incl cs (cs ++ [call j])) by (apply incl_appl, incl_refl).
        intros i' j' q' said' Ej' Eq. rewrite nth_replaced in Eq. destruct (Nat.eqb_spec i i') as [<-|N].
        -- rewrite Hi in Eq. injection Eq as <- <-. rewrite Ej in Ej'. injection Ej' as <-. right. left. split; [reflexivity|]. split; [reflexivity|].
           cbn [made_by kept]. split; [exact Mi|]. split; [rewrite is_now_other by discriminate; exact Ki|]. apply in_app_iff. right. left. reflexivity.
        -- destruct (Q i' j' q' said' Ej' Eq) as [(X1 & X2 & X3 & X4)|[(X1 & X2 & X3 & X4 & X5)|[(X1 & X2 & X3 & cs' & X4 & X5 & X6)|(X1 & cs' & B' & L & X2 & X3 & X4 & X5)]]].
           ++ left. cbn [made_by kept]. rewrite !is_now_other by congruence. auto.
           ++ right. left. cbn [made_by kept]. rewrite !is_now_other by congruence. repeat (split; [assumption|]). apply Gr, X5.
           ++ right. right. left. cbn [made_by kept]. split; [exact X1|]. split; [exact X2|]. split; [exact X3|]. exists cs'. rewrite !is_now_other by congruence.
              split; [exact X4|]. split; [apply (incl_tran X5 Gr)|exact X6].
           ++ right. right. right. split; [exact X1|]. exists cs', B', L. split; [exact X2|]. split; [apply (incl_tran X3 Gr)|]. split; [exact X4|]. exact X5.
    + injection E as -> -> ->. destruct Co as (w2 & r2 & rs2 & (t & E3 & -> & ->) & -> & -> & ->).
      unfold NetLockSpec.tree_of in *. cbn [maker place] in *. rewrite K in E3. injection E3 as <-. unfold planted. cbn [bytes made_by kept].
      split; [exact B|]. split; [exact M|]. split; [rewrite replaced_length; exact Ln|]. exists cs. split; [rewrite is_now_other by discriminate; exact K|]. split; [exact C|].
      intros i' j' q' said' Ej' Eq. rewrite nth_replaced in Eq. destruct (Nat.eqb_spec i i') as [<-|N].
      * rewrite Hi in Eq. injection Eq as <- <-. rewrite Ej in Ej'. injection Ej' as <-. right. right. left. split; [reflexivity|]. split; [reflexivity|].
        cbn [made_by kept]. split; [exact Mi|]. exists cs. split; [rewrite is_now_same, Ki; reflexivity|]. split; [apply incl_refl|exact In2].
      * destruct (Q i' j' q' said' Ej' Eq) as [(X1 & X2 & X3 & X4)|[(X1 & X2 & X3 & X4 & X5)|[(X1 & X2 & X3 & cs' & X4)|X]]].
        -- left. cbn [made_by kept]. rewrite !is_now_other by congruence. auto.
        -- right. left. cbn [made_by kept]. rewrite !is_now_other by congruence. auto.
        -- right. right. left. cbn [made_by kept]. rewrite !is_now_other by congruence. repeat (split; [assumption|]). exists cs'. exact X4.
        -- right. right. right. exact X.
    + injection E as -> -> ->. destruct Co as (w1 & r1 & rs1 & (mg1 & cs1 & B1 & L & E1 & H1 & H2 & H3 & -> & ->) & -> & -> & ->).
      unfold NetLockSpec.tree_of in E1. cbn [maker place] in E1. rewrite Ki in E1. injection E1 as <- <-. unfold enlarged. rewrite Mi in *. cbn [bytes made_by kept].
      assert (Far : forall a, who a <> S i -> overwrite (bytes w) (mkA (S i) false 0) (entry_bytes L) a = bytes w a).
      { intros a Ha. unfold overwrite. replace (within (mkA (S i) false 0) (length (entry_bytes L)) a) with false; [reflexivity|]. symmetry. apply within_not. cbn [who]. intros (X & _). congruence. }
      split; [intros a Wa; rewrite Far by congruence; apply (B a Wa)|]. split; [rewrite is_now_other by discriminate; exact M|]. split; [rewrite replaced_length; exact Ln|].
      exists cs. split; [exact K|]. split; [exact C|].
      intros i' j' q' said' Ej' Eq. rewrite nth_replaced in Eq. destruct (Nat.eqb_spec i i') as [<-|N].
      * rewrite Hi in Eq. injection Eq as <- <-. rewrite Ej in Ej'. injection Ej' as <-. right. right. right. split; [reflexivity|]. exists cs', B1, L. cbn [bytes].
        split; [reflexivity|]. split; [exact In1|]. split; [exact In2|]. split; [exact H1|]. split; [exact H2|]. split; [exact H3|].
        intros k Hk. unfold overwrite. replace (within (mkA (S i) false 0) (length (entry_bytes L)) (mkA (S i) false (0 + k))) with true
          by (symmetry; apply within_iff; rewrite entry_bytes_length; cbn [who lib num]; lia). cbn [num]. f_equal. lia.
      * destruct (Q i' j' q' said' Ej' Eq) as [(X1 & X2 & X3 & X4)|[(X1 & X2 & X3 & X4 & X5)|[(X1 & X2 & X3 & cs'' & X4)|(X1 & cs'' & B' & L' & X2 & X3 & X4 & X5 & X6 & X7 & X8)]]].
        -- left. cbn [made_by kept]. rewrite !is_now_other by congruence. auto.
        -- right. left. cbn [made_by kept]. rewrite !is_now_other by congruence. auto.
        -- right. right. left. cbn [made_by kept]. rewrite !is_now_other by congruence. split; [exact X1|]. split; [exact X2|]. split; [exact X3|]. exists cs''. exact X4.
        -- right. right. right. split; [exact X1|]. exists cs'', B', L'. cbn [bytes]. do 6 (split; [assumption|]). intros k Hk. rewrite Far by (cbn [who]; congruence). apply (X8 k Hk).
Qed.
Lemma call_proper cs : (forall c, In c cs -> exists j, In j js /\ c = call j) -> Forall proper cs.
Proof.
  intros H. apply Forall_forall. intros c Ic. destruct (H c Ic) as (j & Ij & ->). apply (proj1 (Forall_forall _ _) Hs j Ij).
Qed.
Lemma jobs_orderly : orderly st (map job js).
Proof.
  intros w ps T i l g f said Hi. destruct (job_turns _ T) as (B & M & Ln & cs & K & C & Q). cbn [fst snd] in *.
  assert (Ej : exists j, nth_error js i = Some j).
  { destruct (nth_error js i) as [j|] eqn:E; [eauto|]. apply nth_error_None in E. assert (i < length ps)%nat by (apply nth_error_Some; congruence). lia. }
  destruct Ej as [j Ej]. destruct (proj1 (Forall_forall _ _) Hs j (nth_error_In _ _ Ej)) as [(H1 & H2 & H3 & H4) (x & Hx)].
  destruct (Q i j _ _ Ej Hi) as [(E & _)|[(E & _)|[(E & _ & _ & cs' & Ki & _)|(E & _)]]]; [| | |discriminate E]; injection E as -> -> _; (split; [|intros ? ? _; exact Logic.I]).
  - split; [|split; [|exact Logic.I]].
    + constructor; [|constructor]. split; [exact H1|]. split; [exact H2|]. split; [right; split; [discriminate|exact H3]|]. rewrite H3, M. exact H4.
    + intros h c E. injection E as <- <-. split; [exists x; rewrite (same_text w _ H3 B); exact Hx|]. split; [reflexivity|]. unfold NetLockSpec.tree_of. cbn [maker place]. rewrite K. discriminate.
  - split; [constructor|]. split; [discriminate|]. split; [discriminate|]. unfold NetLockSpec.tree_of. cbn [maker place]. rewrite K. discriminate.
  - split; [constructor|]. split; [discriminate|]. split; [exact Logic.I|]. unfold NetLockSpec.tree_of. cbn [maker place]. rewrite Ki. discriminate.
Qed.
End Jobs.

(** However many there are and however their accesses interleave: what a worker
    that is through has listed covers the address it added itself, and no address
    that nobody added; and when all are through, the first goroutine finds exactly
    the addresses that were added. *)
Theorem C110_total : forall g0 mg js, plays_fair 0 [] 0 start g0 ->
  (forall rs st0, expects 0 [] start g0 rs st0 -> trees st0 = [(mg, [])]
     /\ Forall (fun j => slice_ok 0 0 st0 (fst j) /\ exists x, is_addr (bytes_of st0 (fst j)) x) js) ->
  exists rs0 st0 ts m u,
    alone 0 (nbehave [] [] g0) (fun _ => 0) none = Some ((rs0, ts), m, u) /\ expects 0 [] start g0 rs0 st0 /\
    let added x := exists j, In j js /\ is_addr (bytes_of st0 (fst j)) x in
    forall m' rs, leads (nopened ts m (map job js)) (m', rs) ->
      (forall i t, nth_error rs i = Some t -> at_stage t = Between Over ->
         exists j l, nth_error js i = Some j /\ map fst (got t) = [[PDone]; [PTree]; [PList l]]
           /\ (forall x, is_addr (bytes_of st0 (fst j)) x -> lists m' l x)
           /\ forall x, x < 2 ^ 32 -> lists m' l x -> added x)
      /\ ((forall i t, nth_error rs i = Some t -> at_stage t = Between Over) ->
          exists l ts' m'' u', alone 0 (nbehave [] ts (NDo (GList (Mine 0)) (fun _ => NStop))) m' u = Some (([PList l], ts'), m'', u')
            /\ forall x, x < 2 ^ 32 -> lists m'' l x <-> added x).
Proof.
  intros g0 mg js P0 Hst. destruct (main_ok g0 P0) as (rs0 & ts & m & u & st0 & E & Ex & Iv & Z). exists rs0, st0, ts, m, u. split; [exact E|]. split; [exact Ex|].
  destruct (Hst rs0 st0 Ex) as [Ht Hs].
  assert (Hs' : Forall (fun j => ((slen (fst j) <= scap (fst j))%nat /\ lib (base (fst j)) = false /\ who (base (fst j)) = O
    /\ forall k, (k < scap (fst j))%nat -> (num (base (fst j)) + k < made st0)%nat) /\ exists x, is_addr (bytes_of st0 (fst j)) x) js).
  { apply (Forall_impl _) with (2 := Hs). intros j ((A & B & C & D) & X). split; [|exact X]. split; [exact A|]. split; [exact B|]. split; [destruct C; assumption|].
    intros k Hk. destruct (D k Hk) as [(_ & _ & Y)|(_ & _ & Y)]; [exact Y|lia]. }
  pose proof (jobs_orderly st0 mg js Ht Hs') as Or. intros added m' rs L.
  pose proof (follows_opened ts m u st0 (map job js) Iv Z) as F0.
  destruct (follows_leads u ts st0 _ Or _ _ L _ (No_turn _) F0) as ([w ps] & T & F).
  destruct (job_turns st0 mg js Ht Hs' _ T) as (B & M & Ln & cs & K & C & Q). cbn [fst snd] in *.
  pose proof (follows_shows _ _ _ _ F) as (Lr & Sh & _). cbn [fst snd] in *.
  assert (Job : forall i t, nth_error rs i = Some t -> exists j, nth_error js i = Some j).
  { intros i t Hi. destruct (nth_error js i) as [j|] eqn:Ej; [eauto|]. apply nth_error_None in Ej. assert (i < length rs)%nat by (apply nth_error_Some; congruence). lia. }
  assert (Add : forall c x, In c cs -> adds c x -> added x).
  { intros c x Ic Ax. destruct (C c Ic) as (j & Ij & ->). exists j. split; [exact Ij|exact Ax]. }
  split.
  - intros i t Hi Ei. destruct (Job i t Hi) as [j Ej]. destruct (Sh i t Hi) as (q & said & Eq & St). rewrite Ei in St. destruct St as (-> & [St _] & By). rewrite (St eq_refl) in Eq.
    destruct (Q i j _ _ Ej Eq) as [(X & _)|[(X & _)|[(X & _)|(_ & cs' & B' & L' & X2 & X3 & X4 & X5 & X6 & X7 & X8)]]]; [discriminate X|discriminate X|discriminate X|].
    exists j. eexists. split; [exact Ej|]. split; [exact X2|].
    assert (Cov : forall x, x < 2 ^ 32 -> lists m' (entries (S i) 0 L') x <-> exists c, In c cs' /\ adds c x).
    { intros x Hx. apply (listing_covers (S i) m' 0 mg cs' B' L' x); try assumption; [apply (call_proper st0 js Hs'); intros c Ic; apply C, X3, Ic|].
      intros k Hk. rewrite By by reflexivity. apply (X8 k Hk). }
    split.
    + intros x Ax. apply Cov; [apply Ax|]. exists (call st0 j). split; [exact X4|exact Ax].
    + intros x Hx Lx. apply Cov in Lx; [|exact Hx]. destruct Lx as (c & Ic & Ax). apply (Add c x (X3 c Ic) Ax).
  - intros Fin. assert (U : unlocked rs) by (intros i t c k Hi Et; rewrite (Fin i t Hi) in Et; discriminate).
    assert (G : in_order 0 Without (fst (w, ps)) (NDo (GList (Mine 0)) (fun _ => NStop))).
    { split; [|intros ? ? _; exact Logic.I]. split; [constructor|]. split; [discriminate|]. split; [exact Logic.I|]. unfold NetLockSpec.tree_of. cbn [fst maker place]. rewrite K. discriminate. }
    destruct (follows_after _ _ _ _ _ _ U F G) as (rp & ts' & m'' & u' & w' & A & Co & By). cbn [fst] in Co.
    destruct Co as (w1 & r1 & rs1 & (mg1 & cs1 & B1 & L' & E1 & H1 & H2 & H3 & -> & ->) & -> & -> & ->).
    unfold NetLockSpec.tree_of in E1. cbn [maker place] in E1. rewrite K in E1. injection E1 as <- <-. rewrite M in *.
    exists (entries 0 (made st0) L'), ts', m'', u'. split; [exact A|]. intros x Hx.
    rewrite (listing_covers 0 m'' (made st0) mg cs B1 L' x (call_proper st0 js Hs' cs C) H1 H2 H3); [| |exact Hx].
    + split; [intros (c & Ic & Ax); apply (Add c x Ic Ax)|]. intros (j & Ij & Ax). exists (call st0 j). split; [|exact Ax].
      destruct (In_nth_error _ _ Ij) as [i Ej]. destruct (nth_error rs i) as [t|] eqn:Hi; [|apply nth_error_None in Hi; assert (i < length js)%nat by (apply nth_error_Some; congruence); lia].
      destruct (Sh i t Hi) as (q & said & Eq & St). rewrite (Fin i t Hi) in St. destruct St as (-> & [St _] & _). rewrite (St eq_refl) in Eq.
      destruct (Q i j _ _ Ej Eq) as [(X & _)|[(X & _)|[(X & _)|(_ & cs' & B' & L2 & X2 & X3 & X4 & _)]]]; [discriminate X|discriminate X|discriminate X|apply X3, X4].
    + intros k Hk. rewrite By by reflexivity. unfold enlarged. cbn [bytes]. rewrite M. unfold overwrite.
      replace (within (mkA 0 false (made st0)) (length (entry_bytes L')) (mkA 0 false (made st0 + k))) with true
        by (symmetry; apply within_iff; rewrite (entry_bytes_length L'); cbn [who lib num]; lia). cbn [num]. f_equal. lia.
Qed.

(** A case: 10.0.0.4 and 10.0.0.6. *)
Definition u1 : N := quad 10 0 0 4.
Definition u2 : N := quad 10 0 0 6.
Definition opener : ngoroutine :=
  NDo (GTree N.add) (fun _ => NDo (GFromUint u1) (fun _ => NDo (GFromUint u2) (fun _ => NStop))).
Definition two : list (gslice * N) := [(mkS (mkA 0 false 0) 4 4, 1); (mkS (mkA 0 false 4) 4 4, 2)].
Lemma opener_fair : plays_fair 0 [] 0 start opener.
Proof.
  split; [split; [constructor|]; split; [discriminate|exact Logic.I]|]. intros st1 r1 _. split; [split; [constructor|]; split; [discriminate|reflexivity]|]. intros st2 r2 _.
  split; [split; [constructor|]; split; [discriminate|reflexivity]|]. intros st3 r3 _. exact Logic.I.
Qed.
Lemma opener_leaves rs st : expects 0 [] start opener rs st -> trees st = [(N.add, [])]
  /\ Forall (fun j => slice_ok 0 0 st (fst j) /\ exists x, is_addr (bytes_of st (fst j)) x) two.
Proof.
  intros (st1 & r1 & rs1 & (-> & ->) & -> & (st2 & r2 & rs2 & (-> & W1 & W2 & W3) & -> & (st3 & r3 & rs3 & (-> & V1 & V2 & V3) & -> & _ & ->))).
  cbn [made start trees text app] in *. change (made st2 = 4%nat) in W2. rewrite W2 in *. change (made st3 = 8%nat) in V2. split; [congruence|].
  assert (Ok : forall n, (n + 4 <= 8)%nat -> slice_ok 0 0 st3 (mkS (mkA 0 false n) 4 4)).
  { intros n Hn. split; [apply le_n|]. split; [reflexivity|]. split; [left; reflexivity|]. intros j Hj. left. split; [reflexivity|]. split; [reflexivity|].
    cbn [scap num shift base] in *. lia. }
  constructor; [|constructor; [|constructor]]; (split; [apply Ok; lia|]).
  - exists u1. split; [reflexivity|left]. unfold bytes_of. cbn [fst slen base seq map]. rewrite !V1. unfold overwrite. cbn. rewrite !W1. reflexivity.
  - exists u2. split; [reflexivity|left]. unfold bytes_of. cbn [fst slen base seq map]. rewrite !V1. reflexivity.
Qed.
Example two_guarded : guarded opener (map job two).
Proof.
  split; [apply opener_fair|]. intros rs st0 Ex. destruct (opener_leaves rs st0 Ex) as [Ht Hs]. apply (jobs_orderly st0 N.add two Ht).
  apply (Forall_impl _) with (2 := Hs). intros j ((A & B & C & D) & X). split; [|exact X]. split; [exact A|]. split; [exact B|]. split; [destruct C; assumption|].
  intros k Hk. destruct (D k Hk) as [(_ & _ & Y)|(_ & _ & Y)]; [exact Y|lia].
Qed.

(** The lock is needed: workers that add 0.0.0.0/3 and 64.0.0.0/3 without it race,
    and both may find the tree empty, so that one of the nets is lost. RLock is not
    enough. *)
Definition maker_of_nets : ngoroutine :=
  NDo (GTree N.add) (fun _ => NDo (GFromUint 0) (fun _ => NDo (GFromUint (2 ^ 30)) (fun _ => NDo (GMaskFrom 3) (fun _ => NStop)))).
Lemma nets_fair : plays_fair 0 [] 0 start maker_of_nets.
Proof.
  split; [split; [constructor|]; split; [discriminate|exact Logic.I]|]. intros st1 r1 _. do 3 (split; [split; [constructor|]; split; [discriminate|reflexivity]|]; intros ? ? _).
  exact Logic.I.
Qed.
Definition s4 (n : nat) : gslice := mkS (mkA 0 false n) 4 4.
Definition adding (l : hold) (n : nat) (v : N) : nworker := NStretch l (NDo (GAddCidr (Ours 0) (s4 n) (s4 8) v) (fun _ => NStop)) (fun _ => NRest).
Definition careless (l : hold) : list nworker := [adding l 0 1; adding l 4 2].
Definition unlucky : list nat := repeat 0%nat 10 ++ repeat 1%nat 50 ++ repeat 0%nat 40.
Theorem C110_lock_needed : forall l, l <> Alone -> exists rs0 ts m u,
  alone 0 (nbehave [] [] maker_of_nets) (fun _ => 0) none = Some ((rs0, ts), m, u)
  /\ (exists y, leads (nopened ts m (careless l)) y /\ conflict y)
  /\ exists m' rs, leads (nopened ts m (careless l)) (m', rs)
       /\ (forall i t, nth_error rs i = Some t -> at_stage t = Between Over)
       /\ exists ts' m'' u', alone 0 (nbehave [] ts (NDo (GList (Mine 0)) (fun _ => NStop))) m' u = Some (([PList [(s4 12, s4 16, 1)]], ts'), m'', u')
          /\ cells m'' (mkA 0 false 12) 8 = [0; 0; 0; 0; 224; 0; 0; 0].
Proof.
  intros l Nl. destruct (main_ok maker_of_nets nets_fair) as (rs0 & ts & m & u & st0 & E & _). exists rs0, ts, m, u. split; [exact E|].
  vm_compute in E. injection E as <- <- <- <-. destruct l; [contradiction| |]; (split;
  [eexists; split; [apply (LockProofs.steps_leads (repeat 0%nat 43 ++ repeat 1%nat 9)), Stays|];
   exists 0%nat, 1%nat; do 9 eexists; split; [discriminate|]; split; [vm_compute; reflexivity|]; split; [reflexivity|]; split; [vm_compute; reflexivity|]; split; [reflexivity|];
   split; [reflexivity|]; left; reflexivity|];
   match goal with |- context [nopened ?o ?mm ?w] => pose proof (LockProofs.steps_leads unlucky _ _ (Stays (nopened o mm w))) as L end;
   match type of L with leads _ ?y => assert (Ey : y = (fst y, snd y)) by (vm_compute; reflexivity) end;
   rewrite Ey in L; eexists _, _; split; [exact L|]; clear L Ey; split;
   [intros [|[|[|i]]] t Ht; vm_compute in Ht; try discriminate; injection Ht as <-; reflexivity|];
   do 3 eexists; split; vm_compute; reflexivity).
Qed.

Print Assumptions C110_atomic.
Print Assumptions C110_safe.
Print Assumptions C110_terminates.
Print Assumptions C110_after.
Print Assumptions C110_one_outcome.
Print Assumptions C110_total.
Print Assumptions C110_lock_needed.
