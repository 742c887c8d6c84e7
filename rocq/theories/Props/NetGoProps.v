(** C99: goroutines that use package net at the same time, and copies of trees. *)
From Coq Require Import Sorted.
From Verif Require Import Base.Go Base.GoNet Base.NetApi Spec.NetSpec.
From Verif Require Import Base.Goroutine Base.GoUse Base.NetGo Model.NetAtom Spec.NetGoSpec.
From Verif Require Import Proofs.GoroutineProofs Proofs.NetGoProofs Proofs.NetGoUnique.
Local Open Scope N_scope.

(** A program: one goroutine does [g0], then starts the goroutines [gs] and waits
    for them. The rules of Go are kept: what is shared is only read, where
    ListCidr and copying count as reading a tree, and AddIp, AddRange and AddCidr
    as writing it. *)
Definition fair (g0 : ngoroutine) (gs : list ngoroutine) : Prop :=
  plays_fair 0 [] 0 start g0 /\
  forall rs st0, expects 0 [] start g0 rs st0 ->
  forall i g, nth_error gs i = Some g -> plays_fair (S i) (trees st0) (made st0) (found st0) g.
Definition started (ts : list ptree) (m : memory) (gs : list ngoroutine) : system (list nreply * list ptree) :=
  (m, map (fun g => mkT (nbehave ts [] g) none) gs).

(** In every interleaving of the memory accesses there is no data race and no
    panic, nothing gets stuck, and every goroutine that has come to its end got
    replies, and has bytes in its slices, that are right for it alone: a tree is
    the calls made on it and on the tree it was copied from until then, whatever
    was done to other copies. That is what it would have got alone. What the first
    goroutine had made is as it was. *)
Theorem C99_goroutines : forall g0 gs, fair g0 gs ->
  exists rs0 ts m u st0,
    alone 0 (nbehave [] [] g0) (fun _ => 0) none = Some ((rs0, ts), m, u) /\ expects 0 [] start g0 rs0 st0 /\
    forall m' gs', becomes (started ts m gs) (m', gs') ->
      ~ race (m', gs')
      /\ ((exists w, moves (m', gs') w) \/ forall i t, nth_error gs' i = Some t -> exists r, todo t = Return r)
      /\ (forall a, who a = O -> m' a = m a)
      /\ length gs' = length gs
      /\ forall i t g, nth_error gs' i = Some t -> nth_error gs i = Some g ->
         todo t <> Crash /\
         forall rs mine, todo t = Return (rs, mine) ->
           (exists st, expects (S i) (trees st0) (found st0) g rs st
            /\ forall a, lib a = false -> who a = S i -> m' a = text st a)
           /\ exists mine1 m1 u1, alone (S i) (nbehave ts [] g) m none = Some ((rs, mine1), m1, u1)
              /\ forall a, lib a = false -> who a = S i -> m' a = m1 a.
Proof.
  intros g0 gs [P0 Ps]. destruct (main_ok g0 P0) as (rs0 & ts & m & u & st0 & E & Ex & Iv & Z). exists rs0, ts, m, u, st0. split; [exact E|]. split; [exact Ex|].
  intros m' gs' B. pose proof (started_fine st0 gs ts m u (Ps rs0 st0 Ex) Iv Z) as F0.
  assert (F : fine (ends_well st0 gs) (m', gs')) by (apply (fine_becomes _ (ends_well_local st0 gs) _ _ B F0)).
  split; [apply (fine_no_race _ _ F)|]. split; [apply (fine_goes_on _ _ F)|].
  split; [apply (fine_main _ (ends_well_local st0 gs) _ _ B F0)|].
  split; [rewrite (becomes_length _ _ B : length gs' = _); cbn [snd started]; apply map_length|].
  intros i t g Ht Hg. destruct (fine_ends _ _ i t F Ht) as [C R]. split; [exact C|]. intros rs mine Er.
  destruct (R _ Er) as (g' & st & Eg & H & T). rewrite Hg in Eg. injection Eg as <-. cbn [fst] in H.
  assert (T' : forall a, lib a = false -> who a = S i -> m' a = text st a) by (intros a La Wa; apply T; [exact La|left; exact Wa]). split; [eauto|].
  destruct (alone_ok i g st0 ts m u (Ps rs0 st0 Ex i g Hg) Iv Z) as (rs1 & mine1 & m1 & u1 & st1 & E1 & X1 & T1).
  destruct (one_answer _ _ g _ _ _ _ _ _ (conj (fun _ => eq_refl) (conj eq_refl eq_refl)) H X1) as [-> (A & _)].
  exists mine1, m1, u1. split; [exact E1|]. intros a La Wa. rewrite (T' a La Wa), (T1 a La Wa), A. reflexivity.
Qed.
(** And there is no infinite execution, of these or any other goroutines. *)
Theorem C99_terminates : forall (f : nat -> system (list nreply * list ptree)), ~ (forall n, moves (f n) (f (S n))).
Proof. exact no_infinite. Qed.

(** What is expected is one thing: the replies are determined. *)
Theorem C99_one_answer : forall id ours g st rs1 st1 rs2 st2,
  expects id ours st g rs1 st1 -> expects id ours st g rs2 st2 ->
  rs2 = rs1 /\ (forall x, text st2 x = text st1 x) /\ made st2 = made st1 /\ trees st2 = trees st1.
Proof. intros id ours g st rs1 st1 rs2 st2. apply one_answer. split; [reflexivity|]. split; reflexivity. Qed.

(** ** An example: the first goroutine puts 0.0.0.0/1 into a tree; two goroutines
    copy the tree, add 128.0.0.0/1 to the copy, and list the copy and the tree. *)
Definition net (u p : N) (k : gslice -> gslice -> ngoroutine) : ngoroutine :=
  NDo (GFromUint u) (fun r => match r with PSlice ip => NDo (GMaskFrom p) (fun r => match r with PSlice mask => k ip mask | _ => NStop end) | _ => NStop end).
Definition first : ngoroutine :=
  NDo (GTree (fun a b => 10 * a + b)) (fun _ => net 0 1 (fun ip mask => NDo (GAddCidr (Mine 0) ip mask 1) (fun _ => NStop))).
Definition both : ngoroutine :=
  NDo (GCopy (Ours 0)) (fun _ => net (2 ^ 31) 1 (fun ip mask => NDo (GAddCidr (Mine 0) ip mask 2) (fun _ =>
  NDo (GList (Mine 0)) (fun _ => NDo (GList (Ours 0)) (fun _ => NStop))))).

Lemma net_fair id ours before st u p k : u < 2 ^ 32 -> p <= 32 ->
  (forall st2 ip mask, slice_ok id before st2 ip -> slice_ok id before st2 mask -> is_cidr (net_at st2 ip mask) u p -> trees st2 = trees st ->
     plays_fair id ours before st2 (k ip mask)) -> plays_fair id ours before st (net u p k).
Proof.
  intros Hu Hp H. unfold net. split; [split; [constructor|]; split; [discriminate|exact Hu]|]. intros st1 r1 (-> & W1 & W2 & W3). cbn [plays_fair].
  split; [split; [constructor|]; split; [discriminate|]|]; [lia|]. intros st2 r2 (-> & V1 & V2 & V3).
  assert (L4 : length (if p <=? 32 then NetSpec.addr (2 ^ 32 - size p) else [0; 0; 0; 0]) = 4%nat) by (destruct (p <=? 32); reflexivity). rewrite L4 in *.
  change (length (NetSpec.addr u)) with 4%nat in *.
  assert (Ok : forall n, (n + 4 <= made st2)%nat -> slice_ok id before st2 (mkS (mkA id false n) 4 4)).
  { intros n Hn. split; [apply le_n|]. split; [reflexivity|]. split; [left; reflexivity|]. intros j Hj. left. split; [reflexivity|]. split; [reflexivity|].
    cbn [slen scap num shift base] in *. lia. }
  apply H; [apply Ok; lia|apply Ok; lia| |congruence]. split; [|split; [exact Hp|]]; unfold net_at, bytes_of; cbn [IP Mask slen base].
  - split; [exact Hu|left]. transitivity (map (fun j => nth j (NetSpec.addr u) 0) (seq 0 4)); [|reflexivity]. apply map_ext_in. intros j Hj. apply in_seq in Hj.
    rewrite V1. unfold overwrite. rewrite L4. replace (within (mkA id false (made st1)) 4 (shift (mkA id false (made st)) j)) with false by (symmetry; apply within_not; cbn [who lib num shift]; lia).
    rewrite W1. unfold overwrite. replace (within (mkA id false (made st)) (length (NetSpec.addr u)) (shift (mkA id false (made st)) j)) with true
      by (symmetry; apply within_iff; cbn [who lib num shift length NetSpec.addr]; lia). cbn [num shift]. f_equal. lia.
  - rewrite (proj2 (N.leb_le _ _) Hp) in V1, L4. set (l := NetSpec.addr (2 ^ 32 - size p)) in *. transitivity (map (fun j => nth j l 0) (seq 0 4)); [|reflexivity]. apply map_ext_in. intros j Hj. apply in_seq in Hj.
    rewrite V1. unfold overwrite. rewrite L4. replace (within (mkA id false (made st1)) 4 (shift (mkA id false (made st1)) j)) with true
      by (symmetry; apply within_iff; cbn [who lib num shift]; lia). cbn [num shift]. f_equal. lia.
Qed.
Example both_fair : fair first [both; both].
Proof.
  assert (P0 : plays_fair 0 [] 0 start first).
  { split; [split; [constructor|]; split; [discriminate|exact Logic.I]|]. intros st1 r1 (-> & ->). apply net_fair; [lia|lia|]. intros st2 ip mask Hi Hm Hn Et. cbn [trees] in Et.
    split; [|intros ? ? _; exact Logic.I]. split; [(constructor; [exact Hi|constructor; [exact Hm|constructor]])|]. split; [|exact Logic.I]. intros h c E. injection E as <- <-.
    split; [exists 0, 1; exact Hn|]. exists 0%nat. eexists. split; [reflexivity|]. rewrite Et. reflexivity. }
  split; [exact P0|]. intros rs st0 Ex i g Hg. assert (g = both) as -> by (destruct i as [|[|[|]]]; cbn in Hg; congruence). clear Hg.
  assert (T : exists t, nth_error (trees st0) 0 = Some t).
  { destruct Ex as (st1 & r1 & rs1 & (-> & ->) & -> & (st2 & r2 & rs2 & (-> & W1 & W2 & W3) & -> & (st3 & r3 & rs3 & (-> & V1 & V2 & V3) & -> & Ex))).
    destruct Ex as (st4 & r4 & rs4 & (j & mg & cs & c & C & Et & -> & ->) & -> & (_ & ->)). injection C as <- _. rewrite V3, W3 in *. cbn [start trees app] in *.
    cbn [replaced nth_error]. eauto. }
  destruct T as [t Et].
  split; [split; [constructor|]; split; [discriminate|exists t; exact Et]|]. intros st1 r1 (t1 & E1 & -> & ->). apply net_fair; [lia|lia|]. intros st2 ip mask Hi Hm Hn Eq. cbn [trees found app] in Eq.
  split; [split; [(constructor; [exact Hi|constructor; [exact Hm|constructor]])|]; split; [|exact Logic.I]|].
  { intros h c E. injection E as <- <-. split; [exists (2 ^ 31), 1; exact Hn|]. exists 0%nat. eexists. split; [reflexivity|]. rewrite Eq. reflexivity. }
  intros st3 r3 (j & mg & cs & c & C & Ej & -> & ->). injection C as <- _.
  split; [split; [constructor|]; split; [discriminate|]|].
  { rewrite Eq. eexists. reflexivity. }
  intros st4 r4 _. split; [split; [constructor|]; split; [discriminate|exists t; exact Et]|]. intros st5 r5 _. exact Logic.I.
Qed.
(** What both of them get: one block 0.0.0.0/0 with both values in the copy, and
    still only 0.0.0.0/1 in the tree. *)
Definition at_end (i : nat) (g : ngoroutine) : option (list nreply * list (list N)) :=
  match alone 0 (nbehave [] [] first) (fun _ => 0) none with
  | Some (_, ts, m, _) =>
      match alone i (nbehave ts [] g) m none with
      | Some (rs, _, m', _) =>
          Some (rs, map (fun r => match r with PList l => flat_map (fun e => cells m' (base (fst (fst e))) 4 ++ cells m' (base (snd (fst e))) 4) l | _ => [] end) rs)
      | None => None
      end
  | None => None
  end.
Definition s4 (i n : nat) : gslice := mkS (mkA i false n) 4 4.
Example both_replies : at_end 2 both =
  Some ([PTree; PSlice (s4 2 0); PSlice (s4 2 4); PDone; PList [(s4 2 8, s4 2 12, 12)]; PList [(s4 2 16, s4 2 20, 1)]],
        [[]; []; []; []; [0; 0; 0; 0; 0; 0; 0; 0]; [0; 0; 0; 0; 128; 0; 0; 0]]).
Proof. vm_compute. reflexivity. Qed.

(** The rules are needed: two goroutines that add to one tree race, and so do one
    that adds to a tree and one that lists it. *)
Definition adder : ngoroutine := NDo (GAddIp (Ours 0) (mkS (mkA 0 false 0) 4 4) 3) (fun _ => NStop).
Definition lister : ngoroutine := NDo (GList (Ours 0)) (fun _ => NStop).
Definition steps_of (i : nat) : nat -> system (list nreply * list ptree) -> system (list nreply * list ptree) :=
  fix go n w :=
    match n with
    | O => w
    | S n' =>
        match nth_error (snd w) i with
        | Some t => match advance (S i) (fst w) t with Some (m, t') => go n' (m, replaced i t' (snd w)) | None => w end
        | None => w
        end
    end.
Lemma steps_becomes i n : forall w w0, becomes w0 w -> becomes w0 (steps_of i n w).
Proof.
  induction n as [|n IH]; intros w w0 B; [exact B|]. cbn [steps_of]. destruct w as [m ts]. cbn [fst snd].
  destruct (nth_error ts i) as [t|] eqn:Et; [|exact B]. destruct (advance (S i) m t) as [[m' t']|] eqn:Ea; [|exact B].
  apply IH. apply (More _ _ _ B). econstructor; eassumption.
Qed.
(** Is goroutine 1 about to write the cell that goroutine 2 is about to access? *)
Definition clash (w : system (list nreply * list ptree)) : bool :=
  match snd w with
  | [t1; t2] =>
      match todo t1, todo t2 with
      | Put a _ _, Get b _ | Put a _ _, Put b _ _ => same a b
      | _, _ => false
      end
  | _ => false
  end.
Lemma clash_race w : clash w = true -> race w.
Proof.
  destruct w as [m [|t1 [|t2 [|t3 ts]]]]; try discriminate. unfold clash. cbn [snd]. intros H. exists 0%nat, 1%nat, t1, t2.
  destruct (todo t1) as [| | |a v k|] eqn:E1; try discriminate H. destruct (todo t2) as [| |b k2|b v2 k2|] eqn:E2; try discriminate H;
    (destruct (same_spec a b) as [->|]; [|discriminate H]); exists b; (split; [discriminate|]); (split; [reflexivity|]); (split; [reflexivity|]);
    unfold writes, reads; rewrite E1, E2; auto.
Qed.
Definition begun (gs : list ngoroutine) : system (list nreply * list ptree) :=
  match alone 0 (nbehave [] [] first) (fun _ => 0) none with
  | Some (_, ts, m, _) => started ts m gs
  | None => (fun _ => 0, [])
  end.
Theorem C99_sharing_needed :
  (exists w, becomes (begun [adder; adder]) w /\ race w) /\ exists w, becomes (begun [adder; lister]) w /\ race w.
Proof.
  split.
  - exists (steps_of 1 26 (steps_of 0 26 (begun [adder; adder]))). split; [apply steps_becomes, steps_becomes, Here|apply clash_race; vm_compute; reflexivity].
  - exists (steps_of 0 26 (begun [adder; lister])). split; [apply steps_becomes, Here|apply clash_race; vm_compute; reflexivity].
Qed.

Print Assumptions C99_goroutines.
Print Assumptions C99_terminates.
Print Assumptions C99_one_answer.
Print Assumptions C99_sharing_needed.
