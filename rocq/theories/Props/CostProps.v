(** C100: the number of memory accesses of an operation. *)
From Verif Require Import Base.Go Base.Mem Base.GoNet Base.NetApi Spec.NetSpec Base.Goroutine Base.GoUse Base.NetGo Base.Cost Spec.NetGoSpec Spec.CostSpec.
From Verif Require Import Proofs.GoroutineProofs Proofs.NetGoProofs Proofs.CostProofs Proofs.CostBytes Proofs.CostNet Props.NetGoProps.
From Verif Require Base.BytesUse Base.HashUse Model.HashAtom Model.BytesAtom Model.NetAtom.
Local Open Scope nat_scope.

(** There are executions: a goroutine can go to its end, with the accesses it
    makes alone. *)
Lemma takes_to_end {A} (c : code A) : forall w j m u x m' u', takes w [j] (m, [mkT c u]) -> alone 1 c m u = Some (x, m', u') ->
  takes w [j + accesses 1 c m u] (m', [mkT (Return x) u']).
Proof.
  induction c as [y| |a k IH|a v k IH|l s k IH]; intros w j m u x m' u' T E; cbn [alone accesses] in *; try discriminate.
  - injection E as <- <- <-. rewrite Nat.add_0_r. exact T.
  - rewrite <- Nat.add_succ_comm, <- Nat.add_1_r. apply IH; [|exact E]. apply (Next w [j] m [mkT (Get a k) u] 0 _ _ _ _ T eq_refl eq_refl eq_refl).
  - rewrite <- Nat.add_succ_comm, <- Nat.add_1_r. apply IH; [|exact E]. apply (Next w [j] m [mkT (Put a v k) u] 0 _ _ _ _ T eq_refl eq_refl eq_refl).
  - cbv zeta. rewrite Nat.add_assoc. apply IH; [|exact E]. apply (Next w [j] m [mkT (New l s k) u] 0 _ _ _ _ T eq_refl eq_refl eq_refl).
Qed.

(** Any goroutines that use hashes, those of [ours] and their own, in any memory,
    with races or without: in every execution each has made at most as many
    accesses as the operations it has begun may cost. *)
Theorem C100_hashes : forall ours m gs ns m' ts,
  takes (m, map (fun g => mkT (HashAtom.behave ours [] g) none) gs) ns (m', ts) ->
  length ns = length gs /\
  forall i g t n, nth_error gs i = Some g -> nth_error ts i = Some t -> nth_error ns i = Some n ->
    (exists rs, n <= bill g rs) /\ forall rs os, todo t = Return (rs, os) -> n <= bill g rs.
Proof.
  intros ours m gs ns m' ts T. pose proof (becomes_length _ _ (takes_becomes _ _ _ T)) as L. cbn [snd] in L. rewrite map_length in L.
  destruct (owes_takes (fun i r n => forall g, nth_error gs i = Some g -> n <= bill g (fst r)) (fun i n => forall g, nth_error gs i = Some g -> exists rs, n <= bill g rs) _ _ _ T) as [L' O].
  - intros i t Ht. cbn [snd] in Ht. rewrite nth_error_map in Ht. destruct (nth_error gs i) as [g|] eqn:Eg; [|discriminate]. injection Ht as <-. cbn [todo].
    apply owes_behave; intros rs; [intros j Hj g' E; injection E as <-; eauto|intros os j Hj g' E; injection E as <-; exact Hj].
  - cbn [snd] in *. split; [congruence|]. intros i g t n Hg Ht Hn. specialize (O i t n Ht Hn). destruct (todo t) as [x| |a k|a v k|l s k] eqn:Et; cbn [owes] in O; destruct O as [O1 O2];
      (split; [apply (O1 g Hg)|]); intros rs os E; try discriminate. injection E as ->. apply (O2 g Hg).
Qed.
Print Assumptions C100_hashes.

(** So hashing takes a number of accesses linear in the length of the message,
    however it is cut into pieces. *)
Fixpoint feed (ps : list gslice) (g : goroutine) : goroutine :=
  match ps with
  | [] => g
  | p :: ps' => Do (Do_write (Mine 0) p) (fun _ => feed ps' g)
  end.
Definition digest_of (k : HashUse.kind) (ps : list gslice) (inp : gslice) (room : nat) : goroutine :=
  Do (Make_hash k) (fun _ => feed ps (Do (Do_sum (Mine 0) inp room) (fun _ => Stop))).
Theorem C100_message : forall k ps inp room ours m gs ns m' ts i n,
  takes (m, map (fun g => mkT (HashAtom.behave ours [] g) none) gs) ns (m', ts) ->
  nth_error gs i = Some (digest_of k ps inp room) -> nth_error ns i = Some n ->
  n <= 4 * list_sum (map slen ps) + 240 * length ps + 3 * slen inp + room + 1120.
Proof.
  intros k ps inp room ours m gs ns m' ts i n T Hg Hn. destruct (C100_hashes _ _ _ _ _ _ T) as [L H].
  assert (Ht : exists t, nth_error ts i = Some t).
  { pose proof (becomes_length _ _ (takes_becomes _ _ _ T)) as L'. cbn [snd] in L'. rewrite map_length in L'. destruct (nth_error ts i) as [t|] eqn:E; [eauto|].
    apply nth_error_None in E. assert (i < length gs) by (apply nth_error_Some; congruence). lia. }
  destruct Ht as [t Ht]. destruct (H i _ t n Hg Ht Hn) as [(rs & B) _]. eapply Nat.le_trans; [exact B|]. unfold digest_of. cbn [bill].
  assert (F : forall ps rs, bill (feed ps (Do (Do_sum (Mine 0) inp room) (fun _ => Stop))) rs <= 4 * list_sum (map slen ps) + 240 * length ps + 3 * slen inp + room + 1000).
  { clear. induction ps as [|p ps IH]; intros rs; cbn [feed bill map list_sum fold_right length].
    - destruct rs as [|r rs]; cbn [price bill]; lia.
    - change (fold_right Nat.add 0 (map slen ps)) with (list_sum (map slen ps)). destruct rs as [|r rs]; [cbn [price]; lia|]. specialize (IH rs). cbn [price]. lia. }
  destruct rs as [|r rs]; [cbn [price]; lia|]. specialize (F ps rs). cbn [price]. lia.
Qed.
Print Assumptions C100_message.

(** The same for package bytes. *)
Theorem C100_bytes : forall m gs ns m' ts,
  takes (m, map (fun g => mkT (BytesAtom.behave g) none) gs) ns (m', ts) ->
  length ns = length gs /\
  forall i g t n, nth_error gs i = Some g -> nth_error ts i = Some t -> nth_error ns i = Some n ->
    (exists rs, n <= bytes_bill g rs) /\ forall rs, todo t = Return rs -> n <= bytes_bill g rs.
Proof.
  intros m gs ns m' ts T. pose proof (becomes_length _ _ (takes_becomes _ _ _ T)) as L. cbn [snd] in L. rewrite map_length in L.
  destruct (owes_takes (fun i r n => forall g, nth_error gs i = Some g -> n <= bytes_bill g r) (fun i n => forall g, nth_error gs i = Some g -> exists rs, n <= bytes_bill g rs) _ _ _ T) as [L' O].
  - intros i t Ht. cbn [snd] in Ht. rewrite nth_error_map in Ht. destruct (nth_error gs i) as [g|] eqn:Eg; [|discriminate]. injection Ht as <-. cbn [todo].
    apply owes_job; intros rs j Hj g' E; injection E as <-; [eauto|exact Hj].
  - cbn [snd] in *. split; [congruence|]. intros i g t n Hg Ht Hn. specialize (O i t n Ht Hn). destruct (todo t) as [x| |a k|a v k|l s k] eqn:Et; cbn [owes] in O; destruct O as [O1 O2];
      (split; [apply (O1 g Hg)|]); intros rs E; try discriminate. injection E as ->. apply (O2 g Hg).
Qed.
Print Assumptions C100_bytes.

(** Package net, programs as in C99: the first goroutine, and then at any time in
    any execution of the others, have made at most the accesses that their
    operations may cost; the replies are those that every execution ends with. *)
Theorem C100_net : forall g0 gs, fair g0 gs ->
  exists rs0 ts m u st0,
    alone 0 (NetAtom.nbehave [] [] g0) (fun _ => 0%N) none = Some ((rs0, ts), m, u) /\ expects 0 [] start g0 rs0 st0 /\
    accesses 0 (NetAtom.nbehave [] [] g0) (fun _ => 0%N) none <= net_bill g0 rs0 /\
    forall ns m' gs', takes (started ts m gs) ns (m', gs') ->
      length ns = length gs /\
      forall i g t n, nth_error gs i = Some g -> nth_error gs' i = Some t -> nth_error ns i = Some n ->
        exists rs st, expects (S i) (trees st0) (found st0) g rs st /\ n <= net_bill g rs
          /\ forall rs' mine, todo t = Return (rs', mine) -> rs' = rs.
Proof.
  intros g0 gs F. destruct (C99_goroutines g0 gs F) as (rs9 & ts9 & m9 & u9 & st9 & E9 & X9 & All). destruct F as [P0 Ps].
  destruct (main_ok g0 P0) as (rs0 & ts & m & u & st0 & E & Ex & Iv & Z). rewrite E in E9. injection E9 as <- <- <- <-.
  exists rs0, ts, m, u, st9. split; [exact E|]. split; [exact X9|]. split.
  { apply (behave_cost 0 [] [] 0 (fun _ => conj eq_refl eq_refl) g0 _ _ _ _ start_Inv P0 _ _ _ _ E). }
  intros ns m' gs' T. pose proof (takes_becomes _ _ _ T) as B. destruct (All m' gs' B) as (_ & _ & _ & Lg & Ends).
  pose proof (started_fine st0 gs ts m u (Ps rs0 st0 Ex) Iv Z) as F0.
  destruct (takes_alone (ends_well st0 gs) (ends_well_local st0 gs) _ _ _ F0 T) as [L H]. cbn [snd fst] in L, H. split; [congruence|].
  intros i g t n Hg Ht Hn. pose proof (H i (mkT (NetAtom.nbehave ts [] g) none) t n) as Hi. cbn [started snd] in Hi. rewrite nth_error_map, Hg in Hi. specialize (Hi eq_refl Ht Hn). cbn [todo used] in Hi.
  assert (Mn : S i = 0 -> ts = [] /\ made st0 = 0) by discriminate. pose proof (found_Inv i ts m u st0 Iv Z) as Ivi. pose proof (Ps rs0 st0 Ex i g Hg) as Pg.
  assert (St : trees st9 = trees st0 /\ forall x, text st9 x = text st0 x) by (destruct (C99_one_answer _ _ _ _ _ _ _ _ Ex X9) as (_ & A1 & _ & A2); auto). destruct St as [St1 St2].
  destruct (alone_ok i g st0 ts m u Pg Iv Z) as (rs & mine & m1 & u1 & st & E1 & X1 & _).
  pose proof (behave_cost (S i) ts (trees st0) (made st0) Mn g _ _ _ _ Ivi Pg _ _ _ _ E1) as C. fold (started ts m gs) in *.
  cbn [fst] in Hi. assert (Cn : n <= net_bill g rs) by lia.
  (* what is expected depends on the values of the text only *)
  pose proof (Ps rs0 st9 X9 i g Hg) as Pg9.
  destruct (safe_alone _ _ _ _ _ (behave_ok (S i) ts (trees st0) (made st0) Mn g _ _ _ _ Ivi Pg)) as ([rs2 mine2] & m2 & u2 & E2 & (st2 & X2 & Iv2) & _).
  rewrite E1 in E2. injection E2 as <- <- <- <-. cbn [fst] in X2.
  assert (Ivi9 : Inv (S i) ts (trees st9) m none (found st9) []).
  { rewrite St1. destruct Ivi as (J1 & J2 & J3). split; [|split; [exact J2|exact J3]]. intros x Lx Mx. destruct (J1 x Lx Mx) as [K1 K2]. cbn [found text] in *. rewrite St2. auto. }
  assert (Mn9 : S i = 0 -> ts = [] /\ made st9 = 0) by discriminate.
  destruct (safe_alone _ _ _ _ _ (behave_ok (S i) ts (trees st9) (made st9) Mn9 g _ _ _ _ Ivi9 Pg9)) as ([rs3 mine3] & m3 & u3 & E3 & (st3 & X3 & _) & _).
  rewrite E1 in E3. injection E3 as <- <- <- <-. cbn [fst] in X3.
  exists rs, st3. split; [exact X3|]. split; [exact Cn|]. intros rs' mine' Er. destruct (Ends i t g Ht Hg) as [_ En]. destruct (En rs' mine' Er) as [_ (mine1 & m1' & u1' & Ea & _)].
  rewrite E1 in Ea. congruence.
Qed.
Print Assumptions C100_net.

(** ** Examples: what is counted, and what may be charged *)

(** A checksum of three bytes: 25 accesses, 1385 allowed. *)
Definition hash_job : goroutine :=
  Do (Make 3 3) (fun r => match r with RSlice s =>
  Do (Make_hash HashUse.KBcc) (fun _ => Do (Do_write (Mine 0) s) (fun _ => Do (Do_sum (Mine 0) s 0) (fun _ => Stop))) | _ => Stop end).
Example hash_counted : exists rs os m' u, takes (fun _ => 0%N, map (fun g => mkT (HashAtom.behave [] [] g) none) [hash_job]) [25] (m', [mkT (Return (rs, os)) u])
  /\ bill hash_job rs = 1385.
Proof.
  do 4 eexists. split; [|shelve]. change 25 with (0 + 25). replace 25 with (accesses 1 (HashAtom.behave [] [] hash_job) (fun _ => 0%N) none) by (vm_compute; reflexivity).
  apply takes_to_end; [apply Begin|vm_compute; reflexivity].
  Unshelve. vm_compute. reflexivity.
Qed.
(** XorEq of four bytes with three, then Add32BE: 29 accesses, 37 allowed. *)
Definition bytes_job : BytesUse.job :=
  BytesUse.Do (BytesUse.CXorEq (mkSlice 0 4) (mkSlice 8 3)) (fun _ =>
  BytesUse.Do (BytesUse.CAdd BigEndian BytesUse.W32 (mkSlice 20 4) (mkSlice 0 4) (mkSlice 8 4)) (fun _ => BytesUse.Stop)).
Example bytes_counted : exists rs m' u, takes (fun _ => 3%N, map (fun g => mkT (BytesAtom.behave g) none) [bytes_job]) [29] (m', [mkT (Return rs) u])
  /\ bytes_bill bytes_job rs = 37.
Proof.
  do 3 eexists. split; [|shelve]. change 29 with (0 + 29). replace 29 with (accesses 1 (BytesAtom.behave bytes_job) (fun _ => 3%N) none) by (vm_compute; reflexivity).
  apply takes_to_end; [apply Begin|vm_compute; reflexivity].
  Unshelve. vm_compute. reflexivity.
Qed.
(** The goroutines of the example of C99 (which is fair, as shown there): 64 and 117
    accesses, 910 and 1472 allowed. *)
Example net_counted :
  match alone 0 (NetAtom.nbehave [] [] first) (fun _ => 0%N) none with
  | Some (rs0, ts, m, _) =>
      (accesses 0 (NetAtom.nbehave [] [] first) (fun _ => 0%N) none, net_bill first rs0) = (64, 910)
      /\ match alone 1 (NetAtom.nbehave ts [] both) m none with
         | Some (rs, _, _, _) => (accesses 1 (NetAtom.nbehave ts [] both) m none, net_bill both rs) = (117, 1472)
         | None => False
         end
  | None => False
  end.
Proof. vm_compute. split; reflexivity. Qed.
