(** C106: the number of memory accesses of the functions of packages hex and codegen. *)
From Verif Require Import Base.Go Base.Goroutine Base.GoUse Base.LibUse Base.Cost Model.Hex Model.HashAtom Model.HexAtom Spec.CostSpec Spec.LibCostSpec.
From Verif Require Import Proofs.GoroutineProofs Proofs.CostProofs Proofs.CostNet Proofs.CostHex Props.CostProps Props.LibUseProps.
Local Open Scope nat_scope.

(** Any goroutines that use hashes, hex and codegen, in any memory and either
    build, with races or without: in every execution each has made at most as many
    accesses as the operations it has begun may cost. *)
Theorem C106_work : forall bd ours m gs ns m' ts, Forall brief gs ->
  takes (m, map (fun g => mkT (work bd ours [] g) none) gs) ns (m', ts) ->
  length ns = length gs /\
  forall i g t n, nth_error gs i = Some g -> nth_error ts i = Some t -> nth_error ns i = Some n ->
    (exists rs, n <= work_bill g rs) /\ forall rs os, todo t = Return (rs, os) -> n <= work_bill g rs.
Proof.
  intros bd ours m gs ns m' ts Br T. pose proof (becomes_length _ _ (takes_becomes _ _ _ T)) as L. cbn [snd] in L. rewrite map_length in L.
  destruct (owes_takes (fun i r n => forall g, nth_error gs i = Some g -> n <= work_bill g (fst r)) (fun i n => forall g, nth_error gs i = Some g -> exists rs, n <= work_bill g rs) _ _ _ T) as [L' O].
  - intros i t Ht. cbn [snd] in Ht. rewrite nth_error_map in Ht. destruct (nth_error gs i) as [g|] eqn:Eg; [|discriminate]. injection Ht as <-. cbn [todo].
    apply owes_work; [exact (proj1 (Forall_forall _ _) Br g (nth_error_In _ _ Eg))|intros rs j Hj g' E; injection E as <-; eauto|intros rs os j Hj g' E; injection E as <-; exact Hj].
  - cbn [snd] in *. split; [congruence|]. intros i g t n Hg Ht Hn. specialize (O i t n Ht Hn). destruct (todo t) as [x| |a k|a v k|l s k] eqn:Et; cbn [owes] in O; destruct O as [O1 O2];
      (split; [apply (O1 g Hg)|]); intros rs os E; try discriminate. injection E as ->. apply (O2 g Hg).
Qed.
Print Assumptions C106_work.

(** So one call is linear in the length of what it is given, also if it panics or
    finds an error, and also if another goroutine writes what it reads. *)
Theorem C106_call : forall bd ours m d gs ns m' ts i n, Forall brief gs ->
  takes (m, map (fun g => mkT (work bd ours [] g) none) gs) ns (m', ts) ->
  nth_error gs i = Some (Then d (fun _ => Rest)) -> nth_error ns i = Some n ->
  n <= match d with
       | Plain a => price a
       | From_bytes s => 8 * slen s + 1
       | To_bytes s | To_bytes_fast s => length s + 1
       | To_string s => 26 * slen s + 9
       | To_string_sep s _ | To_hex_sep s _ => 35 * slen s + 5
       end.
Proof.
  intros bd ours m d gs ns m' ts i n Br T Hg Hn. destruct (C106_work _ _ _ _ _ _ _ Br T) as [L H].
  assert (Ht : exists t, nth_error ts i = Some t).
  { pose proof (becomes_length _ _ (takes_becomes _ _ _ T)) as L'. cbn [snd] in L'. rewrite map_length in L'. destruct (nth_error ts i) as [t|] eqn:E; [eauto|].
    apply nth_error_None in E. assert (i < length gs) by (apply nth_error_Some; congruence). lia. }
  destruct Ht as [t Ht]. destruct (H i _ t n Hg Ht Hn) as [(rs & B) _]. eapply Nat.le_trans; [exact B|].
  destruct rs as [|r rs], d; cbn [work_bill deed_price]; lia.
Qed.
Print Assumptions C106_call.

(** ** Examples *)

(** FromBytes of two bytes: all of the 17 accesses that are allowed. *)
Definition from_two : worker := Then (From_bytes b0) (fun _ => Rest).
Example from_counted : exists rs os m' u, takes (fun _ => 171%N, map (fun g => mkT (work Default [] [] g) none) [from_two]) [17] (m', [mkT (Return (rs, os)) u])
  /\ rs = [AText [65; 66; 65; 66]%N] /\ work_bill from_two rs = 17 /\ brief from_two.
Proof.
  do 4 eexists. split; [|shelve]. change 17 with (0 + 17). replace 17 with (accesses 1 (work Default [] [] from_two) (fun _ => 171%N) none) by (vm_compute; reflexivity).
  apply takes_to_end; [apply Begin|vm_compute; reflexivity].
  Unshelve. vm_compute. repeat split.
Qed.
(** ToBytes of two digits: all three; of an invalid text: less. *)
Definition to_one (s : list N) : worker := Then (To_bytes s) (fun _ => Rest).
Example to_counted :
  accesses 1 (work Default [] [] (to_one [65; 66]%N)) (fun _ => 0%N) none = work_bill (to_one [65; 66]%N) []
  /\ accesses 1 (work Default [] [] (to_one [65; 120]%N)) (fun _ => 0%N) none = 2.
Proof. vm_compute. split; reflexivity. Qed.
(** BytesToString: all 61; the second goroutine of the example of C103: 269 of 288. *)
Example generator_counted :
  accesses 1 (work Default [] [] (Then (To_string b0) (fun _ => Rest))) (fun _ => 7%N) none = work_bill (Then (To_string b0) (fun _ => Rest)) []
  /\ accesses 1 (work Default [] [] generator) (fun _ => 7%N) none = 269 /\ work_bill generator (repeat ANil 5) = 288.
Proof. vm_compute. repeat split. Qed.
Example generator_brief : brief from_two /\ brief generator.
Proof. cbn. repeat split. Qed.
