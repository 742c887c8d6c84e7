(** C103: goroutines that use the hashes, package hex and package codegen at the
    same time. *)
From Verif Require Import Base.Go Base.HashUse Base.Goroutine Base.GoUse Base.LibUse Model.Hex Model.HashAtom Model.HexAtom.
From Verif Require Import Spec.HashUseSpec Spec.GoUseSpec Spec.LibUseSpec Proofs.GoroutineProofs Proofs.GoUseProofs Proofs.LibUseProofs.
Local Open Scope N_scope.

(** A program: one goroutine does [g0], then starts the goroutines [gs] and waits
    for them. The rules of Go are kept: what is shared is only read. *)
Definition all_fair (g0 : worker) (gs : list worker) : Prop :=
  works_fair 0 [] 0 start g0 /\
  let st0 := snd (foresees 0 [] start g0) in
  forall i g, nth_error gs i = Some g -> works_fair (S i) (hashes st0) (made st0) (found st0) g.
Definition set_off (bd : build) (objs : list object) (m : memory) (gs : list worker) : system (list answer * list object) :=
  (m, map (fun g => mkT (work bd objs [] g) none) gs).

(** In both builds and in every interleaving of the memory accesses there is no
    data race and no panic, nothing gets stuck, and every goroutine that has come
    to its end got the answers, and has the bytes in its slices, that it would
    have got alone. What the first goroutine had made is as it was. *)
Theorem C103_goroutines : forall bd g0 gs, all_fair g0 gs ->
  let st0 := snd (foresees 0 [] start g0) in
  exists objs m u,
    alone 0 (work bd [] [] g0) (fun _ => 0) none = Some ((fst (foresees 0 [] start g0), objs), m, u) /\
    forall m' ts, becomes (set_off bd objs m gs) (m', ts) ->
      ~ race (m', ts)
      /\ ((exists w, moves (m', ts) w) \/ forall i t, nth_error ts i = Some t -> exists r, todo t = Return r)
      /\ (forall a, who a = O -> m' a = m a)
      /\ length ts = length gs
      /\ forall i t g, nth_error ts i = Some t -> nth_error gs i = Some g ->
         todo t <> Crash /\
         forall rs mine, todo t = Return (rs, mine) ->
           rs = fst (foresees (S i) (hashes st0) (found st0) g)
           /\ forall a, lib a = false -> who a = S i -> m' a = text (snd (foresees (S i) (hashes st0) (found st0) g)) a.
Proof.
  intros bd g0 gs [P0 Ps] st0. destruct (main_work bd g0 P0) as (objs & m & u & E & Iv & Z). exists objs, m, u. split; [exact E|].
  intros m' ts B. pose proof (workers_fine bd g0 gs objs m u Ps Iv Z) as F0.
  assert (F : fine (ends_as_foreseen g0 gs) (m', ts)) by (apply (fine_becomes _ (ends_local g0 gs) _ _ B F0)).
  split; [apply (fine_no_race _ _ F)|]. split; [apply (fine_goes_on _ _ F)|].
  split; [apply (fine_main _ (ends_local g0 gs) _ _ B F0)|].
  split; [rewrite (becomes_length _ _ B : length ts = _); cbn [snd set_off]; apply map_length|].
  intros i t g Ht Hg. destruct (fine_ends _ _ i t F Ht) as [C R]. split; [exact C|]. intros rs mine Er.
  destruct (R _ Er) as (g' & Eg & H). rewrite Hg in Eg. injection Eg as <-. fold st0 in H.
  destruct (foresees (S i) (hashes st0) (found st0) g) as [rs' st']. cbn [fst snd] in *. destruct H as [H1 H2]. split; [exact H1|].
  intros a La Wa. apply H2; [exact La|left; exact Wa].
Qed.
(** And there is no infinite execution, of these or any other goroutines. *)
Theorem C103_terminates : forall (f : nat -> system (list answer * list object)), ~ (forall n, moves (f n) (f (S n))).
Proof. exact no_infinite. Qed.

(** ** An example: two goroutines turn the same bytes into text, one of them back
    into bytes, which it changes and gives to a hash. *)
Definition b0 : gslice := mkS (mkA 0 false 0) 2 2.
Definition maker : worker :=
  Then (Plain (Make 2 2)) (fun _ => Then (Plain (Store b0 0 202)) (fun _ => Then (Plain (Store b0 1 254)) (fun _ => Rest))).
Definition back_and_forth : worker :=
  Then (From_bytes b0) (fun r =>
    match r with
    | AText s =>
        Then (To_bytes s) (fun r =>
          match r with
          | ABytes t =>
              Then (Plain (Store t 0 1)) (fun _ => Then (Plain (Make_hash KBcc)) (fun _ => Then (Plain (Do_write (Mine 0) t)) (fun _ =>
              Then (Plain (Do_sum (Mine 0) (mkS (base t) 0 2) 0)) (fun _ => Then (To_bytes [67; 48; 120]) (fun _ => Rest)))))
          | _ => Rest
          end)
    | _ => Rest
    end).
Definition generator : worker :=
  Then (To_string b0) (fun _ => Then (To_string_sep b0 1) (fun _ => Then (To_hex_sep b0 1) (fun _ =>
  Then (To_hex_sep b0 2) (fun _ => Then (To_bytes_fast [65]) (fun _ => Rest))))).
Ltac kept := repeat split; cbn in *; try lia; try reflexivity.
Lemma b0_ok i g : g = back_and_forth \/ g = generator -> slice_ok (S i) 2 (found (snd (foresees 0 [] start maker))) b0.
Proof. intros _. kept; intros; right; kept. Qed.
Example C103_nonvacuous : all_fair maker [back_and_forth; generator].
Proof.
  split.
  - split; [kept|]. split; [kept; intros; left; kept|]. split; [kept; intros; left; kept|]. exact Logic.I.
  - cbv zeta. intros i g Hg. assert (D : i = 0%nat /\ g = back_and_forth \/ i = 1%nat /\ g = generator).
    { destruct i as [|[|i]]; cbn in Hg; try (injection Hg as <-; auto). destruct i; discriminate Hg. }
    clear Hg. destruct D as [[-> ->]|[-> ->]].
    + split; [apply (b0_ok 0 back_and_forth); auto|].
      split; [cbn; repeat constructor|].
      split. { kept; intros; left; kept. }
      split; [exact Logic.I|].
      split. { split; [kept; intros; left; kept|]. exists 0%nat, KBcc, []. kept. }
      split. { split; [kept; intros; left; kept|]. exists KBcc, [[1; 254]]. split; [reflexivity|]. intros _ j Hj. kept; cbn in Hj; lia. }
      split; [cbn; repeat constructor|exact Logic.I].
    + assert (Hb : slice_ok 2 2 (found (snd (foresees 0 [] start maker))) b0) by (apply (b0_ok 1 generator); auto).
      split; [split; [exact Hb|reflexivity]|].
      split; [split; [exact Hb|split; [reflexivity|repeat split; try discriminate]]|].
      split; [split; [exact Hb|split; [reflexivity|repeat split; try discriminate]]|].
      split; [split; [exact Hb|split; [reflexivity|repeat split; try discriminate]]|].
      split; [cbn; repeat constructor|exact Logic.I].
Qed.
(** What they get: CAFE, the bytes back, their BCC after the change, an error; and
    the texts "\xCA\xFE", "\xCA"+"\xFE", and the lists with and without a line
    break. *)
Example C103_answers :
  let st := found (snd (foresees 0 [] start maker)) in
  fst (foresees 1 [] st back_and_forth)
    = [AText [67; 65; 70; 69]; ABytes (mkS (mkA 1 false 0) 2 2); APlain RDone; APlain RHash; APlain (RWrote 2);
       APlain (RSlice (mkS (mkA 1 false 0) 1 2)); ABad 120 2]
  /\ map (fun j => text (snd (foresees 1 [] st back_and_forth)) (mkA 1 false j)) [0; 1; 2]%nat = [255; 254; 192]
  /\ fst (foresees 2 [] st generator)
    = [AText [34; 92; 120; 67; 65; 92; 120; 70; 69; 34]; AText [34; 92; 120; 67; 65; 34; 43; 34; 92; 120; 70; 69; 34];
       AText [123; 48; 120; 67; 65; 44; 32; 10; 48; 120; 70; 69; 125]; AText [123; 48; 120; 67; 65; 44; 32; 48; 120; 70; 69; 125]; ANil].
Proof. vm_compute. repeat split; reflexivity. Qed.

(** The rules are needed: FromBytes reads every byte twice. If another goroutine
    changes 12 to 34 meanwhile, which is a race, the text can be "14", of a byte
    that was never there. *)
Definition one0 : gslice := mkS (mkA 0 false 0) 1 1.
Definition makes_12 : worker := Then (Plain (Make 1 1)) (fun _ => Then (Plain (Store one0 0 18)) (fun _ => Rest)).
Definition reader : worker := Then (From_bytes one0) (fun _ => Rest).
Definition changer : worker := Then (Plain (Store one0 0 52)) (fun _ => Rest).
Definition steps (i : nat) : nat -> system (list answer * list object) -> system (list answer * list object) :=
  fix go n w :=
    match n with
    | O => w
    | S n' =>
        match nth_error (snd w) i with
        | Some t => match advance (S i) (fst w) t with Some (m, t') => go n' (m, replaced i t' (snd w)) | None => w end
        | None => w
        end
    end.
Lemma steps_become i n : forall w w0, becomes w0 w -> becomes w0 (steps i n w).
Proof.
  induction n as [|n IH]; intros w w0 B; [exact B|]. cbn [steps]. destruct w as [m ts]. cbn [fst snd].
  destruct (nth_error ts i) as [t|] eqn:Et; [|exact B]. destruct (advance (S i) m t) as [[m' t']|] eqn:Ea; [|exact B].
  apply IH. apply (More _ _ _ B). econstructor; eassumption.
Qed.
Theorem C103_sharing_needed : exists objs m u,
  alone 0 (work Default [] [] makes_12) (fun _ => 0) none = Some ((fst (foresees 0 [] start makes_12), objs), m, u)
  /\ (exists w, becomes (set_off Default objs m [reader; changer]) w /\ race w)
  /\ exists m' ts t, becomes (set_off Default objs m [reader; changer]) (m', ts)
     /\ nth_error ts 0 = Some t /\ todo t = Return ([AText [49; 52]], []).
Proof.
  exists [], (put (clear (fun _ => 0) (mkA 0 false 0) 1) (mkA 0 false 0) 18), (grow none false 1). split; [reflexivity|].
  set (m := put (clear (fun _ => 0) (mkA 0 false 0) 1) (mkA 0 false 0) 18). split.
  - exists (steps 0 1 (set_off Default [] m [reader; changer])). split; [apply steps_become, Here|].
    exists 1%nat, 0%nat. eexists _, _, _. split; [discriminate|]. split; [reflexivity|]. split; [reflexivity|]. split; [reflexivity|]. left. reflexivity.
  - pose (w := steps 0 20 (steps 1 1 (steps 0 3 (set_off Default [] m [reader; changer])))).
    assert (B : becomes (set_off Default [] m [reader; changer]) w) by (apply steps_become, steps_become, steps_become, Here).
    exists (fst w), (snd w), (nth 0 (snd w) (mkT Crash none)). split; [destruct w; exact B|]. split; vm_compute; reflexivity.
Qed.

Print Assumptions C103_goroutines.
Print Assumptions C103_terminates.
Print Assumptions C103_sharing_needed.
