(** Goroutines that synchronise in whatever way: their calls happen at once. *)
From Verif Require Import Base.Go Base.Goroutine Base.HashUse Base.Sync Model.SyncAtom Spec.HashUseSpec Spec.SyncSpec Spec.RelaySpec
  Proofs.AreaProofs Proofs.SyncProofs Proofs.SyncEndProofs Proofs.RelayProofs Proofs.PublishProofs Proofs.RelayEndProofs.
From Coq Require Import Lia.
Local Open Scope N_scope.

(** C112: if goroutines that synchronise in whatever way, looked at as if every
    call happened at once, are never about to make calls that get in each other's
    way, then they never race and never panic, and wherever they are, access by
    access, they could have come there with calls that happen at once: the calls
    that have returned have happened, one after the other, and returned what they
    should, those in progress have not happened yet, and all bytes that no call
    in progress is to change are what they should be. *)
Theorem C112_calls_happen_at_once : forall (G : Type) (s0 : G) gs0, well_synchronised s0 gs0 ->
  forall m s ws, leads do_ask (started s0 gs0) (m, s, ws) ->
  ~ panics (m, s, ws) /\ ~ races (m, s, ws)
  /\ exists w gs, turns (nothing_yet, s0, gs0) (w, s, gs) /\ Forall2 stands_before ws gs
     /\ forall x, lib x = false -> (num x < made_by w (who x))%nat ->
        (forall i v c k, nth_error ws i = Some v -> in_progress v -> nth_error gs i = Some (Call c k) -> ~ alters w c (TheByte x)) ->
        m x = bytes w x.
Proof.
  intros G s0 gs0 Wf m s ws L. destruct (follows s0 gs0 Wf m s ws L) as (w & gs & b & T & R). pose proof (Wf _ T) as F.
  split; [exact (no_panic m s ws w gs b R)|]. split; [exact (no_race m s ws w gs b R F)|].
  exists w, gs. split; [exact T|]. split.
  - assert (X : forall (vs : list (worker G)) (hs : list (prog G)), length vs = length hs -> (forall i v, nth_error vs i = Some v -> exists g, nth_error hs i = Some g /\ stands_before v g) -> Forall2 stands_before vs hs).
    { clear. induction vs as [|v vs IH]; intros [|h hs] El H; try discriminate El; constructor.
      - destruct (H O v eq_refl) as (g & Eg & S1). injection Eg as ->. exact S1.
      - apply IH; [injection El as El; exact El|]. intros i v' E. apply (H (S i) v' E). }
    apply X; [exact (rl_len _ _ _ _ _ R)|]. intros i v E. destruct (rl_at _ _ _ _ _ R i v E) as (g & Eg & H). exists g. split; [exact Eg|].
    unfold stands_before. destruct (stands_at v); destruct H as (-> & _); reflexivity.
  - intros x Lx Nx Nb. apply (rl_bytes _ _ _ _ _ R); [exact Lx|exact Nx|]. intros (i & code & k & u & c & Ei & Eg & Al).
    apply (Nb i _ c k Ei); [exists c, code, k; reflexivity|exact Eg|exact Al].
Qed.

(** Every call ends: from wherever they are, a goroutine in the middle of a call
    gets to its end by steps of its own, the others standing still. *)
Theorem C112_calls_end : forall (G : Type) (s0 : G) gs0, well_synchronised s0 gs0 ->
  forall m s ws, leads do_ask (started s0 gs0) (m, s, ws) ->
  forall i c p k u, nth_error ws i = Some (mkW (Inside c p k) u) ->
  exists m' r u', leads do_ask (m, s, ws) (m', s, replaced i (mkW (Between (k r)) u') ws).
Proof.
  intros G s0 gs0 Wf m s ws L i c p k u E. destruct (follows s0 gs0 Wf m s ws L) as (w & gs & b & T & R).
  destruct (rel_inside _ _ _ _ _ _ _ _ _ _ R E) as (_ & St). exact (finishes (area_of i b w c) s c k _ p m u ws St E).
Qed.

(** No run goes on for ever, whatever they do, even if they race. *)
Theorem C112_no_endless_run : forall (G : Type) (run : nat -> group G), ~ forall n, moves1 do_ask (run n) (run (S n)).
Proof.
  intros G run H. assert (X : forall p, Acc (fun q p => moves1 do_ask p q) p -> forall n, run n = p -> False).
  { intros p A. induction A as [p _ IH]. intros n <-. apply (IH (run (S n)) (H n) (S n) eq_refl). }
  apply (X _ (moves_wf do_ask (run O)) O eq_refl).
Qed.

(** If nobody can move on, nobody is inside a call: all have ended or wait for
    each other, and so they would if the calls happened at once. *)
Theorem C112_deadlock : forall (G : Type) (s0 : G) gs0, well_synchronised s0 gs0 ->
  forall m s ws, leads do_ask (started s0 gs0) (m, s, ws) -> (forall q, ~ moves1 do_ask (m, s, ws) q) ->
  exists w gs, turns (nothing_yet, s0, gs0) (w, s, gs) /\ Forall2 (fun v g => stands_at v = Between g) ws gs
    /\ forall g, In g gs -> g = Finish \/ exists f, g = Sync f /\ forall n, f n s = None.
Proof. intros G s0 gs0 Wf. exact (stands_still s0 gs0 Wf). Qed.

(** It can be used: a hash that goes from goroutine to goroutine, each of which
    writes one byte to it. However they are scheduled, they do not race, and the
    sum is that of the bytes in order. *)
Theorem C112_relay : forall k xs, bytes_ok xs -> N.of_nat (length xs) < 2 ^ 64 ->
  forall m b ws, leads do_ask (started at_first (relay k xs)) (m, b, ws) ->
  ~ panics (m, b, ws) /\ ~ races (m, b, ws)
  /\ forall s, outcome b = Some s -> map (fun j => m (shift (base s) j)) (seq 0 (slen s)) = digest_of k (map (fun x => [x]) xs).
Proof.
  intros k xs Hx Hl m b ws L.
  destruct (C112_calls_happen_at_once _ _ _ (relay_synchronised k xs Hx Hl) m b ws L) as (A & B & w & gs & T & _ & C).
  split; [exact A|]. split; [exact B|]. intros s Es. destruct (relay_outcome k xs Hl w b gs s T Es) as (D & Q). rewrite <- D. unfold slice_text.
  apply map_ext_in. intros j Hj. apply in_seq in Hj. destruct (Q j ltac:(lia)) as (Q1 & Q2 & Q3). apply C; [exact Q1|exact Q2|].
  intros i v c k' _ _ Ei. exact (Q3 i c k' Ei).
Qed.

(** And a hash that is written to and then shown to any number of goroutines,
    which all take its sum, at the same time or not. *)
Theorem C112_publication : forall k xs n, bytes_ok xs -> N.of_nat (length xs) < 2 ^ 64 ->
  forall m b ws, leads do_ask (started blank (publication k xs n)) (m, b, ws) ->
  ~ panics (m, b, ws) /\ ~ races (m, b, ws)
  /\ forall s, In s (sums b) -> map (fun j => m (shift (base s) j)) (seq 0 (slen s)) = digest_of k (map (fun x => [x]) xs).
Proof.
  intros k xs n Hx Hl m b ws L.
  destruct (C112_calls_happen_at_once _ _ _ (publication_synchronised k xs Hx Hl n) m b ws L) as (A & B & w & gs & T & _ & C).
  split; [exact A|]. split; [exact B|]. intros s Es. destruct (publication_sums k xs Hl n w b gs s T Es) as (D & Q). rewrite <- D. unfold slice_text.
  apply map_ext_in. intros j Hj. apply in_seq in Hj. destruct (Q j ltac:(lia)) as (Q1 & Q2 & Q3). apply C; [exact Q1|exact Q2|].
  intros i v c k' _ _ Ei. exact (Q3 i c k' Ei).
Qed.

(** Both come to their end, however they are scheduled: if nobody can move on any
    more, all have ended, and the sum is there, of everybody who was to take it. *)
Theorem C112_relay_ends : forall k xs, bytes_ok xs -> N.of_nat (length xs) < 2 ^ 64 ->
  forall m b ws, leads do_ask (started at_first (relay k xs)) (m, b, ws) -> (forall q, ~ moves1 do_ask (m, b, ws) q) ->
  (forall i v, nth_error ws i = Some v -> stands_at v = Between Finish)
  /\ exists s, outcome b = Some s /\ map (fun j => m (shift (base s) j)) (seq 0 (slen s)) = digest_of k (map (fun x => [x]) xs).
Proof.
  intros k xs Hx Hl m b ws L No. destruct (relay_stands k xs Hx Hl m b ws L No) as (A & B). split; [exact A|].
  destruct (outcome b) as [s|] eqn:Es; [|contradiction]. exists s. split; [reflexivity|]. apply (C112_relay k xs Hx Hl m b ws L), Es.
Qed.
Theorem C112_publication_ends : forall k xs n, bytes_ok xs -> N.of_nat (length xs) < 2 ^ 64 ->
  forall m b ws, leads do_ask (started blank (publication k xs n)) (m, b, ws) -> (forall q, ~ moves1 do_ask (m, b, ws) q) ->
  (forall i v, nth_error ws i = Some v -> stands_at v = Between Finish)
  /\ forall i, (1 <= i <= n)%nat -> exists s, In s (sums b) /\ who (base s) = i
       /\ map (fun j => m (shift (base s) j)) (seq 0 (slen s)) = digest_of k (map (fun x => [x]) xs).
Proof.
  intros k xs n Hx Hl m b ws L No. destruct (publication_stands k xs n Hx Hl m b ws L No) as (A & B). split; [exact A|].
  intros i Hi. destruct (B i Hi) as (s & Is & Ws). exists s. split; [exact Is|]. split; [exact Ws|]. apply (C112_publication k xs n Hx Hl m b ws L), Is.
Qed.

(** Schedules that are carried out, for the examples. *)
Definition step_of {G} (i : nat) (p : group G) : option (group G) :=
  let '(m, s, ws) := p in
  match nth_error ws i with
  | Some (mkW (Between (Call c k)) u) => Some (m, s, replaced i (mkW (Inside c (do_ask c) k) u) ws)
  | Some (mkW (Between (Sync f)) u) =>
      match f O s with Some (s', g) => Some (m, s', replaced i (mkW (Between g) u) ws) | None => None end
  | Some (mkW (Inside c (Return r) k) u) => Some (m, s, replaced i (mkW (Between (k r)) u) ws)
  | Some (mkW (Inside c p k) u) =>
      match advance i m (mkT p u) with Some (m', mkT p' u') => Some (m', s, replaced i (mkW (Inside c p' k) u') ws) | None => None end
  | _ => None
  end.
Fixpoint schedule {G} (l : list nat) (p : group G) : group G :=
  match l with
  | [] => p
  | i :: l' => match step_of i p with Some q => schedule l' q | None => schedule l' p end
  end.
Lemma schedule_leads {G} l : forall p : group G, leads do_ask p (schedule l p).
Proof.
  induction l as [|i l IH]; intros p; cbn [schedule]; [apply Stays|]. destruct (step_of i p) as [q|] eqn:E; [|apply IH].
  apply (leads_trans p q); [|apply IH]. eapply Goes_on; [apply Stays|]. destruct p as [[m s] ws]. unfold step_of in E.
  destruct (nth_error ws i) as [[[[|c k|f]|c p k] u]|] eqn:Ei; try discriminate.
  - injection E as <-. apply Enters, Ei.
  - destruct (f O s) as [[s' g]|] eqn:Ef; [|discriminate]. injection E as <-. eapply Syncs; eassumption.
  - assert (X : forall o, advance i m (mkT p u) = o ->
      match o with Some (m', mkT p' u') => Some (m', s, replaced i (mkW (Inside c p' k) u') ws) | None => None end = Some q -> moves1 do_ask (m, s, ws) q).
    { intros [[m' [p' u']]|] Ea H; [|discriminate]. injection H as <-. eapply Accesses; eassumption. }
    destruct p; try (exact (X _ eq_refl E)). injection E as <-. eapply Leaves, Ei.
Qed.

(** A relay of two runners that comes to its end: 5 xor 9 for Bcc. *)
Example C112_relay_example :
  exists m b ws s, leads do_ask (started at_first (relay KBcc [5; 9])) (m, b, ws) /\ outcome b = Some s
    /\ map (fun j => m (shift (base s) j)) (seq 0 (slen s)) = [12].
Proof.
  pose proof (schedule_leads (flat_map (fun _ => [2; 1; 0; 3]%nat) (seq 0 40)) (started at_first (relay KBcc [5; 9]))) as L.
  set (q := schedule _ _) in L. assert (E : exists m b ws s, q = (m, b, ws) /\ outcome b = Some s /\ map (fun j => m (shift (base s) j)) (seq 0 (slen s)) = [12]).
  { vm_compute. repeat eexists. }
  destruct E as (m & b & ws & s & -> & E1 & E2). exists m, b, ws, s. auto.
Qed.

(** A publication to two, who are both inside Sum at some time, and in the end
    have the sums: 5 xor 9 for Bcc. *)
Example C112_publication_example :
  (exists m b ws, leads do_ask (started blank (publication KBcc [5; 9] 2)) (m, b, ws)
    /\ forall i, (i = 1 \/ i = 2)%nat -> exists v, nth_error ws i = Some v /\ in_progress v)
  /\ exists m b ws s s', leads do_ask (started blank (publication KBcc [5; 9] 2)) (m, b, ws) /\ sums b = [s; s']
    /\ map (fun j => m (shift (base s) j)) (seq 0 (slen s)) = [12] /\ map (fun j => m (shift (base s') j)) (seq 0 (slen s')) = [12].
Proof.
  split.
  - pose proof (schedule_leads (repeat O 40 ++ [1; 1; 1; 2; 2; 2]%nat) (started blank (publication KBcc [5; 9] 2))) as L.
    set (q := schedule _ _) in L. assert (E : forall i, (i = 1 \/ i = 2)%nat -> exists v, nth_error (snd q) i = Some v /\ in_progress v).
    { intros i [-> | ->]; vm_compute; eexists; (split; [reflexivity|]); do 3 eexists; reflexivity. }
    destruct q as [[m b] ws]. exists m, b, ws. auto.
  - pose proof (schedule_leads (flat_map (fun _ => [2; 1; 0]%nat) (seq 0 40)) (started blank (publication KBcc [5; 9] 2))) as L.
    set (q := schedule _ _) in L. assert (E : exists m b ws s s', q = (m, b, ws) /\ sums b = [s; s']
      /\ map (fun j => m (shift (base s) j)) (seq 0 (slen s)) = [12] /\ map (fun j => m (shift (base s') j)) (seq 0 (slen s')) = [12]).
    { vm_compute. repeat eexists. }
    destruct E as (m & b & ws & s & s' & -> & E1 & E2 & E3). exists m, b, ws, s, s'. auto.
Qed.

(** Two that make a hash each and then wait for each other for ever. *)
Example C112_deadlock_example :
  let g := fun k => Call (New_hash k) (fun _ => Sync (fun _ (_ : unit) => None)) in
  exists m s ws, leads do_ask (started tt [g KBcc; g KBcc]) (m, s, ws) /\ forall q, ~ moves1 do_ask (m, s, ws) q.
Proof.
  intros g. pose proof (schedule_leads (flat_map (fun _ => [0; 1]%nat) (seq 0 20)) (started tt [g KBcc; g KBcc])) as L. set (q := schedule _ _) in L.
  assert (E : exists m s u u', q = (m, s, [mkW (Between (Sync (fun _ _ => None))) u; mkW (Between (Sync (fun _ _ => None))) u'])) by (vm_compute; repeat eexists).
  destruct E as (m & s & u & u' & E). rewrite E in L. eexists m, s, _. split; [exact L|]. intros q' M. remember (m, s, _) as p eqn:Ep in M.
  destruct M as [m1 s1 ws1 i c k v Ei|m1 s1 ws1 i c p k v m' p' v' Ei Ad|m1 s1 ws1 i c r k v Ei|m1 s1 ws1 i f v n s' g' Ei Ef]; injection Ep as -> -> ->;
    destruct i as [|[|i]]; cbn [nth_error] in Ei; try discriminate Ei; try (destruct i; discriminate Ei); injection Ei as <- _; discriminate Ef.
Qed.

(** Without synchronising there is a race: goroutine 0 makes a hash, hands it
    over and goes on to write to it. *)
Definition careless (k : kind) : list (prog (option hashv)) :=
  let p := mkS (mkA 0 false 0) 0 0 in
  [ Call (New_hash k) (fun r => match r with GotHash h => Sync (fun _ _ => Some (Some h, Call (Write_to h p) (fun _ => Finish))) | _ => Finish end)
  ; Sync (fun _ o => match o with Some h => Some (None, Call (Write_to h p) (fun _ => Finish)) | None => None end) ].
Theorem C112_sync_needed : exists m s ws, leads do_ask (started None (careless KBcc)) (m, s, ws) /\ races (m, s, ws).
Proof.
  pose proof (schedule_leads [0; 0; 0; 0; 0; 1; 0; 1; 0]%nat (started None (careless KBcc))) as L.
  set (q := schedule _ _) in L. assert (E : races q).
  { exists O, 1%nat. vm_compute. do 9 eexists. split; [discriminate|]. split; [reflexivity|]. split; [reflexivity|]. split; [reflexivity|]. left. reflexivity. }
  destruct q as [[m s] ws]. exists m, s, ws. split; assumption.
Qed.

Print Assumptions C112_no_endless_run.
Print Assumptions C112_deadlock.
Print Assumptions C112_relay_ends.
Print Assumptions C112_publication_ends.
Print Assumptions C112_calls_happen_at_once.
Print Assumptions C112_calls_end.
Print Assumptions C112_relay.
Print Assumptions C112_publication.
Print Assumptions C112_sync_needed.
