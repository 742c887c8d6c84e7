(** Messages that go from goroutine to goroutine as hex texts arrive. *)
From Verif Require Import Base.Go Base.Goroutine Base.HashUse Base.Sync Model.SyncAtom Spec.SyncSpec Spec.PostSpec
  Proofs.SyncProofs Proofs.PostProofs Proofs.PostEndProofs Props.SyncProps.
From Coq Require Import Lia Permutation.
Local Open Scope N_scope.

(** C114: any number of goroutines send messages with hex.FromBytes, each of them
    from one buffer that it fills again and again; any number of others take
    the texts and read them with hex.ToBytes or hex.ToBytesFast, of either build.
    However they are scheduled there is no data race and no panic, no reader
    gets an error, and what arrives as message [j] of goroutine [i] is that. *)
Theorem C114_letters : forall room rs, Forall role_ok rs ->
  forall m b ws, leads do_ask (started no_post (post_office room rs)) (m, b, ws) ->
  ~ panics (m, b, ws) /\ ~ races (m, b, ws) /\ complaints b = false
  /\ forall i j s, In (i, j, s) (arrived b) -> message rs i j = Some (map (fun q => m (shift (base s) q)) (seq 0 (slen s))).
Proof.
  intros room rs Hr m b ws L.
  destruct (C112_calls_happen_at_once _ _ _ (post_synchronised room rs Hr) m b ws L) as (A & B & w & gs & T & _ & C).
  destruct (post_arrives room rs Hr w b gs T) as (Nc & Ar). split; [exact A|]. split; [exact B|]. split; [exact Nc|].
  intros i j s Is. destruct (Ar i j s Is) as (-> & Q). f_equal. unfold slice_text. apply map_ext_in. intros q Hq. apply in_seq in Hq.
  destruct (Q q ltac:(lia)) as (Q1 & Q2 & Q3). symmetry. apply C; [exact Q1|exact Q2|]. intros i0 v c k _ _ E. exact (Q3 i0 c k E).
Qed.

(** No message arrives twice. *)
Theorem C114_once : forall room rs, Forall role_ok rs ->
  forall m b ws, leads do_ask (started no_post (post_office room rs)) (m, b, ws) -> NoDup (map fst (arrived b)).
Proof.
  intros room rs Hr m b ws L.
  destruct (C112_calls_happen_at_once _ _ _ (post_synchronised room rs Hr) m b ws L) as (_ & _ & w & gs & T & _). exact (arrive_once room rs Hr w b gs T).
Qed.

(** However they came to their end, as many letters have arrived as were to be
    taken; and if that is as many as were sent, every message has arrived. *)
Theorem C114_none_lost : forall room rs, Forall role_ok rs ->
  forall m b ws, leads do_ask (started no_post (post_office room rs)) (m, b, ws) -> (forall i v, nth_error ws i = Some v -> stands_at v = Between Finish) ->
  length (arrived b) = asked rs
  /\ (asked rs = sent rs -> forall i j xs, message rs i j = Some xs -> exists s, In (i, j, s) (arrived b) /\ map (fun q => m (shift (base s) q)) (seq 0 (slen s)) = xs).
Proof.
  intros room rs Hr m b ws L F. destruct (post_ended room rs Hr m b ws L F) as (_ & A & B). split; [exact A|]. intros Eq i j xs M. specialize (B Eq).
  assert (X : In (i, j) (map fst (arrived b))).
  { apply (Permutation_in _ (Permutation_sym B)). apply all_keys_in. rewrite Nat.sub_0_r, M. split; [lia|discriminate]. }
  apply in_map_iff in X as ([k s] & E & I0). cbn [fst] in E. subst k. exists s. split; [exact I0|].
  destruct (C114_letters room rs Hr m b ws L) as (_ & _ & _ & C). specialize (C i j s I0). congruence.
Qed.

(** And all come to their end, however they are scheduled, if there is a letter
    for each that is to be taken, and room for those that are not: if nobody can
    move on any more, it is because all have ended. (There are no endless runs:
    C112_no_endless_run.) And from wherever they are, they can. *)
Theorem C114_no_deadlock : forall room rs, Forall role_ok rs -> (1 <= room)%nat -> (asked rs <= sent rs <= asked rs + room)%nat ->
  forall m b ws, leads do_ask (started no_post (post_office room rs)) (m, b, ws) ->
  ((forall q, ~ moves1 do_ask (m, b, ws) q) -> forall i v, nth_error ws i = Some v -> stands_at v = Between Finish)
  /\ exists m' b' ws', leads do_ask (m, b, ws) (m', b', ws') /\ length ws' = length rs /\ forall i v, nth_error ws' i = Some v -> stands_at v = Between Finish.
Proof. intros room rs Hr Ro As m b ws L. split; [exact (post_stands room rs Hr Ro As m b ws L)|exact (post_ends room rs Hr Ro As m b ws L)]. Qed.

(** Otherwise they never do: somebody waits for ever, a reader for a letter or a
    sender for room. *)
Theorem C114_ends_only_then : forall room rs, Forall role_ok rs ->
  forall m b ws, leads do_ask (started no_post (post_office room rs)) (m, b, ws) ->
  (forall i v, nth_error ws i = Some v -> stands_at v = Between Finish) -> (asked rs <= sent rs <= asked rs + room)%nat.
Proof. intros room rs Hr m b ws L F. exact (proj1 (post_ended room rs Hr m b ws L F)). Qed.

(** Two messages of one sender that arrive at two readers, one of each kind; the
    sender has filled its buffer anew when the first one is read. *)
Example C114_example : let rs := [Receives false false 1; Sends 2 [[1; 171]; [255; 0]]; Receives true true 1] in
  Forall role_ok rs /\
  exists m b ws s s', leads do_ask (started no_post (post_office 2 rs)) (m, b, ws) /\ arrived b = [(1, 0, s); (1, 1, s')]%nat
    /\ who (base s) = 0%nat /\ who (base s') = 2%nat
    /\ map (fun q => m (shift (base s) q)) (seq 0 (slen s)) = [1; 171] /\ map (fun q => m (shift (base s') q)) (seq 0 (slen s')) = [255; 0].
Proof.
  intros rs. split.
  - repeat constructor.
  - pose proof (schedule_leads (repeat 1 70 ++ repeat 0 70 ++ repeat 2 70)%nat (started no_post (post_office 2 rs))) as L.
    set (q := schedule _ _) in L.
    assert (E : exists m b ws s s', q = (m, b, ws) /\ arrived b = [(1, 0, s); (1, 1, s')]%nat /\ who (base s) = 0%nat /\ who (base s') = 2%nat
      /\ map (fun q => m (shift (base s) q)) (seq 0 (slen s)) = [1; 171] /\ map (fun q => m (shift (base s') q)) (seq 0 (slen s')) = [255; 0]).
    { vm_compute. repeat eexists. }
    destruct E as (m & b & ws & s & s' & -> & E). exists m, b, ws, s, s'. split; [exact L|exact E].
Qed.

(** The same three come to their end, also if the channel has room for one text
    only, and then both messages have arrived. *)
Example C114_example_end : let rs := [Receives false false 1; Sends 2 [[1; 171]; [255; 0]]; Receives true true 1] in
  asked rs = sent rs /\ exists m b ws, leads do_ask (started no_post (post_office 1 rs)) (m, b, ws) /\ length ws = 3%nat
    /\ (forall i v, nth_error ws i = Some v -> stands_at v = Between Finish)
    /\ exists s, In (1, 1, s)%nat (arrived b) /\ map (fun q => m (shift (base s) q)) (seq 0 (slen s)) = [255; 0].
Proof.
  intros rs. split; [reflexivity|]. assert (Hr : Forall role_ok rs) by repeat constructor.
  destruct (proj2 (C114_no_deadlock 1 rs Hr (le_n _) ltac:(cbv; lia) _ _ _ (Stays _ _ _))) as (m & b & ws & L & Ln & F). exists m, b, ws. split; [exact L|]. split; [exact Ln|]. split; [exact F|].
  exact (proj2 (C114_none_lost 1 rs Hr m b ws L F) eq_refl 1%nat 1%nat _ eq_refl).
Qed.

(** It takes the text: a sender that hands over the buffer itself and then fills
    it anew races with who reads it. *)
Definition hands_over : list (prog (option gslice)) :=
  [ Call (Make_bytes 1 1) (fun r => match r with GotSlice s => Sync (fun _ _ => Some (Some s, Call (Store_byte s 0 1) (fun _ => Finish))) | _ => Finish end)
  ; Sync (fun _ o => match o with Some s => Some (None, Call (Text_of In_hex s) (fun _ => Finish)) | None => None end) ].
Theorem C114_text_needed : exists m s ws, leads do_ask (started None hands_over) (m, s, ws) /\ races (m, s, ws).
Proof.
  assert (X : exists l, races (schedule l (started None hands_over))).
  { exists [0; 0; 0; 0; 1; 0; 1; 1; 1; 1]%nat. exists O, 1%nat. vm_compute.
    do 9 eexists. split; [discriminate|]. split; [reflexivity|]. split; [reflexivity|]. split; [reflexivity|]. left. reflexivity. }
  destruct X as (l & R). pose proof (schedule_leads l (started None hands_over)) as L. destruct (schedule l (started None hands_over)) as [[m s] ws].
  exists m, s, ws. split; assumption.
Qed.

Print Assumptions C114_letters.
Print Assumptions C114_once.
Print Assumptions C114_none_lost.
Print Assumptions C114_no_deadlock.
Print Assumptions C114_text_needed.
Print Assumptions C114_ends_only_then.
