(** Goroutines that xor their messages with one key. *)
From Verif Require Import Base.Go Base.Goroutine Base.HashUse Base.Sync Model.SyncAtom Spec.SyncSpec Spec.PadSpec
  Proofs.SyncProofs Proofs.PadProofs Props.SyncProps.
From Coq Require Import Lia.
Local Open Scope N_scope.

(** C116: one goroutine makes a key and shows it; any number of others xor
    messages of their own with it by bytes.XorEq, each some number of times,
    while the others do. However they are scheduled there is no data race and no
    panic; each finishes at most once, and its slice then has, and keeps, the
    bytes of its message, xored with the key if the number of times is odd, and
    just them if it is even; what is longer than the key stays as it is. The key
    is not changed before all are finished; the maker then wipes it out with
    bytes.Zero, and when it has ended nothing of it is left. *)
Theorem C116_shared_key : forall key ms, bytes_ok key -> Forall (fun m => bytes_ok (fst m)) ms ->
  forall m b ws, leads do_ask (started empty_table (office key ms)) (m, b, ws) ->
  ~ panics (m, b, ws) /\ ~ races (m, b, ws) /\ NoDup (map fst (finished b))
  /\ (forall j s, In (j, s) (finished b) -> exists xs r, nth_error ms j = Some (xs, r)
        /\ map (fun q => m (shift (base s) q)) (seq 0 (slen s)) = map (xored key xs r) (seq 0 (length xs)))
  /\ (forall s, key_at b = Some s -> (length (finished b) < length ms)%nat -> map (fun q => m (shift (base s) q)) (seq 0 (slen s)) = key)
  /\ ((forall i v, nth_error ws i = Some v -> stands_at v = Between Finish) ->
        exists s, key_at b = Some s /\ map (fun q => m (shift (base s) q)) (seq 0 (slen s)) = repeat 0 (length key)).
Proof.
  intros key ms Hk Hm m b ws L.
  destruct (C112_calls_happen_at_once _ _ _ (pad_synchronised key ms Hk Hm) m b ws L) as (A & B & w & gs & T & Sb & C).
  destruct (pad_done key ms Hk Hm w b gs T) as (Nd & Fi & Ke & En). split; [exact A|]. split; [exact B|]. split; [exact Nd|]. split; [|split].
  - intros j s Is. destruct (Fi j s Is) as (xs & r & E & Ln & Q). exists xs, r. split; [exact E|]. rewrite <- Ln. apply map_ext_in. intros q Hq. apply in_seq in Hq.
    destruct (Q q ltac:(lia)) as (Q1 & Q2 & Q3 & Q4). rewrite <- Q1. apply C; [exact Q2|exact Q3|]. intros i v c k _ _ Ei. exact (Q4 i c k Ei).
  - intros s Es Lf. destruct (Ke s Es Lf) as (Ln & Q). transitivity (map (fun q => nth q key 0) (seq 0 (slen s))).
    2: { rewrite Ln. clear. induction key as [|x l IH]; [reflexivity|]. cbn [length seq map nth]. f_equal. rewrite <- seq_shift, map_map. exact IH. }
    apply map_ext_in. intros q Hq. apply in_seq in Hq.
    destruct (Q q ltac:(lia)) as (Q1 & Q2 & Q3 & Q4). rewrite <- Q1. apply C; [exact Q2|exact Q3|]. intros i v c k _ _ Ei. exact (Q4 i c k Ei).
  - intros F. assert (E0 : nth_error gs 0 = Some Finish).
    { pose proof (proj1 (pad_over key ms Hk Hm m b ws L F)) as Ln. destruct Sb as [|v g ws' gs' Sv _]; [discriminate Ln|]. pose proof (F O v eq_refl) as Fv.
      unfold stands_before in Sv. rewrite Fv in Sv. subst g. reflexivity. }
    destruct (En E0) as (s & Es & Ln & Q). exists s. split; [exact Es|]. transitivity (map (fun _ : nat => 0) (seq 0 (slen s))).
    2: { rewrite Ln. clear. generalize O as i. induction key as [|x l IH]; intros i; [reflexivity|]. cbn [length seq map repeat]. f_equal. apply IH. }
    apply map_ext_in. intros q Hq. apply in_seq in Hq. destruct (Q q ltac:(lia)) as (Q1 & Q2 & Q3). rewrite <- Q1. apply C; [exact Q2|exact Q3|].
    intros i v c k Ev (c' & p & k' & Iv) _. rewrite (F i v Ev) in Iv. discriminate Iv.
Qed.

(** All come to their end: if nobody can move on, everybody has ended and handed
    in its slice (there are no endless runs: C112_no_endless_run); and from
    wherever they are, they can. *)
Theorem C116_all_end : forall key ms, bytes_ok key -> Forall (fun m => bytes_ok (fst m)) ms ->
  forall m b ws, leads do_ask (started empty_table (office key ms)) (m, b, ws) ->
  ((forall q, ~ moves1 do_ask (m, b, ws) q) ->
     (forall i v, nth_error ws i = Some v -> stands_at v = Between Finish) /\ length ws = S (length ms)
     /\ forall j x, nth_error ms j = Some x -> exists s, In (j, s) (finished b))
  /\ exists m' b' ws', leads do_ask (m, b, ws) (m', b', ws') /\ length ws' = S (length ms) /\ (forall i v, nth_error ws' i = Some v -> stands_at v = Between Finish)
     /\ forall j x, nth_error ms j = Some x -> exists s, In (j, s) (finished b').
Proof.
  intros key ms Hk Hm m b ws L. split.
  - intros No. destruct (pad_moves key ms Hk Hm m b ws L) as [(q & M)|F]; [exfalso; exact (No q M)|]. split; [exact F|exact (pad_over key ms Hk Hm m b ws L F)].
  - destruct (pad_ends key ms Hk Hm m b ws L) as (m' & b' & ws' & L' & F). exists m', b', ws'. split; [exact L'|].
    destruct (pad_over key ms Hk Hm m' b' ws' (leads_trans _ _ _ L L') F) as (Ln & X). split; [exact Ln|]. split; [exact F|exact X].
Qed.

(** Two messages, one longer than the key and xored once, one shorter and xored
    twice, by goroutines that take turns; in the end the key is gone. *)
Example C116_example : let ms := [([1; 2; 3], 1%nat); ([7], 2%nat)] in
  Forall (fun m => bytes_ok (fst m)) ms /\
  exists m b ws s s' k, leads do_ask (started empty_table (office [255; 15] ms)) (m, b, ws) /\ finished b = [(1%nat, s'); (0%nat, s)]
    /\ map (fun q => m (shift (base s) q)) (seq 0 (slen s)) = [254; 13; 3] /\ map (fun q => m (shift (base s') q)) (seq 0 (slen s')) = [7]
    /\ key_at b = Some k /\ map (fun q => m (shift (base k) q)) (seq 0 (slen k)) = [0; 0].
Proof.
  intros ms. split; [repeat constructor|].
  pose proof (schedule_leads (flat_map (fun _ => [2; 1; 0]%nat) (seq 0 40)) (started empty_table (office [255; 15] ms))) as L. set (q := schedule _ _) in L.
  assert (E : exists m b ws s s' k, q = (m, b, ws) /\ finished b = [(1%nat, s'); (0%nat, s)]
    /\ map (fun q => m (shift (base s) q)) (seq 0 (slen s)) = [254; 13; 3] /\ map (fun q => m (shift (base s') q)) (seq 0 (slen s')) = [7]
    /\ key_at b = Some k /\ map (fun q => m (shift (base k) q)) (seq 0 (slen k)) = [0; 0]).
  { vm_compute. repeat eexists. }
  destruct E as (m & b & ws & s & s' & k & -> & E). exists m, b, ws, s, s', k. split; [exact L|exact E].
Qed.

(** They have to wait for the key: one that is shown before it is filled races. *)
Definition too_early : list (prog table) :=
  [ Call (Make_bytes 1 1) (fun r => match r with GotSlice s => Sync (fun _ b => Some (mkTable (Some s) (finished b), fills s 0 [9] Finish)) | _ => Finish end)
  ; scribe 0 ([1], 1%nat) ].
Theorem C116_order_needed : exists m b ws, leads do_ask (started empty_table too_early) (m, b, ws) /\ races (m, b, ws).
Proof.
  assert (X : exists l, races (schedule l (started empty_table too_early))).
  { exists [0; 0; 0; 0; 1; 1; 1; 1; 1; 1; 1; 1; 1; 0]%nat. exists O, 1%nat. vm_compute.
    do 9 eexists. split; [discriminate|]. split; [reflexivity|]. split; [reflexivity|]. split; [reflexivity|]. left. reflexivity. }
  destruct X as (l & R). pose proof (schedule_leads l (started empty_table too_early)) as L. destruct (schedule l (started empty_table too_early)) as [[m s] ws].
  exists m, s, ws. split; assumption.
Qed.

(** And the key has to stay until all are finished: its maker may not wipe it out
    right after it has shown it. *)
Definition too_soon : list (prog table) :=
  [ prepares [9] (fun s => Sync (fun _ b => Some (mkTable (Some s) (finished b), wipes s))); scribe 0 ([1], 1%nat) ].
Theorem C116_wait_needed : exists m b ws, leads do_ask (started empty_table too_soon) (m, b, ws) /\ races (m, b, ws).
Proof.
  assert (X : exists l, races (schedule l (started empty_table too_soon))).
  { exists [0; 0; 0; 0; 0; 0; 0; 1; 1; 1; 1; 1; 1; 1; 1; 1; 0]%nat. exists O, 1%nat. vm_compute.
    do 9 eexists. split; [discriminate|]. split; [reflexivity|]. split; [reflexivity|]. split; [reflexivity|]. left. reflexivity. }
  destruct X as (l & R). pose proof (schedule_leads l (started empty_table too_soon)) as L. destruct (schedule l (started empty_table too_soon)) as [[m s] ws].
  exists m, s, ws. split; assumption.
Qed.

Print Assumptions C116_shared_key.
Print Assumptions C116_all_end.
Print Assumptions C116_order_needed.
Print Assumptions C116_wait_needed.
