(** Copies of a tree as snapshots. *)
From Verif Require Import Base.Go Base.GoNet Base.NetApi Base.Goroutine Base.HashUse Base.Sync Model.SyncAtom Spec.SyncSpec Spec.SnapshotSpec
  Proofs.SyncProofs Proofs.SnapshotProofs Props.SyncProps.
From Verif Require Spec.NetSpec.
From Coq Require Import Lia.
Local Open Scope N_scope.

(** C113: one goroutine adds addresses to a tree and after each shows a copy to
    others, who list the newest copy as often as they like while it goes on
    adding. However they are scheduled, there is no race and no panic, every list
    is that of the tree after some number of additions, and no onlooker ever sees
    the tree go back. *)
Theorem C113_snapshots : forall mg xs ns, Forall (fun x => fst x < 2 ^ 32) xs ->
  forall m b ws, leads do_ask (started nothing_heard (snapshots mg xs ns)) (m, b, ws) ->
  ~ panics (m, b, ws) /\ ~ races (m, b, ws)
  /\ exists ks, length ks = length (heard b)
     /\ (forall j i l k, nth_error (heard b) j = Some (i, l) -> nth_error ks j = Some k -> (1 <= k <= length xs)%nat /\ lists_after mg xs k m l)
     /\ (forall j j' i l l' k k', (j < j')%nat -> nth_error (heard b) j = Some (i, l) -> nth_error (heard b) j' = Some (i, l') ->
           nth_error ks j = Some k -> nth_error ks j' = Some k' -> (k <= k')%nat).
Proof.
  intros mg xs ns Hx m b ws L.
  destruct (C112_calls_happen_at_once _ _ _ (snapshots_synchronised mg xs Hx ns) m b ws L) as (A & B & w & gs & T & Sb & C).
  split; [exact A|]. split; [exact B|]. apply (snapshots_heard mg xs Hx ns w b gs m T).
  intros x Lx Nx Na. apply C; [exact Lx|exact Nx|]. intros i v c k _ _ Ei. exact (Na i c k Ei).
Qed.

(** All come to their end, however they are scheduled (if anything is added at
    all), and then every onlooker has told as many lists as it was to: if nobody
    can move on any more, it is because all have ended. (There are no endless
    runs: C112_no_endless_run.) And from wherever they are, they can. *)
Theorem C113_no_deadlock : forall mg xs ns, Forall (fun x => fst x < 2 ^ 32) xs -> xs <> [] ->
  forall m b ws, leads do_ask (started nothing_heard (snapshots mg xs ns)) (m, b, ws) ->
  ((forall q, ~ moves1 do_ask (m, b, ws) q) ->
     (forall i v, nth_error ws i = Some v -> stands_at v = Between Finish) /\ forall i n, nth_error ns i = Some n -> told b (S i) = n)
  /\ exists m' b' ws', leads do_ask (m, b, ws) (m', b', ws') /\ length ws' = S (length ns) /\ (forall i v, nth_error ws' i = Some v -> stands_at v = Between Finish)
    /\ forall i n, nth_error ns i = Some n -> told b' (S i) = n.
Proof. intros mg xs ns Hx Ne m b ws L. split; [exact (snapshots_stand mg xs Hx ns Ne m b ws L)|exact (snapshots_end mg xs Hx ns Ne m b ws L)]. Qed.

(** Two addresses and two onlookers, the first to look twice: all can come to
    their end. And an onlooker does list a copy while the keeper is adding to the
    tree. *)
Definition is_adding (v : worker stand) : bool := match stands_at v with Inside (Add_ip _ _ _) _ _ => true | _ => false end.
Definition is_listing (v : worker stand) : bool := match stands_at v with Inside (List_tree _) _ _ => true | _ => false end.
Example C113_example :
  (exists m b ws, leads do_ask (started nothing_heard (snapshots N.max [(5, 1); (4, 2)] [2; 1]%nat)) (m, b, ws)
     /\ (forall i v, nth_error ws i = Some v -> stands_at v = Between Finish) /\ told b 1 = 2%nat /\ told b 2 = 1%nat)
  /\ exists m b ws v v', leads do_ask (started nothing_heard (snapshots N.max [(5, 1); (4, 2)] [2; 1]%nat)) (m, b, ws)
     /\ nth_error ws 0 = Some v /\ is_adding v = true /\ nth_error ws 2 = Some v' /\ is_listing v' = true.
Proof.
  split.
  - assert (Hx : Forall (fun x => fst x < 2 ^ 32) [(5, 1); (4, 2)]) by (repeat constructor).
    destruct (proj2 (C113_no_deadlock N.max _ [2; 1]%nat Hx ltac:(discriminate) _ _ _ (Stays _ _ _))) as (m & b & ws & L & _ & F & T).
    exists m, b, ws. split; [exact L|]. split; [exact F|]. split; [exact (T O _ eq_refl)|exact (T 1%nat _ eq_refl)].
  - pose proof (schedule_leads (repeat O 400 ++ [2; 2; 2]%nat) (started nothing_heard (snapshots N.max [(5, 1); (4, 2)] [2; 1]%nat))) as L.
    set (q := schedule _ _) in L.
    assert (E : match nth_error (snd q) 0, nth_error (snd q) 2 with Some v, Some v' => is_adding v && is_listing v' | _, _ => false end = true)
      by (vm_compute; reflexivity).
    destruct q as [[m b] ws]. cbn [snd] in E. destruct (nth_error ws 0) as [v|] eqn:E0; [|discriminate]. destruct (nth_error ws 2) as [v'|] eqn:E2; [|discriminate].
    apply andb_prop in E. exists m, b, ws, v, v'. tauto.
Qed.

(** The copy is needed: a keeper that shows the tree itself and goes on to add to
    it races with an onlooker. *)
Definition shows_tree (u n v : N) : list (prog stand) :=
  [ Call (New_tree N.max) (fun r => match r with GotTree t =>
      shows_copy t (Call (Ip_from u) (fun r => match r with GotSlice ip =>
        Call (Mask_from n) (fun r => match r with GotSlice mask => Call (Add_cidr t ip mask v) (fun _ => Finish) | _ => Finish end)
      | _ => Finish end))
    | _ => Finish end)
  ; onlooker 1 1 ].
Theorem C113_copy_needed : exists m b ws, leads do_ask (started nothing_heard (shows_tree 0 0 7)) (m, b, ws) /\ races (m, b, ws).
Proof.
  pose proof (schedule_leads (repeat O 37 ++ [1; 1]%nat) (started nothing_heard (shows_tree 0 0 7))) as L.
  set (q := schedule _ _) in L.
  assert (E : match nth_error (snd q) 0, nth_error (snd q) 1 with
    | Some (mkW (Inside _ (Put a _ _) _) _), Some (mkW (Inside _ (Get a' _) _) _) => a = a' | _, _ => False end) by (vm_compute; reflexivity).
  destruct q as [[m b] ws]. exists m, b, ws. split; [exact L|]. cbn [snd] in E.
  destruct (nth_error ws 0) as [[[|c p k] u]|] eqn:E0; try contradiction. destruct p; try contradiction.
  destruct (nth_error ws 1) as [[[|c' p' k'] u']|] eqn:E1; try contradiction. destruct p'; try contradiction. subst.
  exists O, 1%nat. do 9 eexists. split; [discriminate|]. split; [exact E0|]. split; [exact E1|]. split; [reflexivity|]. left. reflexivity.
Qed.

Print Assumptions C113_snapshots.
Print Assumptions C113_no_deadlock.
Print Assumptions C113_copy_needed.
