(** C95: goroutines that use package bytes on slices of one memory. *)
From Verif Require Import Base.Go Base.Mem Base.Goroutine Base.BytesUse Model.BytesAtom Spec.BytesUseSpec.
From Verif Require Import Proofs.GoroutineProofs Proofs.ShareProofs Proofs.BytesAtomProofs Proofs.BytesProofs.
From Verif Require Model.Bytes.
Local Open Scope N_scope.

(** The goroutines [gs], started with the bytes [m] in memory. *)
Definition mem_at (m : mem) : memory := fun a => m (num a).
Definition started (m : mem) (gs : list job) : system (list result) := (mem_at m, map (fun g => mkT (behave g) none) gs).

(** Goroutine [i] writes only W i and reads only R i and W i, and what one writes
    no other uses. Then in every interleaving of the single accesses there is no
    data race, nothing gets stuck, and each goroutine does what it would do if
    it were alone and its calls were made in one go: it panics only if it would
    panic then, and when it is done it got the same results and left the same
    bytes. What nobody writes stays. *)
Theorem C95_goroutines : forall (R W : nat -> nat -> Prop) gs m, apart R W ->
  (forall i g, nth_error gs i = Some g -> stays (R i) (W i) g) ->
  forall m' ts, becomes (started m gs) (m', ts) ->
    ~ race (m', ts)
    /\ ((exists w, moves (m', ts) w) \/ forall i t, nth_error ts i = Some t -> (exists rs, todo t = Return rs) \/ todo t = Crash)
    /\ length ts = length gs
    /\ (forall x, (forall i, (i < length gs)%nat -> ~ W i x) -> m' (cell x) = m x)
    /\ forall i t g, nth_error ts i = Some t -> nth_error gs i = Some g ->
       match whole m g with
       | Ret (m1, rs1) => todo t <> Crash /\ forall rs, todo t = Return rs -> rs = rs1 /\ forall x, R i x \/ W i x -> m' (cell x) = m1 x
       | _ => forall rs, todo t <> Return rs
       end.
Proof.
  intros R W gs m Ap St m' ts B.
  assert (Ap' : forall i j a, i <> j -> at_cells (W i) a -> ~ at_cells (W j) a /\ ~ at_cells (R j) a).
  { intros i j a N (x & -> & Hx). destruct (Ap i j x N Hx) as [N1 N2]. split; intros (y & E & Hy); injection E as <-; contradiction. }
  set (cs := map behave gs).
  assert (K : forall i c, nth_error cs i = Some c -> keeps (at_cells (R i)) (at_cells (W i)) c).
  { intros i c E. unfold cs in E. rewrite nth_error_map in E. destruct (nth_error gs i) as [g|] eqn:Eg; [|discriminate].
    injection E as <-. apply behave_keeps, (St i g Eg). }
  assert (G : going (fun i => at_cells (R i)) (fun i => at_cells (W i)) cs (mem_at m) (m', ts)).
  { apply (going_becomes _ _ _ _ Ap' (started m gs)); [exact B|].
    replace (started m gs) with (begin cs (mem_at m)); [apply begin_going, K|].
    unfold begin, started, cs. rewrite map_map. reflexivity. }
  split; [apply (going_no_race _ _ _ _ Ap' _ G)|]. split; [apply goes_on|].
  pose proof G as (L & Out & _). unfold cs in L, Out. rewrite map_length in L, Out. cbn [fst snd] in L, Out.
  split; [exact L|]. split.
  { intros x Hx. rewrite Out; [reflexivity|]. intros i Hi (y & E & Hy). injection E as <-. exact (Hx i Hi Hy). }
  intros i t g Ht Hg. destruct (going_ends _ _ _ _ _ i t G Ht) as (c & Ec & E1 & E2).
  unfold cs in Ec. rewrite nth_error_map, Hg in Ec. injection Ec as <-.
  pose proof (behave_runs (S i) none g (mem_at m) m (fun n => eq_refl)) as Rn. unfold runs in Rn.
  destruct (whole m g) as [[m1 rs1]| |].
  - destruct Rn as (rs2 & M2 & Al & H2 & E). cbn [fst snd] in *. subst rs2. split.
    + intros C. rewrite (E1 C) in Al. discriminate.
    + intros rs C. destruct (E2 rs C) as (M3 & u3 & Al3 & H3). rewrite Al in Al3. injection Al3 as -> <- <-. split; [reflexivity|].
      intros x Hx. cbn [fst] in H3. rewrite H3; [apply H2|]. destruct Hx; [left|right]; apply in_cells; assumption.
  - intros rs C. destruct (E2 rs C) as (M3 & u3 & Al3 & H3). congruence.
  - intros rs C. destruct (E2 rs C) as (M3 & u3 & Al3 & H3). congruence.
Qed.
(** And there is no infinite execution. *)
Theorem C95_terminates : forall (f : nat -> system (list result)), ~ (forall n, moves (f n) (f (S n))).
Proof. exact no_infinite. Qed.

(** One call on one goroutine, access by access, is the function of Model/Bytes.v. *)
Theorem C95_one_call : forall id u m c,
  match whole_call m c with
  | Ret (m1, r) => exists M1, alone id (do_call c) (mem_at m) u = Some (r, M1, u) /\ forall x, M1 (cell x) = m1 x
  | _ => alone id (do_call c) (mem_at m) u = None
  end.
Proof.
  intros id u m c. pose proof (call_runs id u (mem_at m) m c (fun n => eq_refl)) as Rn. unfold runs in Rn.
  destruct (whole_call m c) as [[m1 r]| |]; [|exact Rn|exact Rn]. destruct Rn as (r' & M1 & E & H & Er). cbn [fst snd] in *. subst r'.
  exists M1. auto.
Qed.

(** ** Work in parts *)

(** The memory from [s] on, cut into parts of the lengths [ns]. *)
Fixpoint parts (s : nat) (ns : list nat) : list slice :=
  match ns with [] => [] | n :: ns' => mkSlice s n :: parts (s + n) ns' end.
Definition total (ns : list nat) : nat := fold_right Nat.add O ns.
(** One goroutine for each part. *)
Definition xor_parts (d o : nat) (ns : list nat) : list job :=
  map (fun p => Do (CXorEq (fst p) (snd p)) (fun _ => Stop)) (combine (parts d ns) (parts o ns)).
Definition zero_parts (t : nat) (ns : list nat) : list job := map (fun p => Do (CZero p) (fun _ => Stop)) (parts t ns).

Lemma parts_nth ns : forall s i, nth_error (parts s ns) i =
  match nth_error ns i with Some n => Some (mkSlice (s + total (firstn i ns)) n) | None => None end.
Proof.
  induction ns as [|n ns IH]; intros s [|i]; cbn [parts nth_error firstn total fold_right]; try reflexivity.
  - rewrite Nat.add_0_r. reflexivity.
  - rewrite IH. destruct (nth_error ns i); [|reflexivity]. unfold total. rewrite Nat.add_assoc. reflexivity.
Qed.
Lemma parts_length ns : forall s, length (parts s ns) = length ns.
Proof. induction ns; intros s; cbn [parts length]; auto. Qed.
Lemma combine_nth_error {A B} (l : list A) (l' : list B) : forall i, nth_error (combine l l') i =
  match nth_error l i, nth_error l' i with Some x, Some y => Some (x, y) | _, _ => None end.
Proof.
  revert l'. induction l as [|x l IH]; intros [|y l'] [|i]; cbn [combine nth_error]; try reflexivity.
  - destruct (nth_error l i); reflexivity.
  - apply IH.
Qed.
Lemma total_firstn ns : forall i n, nth_error ns i = Some n -> total (firstn (S i) ns) = (total (firstn i ns) + n)%nat.
Proof.
  induction ns as [|k ns IH]; intros [|i] n E; try discriminate.
  - injection E as ->. cbn [firstn total fold_right]. lia.
  - specialize (IH i n E). rewrite !firstn_cons. unfold total in *. cbn [fold_right]. lia.
Qed.
Lemma total_le ns : forall i j, (i <= j)%nat -> (total (firstn i ns) <= total (firstn j ns))%nat.
Proof.
  induction ns as [|k ns IH]; intros i j L; [rewrite !firstn_nil; reflexivity|].
  destruct i; [cbn [firstn total fold_right]; lia|]. destruct j; [lia|]. rewrite !firstn_cons. unfold total in *. cbn [fold_right].
  specialize (IH i j). lia.
Qed.
Lemma total_all ns i : (total (firstn i ns) <= total ns)%nat.
Proof.
  destruct (Nat.le_gt_cases i (length ns)).
  - rewrite <- (firstn_all ns) at 2. apply total_le, H.
  - rewrite firstn_all2 by lia. reflexivity.
Qed.
(** The part a byte is in. *)
Lemma which_part ns : forall x, (x < total ns)%nat -> exists i n, nth_error ns i = Some n
  /\ (total (firstn i ns) <= x < total (firstn i ns) + n)%nat.
Proof.
  induction ns as [|k ns IH]; intros x H; cbn [total fold_right] in H; [lia|].
  destruct (Nat.lt_ge_cases x k); [exists O, k; split; [reflexivity|cbn [firstn total fold_right]; lia]|].
  destruct (IH (x - k)%nat) as (i & n & E & L); [unfold total; lia|]. exists (S i), n. split; [exact E|].
  rewrite firstn_cons. unfold total in *. cbn [fold_right]. lia.
Qed.
Definition part (s : nat) (ns : list nat) (i x : nat) : Prop := (s + total (firstn i ns) <= x < s + total (firstn (S i) ns))%nat.
Lemma part_once s ns i j x : i <> j -> part s ns i x -> ~ part s ns j x.
Proof.
  unfold part. intros N H1 H2. destruct (Nat.lt_ge_cases i j) as [L|L].
  - pose proof (total_le ns (S i) j L). lia.
  - assert (L' : (S j <= i)%nat) by lia. pose proof (total_le ns (S j) i L'). lia.
Qed.

(** XorEq of two long slices may be shared between goroutines in any way: each
    does its part, and the result is that of one call. *)
Theorem C95_xor_in_parts : forall ns m d o, (d + total ns <= o \/ o + total ns <= d \/ d = o)%nat ->
  forall m' ts, becomes (started m (xor_parts d o ns)) (m', ts) ->
    ~ race (m', ts)
    /\ ((exists w, moves (m', ts) w)
        \/ (forall i n, nth_error ns i = Some n -> exists t, nth_error ts i = Some t /\ todo t = Return [RCount n])
           /\ exists m1, Bytes.XorEq m (mkSlice d (total ns)) (mkSlice o (total ns)) = Ret (m1, total ns) /\ forall x, m' (cell x) = m1 x).
Proof.
  intros ns m d o Hdo m' ts B.
  assert (Ng : forall i, nth_error (xor_parts d o ns) i = match nth_error ns i with
    | Some n => Some (Do (CXorEq (mkSlice (d + total (firstn i ns)) n) (mkSlice (o + total (firstn i ns)) n)) (fun _ => Stop)) | None => None end).
  { intros i. unfold xor_parts. rewrite nth_error_map, combine_nth_error, !parts_nth. destruct (nth_error ns i); reflexivity. }
  destruct (C95_goroutines (part o ns) (part d ns) (xor_parts d o ns) m) with (m' := m') (ts := ts) as (Nr & Go & L & Out & Ends).
  - intros i j x N Hi. split; [apply (part_once d ns i j x N Hi)|]. intros Hj. destruct Hdo as [H|[H|H]].
    + unfold part in *. pose proof (total_all ns (S i)). lia.
    + unfold part in *. pose proof (total_all ns (S j)). lia.
    + subst o. exact (part_once d ns i j x N Hi Hj).
  - intros i g E. rewrite Ng in E. destruct (nth_error ns i) as [n|] eqn:En; [|discriminate]. injection E as <-.
    cbn [stays writes_to reads_from len]. unfold first_of, part. cbn [off len]. rewrite (total_firstn ns i n En).
    split; [intros x; lia|]. split; [intros x Hx; left; lia|exact (fun _ => Logic.I)].
  - exact B.
  - split; [exact Nr|]. destruct Go as [Go|Go]; [left; exact Go|right].
    assert (Ln : length ts = length ns).
    { rewrite L. unfold xor_parts. rewrite map_length, combine_length, !parts_length. lia. }
    assert (Each : forall i n, nth_error ns i = Some n -> exists t, nth_error ts i = Some t /\ todo t = Return [RCount n]
      /\ forall x, part d ns i x -> m' (cell x) = N.lxor (m x) (m (o + (x - d))%nat)).
    { intros i n E. destruct (nth_error ts i) as [t|] eqn:Et.
      2:{ apply nth_error_None in Et. assert (nth_error ns i <> None) by congruence. apply nth_error_Some in H. lia. }
      exists t. split; [reflexivity|]. specialize (Ends i t _ Et (eq_trans (Ng i) ltac:(rewrite E; reflexivity))).
      cbn [whole whole_call] in Ends.
      destruct (XorEq_spec m (mkSlice (d + total (firstn i ns)) n) (mkSlice (o + total (firstn i ns)) n)) as (m1 & E1 & _ & V).
      { cbn [off len]. rewrite Nat.min_id. pose proof (total_all ns (S i)) as T. rewrite (total_firstn ns i n E) in T. lia. }
      cbn [off len] in *. rewrite Nat.min_id in *. rewrite E1 in Ends. cbn [bind] in Ends. destruct Ends as [Nc Ret].
      destruct (Go i t Et) as [[rs Er]|Er]; [|contradiction]. destruct (Ret rs Er) as [-> V']. split; [exact Er|].
      intros x Hx. rewrite V' by (right; exact Hx). unfold part in Hx. rewrite (total_firstn ns i n E) in Hx.
      specialize (V (x - (d + total (firstn i ns)))%nat). 
      replace (d + total (firstn i ns) + (x - (d + total (firstn i ns))))%nat with x in V by lia.
      rewrite V by lia. f_equal. f_equal. lia. }
    split; [intros i n E; destruct (Each i n E) as (t & H1 & H2 & _); exists t; auto|].
    destruct (XorEq_spec m (mkSlice d (total ns)) (mkSlice o (total ns))) as (m1 & E1 & O1 & V1).
    { cbn [off len]. rewrite Nat.min_id. lia. }
    cbn [off len] in *. rewrite Nat.min_id in *. exists m1. split; [exact E1|]. intros x.
    destruct (Nat.lt_ge_cases x d) as [Lx|Lx].
    { rewrite Out; [symmetry; apply O1; unfold BytesSpec.within; cbn [off]; lia|]. intros i _ Hi. unfold part in Hi. lia. }
    destruct (Nat.lt_ge_cases x (d + total ns)) as [Lx2|Lx2].
    + destruct (which_part ns (x - d)) as (i & n & E & Li); [lia|]. destruct (Each i n E) as (t & _ & _ & H).
      rewrite H by (unfold part; rewrite (total_firstn ns i n E); lia). specialize (V1 (x - d)%nat).
      replace (d + (x - d))%nat with x in V1 by lia. symmetry. apply V1. lia.
    + rewrite Out; [symmetry; apply O1; unfold BytesSpec.within; cbn [off]; lia|]. intros i _ Hi. unfold part in Hi.
      pose proof (total_all ns (S i)). lia.
Qed.

(** So may Zero. *)
Theorem C95_zero_in_parts : forall ns m s,
  forall m' ts, becomes (started m (zero_parts s ns)) (m', ts) ->
    ~ race (m', ts)
    /\ ((exists w, moves (m', ts) w)
        \/ (forall i n, nth_error ns i = Some n -> exists t, nth_error ts i = Some t /\ todo t = Return [RDone])
           /\ forall x, m' (cell x) = (if (Nat.leb s x && Nat.ltb x (s + total ns))%bool then 0 else m x)).
Proof.
  intros ns m s m' ts B.
  assert (Ng : forall i, nth_error (zero_parts s ns) i = match nth_error ns i with
    | Some n => Some (Do (CZero (mkSlice (s + total (firstn i ns)) n)) (fun _ => Stop)) | None => None end).
  { intros i. unfold zero_parts. rewrite nth_error_map, parts_nth. destruct (nth_error ns i); reflexivity. }
  destruct (C95_goroutines (fun _ _ => False) (part s ns) (zero_parts s ns) m) with (m' := m') (ts := ts) as (Nr & Go & L & Out & Ends).
  - intros i j x N Hi. split; [apply (part_once s ns i j x N Hi)|auto].
  - intros i g E. rewrite Ng in E. destruct (nth_error ns i) as [n|] eqn:En; [|discriminate]. injection E as <-.
    cbn [stays writes_to reads_from len]. unfold bytes_of, first_of, part. cbn [off len]. rewrite (total_firstn ns i n En).
    split; [intros x; lia|]. split; [intros x []|exact (fun _ => Logic.I)].
  - exact B.
  - split; [exact Nr|]. destruct Go as [Go|Go]; [left; exact Go|right].
    assert (Ln : length ts = length ns).
    { rewrite L. unfold zero_parts. rewrite map_length, parts_length. lia. }
    assert (Each : forall i n, nth_error ns i = Some n -> exists t, nth_error ts i = Some t /\ todo t = Return [RDone]
      /\ forall x, part s ns i x -> m' (cell x) = 0).
    { intros i n E. destruct (nth_error ts i) as [t|] eqn:Et.
      2:{ apply nth_error_None in Et. assert (nth_error ns i <> None) by congruence. apply nth_error_Some in H. lia. }
      exists t. split; [reflexivity|]. specialize (Ends i t _ Et (eq_trans (Ng i) ltac:(rewrite E; reflexivity))).
      cbn [whole whole_call] in Ends. destruct (Zero_spec m (mkSlice (s + total (firstn i ns)) n)) as (m1 & E1 & V & _).
      rewrite E1 in Ends. cbn [bind] in Ends. destruct Ends as [Nc Ret].
      destruct (Go i t Et) as [[rs Er]|Er]; [|contradiction]. destruct (Ret rs Er) as [-> V']. split; [exact Er|].
      intros x Hx. rewrite V' by (right; exact Hx). unfold part in Hx. rewrite (total_firstn ns i n E) in Hx.
      apply V. unfold BytesSpec.within. cbn [off len]. lia. }
    split; [intros i n E; destruct (Each i n E) as (t & H1 & H2 & _); exists t; auto|]. intros x.
    destruct (Nat.leb_spec s x), (Nat.ltb_spec x (s + total ns)); cbn [andb].
    + destruct (which_part ns (x - s)) as (i & n & E & Li); [lia|]. destruct (Each i n E) as (t & _ & _ & H').
      apply H'. unfold part. rewrite (total_firstn ns i n E). lia.
    + apply Out. intros i _ Hi. unfold part in Hi. pose proof (total_all ns (S i)). lia.
    + apply Out. intros i _ Hi. unfold part in Hi. lia.
    + apply Out. intros i _ Hi. unfold part in Hi. lia.
Qed.

(** Additions at once: sums that lie apart from each other and from all that is
    added. Each goroutine adds as if the others did not exist: the sum modulo the
    width, the carry and no error, or, if its sum is too short, the error. *)
Definition addition : Type := width * slice * slice * slice.
Definition of_order (e : byte_order) : list N -> N := match e with LittleEndian => BytesSpec.le_value | BigEndian => BytesSpec.be_value end.
Definition add_jobs (e : byte_order) (native : bool) (js : list addition) : list job :=
  map (fun j => let '(w, s, a, b) := j in Do (if native then CAddNative e w s a b else CAdd e w s a b) (fun _ => Stop)) js.
Lemma le_fn w : In (width_bytes w, nth_add Bytes.le_functions w) Bytes.le_functions.
Proof. destruct w; cbn; tauto. Qed.
Lemma be_fn w : In (width_bytes w, nth_add Bytes.be_functions w) Bytes.be_functions.
Proof. destruct w; cbn; tauto. Qed.
Lemma native_fn p w m s a b : (width_bytes w <= len s \/ 4 < width_bytes w)%nat ->
  nth_add (Bytes.platform_functions p) w m s a b = nth_add (match p with LittleEndian => Bytes.le_functions | BigEndian => Bytes.be_functions end) w m s a b.
Proof.
  intros [L|L].
  - apply (platform_native p (match w with W16 => 0 | W32 => 1 | W64 => 2 | W128 => 3 | W256 => 4 | W512 => 5 end)%nat (width_bytes w)); [| |exact L]; destruct w, p; reflexivity.
  - destruct (Nat.lt_ge_cases (len s) (width_bytes w)) as [H|H].
    + rewrite (short_platform p (width_bytes w)); [|destruct w; cbn; tauto|exact H|exact L]. symmetry. apply (short_both (width_bytes w)); [|exact H].
      destruct p; [left; apply le_fn|right; apply be_fn].
    + apply (platform_native p (match w with W16 => 0 | W32 => 1 | W64 => 2 | W128 => 3 | W256 => 4 | W512 => 5 end)%nat (width_bytes w)); [| |exact H]; destruct w, p; reflexivity.
Qed.
Theorem C95_additions : forall e native js m, mem_ok m ->
  (forall i w s a b, nth_error js i = Some (w, s, a, b) ->
     (e = BigEndian -> (len a <= width_bytes w)%nat /\ (len b <= width_bytes w)%nat)
     /\ (native = true -> (width_bytes w <= len s \/ 4 < width_bytes w)%nat)
     /\ forall x, first_of s (width_bytes w) x -> ~ bytes_of a x /\ ~ bytes_of b x) ->
  (forall i j w s a b w' s' a' b', nth_error js i = Some (w, s, a, b) -> nth_error js j = Some (w', s', a', b') -> i <> j ->
     forall x, first_of s (width_bytes w) x -> ~ first_of s' (width_bytes w') x /\ ~ bytes_of a' x /\ ~ bytes_of b' x) ->
  forall m' ts, becomes (started m (add_jobs e native js)) (m', ts) ->
    ~ race (m', ts)
    /\ ((exists w, moves (m', ts) w)
        \/ forall i w s a b, nth_error js i = Some (w, s, a, b) -> exists t, nth_error ts i = Some t /\
           let n := width_bytes w in
           let T := of_order e (firstn n (BytesSpec.content m a)) + of_order e (firstn n (BytesSpec.content m b)) in
           if Nat.leb n (len s) then todo t = Return [RAdded (T / 256 ^ N.of_nat n) false]
             /\ of_order e (firstn n (BytesSpec.content (fun x => m' (cell x)) s)) = T mod 256 ^ N.of_nat n
           else todo t = Return [RAdded 0 true] /\ forall x, first_of s n x -> m' (cell x) = m x).
Proof.
  intros e native js m Ok H1 H2 m' ts B.
  set (Wr := fun i x => exists w s a b, nth_error js i = Some (w, s, a, b) /\ first_of s (width_bytes w) x).
  set (Rd := fun i x => exists w s a b, nth_error js i = Some (w, s, a, b) /\ (bytes_of a x \/ bytes_of b x)).
  assert (Ng : forall i, nth_error (add_jobs e native js) i = match nth_error js i with
    | Some (w, s, a, b) => Some (Do (if native then CAddNative e w s a b else CAdd e w s a b) (fun _ => Stop)) | None => None end).
  { intros i. unfold add_jobs. rewrite nth_error_map. destruct (nth_error js i) as [[[[w s] a] b]|]; reflexivity. }
  destruct (C95_goroutines Rd Wr (add_jobs e native js) m) with (m' := m') (ts := ts) as (Nr & Go & L & Out & Ends).
  - intros i j x D (w & s & a & b & E & Hx). split; intros (w' & s' & a' & b' & E' & Hx'); destruct (H2 i j _ _ _ _ _ _ _ _ E E' D x Hx) as (A1 & A2 & A3); tauto.
  - intros i g E. rewrite Ng in E. destruct (nth_error js i) as [[[[w s] a] b]|] eqn:Ej; [|discriminate]. injection E as <-.
    destruct (H1 i w s a b Ej) as (Hb & _ & _).
    assert (Re : add_reach e w a = width_bytes w) by (destruct e; [reflexivity|]; cbn [add_reach]; destruct (Hb eq_refl); lia).
    assert (St : forall c, c = CAdd e w s a b \/ c = CAddNative e w s a b -> stays (Rd i) (Wr i) (Do c (fun _ => Stop))).
    { intros c Hc. cbn [stays]. split; [|split; [|exact (fun _ => Logic.I)]]; intros x Hx.
      - assert (Hx' : first_of s (add_reach e w a) x) by (destruct Hc as [-> | ->]; exact Hx). rewrite Re in Hx'. exists w, s, a, b. auto.
      - left. exists w, s, a, b. split; [exact Ej|]. destruct Hc as [-> | ->]; exact Hx. }
    apply St. destruct native; auto.
  - exact B.
  - split; [exact Nr|]. destruct Go as [Go|Go]; [left; exact Go|right]. intros i w s a b Ej.
    destruct (nth_error ts i) as [t|] eqn:Et.
    2:{ apply nth_error_None in Et. rewrite L in Et. unfold add_jobs in Et. rewrite map_length in Et. apply nth_error_None in Et. congruence. }
    exists t. split; [reflexivity|]. specialize (Ends i t _ Et (eq_trans (Ng i) ltac:(rewrite Ej; reflexivity))).
    destruct (H1 i w s a b Ej) as (Hb & Hn & Ap). set (n := width_bytes w) in *.
    set (fs := match e with LittleEndian => Bytes.le_functions | BigEndian => Bytes.be_functions end).
    assert (Wc : whole_call m (if native then CAddNative e w s a b else CAdd e w s a b) = added_at (nth_add fs w m s a b)).
    { destruct native; [|destruct e; reflexivity]. cbn [whole_call]. rewrite (native_fn e w m s a b (Hn eq_refl)). destruct e; reflexivity. }
    cbn [whole] in Ends. rewrite Wc in Ends.
    cbv zeta. set (T := of_order e (firstn n (BytesSpec.content m a)) + of_order e (firstn n (BytesSpec.content m b))).
    destruct (Nat.leb_spec n (len s)) as [Ls|Ls].
    + assert (exists m1, nth_add fs w m s a b = Ret (m1, T / 256 ^ N.of_nat n, None) /\ of_order e (firstn n (BytesSpec.content m1 s)) = T mod 256 ^ N.of_nat n) as (m1 & E1 & V1).
      { assert (Aa : BytesSpec.apart s n a (len a)) by (intros x X Y; unfold BytesSpec.within in *; apply (proj1 (Ap x ltac:(unfold first_of; lia))); unfold bytes_of, first_of; lia).
        assert (Ab : BytesSpec.apart s n b (len b)) by (intros x X Y; unfold BytesSpec.within in *; apply (proj2 (Ap x ltac:(unfold first_of; lia))); unfold bytes_of, first_of; lia).
        destruct e; cbn [of_order] in *; subst fs.
        - destruct (le_add n (nth_add Bytes.le_functions w) m s a b) as (m1 & E1 & _ & _ & V & _); [apply le_fn|exact Ok|exact Ls| | |].
          + intros x X Y. apply (Ab x X). unfold BytesSpec.within in *. lia.
          + intros [E0 L0]. apply (Aa (off s)); unfold BytesSpec.within; lia.
          + exists m1. split; [exact E1|exact V].
        - destruct (Hb eq_refl) as [La Lb]. destruct (be_add n (nth_add Bytes.be_functions w) m s a b) as (m1 & E1 & _ & _ & V & _); [apply be_fn|exact Ok|exact Ls|exact La|exact Lb|exact Aa|exact Ab|].
          exists m1. subst T. rewrite !(firstn_all2 (BytesSpec.content m _)) by (unfold BytesSpec.content; rewrite map_length, seq_length; assumption). split; [exact E1|exact V]. }
      rewrite E1 in Ends. cbn [added_at bind added fst snd] in Ends. destruct Ends as [Nc Rs]. destruct (Go i t Et) as [[rs Er]|Er]; [|contradiction].
      destruct (Rs rs Er) as [-> V]. split; [exact Er|]. rewrite <- V1. f_equal. unfold BytesSpec.content. rewrite !firstn_map.
      apply map_ext_in. intros j Hj. apply V. right. exists w, s, a, b. split; [exact Ej|].
      assert (Es : firstn n (seq 0 (len s)) = seq 0 n).
      { replace (len s) with (n + (len s - n))%nat by lia. rewrite seq_app, firstn_app, seq_length, Nat.sub_diag, firstn_O, app_nil_r.
        apply firstn_all2. rewrite seq_length. apply le_n. }
      rewrite Es in Hj. apply in_seq in Hj. fold n. unfold first_of. lia.
    + assert (E1 : nth_add fs w m s a b = Ret (m, 0, Some Bytes.NotEnoughSpace)).
      { apply (short_both n); [|exact Ls]. destruct e; [left; apply le_fn|right; apply be_fn]. }
      rewrite E1 in Ends. cbn [added_at bind added fst snd] in Ends. destruct Ends as [Nc Rs]. destruct (Go i t Et) as [[rs Er]|Er]; [|contradiction].
      destruct (Rs rs Er) as [-> V]. split; [exact Er|]. intros x Hx. apply V. right. exists w, s, a, b. auto.
Qed.

(** ** An example *)

(** Two goroutines add 16 bits each into neighbouring memory; the slice the
    first gives for the sum, and its a, are longer than 16 bits. The b is shared. *)
Definition adder (e : byte_order) (sum a : slice) : job :=
  Do (CAdd e W16 sum a (mkSlice 16 2)) (fun r => match r with RAdded c _ => Do (CStore (mkSlice 20 2) (off sum / 2) c) (fun _ => Stop) | _ => Stop end).
Definition adders (e : byte_order) : list job := [adder e (mkSlice 0 4) (mkSlice 8 4); adder e (mkSlice 2 2) (mkSlice 12 2)].
Definition bytes24 : mem := fun x => nth x [1;1;1;1; 1;1;1;1; 250;200;9;9; 3;4; 7;7; 10;60; 7;7; 7;7; 7;7] 0.
Definition W2 (i x : nat) : Prop := (2 * i <= x < 2 * i + 2)%nat /\ (i < 2)%nat \/ x = (20 + i)%nat /\ (i < 2)%nat.
Definition R2 (i x : nat) : Prop := (8 <= x < 18)%nat.
Example adders_apart : apart R2 W2 /\ forall i g, nth_error (adders LittleEndian) i = Some g -> stays (R2 i) (W2 i) g.
Proof.
  split; [intros i j x N; unfold W2, R2; lia|]. intros i g E.
  destruct i as [|[|[|]]]; cbn in E; try discriminate; injection E as <-.
  - split; [intros x [_ H]; cbn in H; unfold W2; lia|]. split; [intros x [[_ H]|[_ H]]; cbn in H; unfold R2; left; lia|].
    intros [| | |]; cbn [stays]; try exact Logic.I. split; [intros x H; cbn in H; unfold W2; lia|]. split; [intros x []|exact (fun _ => Logic.I)].
  - split; [intros x [_ H]; cbn in H; unfold W2; lia|]. split; [intros x [[_ H]|[_ H]]; cbn in H; unfold R2; left; lia|].
    intros [| | |]; cbn [stays]; try exact Logic.I. split; [intros x H; cbn in H; unfold W2; lia|]. split; [intros x []|exact (fun _ => Logic.I)].
Qed.
Example adders_alone :
  match whole bytes24 (adder LittleEndian (mkSlice 0 4) (mkSlice 8 4)) with
  | Ret (m, rs) => (map m [0;1;2;3;20]%nat, rs) = ([4; 5; 1; 1; 1], [RAdded 1 false; RDone])
  | _ => False
  end.
Proof. vm_compute. reflexivity. Qed.

Example additions_meet : forall i j w s a b w' s' a' b',
  let js := [(W16, mkSlice 0 4, mkSlice 8 4, mkSlice 16 2); (W16, mkSlice 2 1, mkSlice 12 2, mkSlice 16 2)] in
  nth_error js i = Some (w, s, a, b) -> nth_error js j = Some (w', s', a', b') -> i <> j ->
  forall x, first_of s (width_bytes w) x -> ~ first_of s' (width_bytes w') x /\ ~ bytes_of a' x /\ ~ bytes_of b' x.
Proof.
  intros i j w s a b w' s' a' b' js E1 E2 D x Hx. subst js.
  destruct i as [|[|[|]]], j as [|[|[|]]]; cbn [nth_error] in E1, E2; try discriminate; try (exfalso; apply D; reflexivity);
    injection E1 as <- <- <- <-; injection E2 as <- <- <- <-; unfold bytes_of, first_of in *; cbn [off len width_bytes] in *; lia.
Qed.

(** In big-endian order the same two goroutines race: there the copy of a is not
    cut to the width, so the first writes into what the second uses. *)
Definition steps_of (i : nat) : nat -> system (list result) -> system (list result) :=
  fix go n w :=
    match n with
    | O => w
    | S n' =>
        match nth_error (snd w) i with
        | Some t => match advance (S i) (fst w) t with Some (m, t') => go n' (m, replaced i t' (snd w)) | None => w end
        | None => w
        end
    end.
Lemma steps_becomes i n : forall w w0, becomes w0 w -> becomes w0 (steps_of i n w).
Proof.
  induction n as [|n IH]; intros w w0 B; [exact B|]. cbn [steps_of]. destruct w as [m ts]. cbn [fst snd].
  destruct (nth_error ts i) as [t|] eqn:Et; [|exact B]. destruct (advance (S i) m t) as [[m' t']|] eqn:Ea; [|exact B].
  apply IH. apply (More _ _ _ B). econstructor; eassumption.
Qed.
Theorem C95_big_endian_reach : exists w, becomes (started bytes24 (adders BigEndian)) w /\ race w.
Proof.
  exists (steps_of 1 2 (steps_of 0 6 (started bytes24 (adders BigEndian)))). split; [apply steps_becomes, steps_becomes, Here|].
  exists 0%nat, 1%nat. eexists _, _, (cell 2). split; [discriminate|]. split; [reflexivity|]. split; [reflexivity|]. split; [reflexivity|].
  right. reflexivity.
Qed.

Print Assumptions C95_goroutines.
Print Assumptions C95_terminates.
Print Assumptions C95_one_call.
Print Assumptions C95_xor_in_parts.
Print Assumptions C95_zero_in_parts.
Print Assumptions C95_additions.
Print Assumptions C95_big_endian_reach.
