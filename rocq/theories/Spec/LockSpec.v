(** What workers may expect that share hashes and slices under a lock: that every
    stretch happens at once. A hash object is the texts written to it. *)
From Verif Require Import Base.Go Base.HashUse Base.Goroutine Base.GoUse Base.Lock Base.LockUse Spec.HashUseSpec Spec.GoUseSpec.
Local Open Scope N_scope.

(** The world: the bytes of all slices; for every goroutine how many bytes it has
    made, and the hash objects it has made with what was written to each. Number
    0 is the goroutine that made what is shared and started the others. *)
Record world := mkWorld { bytes : addr -> N; made_by : nat -> nat; kept : nat -> list (kind * list (list N)) }.
Definition is_now {A} (f : nat -> A) (i : nat) (x : A) : nat -> A := fun j => if Nat.eqb j i then x else f j.

Definition slice_text (w : world) (s : gslice) : list N := map (fun j => bytes w (shift (base s) j)) (seq 0 (slen s)).

Section Worker.
(** A goroutine, and how it holds the lock. *)
Context (id : nat) (l : hold).
Definition maker (h : handle) : nat := match h with Mine _ => id | Ours _ => O end.
Definition place (h : handle) : nat := match h with Mine i => i | Ours i => i end.
Definition texts_of (w : world) (h : handle) : option (kind * list (list N)) := nth_error (kept w (maker h)) (place h).

(** It may use its own things; change what is shared only if it holds the lock alone,
    and look at it if it holds the lock in some way. *)
Definition open (i : nat) : Prop := i = id \/ (l = Alone /\ i = O).
Definition visible (i : nat) : Prop := i = id \/ (l <> Without /\ i = O).
(** (A nil slice has no bytes; its address is some address of the goroutine.) *)
Definition slice_visible (w : world) (s : gslice) : Prop :=
  (slen s <= scap s)%nat /\ lib (base s) = false /\ visible (who (base s))
  /\ forall j, (j < scap s)%nat -> (num (base s) + j < made_by w (who (base s)))%nat.
Definition may_do (w : world) (a : act) : Prop :=
  match a with
  | Make_hash _ => True
  | Do_write h p => slice_visible w p /\ open (maker h) /\ exists k ws, texts_of w h = Some (k, ws) /\ can_take k ws (slice_text w p)
  | Do_sum h inp _ => slice_visible w inp /\ visible (maker h) /\ exists k ws, texts_of w h = Some (k, ws)
      /\ ((slen inp + length (digest_of k ws) <= scap inp)%nat -> open (who (base inp)))
  | Do_reset h => open (maker h) /\ texts_of w h <> None
  | Make n c => (n <= c)%nat
  | Store s j v => slice_visible w s /\ open (who (base s)) /\ (j < slen s)%nat /\ v < 256
  | Load s j => slice_visible w s /\ (j < slen s)%nat
  end.

Definition rewritten (w : world) (h : handle) (f : list (list N) -> list (list N)) : world :=
  match texts_of w h with
  | Some (k, ws) => mkWorld (bytes w) (made_by w) (is_now (kept w) (maker h) (replaced (place h) (k, f ws) (kept w (maker h))))
  | None => w
  end.
Definition changed (w : world) (a : addr) (xs : list N) : world := mkWorld (overwrite (bytes w) a xs) (made_by w) (kept w).
(** new bytes of the goroutine's own *)
Definition enlarged (w : world) (xs : list N) : world :=
  mkWorld (overwrite (bytes w) (mkA id false (made_by w id)) xs) (is_now (made_by w) id (made_by w id + length xs)%nat) (kept w).
Definition done (w : world) (a : act) : world * reply :=
  match a with
  | Make_hash k => (mkWorld (bytes w) (made_by w) (is_now (kept w) id (kept w id ++ [(k, [])])), RHash)
  | Do_write h p => (rewritten w h (fun ws => ws ++ [slice_text w p]), RWrote (slen p))
  | Do_sum h inp room =>
      match texts_of w h with
      | Some (k, ws) =>
          let d := digest_of k ws in
          let n := (slen inp + length d)%nat in
          if Nat.leb n (scap inp) then (changed w (shift (base inp) (slen inp)) d, RSlice (mkS (base inp) n (scap inp)))
          else (enlarged w (slice_text w inp ++ d ++ repeat 0 room), RSlice (mkS (mkA id false (made_by w id)) n (n + room)))
      | None => (w, RDone)
      end
  | Do_reset h => (rewritten w h (fun _ => []), RDone)
  | Make n c => (enlarged w (repeat 0 c), RSlice (mkS (mkA id false (made_by w id)) n c))
  | Store s j v => (changed w (shift (base s) j) [v], RDone)
  | Load s j => (w, RByte (bytes w (shift (base s) j)))
  end.

(** The rules for a stretch, and what comes of it if it happens at once. *)
Fixpoint proper (w : world) (g : goroutine) : Prop :=
  match g with
  | Stop => True
  | Do a k => may_do w a /\ proper (fst (done w a)) (k (snd (done w a)))
  end.
Fixpoint outcome_of (w : world) (g : goroutine) : list reply * world :=
  match g with
  | Stop => ([], w)
  | Do a k =>
      let '(w', r) := done w a in
      let '(rs, w'') := outcome_of w' (k r) in
      (r :: rs, w'')
  end.
End Worker.

(** Workers, each with the replies it got in the stretches it has done, that take
    turns, a whole stretch at a time. *)
Definition shop := (world * list (worker * list (list reply)))%type.
Inductive turn : shop -> shop -> Prop :=
| Turn w ps i l g k said : nth_error ps i = Some (Stretch l g k, said) ->
    turn (w, ps) (snd (outcome_of (S i) w g),
      replaced i (k (fst (outcome_of (S i) w g)), said ++ [fst (outcome_of (S i) w g)]) ps).
Inductive turns : shop -> shop -> Prop :=
| No_turn p : turns p p
| A_turn p p1 p2 : turns p p1 -> turn p1 p2 -> turns p p2.
(** What there is when the workers are started. *)
Definition opening (st : local) (ws : list worker) : shop :=
  (mkWorld (text (found st)) (fun i => if Nat.eqb i 0 then made st else O) (fun i => if Nat.eqb i 0 then hashes st else []),
   map (fun w => (w, [])) ws).
(** The rules are kept however they take turns. *)
Definition orderly (st : local) (ws : list worker) : Prop :=
  forall w ps, turns (opening st ws) (w, ps) ->
  forall i l g k said, nth_error ps i = Some (Stretch l g k, said) -> proper (S i) l w g.
