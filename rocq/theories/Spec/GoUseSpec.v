(** What a goroutine may expect that uses hashes while others do too: the same
    as if it were alone. Its world is what was there when it was started and what
    it made itself; a hash object is the texts written to it. *)
From Verif Require Import Base.Go Base.HashUse Base.Goroutine Base.GoUse Spec.HashUseSpec.
Local Open Scope N_scope.

(** What a goroutine knows: the bytes of slices, how many bytes it has made
    itself, and for every hash object of its own what was written to it. *)
Record local := mkLocal { text : addr -> N; made : nat; hashes : list (kind * list (list N)) }.
Definition start : local := mkLocal (fun _ => 0) 0 [].

Definition bytes_of (st : local) (s : gslice) : list N := map (fun j => text st (shift (base s) j)) (seq 0 (slen s)).
Definition overwrite (t : addr -> N) (a : addr) (xs : list N) : addr -> N :=
  fun x => if within a (length xs) x then nth (num x - num a) xs 0 else t x.
Definition object_at (ours : list (kind * list (list N))) (st : local) (h : handle) : option (kind * list (list N)) :=
  match h with Mine i => nth_error (hashes st) i | Ours i => nth_error ours i end.

Section Goroutine.
(** [id]: its number; [ours]: the hash objects that were there when it was
    started, and [before] the number of bytes in slices made before. *)
Context (id : nat) (ours : list (kind * list (list N))) (before : nat).

(** It can reach its own bytes and those made before. *)
Definition own (st : local) (x : addr) : Prop := lib x = false /\ who x = id /\ (num x < made st)%nat.
Definition reach (st : local) (x : addr) : Prop := own st x \/ (lib x = false /\ who x = O /\ (num x < before)%nat).
(** A slice it can have. (A nil slice has no bytes; its address is some address of
    the goroutine.) *)
Definition slice_ok (st : local) (s : gslice) : Prop :=
  (slen s <= scap s)%nat /\ lib (base s) = false /\ (who (base s) = id \/ who (base s) = O) /\ forall j, (j < scap s)%nat -> reach st (shift (base s) j).

(** What the rules of Go ask of it: while the goroutines run, it writes only to
    bytes and hash objects of its own. It may read what was there before, and
    call Sum of the hash objects that were there before. *)
Definition allowed (st : local) (a : act) : Prop :=
  match a with
  | Make_hash _ => True
  | Do_write h p => slice_ok st p /\ exists i k ws, h = Mine i /\ nth_error (hashes st) i = Some (k, ws) /\ can_take k ws (bytes_of st p)
  | Do_sum h inp _ => slice_ok st inp /\ exists k ws, object_at ours st h = Some (k, ws)
      /\ ((slen inp + length (digest_of k ws) <= scap inp)%nat ->
          forall j, (slen inp <= j < slen inp + length (digest_of k ws))%nat -> own st (shift (base inp) j))
  | Do_reset h => exists i o, h = Mine i /\ nth_error (hashes st) i = Some o
  | Make n c => (n <= c)%nat
  | Store s j v => slice_ok st s /\ (j < slen s)%nat /\ own st (shift (base s) j) /\ v < 256
  | Load s j => slice_ok st s /\ (j < slen s)%nat
  end.

(** What happens then, and the reply. *)
Definition becomes_text (st : local) (h : handle) (f : list (list N) -> list (list N)) : local :=
  match h with
  | Mine i =>
      match nth_error (hashes st) i with
      | Some (k, ws) => mkLocal (text st) (made st) (replaced i (k, f ws) (hashes st))
      | None => st
      end
  | Ours _ => st
  end.
Definition effect (st : local) (a : act) : local * reply :=
  match a with
  | Make_hash k => (mkLocal (text st) (made st) (hashes st ++ [(k, [])]), RHash)
  | Do_write h p => (becomes_text st h (fun ws => ws ++ [bytes_of st p]), RWrote (slen p))
  | Do_sum h inp room =>
      match object_at ours st h with
      | Some (k, ws) =>
          let d := digest_of k ws in
          let n := (slen inp + length d)%nat in
          if Nat.leb n (scap inp) then
            (mkLocal (overwrite (text st) (shift (base inp) (slen inp)) d) (made st) (hashes st), RSlice (mkS (base inp) n (scap inp)))
          else
            let t := mkA id false (made st) in
            (mkLocal (overwrite (text st) t (bytes_of st inp ++ d ++ repeat 0 room)) (made st + n + room) (hashes st),
             RSlice (mkS t n (n + room)))
      | None => (st, RDone)
      end
  | Do_reset h => (becomes_text st h (fun _ => []), RDone)
  | Make n c =>
      let t := mkA id false (made st) in
      (mkLocal (overwrite (text st) t (repeat 0 c)) (made st + c) (hashes st), RSlice (mkS t n c))
  | Store s j v => (mkLocal (overwrite (text st) (shift (base s) j) [v]) (made st) (hashes st), RDone)
  | Load s j => (st, RByte (text st (shift (base s) j)))
  end.

Fixpoint plays_fair (st : local) (g : goroutine) : Prop :=
  match g with
  | Stop => True
  | Do a k => allowed st a /\ plays_fair (fst (effect st a)) (k (snd (effect st a)))
  end.
Fixpoint expects (st : local) (g : goroutine) : list reply * local :=
  match g with
  | Stop => ([], st)
  | Do a k =>
      let '(st', r) := effect st a in
      let '(rs, st'') := expects st' (k r) in
      (r :: rs, st'')
  end.
End Goroutine.

(** What a goroutine finds that is started when [st] has been reached. *)
Definition found (st : local) : local := mkLocal (fun x => if Nat.eqb (who x) 0 then text st x else 0) 0 [].
