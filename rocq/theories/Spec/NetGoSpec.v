(** What a goroutine may expect that uses package net while others do too: the
    same as if it were alone. Its world is what was there when it was started and
    what it made itself; a tree is its merge function and the calls made on it. *)
From Coq Require Import Sorted.
From Verif Require Import Base.Go Base.GoNet Base.NetApi Spec.NetSpec.
From Verif Require Import Base.Goroutine Base.GoUse Base.NetGo.
Local Open Scope N_scope.

Definition known_tree := ((N -> N -> N) * list (tree_call N))%type.
(** What a goroutine knows: the bytes of slices, how many bytes it has made
    itself, and the trees of its own. *)
Record local := mkLocal { text : addr -> N; made : nat; trees : list known_tree }.
Definition start : local := mkLocal (fun _ => 0) 0 [].

Definition bytes_of (st : local) (s : gslice) : list N := map (fun j => text st (shift (base s) j)) (seq 0 (slen s)).
Definition net_at (st : local) (ip mask : gslice) : ipnet := mkNet (bytes_of st ip) (bytes_of st mask).
Definition overwrite (t : addr -> N) (a : addr) (xs : list N) : addr -> N :=
  fun x => if within a (length xs) x then nth (num x - num a) xs 0 else t x.
Definition tree_at (ours : list known_tree) (st : local) (h : handle) : option known_tree :=
  match h with Mine i => nth_error (trees st) i | Ours i => nth_error ours i end.

Section Goroutine.
(** [id]: its number; [ours]: the trees that were there when it was started, and
    [before] the number of bytes in slices made before. *)
Context (id : nat) (ours : list known_tree) (before : nat).

(** It can reach its own bytes and those made before. *)
Definition own (st : local) (x : addr) : Prop := lib x = false /\ who x = id /\ (num x < made st)%nat.
Definition reach (st : local) (x : addr) : Prop := own st x \/ (lib x = false /\ who x = O /\ (num x < before)%nat).
Definition slice_ok (st : local) (s : gslice) : Prop :=
  (slen s <= scap s)%nat /\ lib (base s) = false /\ (who (base s) = id \/ who (base s) = O) /\ forall j, (j < scap s)%nat -> reach st (shift (base s) j).

(** The call that an operation makes on a tree, with the bytes of the moment. *)
Definition called (st : local) (a : nact) : option (handle * tree_call N) :=
  match a with
  | GAddIp h ip v => Some (h, CAddIp (bytes_of st ip) v)
  | GAddRange h s e v => Some (h, CAddRange (bytes_of st s) (bytes_of st e) v)
  | GAddCidr h ip m v => Some (h, CAddCidr (Some (net_at st ip m)) v)
  | _ => None
  end.
(** The slices handed over. *)
Definition given (a : nact) : list gslice :=
  match a with
  | GStore s _ _ | GLoad s _ | GToUint s | GMaskTo s | GAddIp _ s _ => [s]
  | GEqual a b c d => [a; b; c; d]
  | GFirst a b | GLast a b | GAddRange _ a b _ | GAddCidr _ a b _ => [a; b]
  | _ => []
  end.

(** What the rules of Go ask of it: while the goroutines run, it writes only to
    bytes and trees of its own. It may read what was there before, and list or
    copy the trees that were there before. *)
Definition allowed (st : local) (a : nact) : Prop :=
  Forall (slice_ok st) (given a)
  /\ (forall h c, called st a = Some (h, c) -> proper c /\ exists i t, h = Mine i /\ nth_error (trees st) i = Some t)
  /\ match a with
     | GMake n c => (n <= c)%nat
     | GStore s j v => (j < slen s)%nat /\ own st (shift (base s) j) /\ v < 256
     | GLoad s j => (j < slen s)%nat
     | GFromUint u => u < 2 ^ 32
     | GMaskFrom b => b < 256
     | GLast ip m => (4 <= slen ip)%nat /\ (4 <= slen m)%nat
     | GCopy h | GList h => exists t, tree_at ours st h = Some t
     | _ => True
     end.

(** [st'] is [st] with bytes that were written or made. *)
Definition writes_text (st : local) (a : addr) (l : list N) (more : nat) (st' : local) : Prop :=
  (forall x, text st' x = overwrite (text st) a l x) /\ made st' = (made st + more)%nat /\ trees st' = trees st.
(** A new slice with these bytes is returned. *)
Definition returns (st : local) (l : list N) (st' : local) (r : nreply) : Prop :=
  r = PSlice (mkS (mkA id false (made st)) (length l) (length l)) /\ writes_text st (mkA id false (made st)) l (length l) st'.
(** A list of CIDRs, as slices one after the other, and all their bytes. *)
Fixpoint entries (n : nat) (L : list (N * N * N)) : list (gslice * gslice * N) :=
  match L with
  | [] => []
  | (_, _, v) :: L' => (mkS (mkA id false n) 4 4, mkS (mkA id false (n + 4)) 4 4, v) :: entries (n + 8) L'
  end.
Definition entry_bytes (L : list (N * N * N)) : list N :=
  flat_map (fun x => let '(y, p, _) := x in NetSpec.addr y ++ NetSpec.addr (2 ^ 32 - size p)) L.

(** What happens then, and the reply. *)
Definition effect (st : local) (a : nact) (st' : local) (r : nreply) : Prop :=
  match a with
  | GMake n c => r = PSlice (mkS (mkA id false (made st)) n c) /\ writes_text st (mkA id false (made st)) (repeat 0 c) c st'
  | GStore s j v => r = PDone /\ writes_text st (shift (base s) j) [v] 0 st'
  | GLoad s j => r = PByte (text st (shift (base s) j)) /\ st' = st
  | GToUint ip => st' = st /\ exists u, r = PNum u
      /\ (forall y, is_addr (bytes_of st ip) y -> u = y)
      /\ ((forall y, ~ is_addr (bytes_of st ip) y) -> u = 0)
  | GFromUint u => returns st (NetSpec.addr u) st' r
  | GMaskFrom b => returns st (if b <=? 32 then NetSpec.addr (2 ^ 32 - size b) else [0; 0; 0; 0]) st' r
  | GMaskTo m => st' = st /\ exists u, r = PNum u
      /\ (forall n, mask_of_length (bytes_of st m) n -> u = N.of_nat n mod 256)
      /\ ((forall n, ~ mask_of_length (bytes_of st m) n) -> u = 0)
  | GEqual ip m ip' m' => st' = st /\ exists b, r = PBool b
      /\ (b = true <-> bytes_of st m = bytes_of st m' /\ forall x, is_addr (bytes_of st ip) x <-> is_addr (bytes_of st ip') x)
  | GFirst ip m => r = PSlice ip /\ st' = st
  | GLast ip m => exists l, returns st l st' r
      /\ l = map (fun j => N.lor (nth j (bytes_of st ip) 0) (255 - nth j (bytes_of st m) 0)) [0; 1; 2; 3]%nat
      /\ forall x p, slen ip = 4%nat -> is_cidr (net_at st ip m) x p -> l = NetSpec.addr (NetSpec.base x p + size p - 1)
  | GTree mg => r = PTree /\ st' = mkLocal (text st) (made st) (trees st ++ [(mg, [])])
  | GCopy h => exists t, tree_at ours st h = Some t /\ r = PTree /\ st' = mkLocal (text st) (made st) (trees st ++ [t])
  | GAddIp _ _ _ | GAddRange _ _ _ _ | GAddCidr _ _ _ _ => exists i mg cs c,
      called st a = Some (Mine i, c) /\ nth_error (trees st) i = Some (mg, cs)
      /\ r = PDone /\ st' = mkLocal (text st) (made st) (replaced i (mg, cs ++ [c]) (trees st))
  | GList h => exists mg cs B L, tree_at ours st h = Some (mg, cs)
      /\ history mg no_blocks cs B
      /\ StronglySorted (fun x y => let '(y1, p, _) := x in let '(y2, _, _) := y in y1 + size p <= y2) L
      /\ (forall y p z, In (y, p, z) L <-> B y p = Some z)
      /\ r = PList (entries (made st) L)
      /\ writes_text st (mkA id false (made st)) (entry_bytes L) (8 * length L) st'
  end.

Fixpoint plays_fair (st : local) (g : ngoroutine) : Prop :=
  match g with
  | NStop => True
  | NDo a k => allowed st a /\ forall st' r, effect st a st' r -> plays_fair st' (k r)
  end.
(** From [st] on, the replies [rs] and the state [st'] at the end are right. *)
Fixpoint expects (st : local) (g : ngoroutine) (rs : list nreply) (st' : local) : Prop :=
  match g with
  | NStop => rs = [] /\ st' = st
  | NDo a k => exists st1 r rs', effect st a st1 r /\ rs = r :: rs' /\ expects st1 (k r) rs' st'
  end.
End Goroutine.

(** What a goroutine finds that is started when [st] has been reached. *)
Definition found (st : local) : local := mkLocal (fun x => if Nat.eqb (who x) 0 then text st x else 0) 0 [].
