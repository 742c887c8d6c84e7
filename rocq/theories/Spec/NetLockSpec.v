(** What workers may expect that share trees and slices under a lock: that every
    stretch happens at once. A tree is its merge function and the calls made on it
    and on the trees it was copied from until then. *)
From Coq Require Import Sorted.
From Verif Require Import Base.Go Base.GoNet Base.NetApi Spec.NetSpec.
From Verif Require Import Base.Goroutine Base.GoUse Base.Lock Base.NetGo Base.NetLock.
From Verif Require Spec.NetGoSpec.
Local Open Scope N_scope.
Notation known_tree := NetGoSpec.known_tree.

(** The world: the bytes of all slices; for every goroutine how many bytes it has
    made, and its trees. Number 0 is the goroutine that made what is shared and
    started the others. *)
Record world := mkWorld { bytes : addr -> N; made_by : nat -> nat; kept : nat -> list known_tree }.
Definition is_now {A} (f : nat -> A) (i : nat) (x : A) : nat -> A := fun j => if Nat.eqb j i then x else f j.

Definition slice_text (w : world) (s : gslice) : list N := map (fun j => bytes w (shift (base s) j)) (seq 0 (slen s)).
Definition net_text (w : world) (ip mask : gslice) : ipnet := mkNet (slice_text w ip) (slice_text w mask).

Section Worker.
(** A goroutine, and how it holds the lock. *)
Context (id : nat) (l : hold).
Definition maker (h : handle) : nat := match h with Mine _ => id | Ours _ => O end.
Definition place (h : handle) : nat := match h with Mine i => i | Ours i => i end.
Definition tree_of (w : world) (h : handle) : option known_tree := nth_error (kept w (maker h)) (place h).

(** It may change its own things, and what is shared only if it holds the lock
    alone; what is shared it may look at while it holds the lock in any way. *)
Definition open (i : nat) : Prop := i = id \/ (l = Alone /\ i = O).
Definition visible (i : nat) : Prop := i = id \/ (l <> Without /\ i = O).
Definition slice_visible (w : world) (s : gslice) : Prop :=
  (slen s <= scap s)%nat /\ lib (base s) = false /\ visible (who (base s))
  /\ forall j, (j < scap s)%nat -> (num (base s) + j < made_by w (who (base s)))%nat.
Definition changeable (h : handle) : Prop := match h with Mine _ => True | Ours _ => l = Alone end.
Definition usable (h : handle) : Prop := match h with Mine _ => True | Ours _ => l <> Without end.
(** The call that an operation makes on a tree, with the bytes of the moment. *)
Definition called (w : world) (a : nact) : option (handle * tree_call N) :=
  match a with
  | GAddIp h ip v => Some (h, CAddIp (slice_text w ip) v)
  | GAddRange h s e v => Some (h, CAddRange (slice_text w s) (slice_text w e) v)
  | GAddCidr h ip m v => Some (h, CAddCidr (Some (net_text w ip m)) v)
  | _ => None
  end.
Definition may_do (w : world) (a : nact) : Prop :=
  Forall (slice_visible w) (NetGoSpec.given a)
  /\ (forall h c, called w a = Some (h, c) -> proper c /\ changeable h /\ tree_of w h <> None)
  /\ match a with
     | GMake n c => (n <= c)%nat
     | GStore s j v => (j < slen s)%nat /\ v < 256 /\ open (who (base s))
     | GLoad s j => (j < slen s)%nat
     | GFromUint u => u < 2 ^ 32
     | GMaskFrom b => b < 256
     | GLast ip m => (4 <= slen ip)%nat /\ (4 <= slen m)%nat
     | GCopy h | GList h => usable h /\ tree_of w h <> None
     | _ => True
     end.

Definition changed (w : world) (a : addr) (xs : list N) : world := mkWorld (NetGoSpec.overwrite (bytes w) a xs) (made_by w) (kept w).
(** new bytes of the goroutine's own *)
Definition enlarged (w : world) (xs : list N) : world :=
  mkWorld (NetGoSpec.overwrite (bytes w) (mkA id false (made_by w id)) xs) (is_now (made_by w) id (made_by w id + length xs)%nat) (kept w).
Definition gives (w : world) (xs : list N) (w' : world) (r : nreply) : Prop :=
  w' = enlarged w xs /\ r = PSlice (mkS (mkA id false (made_by w id)) (length xs) (length xs)).
(** a new tree of the goroutine's own *)
Definition planted (w : world) (t : known_tree) : world := mkWorld (bytes w) (made_by w) (is_now (kept w) id (kept w id ++ [t])).
(** one more call on a tree *)
Definition extended (w : world) (h : handle) (mg : N -> N -> N) (cs : list (tree_call N)) : world :=
  mkWorld (bytes w) (made_by w) (is_now (kept w) (maker h) (replaced (place h) (mg, cs) (kept w (maker h)))).

(** What an operation does, and the reply. *)
Definition done (w : world) (a : nact) (w' : world) (r : nreply) : Prop :=
  match a with
  | GMake n c => w' = enlarged w (repeat 0 c) /\ r = PSlice (mkS (mkA id false (made_by w id)) n c)
  | GStore s j v => w' = changed w (shift (base s) j) [v] /\ r = PDone
  | GLoad s j => w' = w /\ r = PByte (bytes w (shift (base s) j))
  | GToUint ip => w' = w /\ exists u, r = PNum u
      /\ (forall y, is_addr (slice_text w ip) y -> u = y)
      /\ ((forall y, ~ is_addr (slice_text w ip) y) -> u = 0)
  | GFromUint u => gives w (NetSpec.addr u) w' r
  | GMaskFrom b => gives w (if b <=? 32 then NetSpec.addr (2 ^ 32 - size b) else [0; 0; 0; 0]) w' r
  | GMaskTo m => w' = w /\ exists u, r = PNum u
      /\ (forall n, mask_of_length (slice_text w m) n -> u = N.of_nat n mod 256)
      /\ ((forall n, ~ mask_of_length (slice_text w m) n) -> u = 0)
  | GEqual ip m ip' m' => w' = w /\ exists b, r = PBool b
      /\ (b = true <-> slice_text w m = slice_text w m' /\ forall x, is_addr (slice_text w ip) x <-> is_addr (slice_text w ip') x)
  | GFirst ip m => w' = w /\ r = PSlice ip
  | GLast ip m => exists xs, gives w xs w' r
      /\ xs = map (fun j => N.lor (nth j (slice_text w ip) 0) (255 - nth j (slice_text w m) 0)) [0; 1; 2; 3]%nat
      /\ forall x p, slen ip = 4%nat -> is_cidr (net_text w ip m) x p -> xs = NetSpec.addr (NetSpec.base x p + size p - 1)
  | GTree mg => w' = planted w (mg, []) /\ r = PTree
  | GCopy h => exists t, tree_of w h = Some t /\ w' = planted w t /\ r = PTree
  | GAddIp _ _ _ | GAddRange _ _ _ _ | GAddCidr _ _ _ _ => exists h mg cs c,
      called w a = Some (h, c) /\ tree_of w h = Some (mg, cs) /\ w' = extended w h mg (cs ++ [c]) /\ r = PDone
  | GList h => exists mg cs B L, tree_of w h = Some (mg, cs)
      /\ history mg no_blocks cs B
      /\ StronglySorted (fun x y => let '(y1, p, _) := x in let '(y2, _, _) := y in y1 + size p <= y2) L
      /\ (forall y p z, In (y, p, z) L <-> B y p = Some z)
      /\ w' = enlarged w (NetGoSpec.entry_bytes L) /\ r = PList (NetGoSpec.entries id (made_by w id) L)
  end.

(** The rules for a stretch, and what comes of it if it happens at once: the
    replies [rs] and the world [w']. *)
Fixpoint in_order (w : world) (g : ngoroutine) : Prop :=
  match g with
  | NStop => True
  | NDo a k => may_do w a /\ forall w' r, done w a w' r -> in_order w' (k r)
  end.
Fixpoint comes_to (w : world) (g : ngoroutine) (rs : list nreply) (w' : world) : Prop :=
  match g with
  | NStop => rs = [] /\ w' = w
  | NDo a k => exists w1 r rs', done w a w1 r /\ rs = r :: rs' /\ comes_to w1 (k r) rs' w'
  end.
End Worker.

(** Workers, each with the replies it got in the stretches it has done, that take
    turns, a whole stretch at a time. *)
Definition shop := (world * list (nworker * list (list nreply)))%type.
Inductive turn : shop -> shop -> Prop :=
| Turn w ps i l g k said rs w' : nth_error ps i = Some (NStretch l g k, said) -> comes_to (S i) w g rs w' ->
    turn (w, ps) (w', replaced i (k rs, said ++ [rs]) ps).
Inductive turns : shop -> shop -> Prop :=
| No_turn p : turns p p
| A_turn p p1 p2 : turns p p1 -> turn p1 p2 -> turns p p2.
(** What there is when the workers are started. *)
Definition opening (st : NetGoSpec.local) (ws : list nworker) : shop :=
  (mkWorld (NetGoSpec.text (NetGoSpec.found st)) (fun i => if Nat.eqb i 0 then NetGoSpec.made st else O) (fun i => if Nat.eqb i 0 then NetGoSpec.trees st else []),
   map (fun w => (w, [])) ws).
(** The rules are kept however they take turns. *)
Definition orderly (st : NetGoSpec.local) (ws : list nworker) : Prop :=
  forall w ps, turns (opening st ws) (w, ps) ->
  forall i l g k said, nth_error ps i = Some (NStretch l g k, said) -> in_order (S i) l w g.
