(** Snapshots of a tree: goroutine 0 adds addresses to a tree, and after each of
    them copies the tree and puts the copy where the others find the newest one.
    Goroutines 1, 2, ... look at the newest copy as often as they like, list it,
    and tell what they have got. What they synchronise with is what an
    atomic.Value for the newest copy and a channel for the lists would hold. *)
From Coq Require Import Sorted.
From Verif Require Import Base.Go Base.GoNet Base.NetApi Base.Goroutine Base.Sync.
From Verif Require Spec.NetSpec.
Local Open Scope N_scope.

Definition net_list := list (gslice * gslice * N).
Record stand := mkStand { newest : option treev; heard : list (nat * net_list) }.
Definition nothing_heard : stand := mkStand None [].

(** The keeper of the tree. *)
Definition shows_copy (c : treev) (g : prog stand) : prog stand := Sync (fun _ b => Some (mkStand (Some c) (heard b), g)).
Definition copies_it (t : treev) (g : prog stand) : prog stand :=
  Call (Copy_tree t) (fun r => match r with GotTree c => shows_copy c g | _ => Finish end).
Definition adds_it (t : treev) (v : N) (s : gslice) (g : prog stand) : prog stand := Call (Add_ip t s v) (fun _ => copies_it t g).
Fixpoint keeps (t : treev) (xs : list (N * N)) : prog stand :=
  match xs with
  | [] => Finish
  | (u, v) :: xs' => Call (Ip_from u) (fun r => match r with GotSlice s => adds_it t v s (keeps t xs') | _ => Finish end)
  end.
Definition keeper (mg : N -> N -> N) (xs : list (N * N)) : prog stand :=
  Call (New_tree mg) (fun r => match r with GotTree t => keeps t xs | _ => Finish end).

(** An onlooker, who looks [n] times. *)
Definition tells_list (i : nat) (l : net_list) (g : prog stand) : prog stand :=
  Sync (fun _ b => Some (mkStand (newest b) (heard b ++ [(i, l)]), g)).
Definition lists_copy (i : nat) (c : treev) (g : prog stand) : prog stand :=
  Call (List_tree c) (fun r => match r with GotList l => tells_list i l g | _ => Finish end).
Fixpoint onlooker (i n : nat) : prog stand :=
  match n with
  | O => Finish
  | S n' => Sync (fun _ b => match newest b with Some c => Some (b, lists_copy i c (onlooker i n')) | None => None end)
  end.
Fixpoint onlookers (i : nat) (ns : list nat) : list (prog stand) :=
  match ns with [] => [] | n :: ns' => onlooker i n :: onlookers (S i) ns' end.
Definition snapshots (mg : N -> N -> N) (xs : list (N * N)) (ns : list nat) : list (prog stand) := keeper mg xs :: onlookers 1 ns.

(** [l] lists, in memory [m], the tree as it is after the first [k] additions: the
    prefixes in order, with their values. *)
Definition additions (xs : list (N * N)) : list (tree_call N) := map (fun x => CAddIp (NetSpec.addr (fst x)) (snd x)) xs.
Definition bytes_in (m : addr -> N) (s : gslice) : list N := map (fun j => m (shift (base s) j)) (seq 0 (slen s)).
Definition entry_in (m : addr -> N) (e : gslice * gslice * N) (x : N * N * N) : Prop :=
  let '(ip, mask, v) := e in let '(y, p, z) := x in
  bytes_in m ip = NetSpec.addr y /\ bytes_in m mask = NetSpec.addr (2 ^ 32 - NetSpec.size p) /\ v = z.
Definition lists_after (mg : N -> N -> N) (xs : list (N * N)) (k : nat) (m : addr -> N) (l : net_list) : Prop :=
  exists B L, NetSpec.history mg NetSpec.no_blocks (additions (firstn k xs)) B
    /\ StronglySorted (fun x y => let '(y1, p, _) := x in let '(y2, _, _) := y in y1 + NetSpec.size p <= y2) L
    /\ (forall y p z, In (y, p, z) L <-> B y p = Some z)
    /\ Forall2 (entry_in m) l L.

(** How many lists onlooker [i] has told. *)
Definition told (b : stand) (i : nat) : nat := length (filter (fun x => Nat.eqb (fst x) i) (heard b)).
