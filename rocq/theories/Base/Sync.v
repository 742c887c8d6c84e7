(** Goroutines that use hashes, trees, packages hex and codegen, two functions of
    package bytes and slices, and synchronise in whatever way: by mutexes,
    channels, wait groups, atomic variables or any mixture. All there is to synchronise with is one value of any type, and a
    synchronising step may look at it and change it, or has to wait. A step may
    hand over pointers to hashes and trees and slices that way. *)
From Verif Require Import Base.Go Base.Goroutine Base.HashUse.
Local Open Scope N_scope.

(** A value of type hash.Hash: what it is, and the pointer. *)
Record hashv := mkH { hkind : kind; hptr : addr }.
(** A *net.Tree: the pointer, and the merge function of the tree. Values are
    numbers here. *)
Record treev := mkTr { tptr : addr; tmerge : N -> N -> N }.

(** How a slice is written as a text: hex.FromBytes, codegen.BytesToString,
    codegen.BytesToStringSep, codegen.BytesToHexSep. *)
Inductive style := In_hex | In_string | In_strings (k : Z) | In_list (k : Z).

Inductive ask :=
| New_hash (k : kind)                               (* h := New...() *)
| Write_to (h : hashv) (p : gslice)                 (* n, err := h.Write(p) *)
| Sum_of (h : hashv) (inp : gslice) (room : nat)    (* h.Sum(in); [room] as in Base/HashUse.v *)
| Reset_of (h : hashv)                              (* h.Reset() *)
| Make_bytes (n c : nat)                            (* make([]byte, n, c) *)
| Store_byte (s : gslice) (j : nat) (v : N)         (* s[j] = v *)
| Load_byte (s : gslice) (j : nat)                  (* s[j] *)
| New_tree (merge : N -> N -> N)                    (* t := net.New(merge) *)
| Copy_tree (t : treev)                             (* c := *t; and the pointer is &c *)
| Add_ip (t : treev) (ip : gslice) (v : N)          (* t.AddIp(ip, v) *)
| Add_range (t : treev) (s e : gslice) (v : N)      (* t.AddRange(s, e, v) *)
| Add_cidr (t : treev) (ip mask : gslice) (v : N)   (* t.AddCidr(&IPNet{ip, mask}, v) *)
| List_tree (t : treev)                             (* t.ListCidr() *)
| Ip_from (u : N)                                   (* Ipv4FromUint(u) *)
| Ip_to (ip : gslice)                               (* Ipv4ToUint(ip) *)
| Mask_from (b : N)                                 (* MaskFromByte(b) *)
| Mask_to (m : gslice)                              (* MaskToByte(m) *)
| Nets_equal (ip m ip' m' : gslice)                 (* CidrEqual(&IPNet{ip, m}, &IPNet{ip', m'}) *)
| First_of (ip m : gslice)                          (* FirstIpv4(&IPNet{ip, m}) *)
| Last_of (ip m : gslice)                           (* LastIpv4(&IPNet{ip, m}) *)
| Text_of (f : style) (s : gslice)                  (* hex.FromBytes(s) or another of style *)
| Bytes_of (tiny fast : bool) (t : list N)          (* hex.ToBytes(t) or hex.ToBytesFast(t), built with or without tag tiny *)
| Zero_bytes (s : gslice)                           (* bytes.Zero(s) *)
| Xor_bytes (d o : gslice).                         (* n := bytes.XorEq(d, o) *)
Inductive got :=
| GotHash (h : hashv)
| GotCount (n : nat)         (* (n, nil), or n *)
| GotSlice (s : gslice)
| GotByte (v : N)
| GotNum (n : N)
| GotBool (b : bool)
| GotText (t : list N)       (* a string *)
| GotBad (c : N) (i : Z)     (* nil, InvalidHexAt(c, i) *)
| GotOdd                     (* nil, ErrLength *)
| GotNil                     (* nil *)
| GotTree (t : treev)
| GotList (l : list (gslice * gslice * N))   (* IP, Mask and value of each *)
| GotNothing.

Section Sync.
(** What they synchronise with. *)
Context (G : Type).

(** A goroutine. A synchronising step may have a choice, numbered by the first
    argument, as select has; if it gives None for all numbers, the goroutine has
    to wait. *)
Inductive prog :=
| Finish
| Call (c : ask) (k : got -> prog)
| Sync (f : nat -> G -> option (G * prog)).

(** A goroutine in the middle of a program: between two calls, or inside one. *)
Inductive stage :=
| Between (g : prog)
| Inside (c : ask) (p : code got) (k : got -> prog).
Record worker := mkW { stands_at : stage; taken : bool -> nat }.
Definition group := (memory * G * list worker)%type.

(** The code of the calls. *)
Context (do_ask : ask -> code got).

(** One step of one of them: it enters a call, makes one access to memory inside
    it, leaves it, or synchronises. *)
Inductive moves1 : group -> group -> Prop :=
| Enters m s ws i c k u : nth_error ws i = Some (mkW (Between (Call c k)) u) ->
    moves1 (m, s, ws) (m, s, replaced i (mkW (Inside c (do_ask c) k) u) ws)
| Accesses m s ws i c p k u m' p' u' : nth_error ws i = Some (mkW (Inside c p k) u) -> advance i m (mkT p u) = Some (m', mkT p' u') ->
    moves1 (m, s, ws) (m', s, replaced i (mkW (Inside c p' k) u') ws)
| Leaves m s ws i c r k u : nth_error ws i = Some (mkW (Inside c (Return r) k) u) ->
    moves1 (m, s, ws) (m, s, replaced i (mkW (Between (k r)) u) ws)
| Syncs m s ws i f u n s' g : nth_error ws i = Some (mkW (Between (Sync f)) u) -> f n s = Some (s', g) ->
    moves1 (m, s, ws) (m, s', replaced i (mkW (Between g) u) ws).
Inductive leads : group -> group -> Prop :=
| Stays w : leads w w
| Goes_on w w1 w2 : leads w w1 -> moves1 w1 w2 -> leads w w2.

Definition started (s : G) (gs : list prog) : group := (fun _ => 0, s, map (fun g => mkW (Between g) none) gs).

(** Two goroutines are about to access the same cell, one of them to write it. *)
Definition races (w : group) : Prop :=
  let '(m, s, ws) := w in
  exists i j c p k u c' p' k' u' a, i <> j /\ nth_error ws i = Some (mkW (Inside c p k) u) /\ nth_error ws j = Some (mkW (Inside c' p' k') u')
    /\ writes i (mkT p u) a /\ (reads (mkT p' u') a \/ writes j (mkT p' u') a).
(** A goroutine has panicked. *)
Definition panics (w : group) : Prop :=
  let '(m, s, ws) := w in exists i c k u, nth_error ws i = Some (mkW (Inside c Crash k) u).
End Sync.
Arguments Finish {G}. Arguments Call {G}. Arguments Sync {G}. Arguments Between {G}. Arguments Inside {G}.
Arguments mkW {G}. Arguments stands_at {G}. Arguments taken {G}. Arguments moves1 {G}. Arguments leads {G}. Arguments started {G}.
Arguments races {G}. Arguments panics {G}.
