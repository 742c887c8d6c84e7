(** What a program that uses package net sees of its own memory. Every slice
    that is returned should be new memory of the program's own, nothing the
    program has should change, and a tree should stand for the arguments it was
    given as they were at the time. [m] is memory before an operation and [m']
    after it. *)
From Coq Require Import Sorted.
From Verif Require Import Base.Go Base.GoNet Base.Mem Base.Heap Base.NetApi Base.NetUse Spec.NetSpec.
Local Open Scope N_scope.

(** What is known about the program: the addresses it can reach, and for every
    tree its merge function and the calls made so far. *)
Record view (V : Type) := mkView { owned : nat -> Prop; grown : list ((V -> V -> V) * list (tree_call V)) }.
Arguments mkView {V} owned grown.
Arguments owned {V} v.
Arguments grown {V} v.
Definition nothing {V} : view V := mkView (fun _ => False) [].

Definition covers (s : bslice) (a : nat) : Prop := (at_ s <= a < at_ s + bcap s)%nat.
Definition bytes_in (m : mem) (s : bslice) : list N := map (fun j => m (at_ s + j)%nat) (seq 0 (blen s)).
Definition disjoint (s t : bslice) : Prop := forall a, covers s a -> ~ covers t a.

Section Use.
Context {V : Type}.
Implicit Types v : view V.

(** A slice value the program can have. *)
Definition has v (s : bslice) : Prop := (blen s <= bcap s)%nat /\ forall a, covers s a -> owned v a.
Definition changes_only (A : nat -> Prop) (m : mem) v (m' : mem) : Prop :=
  forall a, owned v a -> ~ A a -> m' a = m a.
Definition unchanged := changes_only (fun _ => False).
Definition fresh v (s : bslice) : Prop := (blen s <= bcap s)%nat /\ forall a, covers s a -> ~ owned v a.

Definition net_at (m : mem) (ip mask : bslice) : ipnet := mkNet (bytes_in m ip) (bytes_in m mask).
(** The call that an operation makes on a tree, with the bytes of the moment. *)
Definition called (m : mem) (u : nuse V) : option (nat * tree_call V) :=
  match u with
  | UAddIp i ip x => Some (i, CAddIp (bytes_in m ip) x)
  | UAddRange i s e x => Some (i, CAddRange (bytes_in m s) (bytes_in m e) x)
  | UAddCidr i ip mask x => Some (i, CAddCidr (Some (net_at m ip mask)) x)
  | _ => None
  end.
(** The slices handed over. *)
Definition given (u : nuse V) : list bslice :=
  match u with
  | UStore s _ _ | UToUint s | UMaskTo s | UAddIp _ s _ => [s]
  | UEqual a b c d => [a; b; c; d]
  | UFirst a b | ULast a b | UAddRange _ a b _ | UAddCidr _ a b _ => [a; b]
  | _ => []
  end.
Definition tree_of v (i : nat) : Prop := (i < length (grown v))%nat.

Definition legal (m : mem) v (u : nuse V) : Prop :=
  Forall (has v) (given u)
  /\ (forall i c, called m u = Some (i, c) -> tree_of v i /\ proper c)
  /\ match u with
     | UMake n c => (n <= c)%nat
     | UStore s j x => (j < blen s)%nat /\ x < 256
     | UFromUint x => x < 2 ^ 32
     | UMaskFrom b => b < 256
     | ULast ip mask => (4 <= blen ip)%nat /\ (4 <= blen mask)%nat
     | UList i => tree_of v i
     | _ => True
     end.

(** The answer is a new slice with these bytes. *)
Definition returns (m' : mem) v (a : nanswer V) (l : list N) : Prop :=
  exists s, a = NSlice s /\ fresh v s /\ bytes_in m' s = l.

(** The slices of a list of CIDRs. *)
Definition slices (l : list (bslice * bslice * V)) : list bslice :=
  flat_map (fun x => let '(ip, mask, _) := x in [ip; mask]) l.
Definition shown (m : mem) (x : bslice * bslice * V) : ipnet * V :=
  let '(ip, mask, y) := x in (net_at m ip mask, y).

(** What the answer and the memory of the program are to be; FirstIpv4 is left
    to [first]. *)
Definition answered (first : mem -> view V -> bslice -> bslice -> nanswer V -> mem -> Prop)
    (m : mem) v (u : nuse V) (a : nanswer V) (m' : mem) : Prop :=
  match u with
  | UMake n c => exists s, a = NSlice s /\ blen s = n /\ bcap s = c /\ fresh v s /\ forall x, covers s x -> m' x = 0
  | UStore s j x => a = NDone /\ m' (at_ s + j)%nat = x
  | UToUint ip => exists x, a = NNum x
      /\ (forall y, is_addr (bytes_in m ip) y -> x = y)
      /\ ((forall y, ~ is_addr (bytes_in m ip) y) -> x = 0)
  | UFromUint x => returns m' v a (addr x)
  | UMaskFrom b => returns m' v a (if b <=? 32 then addr (2 ^ 32 - size b) else [0; 0; 0; 0])
  | UMaskTo mask => exists x, a = NNum x
      /\ (forall n, mask_of_length (bytes_in m mask) n -> x = N.of_nat n mod 256)
      /\ ((forall n, ~ mask_of_length (bytes_in m mask) n) -> x = 0)
  | UEqual ip mask ip' mask' => exists b, a = NBool b
      /\ forall x x', is_addr (bytes_in m ip) x -> is_addr (bytes_in m ip') x' ->
         (b = true <-> bytes_in m mask = bytes_in m mask' /\ x = x')
  | UFirst ip mask => first m v ip mask a m'
  | ULast ip mask => exists l, returns m' v a l
      /\ l = map (fun j => N.lor (nth j (bytes_in m ip) 0) (255 - nth j (bytes_in m mask) 0)) [0; 1; 2; 3]%nat
      /\ forall x p, blen ip = 4%nat -> is_cidr (net_at m ip mask) x p -> l = addr (base x p + size p - 1)
  | UTree mg => a = NNew (length (grown v))
  | UAddIp _ _ _ | UAddRange _ _ _ _ | UAddCidr _ _ _ _ => a = NDone
  | UList i => exists l, a = NEntries l
      /\ Forall (fresh v) (slices l) /\ ForallOrdPairs disjoint (slices l)
      /\ forall mg cs, nth_error (grown v) i = Some (mg, cs) -> exists B L,
           history mg no_blocks cs B
           /\ map (shown m') l = map (fun x => let '(y, p, z) := x in (net_of y p, z)) L
           /\ StronglySorted (fun x y => let '(y1, p, _) := x in let '(y2, _, _) := y in y1 + size p <= y2) L
           /\ forall y p z, In (y, p, z) L <-> B y p = Some z
  end.
Definition promised first (m : mem) v (u : nuse V) (a : nanswer V) (m' : mem) : Prop :=
  answered first m v u a m'
  /\ changes_only (fun x => match u with UStore s j _ => x = at_ s + j | _ => False end)%nat m v m'.

(** FirstIpv4 as one expects it, like the others: the bytes of the address, in a
    new slice; and as it is: the slice of the CIDR itself. *)
Definition first_new (m : mem) v (ip mask : bslice) (a : nanswer V) (m' : mem) : Prop :=
  returns m' v a (bytes_in m ip).
Definition first_same (m : mem) v (ip mask : bslice) (a : nanswer V) (m' : mem) : Prop := a = NSlice ip.

Fixpoint add_call (i : nat) (c : tree_call V) (l : list ((V -> V -> V) * list (tree_call V))) :=
  match l, i with
  | [], _ => []
  | (mg, cs) :: t, O => (mg, cs ++ [c]) :: t
  | x :: t, S i' => x :: add_call i' c t
  end.
(** What is known after it: slices that were returned can be reached, and every
    tree stands for the calls made on it. *)
Definition after (m : mem) v (u : nuse V) (a : nanswer V) : view V :=
  mkView (fun x => owned v x \/
            match a with NSlice s => covers s x | NEntries l => exists s, In s (slices l) /\ covers s x | _ => False end)
    match u, called m u with
    | UTree mg, _ => grown v ++ [(mg, [])]
    | _, Some (i, c) => add_call i c (grown v)
    | _, None => grown v
    end.
End Use.
