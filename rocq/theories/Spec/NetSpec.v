(** Specification vocabulary for package net. *)
From Verif Require Import Base.Go Base.GoNet Base.NetApi.
Local Open Scope N_scope.

(** ** Addresses, prefixes, CIDRs *)

(** The number of a.b.c.d and the 4-byte address of a number. *)
Definition quad (a b c d : N) : N := ((a * 256 + b) * 256 + c) * 256 + d.
Definition addr (u : N) : list N :=
  [u / 2 ^ 24; u / 2 ^ 16 mod 256; u / 2 ^ 8 mod 256; u mod 256].

(** Lexicographic order of byte strings. *)
Fixpoint lex_lt (x y : list N) : Prop :=
  match x, y with
  | [], [] => False
  | [], _ :: _ => True
  | _ :: _, [] => False
  | a :: x', b :: y' => a < b \/ (a = b /\ lex_lt x' y')
  end.

(** Bit [i] of a byte string, bit 0 being the top bit of the first byte. *)
Definition bit_of (l : list N) (i : nat) : bool :=
  N.testbit (nth (i / 8) l 0) (N.of_nat (7 - i mod 8)).
(** [m] is [n] one bits followed by zero bits only. *)
Definition mask_of_length (m : list N) (n : nat) : Prop :=
  (n <= 8 * length m)%nat /\ forall i, (i < 8 * length m)%nat -> bit_of m i = Nat.ltb i n.

(** The number of addresses of a prefix of length p, and the net u/p as
    net.ParseCIDR returns it (u has no host bits). *)
Definition size (p : N) : N := 2 ^ (32 - p).
Definition net_of (u p : N) : ipnet := mkNet (addr u) (addr (2 ^ 32 - size p)).
Definition aligned (u p : N) : Prop := u < 2 ^ 32 /\ p <= 32 /\ u mod size p = 0.
(** x is an address of u/p. *)
Definition in_net (u p x : N) : Prop := x / size p = u / size p.

(** ** Sets of addresses described by lists of prefixes *)

Definition covered_by (l : list (N * N)) (x : N) : Prop :=
  exists u p, In (u, p) l /\ in_net u p x.

(** u1/p and u2/p are the two halves of a larger prefix. *)
Definition halves (u1 p1 u2 p2 : N) : Prop :=
  p1 = p2 /\ 0 < p1 /\ u1 mod size (p1 - 1) = 0 /\ u2 = u1 + size p1.

(** ** Block sets with values: the reference for C45 *)

(** A block set gives a value to some prefixes (base address, prefix length). *)
Definition blocks (V : Type) := N -> N -> option V.

Definition base (u p : N) : N := u / size p * size p.

(** Is u/p inside a block of the set? *)
Definition covered {V} (B : blocks V) (u p : N) : bool :=
  existsb (fun q => match B (base u (N.of_nat q)) (N.of_nat q) with Some _ => true | None => false end)
          (seq 0 (S (N.to_nat p))).
(** Put u/p, dropping all blocks inside it. *)
Definition place {V} (B : blocks V) (u p : N) (v : V) : blocks V :=
  fun u' p' =>
    if ((p <=? p') && (base u' p =? base u p))%bool
    then if ((p =? p') && (u' =? base u p))%bool then Some v else None
    else B u' p'.
(** Join u/p with the other half of its parent while that is present; at most
    [n] times. *)
Fixpoint join {V} (merge : V -> V -> V) (n : nat) (B : blocks V) (u p : N) : blocks V :=
  match n with
  | O => B
  | S n' =>
      let l := base u (p - 1) in
      match B l p, B (l + size p) p with
      | Some x, Some y => join merge n' (place B l (p - 1) (merge x y)) l (p - 1)
      | _, _ => B
      end
  end.
Definition insert {V} (merge : V -> V -> V) (B : blocks V) (u p : N) (v : V) : blocks V :=
  if covered B u p then B else join merge (N.to_nat p) (place B u p v) u p.
Definition no_blocks {V} : blocks V := fun _ _ => None.

(** Prefixes that make up first..last, in order: the largest prefix that starts
    at [first] and does not pass [last], then the rest. [n] bounds the number
    of prefixes. *)
Fixpoint biggest (n : nat) (first last p : N) : N :=
  (* smallest p' <= p such that first is aligned and first/p' ends by last *)
  match n with
  | O => p
  | S n' =>
      if ((first mod size (p - 1) =? 0) && (first + size (p - 1) - 1 <=? last))%bool
      then biggest n' first last (p - 1) else p
  end.
Fixpoint range_prefixes (n : nat) (first last : N) : list (N * N) :=
  match n with
  | O => []
  | S n' =>
      if first <=? last then
        let p := biggest 32 first last 32 in
        (first, p) :: range_prefixes n' (first + size p) last
      else []
  end.

(** ** What a call is meant to add *)

(** ::ffff:0:0/96, where the IPv4-mapped addresses are (RFC 4291 2.5.5.2). *)
Definition mapped : list N := repeat 0 10 ++ [255; 255].
(** [ip] is the IPv4 address number u, as 4 bytes or IPv4-mapped 16 bytes. *)
Definition is_addr (ip : list N) (u : N) : Prop :=
  u < 2 ^ 32 /\ (ip = addr u \/ ip = mapped ++ addr u).
(** [n] is an IPv4 address u with a 4-byte mask of p ones. *)
Definition is_cidr (n : ipnet) (u p : N) : Prop :=
  is_addr (IP n) u /\ p <= 32 /\ Mask n = addr (2 ^ 32 - size p).

Definition adds {V} (c : tree_call V) (x : N) : Prop :=
  match c with
  | CAddIp ip _ => is_addr ip x
  | CAddRange s e _ => exists a b, is_addr s a /\ is_addr e b /\ a <= x <= b
  | CAddCidr (Some n) _ => exists u p, is_cidr n u p /\ in_net u p x
  | CAddCidr None _ => False
  end.
(** IPv4 arguments; ranges not ending at 255.255.255.255. *)
Definition proper {V} (c : tree_call V) : Prop :=
  match c with
  | CAddIp ip _ => exists u, is_addr ip u
  | CAddRange s e _ => exists a b, is_addr s a /\ is_addr e b /\ b < 2 ^ 32 - 1
  | CAddCidr (Some n) _ => exists u p, is_cidr n u p
  | CAddCidr None _ => False
  end.
Definition call_value {V} (c : tree_call V) : V :=
  match c with CAddIp _ v | CAddRange _ _ v | CAddCidr _ v => v end.

(** The reference block set after a proper history: the blocks of each call are
    inserted in turn. *)
Definition call_prefixes {V} (c : tree_call V) (L : list (N * N)) : Prop :=
  match c with
  | CAddIp ip _ => exists u, is_addr ip u /\ L = [(u, 32)]
  | CAddRange s e _ => exists a b, is_addr s a /\ is_addr e b
                       /\ L = range_prefixes (N.to_nat (b + 1 - a)) a b
  | CAddCidr (Some n) _ => exists u p, is_cidr n u p /\ L = [(u, p)]
  | CAddCidr None _ => False
  end.
Definition insert_all {V} (merge : V -> V -> V) (B : blocks V) (L : list (N * N)) (v : V) : blocks V :=
  fold_left (fun B up => insert merge B (fst up) (snd up) v) L B.
Inductive history {V} (merge : V -> V -> V) : blocks V -> list (tree_call V) -> blocks V -> Prop :=
| hist_nil B : history merge B [] B
| hist_cons B c L cs B' : call_prefixes c L ->
    history merge (insert_all merge B L (call_value c)) cs B' -> history merge B (c :: cs) B'.

(** Address x is inside some listed CIDR, by Go's IPNet.Contains. *)
Definition listed {V} (l : list (ipnet * V)) (x : N) : Prop :=
  exists n v, In (n, v) l /\ Contains n (addr x) = true.
