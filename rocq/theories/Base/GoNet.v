(** The parts of Go's standard package net used by /repo/net, as documented
    and implemented in Go 1.19 ($GOROOT/src/net/ip.go). Trusted, not part of
    the repository. A net.IP or net.IPMask is a list of bytes; a nil result is
    [None]. *)
From Verif Require Import Base.Go.
Local Open Scope N_scope.

Record ipnet := mkNet { IP : list N; Mask : list N }.

(** ip.go isZeros(ip[0:10]) && ip[10] == 0xff && ip[11] == 0xff *)
Definition v4_prefix : list N := [0;0;0;0;0;0;0;0;0;0;255;255].

(** IP.To4 *)
Definition To4 (ip : list N) : option (list N) :=
  if Nat.eqb (length ip) 4 then Some ip
  else if (Nat.eqb (length ip) 16 &&
           if list_eq_dec N.eq_dec (firstn 12 ip) v4_prefix then true else false)%bool
       then Some (skipn 12 ip)
       else None.

(** bytes.Compare(a, b) == 0 : nil and empty slices compare equal. *)
Definition bytes_same (a b : list N) : bool :=
  if list_eq_dec N.eq_dec a b then true else false.

(** ip.go simpleMaskLength: number of leading one bits, None (-1 in Go) when a
    one bit follows a zero bit. *)
Fixpoint count_ones (k : nat) (v n : N) : N * N :=
  match k with
  | O => (v, n)
  | S k' => if N.testbit v 7 then count_ones k' (shl8 v 1) (n + 1) else (v, n)
  end.
Fixpoint simpleMaskLength (mask : list N) (n : N) : option N :=
  match mask with
  | [] => Some n
  | v :: rest =>
      if v =? 255 then simpleMaskLength rest (n + 8)
      else
        let (v', n') := count_ones 8 v n in
        if negb (v' =? 0) then None
        else if forallb (fun x => x =? 0) rest then Some n' else None
  end.
(** IPMask.Size, first result *)
Definition Size (mask : list N) : N :=
  match simpleMaskLength mask 0 with Some n => n | None => 0 end.

(** ip.go networkNumberAndMask; None stands for (nil, nil). *)
Definition networkNumberAndMask (n : ipnet) : option (list N * list N) :=
  let ip := match To4 (IP n) with Some ip4 => ip4 | None => IP n end in
  if (Nat.eqb (length ip) 4 || Nat.eqb (length ip) 16)%bool then
    if Nat.eqb (length (Mask n)) 4 then
      if Nat.eqb (length ip) 4 then Some (ip, Mask n) else None
    else if Nat.eqb (length (Mask n)) 16 then
      if Nat.eqb (length ip) 4 then Some (ip, skipn 12 (Mask n)) else Some (ip, Mask n)
    else None
  else None.

Fixpoint same_masked (nn m ip : list N) : bool :=
  match nn, m, ip with
  | a :: nn', k :: m', b :: ip' => ((N.land a k =? N.land b k) && same_masked nn' m' ip')%bool
  | _, _, _ => true
  end.
(** IPNet.Contains *)
Definition Contains (n : ipnet) (ip : list N) : bool :=
  let ip := match To4 ip with Some x => x | None => ip end in
  match networkNumberAndMask n with
  | None => Nat.eqb (length ip) 0 (* l == len(nil): the loop then does nothing *)
  | Some (nn, m) => (Nat.eqb (length ip) (length nn) && same_masked nn m ip)%bool
  end.
