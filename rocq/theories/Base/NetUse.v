(** What a program does that uses package net: the operations, with the
    program's own byte slices, and the answers. A *net.IPNet is the pair of its
    IP and Mask slices. *)
From Verif Require Import Base.Go Base.Heap.
Local Open Scope N_scope.

Inductive nuse (V : Type) :=
| UMake (n c : nat)                           (* make([]byte, n, c) *)
| UStore (s : bslice) (j : nat) (x : N)       (* s[j] = x *)
| UToUint (ip : bslice)                       (* Ipv4ToUint(ip) *)
| UFromUint (u : N)                           (* Ipv4FromUint(u) *)
| UMaskFrom (b : N)                           (* MaskFromByte(b) *)
| UMaskTo (m : bslice)                        (* MaskToByte(m) *)
| UEqual (ip m ip' m' : bslice)               (* CidrEqual(&IPNet{ip, m}, &IPNet{ip', m'}) *)
| UFirst (ip m : bslice)                      (* FirstIpv4(&IPNet{ip, m}) *)
| ULast (ip m : bslice)                       (* LastIpv4(&IPNet{ip, m}) *)
| UTree (merge : V -> V -> V)                 (* New(merge); trees are numbered from 0 *)
| UAddIp (i : nat) (ip : bslice) (v : V)      (* t.AddIp(ip, v) *)
| UAddRange (i : nat) (s e : bslice) (v : V)  (* t.AddRange(s, e, v) *)
| UAddCidr (i : nat) (ip m : bslice) (v : V)  (* t.AddCidr(&IPNet{ip, m}, v) *)
| UList (i : nat).                            (* t.ListCidr() *)
Arguments UMake {V} n c.
Arguments UStore {V} s j x.
Arguments UToUint {V} ip.
Arguments UFromUint {V} u.
Arguments UMaskFrom {V} b.
Arguments UMaskTo {V} m.
Arguments UEqual {V} ip m ip' m'.
Arguments UFirst {V} ip m.
Arguments ULast {V} ip m.
Arguments UTree {V} merge.
Arguments UAddIp {V} i ip v.
Arguments UAddRange {V} i s e v.
Arguments UAddCidr {V} i ip m v.
Arguments UList {V} i.

Inductive nanswer (V : Type) :=
| NNum (n : N)
| NBool (b : bool)
| NSlice (s : bslice)
| NNew (i : nat)                              (* the new tree *)
| NEntries (l : list (bslice * bslice * V))   (* IP, Mask and value of each CidrValue *)
| NDone.
Arguments NNum {V} n.
Arguments NBool {V} b.
Arguments NSlice {V} s.
Arguments NNew {V} i.
Arguments NEntries {V} l.
Arguments NDone {V}.
