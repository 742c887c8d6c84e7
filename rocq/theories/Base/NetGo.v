(** What goroutines do that use package net: the operations, and the replies
    they get. A *net.IPNet is the pair of its IP and Mask slices. A value
    (interface{}) is a number here. *)
From Verif Require Import Base.Go Base.Goroutine Base.GoUse.
Local Open Scope N_scope.

Inductive nact :=
| GMake (n c : nat)                          (* make([]byte, n, c) *)
| GStore (s : gslice) (j : nat) (v : N)      (* s[j] = v *)
| GLoad (s : gslice) (j : nat)               (* s[j] *)
| GToUint (ip : gslice)                      (* Ipv4ToUint(ip) *)
| GFromUint (u : N)                          (* Ipv4FromUint(u) *)
| GMaskFrom (b : N)                          (* MaskFromByte(b) *)
| GMaskTo (m : gslice)                       (* MaskToByte(m) *)
| GEqual (ip m ip' m' : gslice)              (* CidrEqual(&IPNet{ip, m}, &IPNet{ip', m'}) *)
| GFirst (ip m : gslice)                     (* FirstIpv4(&IPNet{ip, m}) *)
| GLast (ip m : gslice)                      (* LastIpv4(&IPNet{ip, m}) *)
| GTree (merge : N -> N -> N)                (* t := New(merge) *)
| GCopy (h : handle)                         (* c := *t; the new tree is &c *)
| GAddIp (h : handle) (ip : gslice) (v : N)        (* t.AddIp(ip, v) *)
| GAddRange (h : handle) (s e : gslice) (v : N)    (* t.AddRange(s, e, v) *)
| GAddCidr (h : handle) (ip m : gslice) (v : N)    (* t.AddCidr(&IPNet{ip, m}, v) *)
| GList (h : handle).                        (* t.ListCidr() *)

Inductive nreply :=
| PTree                                      (* the next of the goroutine's own trees *)
| PSlice (s : gslice)
| PByte (v : N)
| PNum (n : N)
| PBool (b : bool)
| PList (l : list (gslice * gslice * N))     (* IP, Mask and value of each CidrValue *)
| PDone.

Inductive ngoroutine :=
| NStop
| NDo (a : nact) (k : nreply -> ngoroutine).
