(** Calls that change an IpTree, as data, to speak of histories of calls. *)
From Verif Require Import Base.Go Base.GoNet.

Inductive tree_call (V : Type) :=
| CAddIp (ip : list N) (v : V)
| CAddRange (start end_ : list N) (v : V)
| CAddCidr (cidr : option ipnet) (v : V).
Arguments CAddIp {V} ip v.
Arguments CAddRange {V} start end_ v.
Arguments CAddCidr {V} cidr v.
