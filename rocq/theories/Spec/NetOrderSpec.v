(** Histories of additions that differ in their order only. *)
From Coq Require Import Sorting.Permutation.
From Verif Require Import Base.Go Base.GoNet Base.NetApi Spec.NetSpec.
Local Open Scope N_scope.

(** No address is added by both. *)
Definition disjoint {V} (c d : tree_call V) : Prop := forall x, adds c x -> ~ adds d x.

(** [rearranged cs cs']: one gets from cs to cs' by exchanging neighbours that add
    no common address; calls that overlap stay in their order. *)
Inductive rearranged {V} : list (tree_call V) -> list (tree_call V) -> Prop :=
| as_it_is cs : rearranged cs cs
| exchanged cs1 c d cs2 cs : disjoint c d ->
    rearranged (cs1 ++ d :: c :: cs2) cs -> rearranged (cs1 ++ c :: d :: cs2) cs.

(** The calls that add the entries of a listing. *)
Definition add_listing {V} (l : list (ipnet * V)) : list (tree_call V) :=
  map (fun nv => CAddCidr (Some (fst nv)) (snd nv)) l.
