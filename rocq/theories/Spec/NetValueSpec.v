(** What the values in a listing are made of: the blocks that were added, with
    their values, and not how the tree joins them. *)
From Coq Require Import Sorting.Permutation.
From Verif Require Import Base.Go Base.GoNet Base.NetApi Spec.NetSpec.
Local Open Scope N_scope.

(** A block of addresses and the value it was added with. *)
Definition tile (V : Type) := (N * N * V)%type.

(** The blocks a history adds, in the order in which it adds them; host bits of a
    CIDR do not matter. *)
Inductive blocks_of {V} : list (tree_call V) -> list (tile V) -> Prop :=
| of_none : blocks_of [] []
| of_call c L cs B : call_prefixes c L -> blocks_of cs B ->
    blocks_of (c :: cs) (map (fun up => (base (fst up) (snd up), snd up, call_value c)) L ++ B).

(** Is a block inside u/p? *)
Definition inside {V} (u p : N) (b : tile V) : bool :=
  let '(u', p', _) := b in ((p <=? p') && (base u' p =? u))%bool.

(** Which of the blocks stand: one that brings no new address is ignored, any
    other takes the place of the blocks inside it. *)
Inductive standing {V} : list (tile V) -> list (tile V) -> Prop :=
| none_stands : standing [] []
| ignored B S u p v : standing B S -> (forall x, in_net u p x -> covered_by (map fst B) x) ->
    standing (B ++ [(u, p, v)]) S
| takes_over B S u p v x : standing B S -> in_net u p x -> ~ covered_by (map fst B) x ->
    standing (B ++ [(u, p, v)]) (filter (fun b => negb (inside u p b)) S ++ [(u, p, v)]).

(** [merged merge u p l v]: v is the value of u/p if l are the blocks in it: that of
    the block u/p itself, or that of the lower half merged with that of the upper. *)
Inductive merged {V} (merge : V -> V -> V) : N -> N -> list (tile V) -> V -> Prop :=
| one_block u p v : merged merge u p [(u, p, v)] v
| two_halves u p l1 l2 v1 v2 : merged merge u (p + 1) l1 v1 -> merged merge (u + size (p + 1)) (p + 1) l2 v2 ->
    merged merge u p (l1 ++ l2) (merge v1 v2).

(** Blocks end to end, from address u up to and without address w. *)
Inductive end_to_end {V} : N -> list (tile V) -> N -> Prop :=
| at_the_end u : end_to_end u [] u
| next_block u p v l w : aligned u p -> end_to_end (u + size p) l w -> end_to_end u ((u, p, v) :: l) w.

(** The values of l merged from the first to the last. *)
Definition in_order {V} (merge : V -> V -> V) (l : list V) (v : V) : Prop :=
  match l with [] => False | x :: l' => v = fold_left merge l' x end.
(** The numbers f gives to the values of l, added up. *)
Definition total {V} (f : V -> N) (l : list V) : N := fold_right N.add 0 (map f l).
