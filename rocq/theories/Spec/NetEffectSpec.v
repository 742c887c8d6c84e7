(** Specification vocabulary for IpTree with a merge function that has effects
    on a state St and may panic (no result). The reference block set of NetSpec,
    with the merge calls made explicit. *)
From Verif Require Import Base.Go Base.GoNet Base.NetApi Spec.NetSpec.
Local Open Scope N_scope.

Section Effects.
Context {V St : Type} (f : St -> V -> V -> St * option V).

(** Join u/p with the other half of its parent while that is present, at most
    [n] times, lower half first; no block set when merge panics. *)
Fixpoint join_eff (n : nat) (s : St) (B : blocks V) (u p : N) : St * option (blocks V) :=
  match n with
  | O => (s, Some B)
  | S n' =>
      let l := base u (p - 1) in
      match B l p, B (l + size p) p with
      | Some x, Some y =>
          let (s', o) := f s x y in
          match o with
          | Some z => join_eff n' s' (place B l (p - 1) z) l (p - 1)
          | None => (s', None)
          end
      | _, _ => (s, Some B)
      end
  end.
Definition insert_eff (s : St) (B : blocks V) (u p : N) (v : V) : St * option (blocks V) :=
  if covered B u p then (s, Some B) else join_eff (N.to_nat p) s (place B u p v) u p.

(** Insert in turn; a panic undoes the insertion it happens in and ends the
    rest. The last component tells whether all were inserted. *)
Fixpoint insert_all_eff (s : St) (B : blocks V) (L : list (N * N)) (v : V) : St * blocks V * bool :=
  match L with
  | [] => (s, B, true)
  | (u, p) :: L' =>
      match insert_eff s B u p v with
      | (s', Some B') => insert_all_eff s' B' L' v
      | (s', None) => (s', B, false)
      end
  end.
Inductive history_eff : St -> blocks V -> list (tree_call V) -> list bool -> St -> blocks V -> Prop :=
| heff_nil s B : history_eff s B [] [] s B
| heff_cons s B c L cs ok oks s1 B1 s2 B2 : call_prefixes c L ->
    insert_all_eff s B L (call_value c) = (s1, B1, ok) ->
    history_eff s1 B1 cs oks s2 B2 -> history_eff s B (c :: cs) (ok :: oks) s2 B2.

End Effects.

(** f, keeping a record of its calls. *)
Definition recorded {V St} (f : St -> V -> V -> St * option V) (s : St * list (V * V)) (a b : V)
    : St * list (V * V) * option V :=
  let (s', o) := f (fst s) a b in ((s', snd s ++ [(a, b)]), o).

(** The other half of the parent of the prefix u/p. *)
Definition other_half (u p : N) : N :=
  if base u (p - 1) =? base u p then base u p + size p else base u (p - 1).
