(** A client of package bytes that adds a list of numbers to an accumulator:

      for _, b := range bs { carry, _ := f(x, x, b); carries = append(carries, carry) } *)
From Verif Require Import Base.Go Base.Mem.
Local Open Scope N_scope.

Fixpoint accumulate {E} (f : mem -> slice -> slice -> slice -> outcome (mem * N * option E))
    (m : mem) (x : slice) (bs : list slice) : outcome (mem * list N) :=
  match bs with
  | [] => Ret (m, [])
  | b :: bs' =>
      let! (m, c, _) := f m x x b in
      let! (m, cs) := accumulate f m x bs' in
      Ret (m, c :: cs)
  end.

Definition total (l : list N) : N := fold_right N.add 0 l.
