(** Property C92: adding many numbers to one accumulator. *)
From Verif Require Import Base.Go Base.Mem Spec.BytesSpec Spec.AccumulateSpec Model.Bytes Proofs.AccumulateProofs.
From Verif Require Props.BytesProps.
Local Open Scope N_scope.

(** Nothing is lost: the accumulator and the carries together hold the exact
    sum of all the numbers, however many. *)
Theorem C92_le : forall n f x bs, In (n, f) le_functions -> (n <= len x)%nat ->
  forall m, mem_ok m -> Forall (fun b => apart x n b (Nat.min (len b) n)) bs ->
  exists m' cs, accumulate f m x bs = Ret (m', cs) /\ only_changes m m' x n /\ length cs = length bs
  /\ le_value (firstn n (content m' x)) + 256 ^ N.of_nat n * total cs =
     le_value (firstn n (content m x)) + total (map (fun b => le_value (firstn n (content m b))) bs).
Proof. exact le_accumulate. Qed.
Print Assumptions C92_le.

Theorem C92_be : forall n f x bs, In (n, f) be_functions -> (n <= len x)%nat ->
  forall m, mem_ok m -> Forall (fun b => (len b <= n)%nat /\ apart x (len x) b (len b)) bs ->
  exists m' cs, accumulate f m x bs = Ret (m', cs) /\ only_changes m m' x n /\ length cs = length bs
  /\ be_value (firstn n (content m' x)) + 256 ^ N.of_nat n * total cs =
     be_value (firstn n (content m x)) + total (map (fun b => be_value (content m b)) bs).
Proof. exact be_accumulate. Qed.
Print Assumptions C92_be.

(** 0xFFFE + 3 + 3 + 0xFF03, the second number twice, in both byte orders. *)
Example C92_nonvacuous :
  (let! (m, cs) := accumulate Add16LE (BytesProps.bytes_mem [0xFE; 0xFF; 3; 0xFF; 9])
     (mkSlice 0 2) [mkSlice 2 1; mkSlice 2 1; mkSlice 2 2] in Ret (map m (seq 0 5), cs))
  = Ret ([7; 0xFF; 3; 0xFF; 9], [1; 0; 0])
  /\ (let! (m, cs) := accumulate Add16BE (BytesProps.bytes_mem [0xFF; 0xFE; 0xFF; 3; 9])
     (mkSlice 0 2) [mkSlice 3 1; mkSlice 3 1; mkSlice 2 2] in Ret (map m (seq 0 5), cs))
  = Ret ([0xFF; 7; 0xFF; 3; 9], [1; 0; 0])
  /\ Forall (fun b => apart (mkSlice 0 2) 2 b (Nat.min (len b) 2)) [mkSlice 2 1; mkSlice 2 1; mkSlice 2 2].
Proof.
  split; [vm_compute; reflexivity|]. split; [vm_compute; reflexivity|].
  repeat constructor; intros y; unfold within; cbn [off len Nat.min]; lia.
Qed.
