(** Property C115: calls on a nil *net.Tree. *)
From Verif Require Import Base.Go Base.GoNet Base.NetApi Model.Net Model.NetNil Spec.NetSpec Spec.NetNilSpec
  Proofs.NetBasic Proofs.NetNilProofs.
From Coq Require Import Lia.
Local Open Scope N_scope.

(** C115: a nil *Tree never lets an addition pass unnoticed: a call that has
    addresses to add panics. What does not panic is AddRange when the range ends
    before it starts, and that only. *)
Theorem C115_nil_tree : forall V (c : tree_call V),
  match c with CAddIp ip _ => bytes_ok ip | CAddRange s e _ => bytes_ok s /\ bytes_ok e | CAddCidr n _ => forall m, n = Some m -> bytes_ok (IP m) end ->
  (call_nil c = Panic \/ call_nil c = Ret tt)
  /\ (forall x, adds c x -> call_nil c = Panic)
  /\ (call_nil c = Ret tt <-> exists s e v a b, c = CAddRange s e v /\ reads_as s a /\ reads_as e b /\ b < a)
  /\ (ListCidr_nil : outcome (list (ipnet * V))) = Panic.
Proof.
  intros V c H.
  assert (Un : forall ip u v, reads_as ip u -> reads_as ip v -> u = v).
  { intros ip u v [X|[X ->]] [Y|[Y ->]]; [apply (is_addr_fun ip); assumption|exfalso; apply (Y _ X)|exfalso; apply (X _ Y)|reflexivity]. }
  destruct c as [ip v|s e v|[n|] v]; cbn [call_nil adds].
  - destruct (reads_ToUint ip H) as (u & _ & _ & E). unfold AddIp_nil. rewrite E. cbn [bind]. split; [left; reflexivity|]. split; [reflexivity|]. split; [|reflexivity].
    split; [discriminate|]. intros (s & e & v' & a & b & X & _). discriminate X.
  - destruct H as (Hs & He). destruct (reads_ToUint s Hs) as (a & Ra & La & Ea), (reads_ToUint e He) as (b & Rb & Lb & Eb). unfold AddRange_nil. rewrite Ea, Eb. cbn [bind].
    destruct (N.leb_spec a b) as [L|L].
    + rewrite nil_range by assumption. split; [left; reflexivity|]. split; [reflexivity|]. split; [|reflexivity]. split; [discriminate|].
      intros (s' & e' & v' & a' & b' & X & A' & B' & L'). injection X as <- <- _. rewrite (Un _ _ _ A' Ra), (Un _ _ _ B' Rb) in L'. lia.
    + split; [right; reflexivity|]. split.
      { intros x (a' & b' & A' & B' & L'). exfalso. rewrite (Un _ a' a) in L' by (try exact Ra; left; exact A'). rewrite (Un _ b' b) in L' by (try exact Rb; left; exact B'). lia. }
      split; [|reflexivity]. split; [|reflexivity]. intros _. exists s, e, v, a, b. auto.
  - destruct (reads_ToUint (IP n) (H n eq_refl)) as (u & _ & _ & E). unfold AddCidr_nil. rewrite E. cbn [bind]. split; [left; reflexivity|]. split; [reflexivity|]. split; [|reflexivity].
    split; [discriminate|]. intros (s & e & v' & a & b & X & _). discriminate X.
  - split; [left; reflexivity|]. split; [reflexivity|]. split; [|reflexivity]. split; [discriminate|]. intros (s & e & v' & a & b & X & _). discriminate X.
Qed.
Print Assumptions C115_nil_tree.

(** All addresses there are, added to nothing, panic; an empty range does not. *)
Example C115_nonvacuous :
  call_nil (CAddRange (addr 0) (addr (2 ^ 32 - 1)) 1) = Panic /\ adds (CAddRange (addr 0) (addr (2 ^ 32 - 1)) 1) (quad 10 0 0 1)
  /\ call_nil (CAddRange (addr (quad 10 0 0 9)) (addr (quad 10 0 0 1)) 1) = Ret tt
  /\ call_nil (CAddRange (addr (quad 10 0 0 9)) [] 1) = Ret tt /\ call_nil (CAddRange [] [] 1) = Panic.
Proof.
  split; [vm_compute; reflexivity|]. split.
  - exists 0, (2 ^ 32 - 1). split; [split; [reflexivity|left; reflexivity]|]. split; [split; [reflexivity|left; reflexivity]|]. vm_compute. split; discriminate.
  - repeat split; vm_compute; reflexivity.
Qed.
