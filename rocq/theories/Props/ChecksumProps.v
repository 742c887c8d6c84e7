(** Properties C18-C33: endian, bcc, lrc, fletcher, luhn. *)
From Verif Require Import Base.Go Base.HashApi Spec.ChecksumSpec
  Proofs.HashRun Proofs.ChecksumProofs Proofs.FletcherProofs Proofs.Fletcher16Proofs.
From Verif Require Model.Bcc Model.Lrc Model.Luhn Model.Endian Model.Fletcher.
From Coq Require Import Permutation.
Local Open Scope N_scope.

(** ** C18 endian *)

Theorem C18_init : forall m, exists v, Endian.init m = Ret v
  /\ (Endian.Platform v = LittleEndian <-> m = Endian.LowByteFirst)
  /\ (Endian.Platform v = BigEndian <-> m = Endian.HighByteFirst)
  /\ Endian.Network v = BigEndian /\ Endian.SourceCode v = BigEndian.
Proof. exact endian_init. Qed.
Print Assumptions C18_init.

Example C18_nonvacuous :
  Endian.store16 Endian.LowByteFirst 0xABCD = [0xCD; 0xAB]
  /\ Endian.store16 Endian.HighByteFirst 0xABCD = [0xAB; 0xCD].
Proof. split; reflexivity. Qed.

(** ** C19, C20 bcc *)

(** Any history at all: every result is the specified one. *)
Theorem C19_history : forall cs,
  observe Bcc.step Bcc.New cs =
  Ret (trace (fun ws => xor_all (concat ws)) (fun v => [v]) 1 1 [] cs).
Proof. exact bcc_observe. Qed.
Print Assumptions C19_history.

Example C19_nonvacuous :
  observe Bcc.step Bcc.New
    [CWrite [1;2]; CSum [7]; CWrite []; CWrite [4]; CValue; CReset; CValue; CWrite [9]; CValue] =
  Ret [RWrite 2; RSum [7;3]; RWrite 0; RWrite 1; RValue 7; RUnit; RValue 0; RWrite 1; RValue 9].
Proof. reflexivity. Qed.

Theorem C20_single_byte : forall pre x y post, x <> y ->
  exists n v w,
  observe Bcc.step Bcc.New [CWrite (pre ++ x :: post); CValue] = Ret [RWrite n; RValue v] /\
  observe Bcc.step Bcc.New [CWrite (pre ++ y :: post); CValue] = Ret [RWrite n; RValue w] /\
  v <> w.
Proof. exact bcc_detects. Qed.
Print Assumptions C20_single_byte.

Theorem C20_verifies : forall m, exists v,
  observe Bcc.step Bcc.New [CWrite m; CValue] = Ret [RWrite (length m); RValue v] /\
  observe Bcc.step Bcc.New [CWrite (m ++ [v]); CValue] = Ret [RWrite (S (length m)); RValue 0].
Proof. exact bcc_verify. Qed.
Print Assumptions C20_verifies.

Theorem C20_order : forall m m', Permutation m m' ->
  observe Bcc.step Bcc.New [CWrite m; CValue] = observe Bcc.step Bcc.New [CWrite m'; CValue].
Proof. exact bcc_permutation. Qed.
Print Assumptions C20_order.

Theorem C20_byte : forall m, bytes_ok m -> exists v,
  observe Bcc.step Bcc.New [CWrite m; CValue] = Ret [RWrite (length m); RValue v] /\ v < 256.
Proof. exact bcc_byte. Qed.
Print Assumptions C20_byte.

Example C20_nonvacuous :
  observe Bcc.step Bcc.New [CWrite [0xFF;0xEE;0xDD]; CValue] = Ret [RWrite 3; RValue 0xcc]
  /\ Permutation [0xFF;0xEE;0xDD] [0xDD;0xFF;0xEE].
Proof.
  split; [reflexivity|].
  apply Permutation_sym, (Permutation_cons_append [0xFF;0xEE] 0xDD).
Qed.

(** ** C21, C22 lrc *)

Theorem C21_one_write : forall p, exists v,
  observe Lrc.step Lrc.New [CWrite p; CValue] = Ret [RWrite (length p); RValue v]
  /\ v < 256 /\ (v + sum_all p) mod 256 = 0 /\ Z.of_N v = ((- Z.of_N (sum_all p)) mod 256)%Z.
Proof. exact lrc_one. Qed.
Print Assumptions C21_one_write.

Example C21_nonvacuous :
  observe Lrc.step Lrc.New [CWrite [1;2;3]; CValue] = Ret [RWrite 3; RValue 0xfa].
Proof. reflexivity. Qed.

(** C22 in full would be: for all p q, the value after Write(p);Write(q) is the
    value after Write(p++q).  It is false: *)
Theorem C22_split_refuted : exists p q v w,
  observe Lrc.step Lrc.New [CWrite p; CWrite q; CValue]
    = Ret [RWrite (length p); RWrite (length q); RValue v] /\
  observe Lrc.step Lrc.New [CWrite (p ++ q); CValue]
    = Ret [RWrite (length (p ++ q)); RValue w] /\ v <> w.
Proof. exact lrc_refuted. Qed.
Print Assumptions C22_split_refuted.

(** What every history does instead: the sign alternates with each write. *)
Theorem C22_history_partial : forall cs,
  observe Lrc.step Lrc.New cs =
  Ret (trace (fun ws => Z.to_N (alternating ws mod 256)) (fun v => [v]) 1 1 [] cs).
Proof. exact lrc_observe. Qed.
Print Assumptions C22_history_partial.

(** A split in two is harmless exactly when the first part sums to 0 mod 128. *)
Theorem C22_two_writes_partial : forall p q vs v ws w,
  observe Lrc.step Lrc.New [CWrite p; CWrite q; CValue] = Ret (vs ++ [RValue v]) ->
  observe Lrc.step Lrc.New [CWrite (p ++ q); CValue] = Ret (ws ++ [RValue w]) ->
  (v = w <-> sum_all p mod 128 = 0).
Proof. exact lrc_split. Qed.
Print Assumptions C22_two_writes_partial.

Example C22_nonvacuous :
  observe Lrc.step Lrc.New [CWrite [1]; CWrite [2]; CValue] = Ret [RWrite 1; RWrite 1; RValue 255]
  /\ observe Lrc.step Lrc.New [CWrite [1;2]; CValue] = Ret [RWrite 2; RValue 253]
  /\ observe Lrc.step Lrc.New [CWrite [64;64]; CWrite [2]; CValue] = Ret [RWrite 2; RWrite 1; RValue 126]
  /\ observe Lrc.step Lrc.New [CWrite [64;64;2]; CValue] = Ret [RWrite 3; RValue 126].
Proof. repeat split; reflexivity. Qed.

(** ** C23, C24 fletcher 16 *)

Theorem C23_history : forall cs,
  calls_ok cs -> writes_ok (fun p => N.of_nat (length p) <= 5802) cs ->
  observe Fletcher.step16 Fletcher.New cs =
  Ret (trace (fun ws => fletcher 255 (2 ^ 8) (concat ws)) (big_endian 2) 2 1 [] cs).
Proof. exact fletcher16_observe. Qed.
Print Assumptions C23_history.

(** "abcde" in one and in two writes: 0xC8F0. *)
Example C23_nonvacuous :
  observe Fletcher.step16 Fletcher.New [CWrite [97;98;99;100;101]; CValue] = Ret [RWrite 5; RValue 0xC8F0]
  /\ observe Fletcher.step16 Fletcher.New [CWrite [97;98]; CWrite [99;100;101]; CValue; CSum [1]]
     = Ret [RWrite 2; RWrite 3; RValue 0xC8F0; RSum [1; 0xC8; 0xF0]]
  /\ fletcher 255 (2 ^ 8) [97;98;99;100;101] = 0xC8F0.
Proof. repeat split; vm_compute; reflexivity. Qed.

(** C24 in full: C23_history without the bound on the write length.  False in
    two ways: a panic, and a wrong checksum. *)
Theorem C24_panic_refuted : exists p, bytes_ok p /\
  observe Fletcher.step16 Fletcher.New [CWrite p] = Panic.
Proof. exact fletcher16_panics. Qed.
Print Assumptions C24_panic_refuted.

Theorem C24_value_refuted : exists p q v, bytes_ok p /\ bytes_ok q /\
  observe Fletcher.step16 Fletcher.New [CWrite p; CWrite q; CValue]
    = Ret [RWrite (length p); RWrite (length q); RValue v]
  /\ v <> fletcher 255 (2 ^ 8) (p ++ q).
Proof. exact fletcher16_wrong. Qed.
Print Assumptions C24_value_refuted.

(** Exactly which single writes panic, after any history of short writes. *)
Theorem C24_panic_partial : forall cs p,
  calls_ok cs -> writes_ok (fun q => N.of_nat (length q) <= 5802) cs -> bytes_ok p ->
  (observe Fletcher.step16 Fletcher.New (cs ++ [CWrite p]) = Panic <->
     5803 < N.of_nat (length p) /\ N.of_nat (length p) mod 5803 <> 0)
  /\ observe Fletcher.step16 Fletcher.New (cs ++ [CWrite p]) <> OutOfFuel.
Proof. exact fletcher16_long. Qed.
Print Assumptions C24_panic_partial.

(** Exactly when a write of up to 5803 bytes gives the right value: when the
    unreduced second sum of the batch fits in 32 bits. *)
Theorem C24_value_partial : forall cs p m,
  calls_ok cs -> writes_ok (fun q => N.of_nat (length q) <= 5802) cs -> bytes_ok p ->
  N.of_nat (length p) <= 5803 -> m = concat (since_reset [] cs) ->
  exists rs v, observe Fletcher.step16 Fletcher.New (cs ++ [CWrite p; CValue]) = Ret (rs ++ [RValue v])
  /\ (v = fletcher 255 (2 ^ 8) (m ++ p) <->
      fletcher_b 255 m + N.of_nat (length p) * fletcher_a 255 m + sum_all (prefix_sums p) < 2 ^ 32).
Proof. exact fletcher16_5803. Qed.
Print Assumptions C24_value_partial.

(** Every history, whatever the lengths written: a panic as soon as one write
    is longer than 5803 bytes and not a multiple of 5803; otherwise the value
    has the right first sum and a second sum short of one for every batch of
    5803 bytes that did not fit in 32 bits. *)
Theorem C24_exact_partial : forall cs, calls_ok cs ->
  (writes_ok f16_len cs ->
     observe Fletcher.step16 Fletcher.New cs = Ret (trace f16_value (big_endian 2) 2 1 [] cs)) /\
  (~ writes_ok f16_len cs -> observe Fletcher.step16 Fletcher.New cs = Panic).
Proof. exact f16_exact. Qed.
Print Assumptions C24_exact_partial.

(** So the value is right exactly when the number of such batches is a multiple
    of 255. *)
Theorem C24_right_partial : forall ws, Forall bytes_ok ws -> Forall f16_len ws ->
  exists v, observe Fletcher.step16 Fletcher.New (map CWrite ws ++ [CValue])
    = Ret (map (fun p => RWrite (length p)) ws ++ [RValue v])
  /\ (v = fletcher 255 (2 ^ 8) (concat ws) <-> f16_lost ws mod 255 = 0).
Proof. exact f16_writes_right. Qed.
Print Assumptions C24_right_partial.

(** A write of two batches and one of an accepted and one of a refused length;
    values of a short history. *)
Example C24_exact_nonvacuous :
  f16_len (repeat 255 (N.to_nat 11606)) /\ ~ f16_len (repeat 255 (N.to_nat 11607))
  /\ f16_lost [[254]; [1; 255]] = 0
  /\ trace f16_value (big_endian 2) 2 1 [] [CWrite [254]; CWrite [1; 255]; CValue; CSum []]
     = [RWrite 1; RWrite 2; RValue (fletcher 255 (2 ^ 8) [254; 1; 255]); RSum [254; 0]].
Proof.
  unfold f16_len. rewrite !repeat_length, !N2Nat.id. split; [right; reflexivity|].
  split; [intros [H|H]; [apply H; reflexivity|discriminate H]|].
  split; vm_compute; reflexivity.
Qed.

(** A history before the write; the condition holds here and fails in the case
    of C24_value_refuted. *)
Example C24_nonvacuous :
  let cs := [CWrite [1; 2]; CReset; CWrite [7]] in
  let p := repeat 255 20 in
  calls_ok cs /\ writes_ok (fun q => N.of_nat (length q) <= 5802) cs /\ concat (since_reset [] cs) = [7]
  /\ fletcher_b 255 [7] + N.of_nat (length p) * fletcher_a 255 [7] + sum_all (prefix_sums p) < 2 ^ 32
  /\ observe Fletcher.step16 Fletcher.New (cs ++ [CWrite p; CValue])
    = Ret [RWrite 2; RUnit; RWrite 1; RWrite 20; RValue (fletcher 255 (2 ^ 8) (7 :: p))].
Proof.
  split; [repeat constructor|]. split; [repeat constructor; vm_compute; discriminate|].
  split; [reflexivity|]. split; vm_compute; reflexivity.
Qed.

(** ** C25-C28 fletcher 32 and 64 *)

Theorem C25_one_write : forall m, bytes_ok m ->
  observe Fletcher.step32 Fletcher.New [CWrite m; CValue] =
  Ret [RWrite (length m); RValue (fletcher 65535 (2 ^ 16) (words16 m))].
Proof. exact fletcher32_one. Qed.
Print Assumptions C25_one_write.

(** "abcde": 0xF04FC729. *)
Example C25_nonvacuous :
  observe Fletcher.step32 Fletcher.New [CWrite [97;98;99;100;101]; CValue] = Ret [RWrite 5; RValue 0xF04FC729].
Proof. vm_compute. reflexivity. Qed.

(** C26 in full (any split) is false: *)
Theorem C26_split_refuted : exists p q v w, bytes_ok p /\ bytes_ok q /\
  observe Fletcher.step32 Fletcher.New [CWrite p; CWrite q; CValue]
    = Ret [RWrite (length p); RWrite (length q); RValue v] /\
  observe Fletcher.step32 Fletcher.New [CWrite (p ++ q); CValue]
    = Ret [RWrite (length (p ++ q)); RValue w] /\ v <> w.
Proof. exact fletcher32_refuted. Qed.
Print Assumptions C26_split_refuted.

(** Every history: each write is padded to whole words on its own. *)
Theorem C26_history_partial : forall cs, calls_ok cs ->
  observe Fletcher.step32 Fletcher.New cs =
  Ret (trace (fun ws => fletcher 65535 (2 ^ 16) (flat_map words16 ws)) (big_endian 4) 4 2 [] cs).
Proof. exact fletcher32_observe. Qed.
Print Assumptions C26_history_partial.

(** Splits at even positions are harmless. *)
Theorem C26_aligned_partial : forall ws, Forall bytes_ok ws ->
  Forall (fun p => Nat.even (length p) = true) (removelast ws) ->
  observe Fletcher.step32 Fletcher.New (map CWrite ws ++ [CValue]) =
  Ret (map (fun p => RWrite (length p)) ws ++ [RValue (fletcher 65535 (2 ^ 16) (words16 (concat ws)))]).
Proof. exact fletcher32_aligned. Qed.
Print Assumptions C26_aligned_partial.

Example C26_nonvacuous :
  Forall (fun p => Nat.even (length p) = true) (removelast [[97;98];[];[99;100;101]])
  /\ observe Fletcher.step32 Fletcher.New [CWrite [97;98]; CWrite []; CWrite [99;100;101]; CValue]
     = Ret [RWrite 2; RWrite 0; RWrite 3; RValue 0xF04FC729].
Proof. split; [repeat constructor|vm_compute; reflexivity]. Qed.

Theorem C27_one_write : forall m, bytes_ok m ->
  observe Fletcher.step64 Fletcher.New [CWrite m; CValue] =
  Ret [RWrite (length m); RValue (fletcher 4294967295 (2 ^ 32) (words32 m))].
Proof. exact fletcher64_one. Qed.
Print Assumptions C27_one_write.

(** "abcde": 0xC8C6C527646362C6. *)
Example C27_nonvacuous :
  observe Fletcher.step64 Fletcher.New [CWrite [97;98;99;100;101]; CValue]
  = Ret [RWrite 5; RValue 0xC8C6C527646362C6].
Proof. vm_compute. reflexivity. Qed.

Theorem C28_split_refuted : exists p q v w, bytes_ok p /\ bytes_ok q /\
  observe Fletcher.step64 Fletcher.New [CWrite p; CWrite q; CValue]
    = Ret [RWrite (length p); RWrite (length q); RValue v] /\
  observe Fletcher.step64 Fletcher.New [CWrite (p ++ q); CValue]
    = Ret [RWrite (length (p ++ q)); RValue w] /\ v <> w.
Proof. exact fletcher64_refuted. Qed.
Print Assumptions C28_split_refuted.

Theorem C28_history_partial : forall cs, calls_ok cs ->
  observe Fletcher.step64 Fletcher.New cs =
  Ret (trace (fun ws => fletcher 4294967295 (2 ^ 32) (flat_map words32 ws)) (big_endian 8) 8 4 [] cs).
Proof. exact fletcher64_observe. Qed.
Print Assumptions C28_history_partial.

Theorem C28_aligned_partial : forall ws, Forall bytes_ok ws ->
  Forall (fun p => (length p mod 4 = 0)%nat) (removelast ws) ->
  observe Fletcher.step64 Fletcher.New (map CWrite ws ++ [CValue]) =
  Ret (map (fun p => RWrite (length p)) ws ++
       [RValue (fletcher 4294967295 (2 ^ 32) (words32 (concat ws)))]).
Proof. exact fletcher64_aligned. Qed.
Print Assumptions C28_aligned_partial.

Example C28_nonvacuous :
  observe Fletcher.step64 Fletcher.New [CWrite [97;98;99;100]; CWrite [101]; CValue]
  = Ret [RWrite 4; RWrite 1; RValue 0xC8C6C527646362C6].
Proof. vm_compute. reflexivity. Qed.

(** ** C29 interface laws: after any history the observable results of Sum,
    Size, BlockSize, Reset and Write are those of [trace]; in particular: *)

Theorem C29_sum16 : forall cs inp,
  calls_ok cs -> writes_ok f16_len cs -> bytes_ok inp ->
  exists rs v, observe Fletcher.step16 Fletcher.New (cs ++ [CValue; CSum inp; CSize; CValue])
    = Ret (rs ++ [RValue v; RSum (inp ++ big_endian 2 v); RInt 2; RValue v])
  /\ observe Fletcher.step16 Fletcher.New (cs ++ [CValue; CSum inp; CReset; CValue])
    = Ret (rs ++ [RValue v; RSum (inp ++ big_endian 2 v); RUnit; RValue 0]).
Proof.
  intros cs inp H W Hi. apply (iface_generic _ _ f16_value (big_endian 2) 2 1); [|reflexivity].
  intros tl Ht. apply f16_exact; [eapply iface_calls_ok; eassumption|].
  apply Forall_app. split; [exact W|]. destruct Ht as [->| ->]; repeat constructor.
Qed.
Print Assumptions C29_sum16.

Theorem C29_sum32 : forall cs inp, calls_ok cs -> bytes_ok inp ->
  exists rs v, observe Fletcher.step32 Fletcher.New (cs ++ [CValue; CSum inp; CSize; CValue])
    = Ret (rs ++ [RValue v; RSum (inp ++ big_endian 4 v); RInt 4; RValue v])
  /\ observe Fletcher.step32 Fletcher.New (cs ++ [CValue; CSum inp; CReset; CValue])
    = Ret (rs ++ [RValue v; RSum (inp ++ big_endian 4 v); RUnit; RValue 0]).
Proof. exact fletcher32_iface. Qed.
Print Assumptions C29_sum32.

Theorem C29_sum64 : forall cs inp, calls_ok cs -> bytes_ok inp ->
  exists rs v, observe Fletcher.step64 Fletcher.New (cs ++ [CValue; CSum inp; CSize; CValue])
    = Ret (rs ++ [RValue v; RSum (inp ++ big_endian 8 v); RInt 8; RValue v])
  /\ observe Fletcher.step64 Fletcher.New (cs ++ [CValue; CSum inp; CReset; CValue])
    = Ret (rs ++ [RValue v; RSum (inp ++ big_endian 8 v); RUnit; RValue 0]).
Proof. exact fletcher64_iface. Qed.
Print Assumptions C29_sum64.

(** In every reachable state Write takes everything, and after Reset every call
    has the reply it has on a new hash. *)
Theorem C29_write : forall cs p, calls_ok cs -> bytes_ok p ->
  (writes_ok f16_len cs -> f16_len p ->
     exists rs, observe Fletcher.step16 Fletcher.New (cs ++ [CWrite p]) = Ret (rs ++ [RWrite (length p)])) /\
  (exists rs, observe Fletcher.step32 Fletcher.New (cs ++ [CWrite p]) = Ret (rs ++ [RWrite (length p)])) /\
  exists rs, observe Fletcher.step64 Fletcher.New (cs ++ [CWrite p]) = Ret (rs ++ [RWrite (length p)]).
Proof.
  intros cs p H B.
  assert (O : calls_ok (cs ++ [CWrite p])) by (apply Forall_app; split; [exact H|repeat constructor; exact B]).
  split; [|split].
  - intros W L. rewrite (proj1 (f16_exact _ O)); [rewrite trace_app; eexists; reflexivity|].
    apply Forall_app. split; [exact W|]. constructor; [exact L|constructor].
  - rewrite fletcher32_observe by exact O. rewrite trace_app. eexists. reflexivity.
  - rewrite fletcher64_observe by exact O. rewrite trace_app. eexists. reflexivity.
Qed.
Print Assumptions C29_write.

Theorem C29_reset : forall cs cs', calls_ok cs -> calls_ok cs' ->
  (writes_ok f16_len (cs ++ cs') ->
     exists rs rs', observe Fletcher.step16 Fletcher.New cs' = Ret rs' /\
       observe Fletcher.step16 Fletcher.New (cs ++ CReset :: cs') = Ret (rs ++ RUnit :: rs')) /\
  (exists rs rs', observe Fletcher.step32 Fletcher.New cs' = Ret rs' /\
     observe Fletcher.step32 Fletcher.New (cs ++ CReset :: cs') = Ret (rs ++ RUnit :: rs')) /\
  exists rs rs', observe Fletcher.step64 Fletcher.New cs' = Ret rs' /\
     observe Fletcher.step64 Fletcher.New (cs ++ CReset :: cs') = Ret (rs ++ RUnit :: rs').
Proof.
  intros cs cs' H H'.
  assert (O : calls_ok (cs ++ CReset :: cs')) by (apply Forall_app; split; [exact H|constructor; [exact Logic.I|exact H']]).
  split; [|split].
  - intros W. apply Forall_app in W. destruct W as [W W'].
    rewrite (proj1 (f16_exact _ O)) by (apply Forall_app; split; [exact W|constructor; [exact Logic.I|exact W']]).
    rewrite (proj1 (f16_exact _ H') W'). rewrite trace_app. do 2 eexists. split; reflexivity.
  - rewrite !fletcher32_observe by assumption. rewrite trace_app. do 2 eexists. split; reflexivity.
  - rewrite !fletcher64_observe by assumption. rewrite trace_app. do 2 eexists. split; reflexivity.
Qed.
Print Assumptions C29_reset.

Example C29_nonvacuous : calls_ok [CWrite [1;2]; CSum [3]; CReset; CWrite [4]].
Proof. repeat constructor. Qed.

(** ** C30 error detection ([differ]: both checksums exist and are different) *)

Theorem C30_change16 : forall pre x y post,
  bytes_ok (pre ++ x :: post) -> bytes_ok (pre ++ y :: post) ->
  N.of_nat (length (pre ++ x :: post)) <= 5802 -> x mod 255 <> y mod 255 ->
  differ Fletcher.step16 Fletcher.New (pre ++ x :: post) (pre ++ y :: post).
Proof. exact fletcher16_change. Qed.
Print Assumptions C30_change16.

Theorem C30_swap16 : forall pre x y post,
  bytes_ok (pre ++ x :: y :: post) ->
  N.of_nat (length (pre ++ x :: y :: post)) <= 5802 -> x mod 255 <> y mod 255 ->
  differ Fletcher.step16 Fletcher.New (pre ++ x :: y :: post) (pre ++ y :: x :: post).
Proof. exact fletcher16_swap. Qed.
Print Assumptions C30_swap16.

Theorem C30_change32 : forall pre x1 x2 y1 y2 post,
  bytes_ok (pre ++ x1 :: x2 :: post) -> bytes_ok (pre ++ y1 :: y2 :: post) ->
  Nat.even (length pre) = true ->
  (x1 + 256 * x2) mod 65535 <> (y1 + 256 * y2) mod 65535 ->
  differ Fletcher.step32 Fletcher.New (pre ++ x1 :: x2 :: post) (pre ++ y1 :: y2 :: post).
Proof. exact fletcher32_change. Qed.
Print Assumptions C30_change32.

Theorem C30_swap32 : forall pre x1 x2 y1 y2 post,
  bytes_ok (pre ++ x1 :: x2 :: y1 :: y2 :: post) ->
  Nat.even (length pre) = true ->
  (x1 + 256 * x2) mod 65535 <> (y1 + 256 * y2) mod 65535 ->
  differ Fletcher.step32 Fletcher.New (pre ++ x1 :: x2 :: y1 :: y2 :: post)
                                      (pre ++ y1 :: y2 :: x1 :: x2 :: post).
Proof. exact fletcher32_swap. Qed.
Print Assumptions C30_swap32.

Theorem C30_change64 : forall pre w v post,
  bytes_ok (pre ++ word32_bytes w ++ post) -> bytes_ok (pre ++ word32_bytes v ++ post) ->
  (length pre mod 4 = 0)%nat ->
  word32 w mod 4294967295 <> word32 v mod 4294967295 ->
  differ Fletcher.step64 Fletcher.New (pre ++ word32_bytes w ++ post) (pre ++ word32_bytes v ++ post).
Proof. exact fletcher64_change. Qed.
Print Assumptions C30_change64.

Theorem C30_swap64 : forall pre w v post,
  bytes_ok (pre ++ word32_bytes w ++ word32_bytes v ++ post) ->
  (length pre mod 4 = 0)%nat ->
  word32 w mod 4294967295 <> word32 v mod 4294967295 ->
  differ Fletcher.step64 Fletcher.New (pre ++ word32_bytes w ++ word32_bytes v ++ post)
                                      (pre ++ word32_bytes v ++ word32_bytes w ++ post).
Proof. exact fletcher64_swap. Qed.
Print Assumptions C30_swap64.

(** Fletcher-32 and -64 see every single-byte change, at any position (also in
    a short last word) and for any two byte values. *)
Theorem C30_byte32 : forall pre x y post,
  bytes_ok (pre ++ x :: post) -> bytes_ok (pre ++ y :: post) -> x <> y ->
  differ Fletcher.step32 Fletcher.New (pre ++ x :: post) (pre ++ y :: post).
Proof. exact fletcher32_byte. Qed.
Print Assumptions C30_byte32.

Theorem C30_byte64 : forall pre x y post,
  bytes_ok (pre ++ x :: post) -> bytes_ok (pre ++ y :: post) -> x <> y ->
  differ Fletcher.step64 Fletcher.New (pre ++ x :: post) (pre ++ y :: post).
Proof. exact fletcher64_byte. Qed.
Print Assumptions C30_byte64.

(** 0 and 255 are the same modulo 255 and do collide: the hypothesis is needed. *)
Example C30_nonvacuous :
  differ Fletcher.step16 Fletcher.New [1;2;3] [1;7;3]
  /\ observe Fletcher.step16 Fletcher.New [CWrite [1;0;3]; CValue]
     = observe Fletcher.step16 Fletcher.New [CWrite [1;255;3]; CValue].
Proof.
  split; [|vm_compute; reflexivity].
  apply (C30_change16 [1] 2 7 [3]); try (repeat constructor); vm_compute; discriminate.
Qed.

(** ** C31-C33 luhn *)

Theorem C31_valid_unique : forall ds, digits_ok ds -> digits_value ds < 2 ^ 64 ->
  exists c, Luhn.Checksum (digits_value ds) = Ret c /\ c < 10 /\ luhn_valid (c :: ds)
  /\ forall d, d < 10 -> luhn_valid (d :: ds) -> d = c.
Proof. exact luhn_digit. Qed.
Print Assumptions C31_valid_unique.

(** Every uint64 has a decimal writing, so C31 covers every argument. *)
Theorem C31_total : forall i, i < 2 ^ 64 ->
  exists ds, digits_ok ds /\ digits_value ds = i /\ exists c, Luhn.Checksum i = Ret c /\ c < 10.
Proof. exact luhn_total. Qed.
Print Assumptions C31_total.

(** 7992739871 -> 3 *)
Example C31_nonvacuous : digits_value [1;7;8;9;3;7;2;9;9;7] = 7992739871
  /\ Luhn.Checksum 7992739871 = Ret 3.
Proof. split; vm_compute; reflexivity. Qed.

Theorem C32_single_digit : forall pre d e post,
  digits_ok (pre ++ d :: post) -> digits_ok (pre ++ e :: post) -> d <> e ->
  digits_value (pre ++ d :: post) < 2 ^ 64 -> digits_value (pre ++ e :: post) < 2 ^ 64 ->
  Luhn.Checksum (digits_value (pre ++ d :: post)) <> Luhn.Checksum (digits_value (pre ++ e :: post)).
Proof. exact luhn_single. Qed.
Print Assumptions C32_single_digit.

Example C32_nonvacuous : Luhn.Checksum 7992739871 = Ret 3 /\ Luhn.Checksum 7992739971 = Ret 1.
Proof. split; vm_compute; reflexivity. Qed.

Theorem C33_transposition : forall pre d e post,
  digits_ok (pre ++ d :: e :: post) ->
  digits_value (pre ++ d :: e :: post) < 2 ^ 64 -> digits_value (pre ++ e :: d :: post) < 2 ^ 64 ->
  (Luhn.Checksum (digits_value (pre ++ d :: e :: post)) =
   Luhn.Checksum (digits_value (pre ++ e :: d :: post))
   <-> d = e \/ (d = 0 /\ e = 9) \/ (d = 9 /\ e = 0)).
Proof. exact luhn_swap. Qed.
Print Assumptions C33_transposition.

Example C33_nonvacuous : Luhn.Checksum 109 = Luhn.Checksum 190 /\ Luhn.Checksum 118 <> Luhn.Checksum 181.
Proof. split; [vm_compute; reflexivity|vm_compute; discriminate]. Qed.
