(** Properties C09-C17, C64 and C71-C75: package bytes.

    [content m s] is the list of bytes the slice [s] shows in memory [m];
    [le_value]/[be_value] are base-256 values of such lists. The theorems for
    the Add functions quantify over the tables [le_functions], [be_functions]
    and [platform_functions p] of (width in bytes, function) pairs. *)
From Verif Require Import Base.Go Base.Mem Spec.BytesSpec Model.Bytes Proofs.BytesProofs Proofs.BytesAlias Proofs.BytesInner.
Local Open Scope N_scope.

(** Memories for the examples. *)
Definition bytes_mem (l : list N) : mem := fun x => nth x l 0.
Lemma bytes_mem_ok l : forallb (fun x => x <? 256) l = true -> mem_ok (bytes_mem l).
Proof.
  intros H a. unfold bytes_mem. destruct (Nat.lt_ge_cases a (length l)) as [L|L].
  - apply N.ltb_lt. rewrite forallb_forall in H. apply H, nth_In, L.
  - rewrite nth_overflow by exact L. reflexivity.
Qed.
(** Results as lists: error flag, carry and the first [k] bytes of memory. *)
Definition show (k : nat) (r : outcome (mem * N * option error)) : outcome (list N * N * option error) :=
  let! (m, c, e) := r in Ret (map m (seq 0 k), c, e).

Example bytes_tables :
  map fst le_functions = [2;4;8;16;32;64]%nat /\ map fst be_functions = [2;4;8;16;32;64]%nat
  /\ map fst (platform_functions LittleEndian) = [2;4;8;16;32;64]%nat
  /\ map snd le_functions = [Add16LE; Add32LE; Add64LE; Add128LE; Add256LE; Add512LE]
  /\ map snd be_functions = [Add16BE; Add32BE; Add64BE; Add128BE; Add256BE; Add512BE]
  /\ forall p, map snd (platform_functions p) = [Add16 p; Add32 p; Add64 p; Add128 p; Add256 p; Add512 p].
Proof. repeat split. Qed.

(** ** C09 Zero *)

Theorem C09_zero : forall m t, exists m', Zero m t = Ret m'
  /\ (forall x, within t (len t) x -> m' x = 0) /\ only_changes m m' t (len t).
Proof. exact Zero_spec. Qed.
Print Assumptions C09_zero.

Example C09_nonvacuous :
  (let! m := Zero (fun _ => 7) (mkSlice 1 19) in Ret (map m (seq 0 22))) =
  Ret ([7] ++ repeat 0 19 ++ [7; 7]).
Proof. vm_compute. reflexivity. Qed.

(** ** C10 XorEq *)

Theorem C10_xor : forall m dst other,
  let n := Nat.min (len dst) (len other) in
  (off dst <= off other \/ off other + n <= off dst)%nat ->
  exists m', XorEq m dst other = Ret (m', n)
  /\ only_changes m m' dst n
  /\ (forall j, (j < n)%nat ->
        m' (off dst + j)%nat = N.lxor (m (off dst + j)%nat) (m (off other + j)%nat)).
Proof. exact XorEq_spec. Qed.
Print Assumptions C10_xor.

(** Any overlap: a byte of [other] that is an already updated byte of [dst]
    counts with its new value. *)
Theorem C10_overlap : forall m dst other,
  let n := Nat.min (len dst) (len other) in
  exists m', XorEq m dst other = Ret (m', n) /\ only_changes m m' dst n
  /\ forall j, (j < n)%nat -> exists o, m' (off dst + j)%nat = N.lxor (m (off dst + j)%nat) o
     /\ (within dst j (off other + j) -> o = m' (off other + j)%nat)
     /\ (~ within dst j (off other + j) -> o = m (off other + j)%nat).
Proof. exact XorEq_any. Qed.
Print Assumptions C10_overlap.

Theorem C10_twice : forall m dst other,
  let n := Nat.min (len dst) (len other) in
  (off dst + n <= off other \/ off other + n <= off dst)%nat ->
  exists m1 m2, XorEq m dst other = Ret (m1, n) /\ XorEq m1 dst other = Ret (m2, n)
  /\ forall x, m2 x = m x.
Proof. exact XorEq_twice. Qed.
Print Assumptions C10_twice.

Example C10_nonvacuous :
  (let! (m, n) := XorEq (bytes_mem [9; 1; 2; 3; 4; 5; 6; 7]) (mkSlice 1 3) (mkSlice 5 2) in
   Ret (map m (seq 0 8), n)) = Ret ([9; 4; 4; 3; 4; 5; 6; 7], 2%nat)
  /\ (let! (m, n) := XorEq (bytes_mem [9; 1; 2; 3; 4; 5; 6; 7]) (mkSlice 2 3) (mkSlice 1 3) in
   Ret (map m (seq 0 8), n)) = Ret ([9; 1; 3; 0; 4; 5; 6; 7], 3%nat).
Proof. split; vm_compute; reflexivity. Qed.

(** ** C11 little-endian addition *)

Theorem C11_le : forall n f m sum a b, In (n, f) le_functions -> mem_ok m -> (n <= len sum)%nat ->
  apart sum n b (Nat.min (len b) n) -> ~ (off sum = off a /\ 0 < len a < n)%nat ->
  let T := le_value (firstn n (content m a)) + le_value (firstn n (content m b)) in
  let W := 256 ^ N.of_nat n in
  exists m', f m sum a b = Ret (m', T / W, None) /\ T / W <= 1 /\ mem_ok m'
  /\ le_value (firstn n (content m' sum)) = T mod W /\ only_changes m m' sum n.
Proof. exact le_add. Qed.
Print Assumptions C11_le.

(** Ten bytes of memory for sum, five for a, eight for b: the carry runs
    through, the two bytes after sum[0:8] stay. *)
Example C11_nonvacuous :
  let l := repeat 170 10 ++ [1; 2; 3; 4; 5] ++ [255; 255; 255; 255; 255; 255; 255; 255] in
  let m := bytes_mem l in
  mem_ok m /\ apart (mkSlice 0 10) 8 (mkSlice 15 8) 8 /\ In (8%nat, Add64LE) le_functions
  /\ show 10 (Add64LE m (mkSlice 0 10) (mkSlice 10 5) (mkSlice 15 8))
     = Ret ([0; 2; 3; 4; 5; 0; 0; 0; 170; 170], 1, None).
Proof.
  split; [apply bytes_mem_ok; reflexivity|]. split; [intros x; unfold within; cbn [off]; lia|].
  split; [cbn [le_functions In]; auto|vm_compute; reflexivity].
Qed.

(** ** C12 big-endian addition *)

Theorem C12_be : forall n f m sum a b, In (n, f) be_functions -> mem_ok m -> (n <= len sum)%nat ->
  (len a <= n)%nat -> (len b <= n)%nat -> apart sum n a (len a) -> apart sum n b (len b) ->
  let T := be_value (content m a) + be_value (content m b) in
  let W := 256 ^ N.of_nat n in
  exists m', f m sum a b = Ret (m', T / W, None) /\ T / W <= 1 /\ mem_ok m'
  /\ be_value (firstn n (content m' sum)) = T mod W /\ only_changes m m' sum n.
Proof. exact be_add. Qed.
Print Assumptions C12_be.

Example C12_nonvacuous :
  let m := bytes_mem (repeat 170 10 ++ [1; 2; 3; 4; 5] ++ [255; 255; 255; 255; 255; 255; 255; 255]) in
  mem_ok m /\ apart (mkSlice 0 10) 8 (mkSlice 15 8) 8 /\ In (8%nat, Add64BE) be_functions
  /\ show 10 (Add64BE m (mkSlice 0 10) (mkSlice 10 5) (mkSlice 15 8))
     = Ret ([0; 0; 0; 1; 2; 3; 4; 4; 170; 170], 1, None).
Proof.
  split; [apply bytes_mem_ok; reflexivity|]. split; [intros x; unfold within; cbn [off]; lia|].
  split; [cbn [be_functions In]; auto|vm_compute; reflexivity].
Qed.

(** ** C13 over-long operands *)

(** Little endian: exactly as with all three cut to n bytes. *)
Theorem C13_le_partial : forall n f m sum a b, In (n, f) le_functions -> mem_ok m ->
  (n <= len sum)%nat -> (n <= len a)%nat -> (n <= len b)%nat -> apart sum n b n ->
  exists m1 m2 c, f m sum a b = Ret (m1, c, None)
  /\ f m (mkSlice (off sum) n) (mkSlice (off a) n) (mkSlice (off b) n) = Ret (m2, c, None)
  /\ (forall x, m1 x = m2 x) /\ only_changes m m1 sum n.
Proof. exact le_overlong. Qed.
Print Assumptions C13_le_partial.

(** Big endian: what really happens. The 16 and 32 bit functions use the first
    n bytes of b, the others its last n bytes; and sum after its first n bytes
    is overwritten with the rest of a. *)
Theorem C13_be_partial : forall n f m sum a b, In (n, f) be_functions -> mem_ok m ->
  (n <= len sum)%nat ->
  let w := Nat.max n (Nat.min (len sum) (len a)) in
  apart sum w b (len b) -> apart sum (n - len a) a (len a) ->
  let B := if Nat.leb n 4 then firstn n (content m b) else lastn n (content m b) in
  let T := be_value (firstn n (content m a)) + be_value B in
  let W := 256 ^ N.of_nat n in
  exists m', f m sum a b = Ret (m', T / W, None) /\ T / W <= 1 /\ mem_ok m'
  /\ be_value (firstn n (content m' sum)) = T mod W /\ only_changes m m' sum w
  /\ (forall i, (n <= i < w)%nat -> m' (off sum + i)%nat = m (off a + i)%nat).
Proof. exact be_add_exact. Qed.
Print Assumptions C13_be_partial.

Definition over_mem : mem := bytes_mem (repeat 0 9 ++ [1; 2; 3; 4; 5; 6; 7; 8; 9]).

(** The ninth byte of b decides the sum... *)
Theorem C13_be_second_refuted : exists m sum a b m' c,
  mem_ok m /\ len a = 0%nat /\ len b = 9%nat /\ len sum = 8%nat /\ apart sum 8 b 9
  /\ Add64BE m sum a b = Ret (m', c, None)
  /\ content m b = [1; 2; 3; 4; 5; 6; 7; 8; 9]
  /\ content m' sum = [2; 3; 4; 5; 6; 7; 8; 9].
Proof.
  exists over_mem, (mkSlice 0 8), (mkSlice 0 0), (mkSlice 9 9).
  eexists. eexists. split; [apply bytes_mem_ok; reflexivity|]. do 3 (split; [reflexivity|]).
  split; [intros x; unfold within; cbn [off]; lia|].
  split; [vm_compute; reflexivity|]. split; vm_compute; reflexivity.
Qed.
Print Assumptions C13_be_second_refuted.

(** ... and the ninth byte of a lands in sum[8]. *)
Theorem C13_be_first_refuted : exists m sum a b m' c,
  mem_ok m /\ len b = 0%nat /\ len a = 9%nat /\ len sum = 9%nat /\ apart sum 9 a 9
  /\ Add64BE m sum a b = Ret (m', c, None)
  /\ content m sum = [0; 0; 0; 0; 0; 0; 0; 0; 0]
  /\ content m' sum = [1; 2; 3; 4; 5; 6; 7; 8; 9].
Proof.
  exists over_mem, (mkSlice 0 9), (mkSlice 9 9), (mkSlice 0 0).
  eexists. eexists. split; [apply bytes_mem_ok; reflexivity|]. do 3 (split; [reflexivity|]).
  split; [intros x; unfold within; cbn [off]; lia|].
  split; [vm_compute; reflexivity|]. split; vm_compute; reflexivity.
Qed.
Print Assumptions C13_be_first_refuted.

Example C13_nonvacuous :
  let m := bytes_mem ([170; 170; 170] ++ [255; 1; 77; 78] ++ [2; 0; 99]) in
  show 3 (Add16LE m (mkSlice 0 3) (mkSlice 3 4) (mkSlice 7 3)) = Ret ([1; 2; 170], 0, None)
  /\ show 3 (Add16LE m (mkSlice 0 2) (mkSlice 3 2) (mkSlice 7 2)) = Ret ([1; 2; 170], 0, None).
Proof. split; vm_compute; reflexivity. Qed.

(** ** C14 too small a destination *)

Theorem C14_le_be_partial : forall n f m sum a b, In (n, f) le_functions \/ In (n, f) be_functions ->
  (len sum < n)%nat -> f m sum a b = Ret (m, 0, Some NotEnoughSpace).
Proof. exact short_both. Qed.
Print Assumptions C14_le_be_partial.

Theorem C14_platform_partial : forall p n f m sum a b, In (n, f) (platform_functions p) ->
  (len sum < n)%nat -> (4 < n)%nat -> f m sum a b = Ret (m, 0, Some NotEnoughSpace).
Proof. exact short_platform. Qed.
Print Assumptions C14_platform_partial.

(** Add16 and Add32 always crash. *)
Theorem C14_platform_exact_partial : forall p n f m sum a b, In (n, f) (platform_functions p) ->
  (len sum < n)%nat -> (n <= 4)%nat -> f m sum a b = Panic.
Proof. exact short_platform_panic. Qed.
Print Assumptions C14_platform_exact_partial.

Theorem C14_platform_refuted : exists m sum a b,
  mem_ok m /\ (len sum < 2)%nat /\ forall p, Add16 p m sum a b = Panic /\ Add32 p m sum a b = Panic.
Proof.
  exists over_mem, (mkSlice 0 1), (mkSlice 9 2), (mkSlice 11 2).
  split; [apply bytes_mem_ok; reflexivity|]. split; [cbn [len]; lia|].
  intros p. destruct p; split; vm_compute; reflexivity.
Qed.
Print Assumptions C14_platform_refuted.

(** ** C15 platform addition *)

(** Position k of the platform table against position k of the table of the
    native order; both have the same width. *)
Theorem C15_native : forall p k n f g m sum a b,
  nth_error (platform_functions p) k = Some (n, f) ->
  nth_error (match p with LittleEndian => le_functions | BigEndian => be_functions end) k = Some (n, g) ->
  (n <= len sum)%nat -> f m sum a b = g m sum a b.
Proof. exact platform_native. Qed.
Print Assumptions C15_native.

Example C15_nonvacuous :
  let m := bytes_mem [0; 0; 1; 200; 2; 100] in
  show 2 (Add16 LittleEndian m (mkSlice 0 2) (mkSlice 2 2) (mkSlice 4 2)) = Ret ([3; 44], 1, None)
  /\ show 2 (Add16 BigEndian m (mkSlice 0 2) (mkSlice 2 2) (mkSlice 4 2)) = Ret ([4; 44], 0, None).
Proof. split; vm_compute; reflexivity. Qed.

(** ** C16 addition commutes *)

Theorem C16_le_partial : forall n f m sum a b, In (n, f) le_functions -> mem_ok m -> (n <= len sum)%nat ->
  apart sum n a (len a) -> apart sum n b (len b) ->
  exists m1 m2 c, f m sum a b = Ret (m1, c, None) /\ f m sum b a = Ret (m2, c, None)
  /\ forall x, m1 x = m2 x.
Proof. exact le_commutes. Qed.
Print Assumptions C16_le_partial.

(** Missing for big endian: operands longer than n. *)
Theorem C16_be_partial : forall n f m sum a b, In (n, f) be_functions -> mem_ok m -> (n <= len sum)%nat ->
  (len a <= n)%nat -> (len b <= n)%nat -> apart sum n a (len a) -> apart sum n b (len b) ->
  exists m1 m2 c, f m sum a b = Ret (m1, c, None) /\ f m sum b a = Ret (m2, c, None)
  /\ forall x, m1 x = m2 x.
Proof. exact be_commutes. Qed.
Print Assumptions C16_be_partial.

Theorem C16_be_refuted : exists m sum a b m1 m2 c,
  mem_ok m /\ len sum = 8%nat /\ apart sum 8 a (len a) /\ apart sum 8 b (len b)
  /\ Add64BE m sum a b = Ret (m1, c, None) /\ Add64BE m sum b a = Ret (m2, c, None)
  /\ content m1 sum <> content m2 sum.
Proof.
  exists over_mem, (mkSlice 0 8), (mkSlice 9 9), (mkSlice 8 1). eexists. eexists. eexists.
  split; [apply bytes_mem_ok; reflexivity|]. split; [reflexivity|].
  split; [intros x; unfold within; cbn [off len]; lia|].
  split; [intros x; unfold within; cbn [off len]; lia|].
  split; [vm_compute; reflexivity|]. split; [vm_compute; reflexivity|]. vm_compute. discriminate.
Qed.
Print Assumptions C16_be_refuted.

Example C16_nonvacuous :
  let m := bytes_mem [0; 0; 0; 0; 1; 200; 7; 2; 100] in
  show 4 (Add32LE m (mkSlice 0 4) (mkSlice 4 3) (mkSlice 7 2)) = Ret ([3; 44; 8; 0], 0, None)
  /\ show 4 (Add32LE m (mkSlice 0 4) (mkSlice 7 2) (mkSlice 4 3)) = Ret ([3; 44; 8; 0], 0, None).
Proof. split; vm_compute; reflexivity. Qed.

(** ** C17 in-place accumulation *)

Theorem C17_le_partial : forall n f m x b, In (n, f) le_functions -> mem_ok m -> (n <= len x)%nat ->
  apart x n b (Nat.min (len b) n) ->
  let T := le_value (firstn n (content m x)) + le_value (firstn n (content m b)) in
  exists m', f m x x b = Ret (m', T / 256 ^ N.of_nat n, None)
  /\ le_value (firstn n (content m' x)) = T mod 256 ^ N.of_nat n /\ only_changes m m' x n.
Proof. exact le_inplace. Qed.
Print Assumptions C17_le_partial.

Theorem C17_be_partial : forall n f m x b, In (n, f) be_functions -> mem_ok m -> (n <= len x)%nat ->
  (len b <= n)%nat -> apart x (len x) b (len b) ->
  let T := be_value (firstn n (content m x)) + be_value (content m b) in
  exists m', f m x x b = Ret (m', T / 256 ^ N.of_nat n, None)
  /\ be_value (firstn n (content m' x)) = T mod 256 ^ N.of_nat n /\ only_changes m m' x n.
Proof. exact be_inplace. Qed.
Print Assumptions C17_be_partial.

(** Big endian, second operand of any length (see C13 for which of its bytes). *)
Theorem C17_be_any_partial : forall n f m x b, In (n, f) be_functions -> mem_ok m -> (n <= len x)%nat ->
  apart x (len x) b (len b) ->
  let B := if Nat.leb n 4 then firstn n (content m b) else lastn n (content m b) in
  let T := be_value (firstn n (content m x)) + be_value B in
  exists m', f m x x b = Ret (m', T / 256 ^ N.of_nat n, None)
  /\ be_value (firstn n (content m' x)) = T mod 256 ^ N.of_nat n /\ only_changes m m' x n.
Proof. exact be_inplace_exact. Qed.
Print Assumptions C17_be_any_partial.

(** A prefix of the destination as first operand counts, little endian, as the
    whole destination. *)
Theorem C17_le_prefix_partial : forall n f m x k b, In (n, f) le_functions -> mem_ok m ->
  (n <= len x)%nat -> (0 < k < n)%nat -> apart x n b (Nat.min (len b) n) ->
  let T := le_value (firstn n (content m x)) + le_value (firstn n (content m b)) in
  exists m', f m x (mkSlice (off x) k) b = Ret (m', T / 256 ^ N.of_nat n, None)
  /\ le_value (firstn n (content m' x)) = T mod 256 ^ N.of_nat n /\ only_changes m m' x n.
Proof. exact le_prefix. Qed.
Print Assumptions C17_le_prefix_partial.

(** Big endian, the padding with zeros comes first and wipes out the first n-k
    bytes of the prefix; what is left of it still counts at the low end. *)
Theorem C17_be_prefix_partial : forall n f m x k b, In (n, f) be_functions -> mem_ok m ->
  (n <= len x)%nat -> (k < n)%nat -> apart x n b (len b) ->
  let B := if Nat.leb n 4 then firstn n (content m b) else lastn n (content m b) in
  let T := be_value (skipn (n - k) (firstn k (content m x))) + be_value B in
  exists m', f m x (mkSlice (off x) k) b = Ret (m', T / 256 ^ N.of_nat n, None)
  /\ be_value (firstn n (content m' x)) = T mod 256 ^ N.of_nat n /\ only_changes m m' x n.
Proof. exact be_prefix. Qed.
Print Assumptions C17_be_prefix_partial.

(** 1 2 3 4 with its first three bytes as operand: 0x010203 + 5 would be
    0 1 2 8, but the 1 is lost. *)
Example C17_be_prefix_nonvacuous :
  let m := bytes_mem [1; 2; 3; 4; 5] in
  apart (mkSlice 0 4) 4 (mkSlice 4 1) 1
  /\ skipn (4 - 3) (firstn 3 (content m (mkSlice 0 4))) = [2; 3]
  /\ show 5 (Add32BE m (mkSlice 0 4) (mkSlice 0 3) (mkSlice 4 1)) = Ret ([0; 0; 2; 8; 5], 0, None).
Proof. split; [intros x; unfold within; cbn [off]; lia|]. split; vm_compute; reflexivity. Qed.

(** x = 1 2 3 4, a = x[:2], b empty: expected 1 2 0 0 (LE), 0 0 1 2 (BE). *)
Theorem C17_prefix_refuted : exists m x a b m1 m2 c1 c2,
  mem_ok m /\ a = mkSlice (off x) 2 /\ content m a = [1; 2] /\ content m b = []
  /\ Add32LE m x a b = Ret (m1, c1, None) /\ content m1 x = [1; 2; 3; 4]
  /\ Add32BE m x a b = Ret (m2, c2, None) /\ content m2 x = [0; 0; 0; 0].
Proof.
  exists (bytes_mem [1; 2; 3; 4]), (mkSlice 0 4), (mkSlice 0 2), (mkSlice 4 0).
  do 4 eexists. split; [apply bytes_mem_ok; reflexivity|]. split; [reflexivity|].
  split; [reflexivity|]. split; [reflexivity|]. split; [vm_compute; reflexivity|].
  split; [vm_compute; reflexivity|]. split; [vm_compute; reflexivity|]. vm_compute. reflexivity.
Qed.
Print Assumptions C17_prefix_refuted.

Example C17_nonvacuous :
  let m := bytes_mem [250; 255; 1; 77; 10; 0] in
  show 6 (Add16LE m (mkSlice 0 4) (mkSlice 0 4) (mkSlice 4 2)) = Ret ([4; 0; 1; 77; 10; 0], 1, None)
  /\ show 6 (Add16BE m (mkSlice 0 4) (mkSlice 0 4) (mkSlice 4 2)) = Ret ([4; 255; 1; 77; 10; 0], 1, None).
Proof. split; vm_compute; reflexivity. Qed.

(** ** C64 accumulating into the second operand *)

Theorem C64_le_partial : forall n f m x a, In (n, f) le_functions -> mem_ok m -> (n <= len x)%nat ->
  apart x n a (len a) ->
  let T := 2 * le_value (firstn n (content m a)) in
  exists m', f m x a x = Ret (m', T / 256 ^ N.of_nat n, None)
  /\ le_value (firstn n (content m' x)) = T mod 256 ^ N.of_nat n /\ only_changes m m' x n.
Proof. exact le_second. Qed.
Print Assumptions C64_le_partial.

Theorem C64_be_partial : forall n f m x a, In (n, f) be_functions -> mem_ok m -> len x = n ->
  (len a <= n)%nat -> apart x n a (len a) ->
  let T := 2 * be_value (content m a) in
  exists m', f m x a x = Ret (m', T / 256 ^ N.of_nat n, None)
  /\ be_value (content m' x) = T mod 256 ^ N.of_nat n /\ only_changes m m' x n.
Proof. exact be_second. Qed.
Print Assumptions C64_be_partial.

(** A destination longer than n: 2*A again for the 16 and 32 bit functions; the
    others add the last n bytes, given that these do not meet the first n (in
    between, see C71_be). *)
Theorem C64_be_long_partial : forall n f m x a, In (n, f) be_functions -> mem_ok m ->
  (n <= 4 /\ n <= len x \/ 2 * n <= len x)%nat -> (len a <= n)%nat -> apart x n a (len a) ->
  let A := be_value (content m a) in
  let T := A + (if Nat.leb n 4 then A else be_value (lastn n (content m x))) in
  exists m', f m x a x = Ret (m', T / 256 ^ N.of_nat n, None)
  /\ be_value (firstn n (content m' x)) = T mod 256 ^ N.of_nat n /\ only_changes m m' x n.
Proof. exact be_second_long. Qed.
Print Assumptions C64_be_long_partial.

(** a = 5, x = 7: expected 12, every function leaves 10. *)
Theorem C64_refuted : exists m x a m1 m2 c1 c2,
  mem_ok m /\ apart x 2 a 2
  /\ le_value (content m a) = 5 /\ le_value (content m x) = 7
  /\ Add16LE m x a x = Ret (m1, c1, None) /\ le_value (content m1 x) = 10
  /\ Add16 LittleEndian m x a x = Ret (m2, c2, None) /\ le_value (content m2 x) = 10.
Proof.
  exists (bytes_mem [7; 0; 5; 0]), (mkSlice 0 2), (mkSlice 2 2). do 4 eexists.
  split; [apply bytes_mem_ok; reflexivity|]. split; [intros x; unfold within; cbn [off len]; lia|].
  split; [reflexivity|]. split; [reflexivity|]. split; [vm_compute; reflexivity|].
  split; [vm_compute; reflexivity|]. split; [vm_compute; reflexivity|]. vm_compute. reflexivity.
Qed.
Print Assumptions C64_refuted.

Example C64_nonvacuous :
  let m := bytes_mem ([1; 2; 3] ++ [0; 7]) in
  apart (mkSlice 0 3) 2 (mkSlice 3 2) 2
  /\ show 5 (Add16LE m (mkSlice 0 3) (mkSlice 3 2) (mkSlice 0 3)) = Ret ([0; 14; 3; 0; 7], 0, None)
  /\ show 5 (Add16BE m (mkSlice 0 3) (mkSlice 3 2) (mkSlice 0 3)) = Ret ([0; 14; 3; 0; 7], 0, None).
Proof. split; [intros x; unfold within; cbn [off]; lia|]. split; vm_compute; reflexivity. Qed.

(** ** C71 addition under every overlap *)

(** Little endian. A, the first operand: the destination itself when it starts
    where a does, otherwise a as it was. B, the second: its bytes count as they
    are when their group of four is reached, so a byte that is also in sum
    counts with its new value if its group of sum was finished before, else with
    the value of A. *)
Theorem C71_le : forall n f m sum a b, In (n, f) le_functions -> mem_ok m -> (n <= len sum)%nat ->
  exists m' A B, let T := le_value A + le_value B in
  f m sum a b = Ret (m', T / 256 ^ N.of_nat n, None) /\ T / 256 ^ N.of_nat n <= 1
  /\ le_value (firstn n (content m' sum)) = T mod 256 ^ N.of_nat n
  /\ only_changes m m' sum n
  /\ length A = n
  /\ (forall i, (i < n)%nat -> nth i A 0 =
        if (Nat.eqb (off sum) (off a) && Nat.ltb 0 (len a))%bool then m (off sum + i)%nat
        else if Nat.ltb i (len a) then m (off a + i)%nat else 0)
  /\ length B = Nat.min (len b) n
  /\ (forall i, (i < length B)%nat -> let x := (off b + i)%nat in
        (within sum (4 * (i / 4)) x -> nth i B 0 = m' x) /\
        (~ within sum (4 * (i / 4)) x -> within sum n x -> nth i B 0 = nth (x - off sum) A 0) /\
        (~ within sum n x -> nth i B 0 = m x)).
Proof. exact le_any. Qed.
Print Assumptions C71_le.

(** Big endian; w bytes of sum are written by the padding, A is what they hold
    then: zeros, then the bytes of a, of which those just zeroed are zero. *)
Theorem C71_be : forall n f m sum a b, In (n, f) be_functions -> mem_ok m -> (n <= len sum)%nat ->
  exists m' A B, let T := be_value (firstn n A) + be_value B in
  let w := Nat.max n (Nat.min (len sum) (len a)) in
  let k := Nat.min (len b) n in
  let start := if Nat.leb n 4 then off b else (off b + (len b - k))%nat in
  f m sum a b = Ret (m', T / 256 ^ N.of_nat n, None) /\ T / 256 ^ N.of_nat n <= 1
  /\ be_value (firstn n (content m' sum)) = T mod 256 ^ N.of_nat n
  /\ only_changes m m' sum w
  /\ (forall i, (n <= i < w)%nat -> m' (off sum + i)%nat = nth i A 0)
  /\ length A = w
  /\ (forall i, (i < w)%nat ->
        ((i < n - len a)%nat -> nth i A 0 = 0) /\
        ((n - len a <= i)%nat -> let y := (off a + (i - (n - len a)))%nat in
           (within sum (n - len a) y -> nth i A 0 = 0) /\
           (~ within sum (n - len a) y -> nth i A 0 = m y)))
  /\ length B = k
  /\ (forall i, (i < k)%nat -> let x := (start + i)%nat in
        let done := (off sum + (n - 4 * ((k - 1 - i) / 4)) <= x < off sum + n)%nat in
        (done -> nth i B 0 = m' x) /\
        (~ done -> within sum w x -> nth i B 0 = nth (x - off sum) A 0) /\
        (~ within sum w x -> nth i B 0 = m x)).
Proof. exact be_any. Qed.
Print Assumptions C71_be.

(** The second operand starts four bytes before the destination: its second
    half is the word just written. And a big-endian destination of twelve bytes
    given as second operand of an 8-byte addition. *)
Example C71_nonvacuous :
  let m := bytes_mem [1; 1; 1; 1; 0; 0; 0; 0; 0; 0; 0; 0; 5; 6] in
  show 14 (Add64LE m (mkSlice 4 8) (mkSlice 12 2) (mkSlice 0 8))
    = Ret ([1; 1; 1; 1; 6; 7; 1; 1; 6; 7; 1; 1; 5; 6], 0, None)
  /\ show 14 (Add64BE m (mkSlice 0 12) (mkSlice 12 2) (mkSlice 0 12))
    = Ret ([0; 0; 5; 6; 0; 0; 5; 6; 0; 0; 0; 0; 5; 6], 0, None).
Proof. split; vm_compute; reflexivity. Qed.

(** ** C72 addAnyLE for every width *)
Theorem C72_le : forall n m sum a b, mem_ok m -> (n <= len sum)%nat ->
  apart sum n b (Nat.min (len b) n) -> ~ (off sum = off a /\ 0 < len a < n)%nat ->
  let T := le_value (firstn n (content m a)) + le_value (firstn n (content m b)) in
  let W := 256 ^ N.of_nat n in
  exists m', addAnyLE m sum a b n = Ret (m', T / W, None) /\ T / W <= 1
  /\ le_value (firstn n (content m' sum)) = T mod W /\ only_changes m m' sum n.
Proof. exact any_le. Qed.
Print Assumptions C72_le.

(** Seven bytes: one word, one half word and one byte, a carry through all. *)
Example C72_nonvacuous :
  let m := bytes_mem (repeat 0 7 ++ [255; 255; 255; 255; 255; 255; 1] ++ [1; 0; 0; 0; 0; 0; 3]) in
  apart (mkSlice 0 7) 7 (mkSlice 14 7) 7
  /\ show 7 (addAnyLE m (mkSlice 0 7) (mkSlice 7 7) (mkSlice 14 7) 7)
     = Ret ([0; 0; 0; 0; 0; 0; 5], 0, None).
Proof. split; [intros x; unfold within; cbn [off]; lia|]. vm_compute; reflexivity. Qed.

(** ** C73 addAnyBE for every width *)

(** Multiples of four, and widths 1 and 2. *)
Theorem C73_words_partial : forall K m sum a b, mem_ok m -> (4 * K <= len sum)%nat ->
  let n := (4 * K)%nat in
  let w := Nat.max n (Nat.min (len sum) (len a)) in
  apart sum w b (len b) -> apart sum (n - len a) a (len a) ->
  let T := be_value (firstn n (content m a)) + be_value (lastn n (content m b)) in
  let W := 256 ^ N.of_nat n in
  exists m', addAnyBE m sum a b n = Ret (m', T / W, None) /\ T / W <= 1
  /\ be_value (firstn n (content m' sum)) = T mod W /\ only_changes m m' sum w.
Proof. exact any_be. Qed.
Print Assumptions C73_words_partial.

Theorem C73_small_partial : forall n m sum a b, (n = 1 \/ n = 2)%nat -> mem_ok m -> (n <= len sum)%nat ->
  let w := Nat.max n (Nat.min (len sum) (len a)) in
  apart sum w b (len b) -> apart sum (n - len a) a (len a) ->
  let T := be_value (firstn n (content m a)) + be_value (firstn n (content m b)) in
  let W := 256 ^ N.of_nat n in
  exists m', addAnyBE m sum a b n = Ret (m', T / W, None) /\ T / W <= 1
  /\ be_value (firstn n (content m' sum)) = T mod W /\ only_changes m m' sum w.
Proof. exact any_be_small. Qed.
Print Assumptions C73_small_partial.

(** The exact law of every other width n, with r = n mod 4. The words at the
    front of the sum get the last n - r bytes of b, so b lands r bytes too far
    up; what is left of b (its front) is then added once more at the very front:
    its first one or two bytes, and for r = 3 the first byte of it without its
    last two. The carry of the words goes to the place r bytes from the front. *)
Theorem C73_others_partial : forall n m sum a b, mem_ok m -> (n mod 4 <> 0)%nat -> (n <= len sum)%nat ->
  let w := Nat.max n (Nat.min (len sum) (len a)) in
  apart sum w b (len b) -> apart sum (n - len a) a (len a) ->
  let r := (n mod 4)%nat in
  let W := 256 ^ N.of_nat n in
  let B := content m b in
  let rest := firstn (length B - (n - r)) B in
  let U := be_value (firstn n (content m a)) + be_value (lastn (n - r) B) * 256 ^ N.of_nat r in
  let D := be_value (firstn (Nat.min r 2) rest)
           + (if Nat.eqb r 3 then be_value (firstn 1 (firstn (length rest - 2) rest)) * 65536 else 0) in
  let T := U mod W + (D + U / W) * 256 ^ N.of_nat (n - r) in
  exists m', addAnyBE m sum a b n = Ret (m', T / W, None) /\ T / W <= 1
  /\ be_value (firstn n (content m' sum)) = T mod W /\ only_changes m m' sum w.
Proof. exact any_be_odd. Qed.
Print Assumptions C73_others_partial.

(** For a b that fits in the words: it is added r bytes too far up. *)
Theorem C73_shift_partial : forall n m sum a b, mem_ok m -> (n mod 4 <> 0)%nat -> (n <= len sum)%nat ->
  let w := Nat.max n (Nat.min (len sum) (len a)) in
  apart sum w b (len b) -> apart sum (n - len a) a (len a) ->
  let r := (n mod 4)%nat in
  let U := be_value (firstn n (content m a)) + be_value (content m b) * 256 ^ N.of_nat r in
  (len b <= n - r)%nat -> U < 256 ^ N.of_nat n ->
  exists m', addAnyBE m sum a b n = Ret (m', 0, None)
  /\ be_value (firstn n (content m' sum)) = U /\ only_changes m m' sum w.
Proof. exact any_be_shift. Qed.
Print Assumptions C73_shift_partial.

(** Seven bytes with a b of seven: three bytes of shift, the front of b once
    more at the front (01 02 for the half word, 01 for the byte), the carry of the
    words into the half word. *)
Example C73_others_nonvacuous :
  let m := bytes_mem (repeat 0 7 ++ [255; 0; 0; 0; 0; 9; 8] ++ [1; 2; 3; 4; 5; 6; 7]) in
  apart (mkSlice 0 7) 7 (mkSlice 14 7) 7
  /\ show 7 (addAnyBE m (mkSlice 0 7) (mkSlice 7 7) (mkSlice 14 7) 7)
     = Ret ([4; 6; 9; 7; 0; 9; 8], 0, None).
Proof. split; [intros x; unfold within; cbn [off]; lia|]. vm_compute; reflexivity. Qed.

(** In particular every other width from five on is wrong: whatever b is, the
    lowest byte of the result is that of a. *)
Theorem C73_low_partial : forall n m sum a b, mem_ok m -> (4 < n)%nat -> (n mod 4 <> 0)%nat ->
  (n <= len sum)%nat ->
  apart sum (Nat.max n (Nat.min (len sum) (len a))) b (len b) -> apart sum (n - len a) a (len a) ->
  exists m' c, addAnyBE m sum a b n = Ret (m', c, None)
  /\ m' (off sum + (n - 1))%nat = be_value (firstn n (content m a)) mod 256.
Proof. exact any_be_low. Qed.
Print Assumptions C73_low_partial.

Example C73_nonvacuous :
  let m := bytes_mem (repeat 0 12 ++ [9] ++ [1; 2; 3; 4; 5; 6; 7]) in
  (apart (mkSlice 0 12) 12 (mkSlice 13 7) 7 /\ apart (mkSlice 0 12) (12 - 1) (mkSlice 12 1) 1)
  /\ show 12 (addAnyBE m (mkSlice 0 12) (mkSlice 12 1) (mkSlice 13 7) 12)
     = Ret ([0; 0; 0; 0; 0; 1; 2; 3; 4; 5; 6; 16], 0, None)
  /\ show 12 (addAnyBE m (mkSlice 0 12) (mkSlice 12 1) (mkSlice 14 2) 2)
     = Ret ([2; 12; 0; 0; 0; 0; 0; 0; 0; 0; 0; 0], 0, None)
  /\ show 12 (addAnyBE m (mkSlice 0 12) (mkSlice 12 1) (mkSlice 13 1) 6)
     = Ret ([0; 0; 0; 1; 0; 9; 0; 0; 0; 0; 0; 0], 0, None).
Proof.
  split; [split; intros x; unfold within; cbn [off]; lia|]. repeat split; vm_compute; reflexivity.
Qed.

(** Width 3, 0 + 010203: the answer is 010102. Width 5, 0 + 1: the answer is
    01 00. *)
Theorem C73_refuted : exists m sum a b m1 m2 c1 c2,
  mem_ok m /\ apart sum 5 b (len b) /\ len a = 0%nat
  /\ addAnyBE m sum a b 3 = Ret (m1, c1, None)
  /\ be_value (firstn 3 (content m b)) = 0x010203 /\ be_value (firstn 3 (content m1 sum)) = 0x010102
  /\ addAnyBE m sum a (mkSlice (off b) 1) 5 = Ret (m2, c2, None)
  /\ content m (mkSlice (off b) 1) = [1] /\ be_value (firstn 5 (content m2 sum)) = 0x0100.
Proof.
  exists (bytes_mem [0; 0; 0; 0; 0; 1; 2; 3]), (mkSlice 0 5), (mkSlice 0 0), (mkSlice 5 3).
  do 4 eexists. split; [apply bytes_mem_ok; reflexivity|].
  split; [intros x; unfold within; cbn [off len]; lia|].
  split; [reflexivity|]. split; [vm_compute; reflexivity|].
  split; [vm_compute; reflexivity|]. split; [vm_compute; reflexivity|].
  split; [vm_compute; reflexivity|]. split; vm_compute; reflexivity.
Qed.
Print Assumptions C73_refuted.

(** ** C74 the one-word steps *)

(** For every carry byte (only its lowest bit counts) and every overlap of sum
    and b. *)
Theorem C74_le : forall w f m sum b carry, In (w, f) le_steps -> mem_ok m -> (w <= len sum)%nat ->
  let T := le_value (firstn w (content m sum)) + le_value (firstn w (content m b)) + carry mod 2 in
  let W := 256 ^ N.of_nat w in
  exists m', f m sum b carry = Ret (m', T / W) /\ T / W <= 1
  /\ le_value (firstn w (content m' sum)) = T mod W /\ only_changes m m' sum w.
Proof. exact step_le_ok. Qed.
Print Assumptions C74_le.

Theorem C74_be : forall w f m sum b carry, In (w, f) be_steps -> mem_ok m -> (w <= len sum)%nat ->
  let T := be_value (firstn w (content m sum)) + be_value (firstn w (content m b)) + carry mod 2 in
  let W := 256 ^ N.of_nat w in
  exists m', f m sum b carry = Ret (m', T / W) /\ T / W <= 1
  /\ be_value (firstn w (content m' sum)) = T mod W /\ only_changes m m' sum w.
Proof. exact step_be_ok. Qed.
Print Assumptions C74_be.

Theorem C74_short : forall w f m sum b carry, In (w, f) le_steps \/ In (w, f) be_steps ->
  (len sum < w)%nat -> f m sum b carry = Panic.
Proof. exact step_short. Qed.
Print Assumptions C74_short.

Definition show_step (n : nat) (r : outcome (mem * N)) :=
  match r with Ret (m, c) => Ret (content m (mkSlice 0 n), c) | Panic => Panic | OutOfFuel => OutOfFuel end.
Example C74_nonvacuous :
  let m := bytes_mem [255; 255; 254; 7] in
  show_step 4 (addEq16BE m (mkSlice 0 2) (mkSlice 2 1) 3) = Ret ([0; 254; 254; 7], 1)
  /\ show_step 4 (addEq32LE m (mkSlice 0 4) (mkSlice 0 4) 254) = Ret ([254; 255; 253; 15], 0)
  /\ show_step 4 (addEq8 m (mkSlice 1 3) (mkSlice 3 0) 1) = Ret ([255; 0; 254; 7], 1)
  /\ addEq32LE m (mkSlice 0 3) (mkSlice 0 4) 0 = Panic.
Proof. repeat split; vm_compute; reflexivity. Qed.

(** ** C75 padding *)

(** Unless src is a shorter slice starting where dst does: then nothing at all
    is done. *)
Theorem C75_le_partial : forall m dst src n, mem_ok m -> (n <= len dst)%nat ->
  ~ (off dst = off src /\ 0 < len src < n)%nat ->
  exists m', padLE m dst src n = Ret (m', None)
  /\ firstn n (content m' dst) = firstn n (content m src) ++ repeat 0 (n - len src)
  /\ only_changes m m' dst n.
Proof. exact pad_le_list. Qed.
Print Assumptions C75_le_partial.

Theorem C75_le_same_partial : forall m dst src n, (n <= len dst)%nat -> (0 < n)%nat -> (0 < len src)%nat ->
  off dst = off src -> padLE m dst src n = Ret (m, None).
Proof. exact padLE_alias. Qed.
Print Assumptions C75_le_same_partial.

Theorem C75_le_refuted : exists m dst src n m',
  mem_ok m /\ off dst = off src /\ (n <= len dst)%nat /\ len src = 1%nat
  /\ padLE m dst src n = Ret (m', None) /\ content m' dst = [7; 9; 9].
Proof.
  exists (bytes_mem [7; 9; 9]), (mkSlice 0 3), (mkSlice 0 1), 3%nat. eexists.
  split; [apply bytes_mem_ok; reflexivity|]. split; [reflexivity|]. split; [cbn [len]; lia|].
  split; [reflexivity|]. split; vm_compute; reflexivity.
Qed.
Print Assumptions C75_le_refuted.

(** When both slices are longer than n, padBE copies more than n bytes. *)
Theorem C75_be_partial : forall m dst src n, mem_ok m -> (n <= len dst)%nat ->
  apart dst (n - len src) src (len src) ->
  let w := Nat.max n (Nat.min (len dst) (len src)) in
  exists m', padBE m dst src n = Ret (m', None)
  /\ firstn w (content m' dst) = repeat 0 (n - len src) ++ firstn w (content m src)
  /\ only_changes m m' dst w.
Proof. exact pad_be_list. Qed.
Print Assumptions C75_be_partial.

Theorem C75_short : forall m dst src n, (len dst < n)%nat ->
  padLE m dst src n = Ret (m, Some NotEnoughSpace) /\ padBE m dst src n = Ret (m, Some NotEnoughSpace).
Proof. exact pad_short. Qed.
Print Assumptions C75_short.

Theorem C75_be_refuted : exists m dst src n m',
  mem_ok m /\ apart dst (len dst) src (len src) /\ (n <= len dst)%nat
  /\ padBE m dst src n = Ret (m', None) /\ ~ only_changes m m' dst n.
Proof.
  exists (bytes_mem [9; 9; 9; 1; 2; 3]), (mkSlice 0 3), (mkSlice 3 3), 2%nat. eexists.
  split; [apply bytes_mem_ok; reflexivity|].
  split; [intros x; unfold within; cbn [off len]; lia|]. split; [cbn [len]; lia|].
  split; [vm_compute; reflexivity|]. intros F.
  specialize (F 2%nat ltac:(unfold within; cbn [off]; lia)). vm_compute in F. discriminate.
Qed.
Print Assumptions C75_be_refuted.

(** Overlapping slices: LE moves down by two, BE into the place before. *)
Example C75_nonvacuous :
  let m := bytes_mem [1; 2; 3; 4; 5; 6] in
  let at0 r := match r with Ret (m', None) => content m' (mkSlice 0 6) | _ => [] end in
  at0 (padLE m (mkSlice 0 4) (mkSlice 2 3) 4) = [3; 4; 5; 0; 5; 6]
  /\ apart (mkSlice 0 4) (4 - 3) (mkSlice 2 3) 3
  /\ at0 (padBE m (mkSlice 0 4) (mkSlice 2 3) 4) = [0; 3; 4; 5; 5; 6].
Proof.
  split; [vm_compute; reflexivity|]. split; [intros x; unfold within; cbn [off]; lia|].
  vm_compute; reflexivity.
Qed.
