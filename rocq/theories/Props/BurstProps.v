(** Properties C88-C90: which transmission errors the checksums detect. *)
From Verif Require Import Base.Go Base.HashApi Spec.ChecksumSpec Spec.BurstSpec Proofs.BurstProofs.
From Verif Require Model.Bcc Model.Lrc Model.Luhn Model.Fletcher.
Local Open Scope N_scope.

(** ** C88 bursts: all bits outside a window of [k] bits are unchanged *)

Theorem C88_bcc : forall low_first m m', bytes_ok m -> bytes_ok m' ->
  burst low_first 8 m m' -> m <> m' -> differ Bcc.step Bcc.New m m'.
Proof. exact bcc_burst. Qed.
Print Assumptions C88_bcc.

Theorem C88_lrc : forall low_first m m', bytes_ok m -> bytes_ok m' ->
  burst low_first 8 m m' -> m <> m' -> differ Lrc.step Lrc.New m m'.
Proof. exact lrc_burst. Qed.
Print Assumptions C88_lrc.

Theorem C88_fletcher16 : forall low_first m m', bytes_ok m -> bytes_ok m' ->
  N.of_nat (length m) <= 5802 ->
  burst low_first 7 m m' -> m <> m' -> differ Fletcher.step16 Fletcher.New m m'.
Proof. exact fletcher16_short. Qed.
Print Assumptions C88_fletcher16.

Theorem C88_fletcher32 : forall low_first m m', bytes_ok m -> bytes_ok m' ->
  burst low_first 15 m m' -> m <> m' -> differ Fletcher.step32 Fletcher.New m m'.
Proof. exact fletcher32_short. Qed.
Print Assumptions C88_fletcher32.

Theorem C88_fletcher64 : forall low_first m m', bytes_ok m -> bytes_ok m' ->
  burst low_first 31 m m' -> m <> m' -> differ Fletcher.step64 Fletcher.New m m'.
Proof. exact fletcher64_short. Qed.
Print Assumptions C88_fletcher64.

(** Up to one bit more than a word, the only missed change is a whole word
    going from all zeros to all ones or back. *)
Theorem C88_exact16 : forall low_first m m', bytes_ok m -> bytes_ok m' ->
  N.of_nat (length m) <= 5802 -> burst low_first 9 m m' -> m <> m' ->
  (agree Fletcher.step16 Fletcher.New m m' <-> zeros_to_ones 1 m m').
Proof. exact fletcher16_burst. Qed.
Print Assumptions C88_exact16.

Theorem C88_exact32 : forall low_first m m', bytes_ok m -> bytes_ok m' ->
  burst low_first 17 m m' -> m <> m' ->
  (agree Fletcher.step32 Fletcher.New m m' <-> zeros_to_ones 2 m m').
Proof. exact fletcher32_burst. Qed.
Print Assumptions C88_exact32.

Theorem C88_exact64 : forall low_first m m', bytes_ok m -> bytes_ok m' ->
  burst low_first 33 m m' -> m <> m' ->
  (agree Fletcher.step64 Fletcher.New m m' <-> zeros_to_ones 4 m m').
Proof. exact fletcher64_burst. Qed.
Print Assumptions C88_exact64.

(** A burst of 6 bits across two bytes, in either bit order; bursts of 9 bits
    that bcc and lrc miss; a word of ones for zeros that Fletcher-32 misses. *)
Example C88_nonvacuous :
  burst false 6 [1; 0x1F; 0x80; 3] [1; 0x18; 0x60; 3]
  /\ burst true 6 [1; 0x1F; 0x80; 3] [1; 0x5F; 0x8D; 3]
  /\ differ Fletcher.step16 Fletcher.New [1; 0x1F; 0x80; 3] [1; 0x18; 0x60; 3]
  /\ (burst true 9 [1; 1] [0; 0] /\ agree Bcc.step Bcc.New [1; 1] [0; 0])
  /\ (burst true 9 [1; 0] [0; 1] /\ ~ burst true 8 [1; 0] [0; 1] /\ agree Lrc.step Lrc.New [1; 0] [0; 1])
  /\ (burst true 16 [7; 0; 0; 0; 9] [7; 0; 255; 255; 9] /\
      zeros_to_ones 2 [7; 0; 0; 0; 9] [7; 0; 255; 255; 9]).
Proof.
  assert (W : forall lo k m m' s, length m = length m' ->
    (forall j, (j < 8 * length m)%nat -> (j < s \/ s + k <= j)%nat -> bit_at lo m j = bit_at lo m' j) ->
    burst lo k m m').
  { intros lo k m m' s L E. split; [exact L|]. exists s. intros j Hj.
    destruct (Nat.lt_ge_cases j (8 * length m)) as [Q|Q]; [apply E; assumption|].
    unfold bit_at. assert (length m <= j / 8)%nat by (apply Nat.div_le_lower_bound; lia).
    rewrite !nth_overflow by lia. reflexivity. }
  assert (B1 : burst false 6 [1; 0x1F; 0x80; 3] [1; 0x18; 0x60; 3]).
  { apply (W _ _ _ _ 13%nat); [reflexivity|]. cbn [length]. intros j Hj Hs.
    do 32 (destruct j as [|j]; [try reflexivity; lia|]). lia. }
  split; [exact B1|]. split; [|split; [|split; [|split]]].
  - apply (W _ _ _ _ 14%nat); [reflexivity|]. cbn [length]. intros j Hj Hs.
    do 32 (destruct j as [|j]; [try reflexivity; lia|]). lia.
  - apply (C88_fletcher16 false); try (repeat constructor); try discriminate.
    destruct B1 as (L & s & E). exists s. intros j Hj. apply E. lia.
  - split.
    + apply (W _ _ _ _ 0%nat); [reflexivity|]. cbn [length]. intros j Hj Hs.
      do 16 (destruct j as [|j]; [try reflexivity; lia|]). lia.
    + exists 2%nat, 2%nat, 0. split; reflexivity.
  - split; [|split].
    + apply (W _ _ _ _ 0%nat); [reflexivity|]. cbn [length]. intros j Hj Hs.
      do 16 (destruct j as [|j]; [try reflexivity; lia|]). lia.
    + intros (_ & s & E).
      assert (E0 := E 0%nat). assert (E8 := E 8%nat).
      destruct s as [|s]; [specialize (E8 ltac:(lia)); discriminate E8|].
      specialize (E0 ltac:(lia)). discriminate E0.
    + exists 2%nat, 2%nat, 255. split; reflexivity.
  - split.
    + apply (W _ _ _ _ 16%nat); [reflexivity|]. cbn [length]. intros j Hj Hs.
      do 40 (destruct j as [|j]; [try reflexivity; lia|]). lia.
    + exists [7; 0], [9]. split; [reflexivity|]. left. split; reflexivity.
Qed.

(** ** C89 two changed words, any distance apart *)

Theorem C89_two16 : forall A x B y C x' y',
  bytes_ok (A ++ x :: B ++ y :: C) -> bytes_ok (A ++ x' :: B ++ y' :: C) ->
  N.of_nat (length (A ++ x :: B ++ y :: C)) <= 5802 ->
  (agree Fletcher.step16 Fletcher.New (A ++ x :: B ++ y :: C) (A ++ x' :: B ++ y' :: C) <->
   (x + y) mod 255 = (x' + y') mod 255 /\
   ((N.of_nat (length B) + 1) * x) mod 255 = ((N.of_nat (length B) + 1) * x') mod 255).
Proof. exact fletcher16_two. Qed.
Print Assumptions C89_two16.

(** [message n ws tail]: the words [ws] of n bytes each, then the bytes [tail]. *)
Theorem C89_two32 : forall A x B y C x' y' tail,
  Forall (fun v => v < 2 ^ 16) (A ++ x :: B ++ y :: C) ->
  Forall (fun v => v < 2 ^ 16) (A ++ x' :: B ++ y' :: C) -> bytes_ok tail ->
  (agree Fletcher.step32 Fletcher.New (message 2 (A ++ x :: B ++ y :: C) tail)
                                      (message 2 (A ++ x' :: B ++ y' :: C) tail) <->
   (x + y) mod 65535 = (x' + y') mod 65535 /\
   ((N.of_nat (length B) + 1) * x) mod 65535 = ((N.of_nat (length B) + 1) * x') mod 65535).
Proof. exact fletcher32_two. Qed.
Print Assumptions C89_two32.

Theorem C89_two64 : forall A x B y C x' y' tail,
  Forall (fun v => v < 2 ^ 32) (A ++ x :: B ++ y :: C) ->
  Forall (fun v => v < 2 ^ 32) (A ++ x' :: B ++ y' :: C) -> bytes_ok tail ->
  (agree Fletcher.step64 Fletcher.New (message 4 (A ++ x :: B ++ y :: C) tail)
                                      (message 4 (A ++ x' :: B ++ y' :: C) tail) <->
   (x + y) mod 4294967295 = (x' + y') mod 4294967295 /\
   ((N.of_nat (length B) + 1) * x) mod 4294967295 = ((N.of_nat (length B) + 1) * x') mod 4294967295).
Proof. exact fletcher64_two. Qed.
Print Assumptions C89_two64.

(** Where the distance has no common factor with the modulus (1, 2, 4, 7, ...),
    only changes by multiples of the modulus, that is of 0 to 2^w-1 or back, are
    missed. *)
Theorem C89_coprime16 : forall A x B y C x' y',
  bytes_ok (A ++ x :: B ++ y :: C) -> bytes_ok (A ++ x' :: B ++ y' :: C) ->
  N.of_nat (length (A ++ x :: B ++ y :: C)) <= 5802 ->
  N.gcd (N.of_nat (length B) + 1) 255 = 1 ->
  (agree Fletcher.step16 Fletcher.New (A ++ x :: B ++ y :: C) (A ++ x' :: B ++ y' :: C) <->
   x mod 255 = x' mod 255 /\ y mod 255 = y' mod 255).
Proof.
  intros A x B y C x' y' H H' L G. rewrite C89_two16 by assumption. apply coprime_two; [discriminate|exact G].
Qed.
Print Assumptions C89_coprime16.

Theorem C89_coprime32 : forall A x B y C x' y' tail,
  Forall (fun v => v < 2 ^ 16) (A ++ x :: B ++ y :: C) ->
  Forall (fun v => v < 2 ^ 16) (A ++ x' :: B ++ y' :: C) -> bytes_ok tail ->
  N.gcd (N.of_nat (length B) + 1) 65535 = 1 ->
  (agree Fletcher.step32 Fletcher.New (message 2 (A ++ x :: B ++ y :: C) tail)
                                      (message 2 (A ++ x' :: B ++ y' :: C) tail) <->
   x mod 65535 = x' mod 65535 /\ y mod 65535 = y' mod 65535).
Proof.
  intros A x B y C x' y' tail H H' T G. rewrite C89_two32 by assumption.
  apply coprime_two; [discriminate|exact G].
Qed.
Print Assumptions C89_coprime32.

Theorem C89_coprime64 : forall A x B y C x' y' tail,
  Forall (fun v => v < 2 ^ 32) (A ++ x :: B ++ y :: C) ->
  Forall (fun v => v < 2 ^ 32) (A ++ x' :: B ++ y' :: C) -> bytes_ok tail ->
  N.gcd (N.of_nat (length B) + 1) 4294967295 = 1 ->
  (agree Fletcher.step64 Fletcher.New (message 4 (A ++ x :: B ++ y :: C) tail)
                                      (message 4 (A ++ x' :: B ++ y' :: C) tail) <->
   x mod 4294967295 = x' mod 4294967295 /\ y mod 4294967295 = y' mod 4294967295).
Proof.
  intros A x B y C x' y' tail H H' T G. rewrite C89_two64 by assumption.
  apply coprime_two; [discriminate|exact G].
Qed.
Print Assumptions C89_coprime64.

(** Two bytes 85 apart, 3 more and 3 less, are missed; 84 apart they are not. *)
Example C89_nonvacuous :
  agree Fletcher.step16 Fletcher.New (5 :: repeat 1 84 ++ [6; 7]) (8 :: repeat 1 84 ++ [3; 7])
  /\ ~ agree Fletcher.step16 Fletcher.New (5 :: repeat 1 83 ++ [6; 7]) (8 :: repeat 1 83 ++ [3; 7])
  /\ N.gcd 7 255 = 1 /\ message 2 [0x0102; 0xFF00] [9] = [2; 1; 0; 255; 9]
  /\ ~ agree Fletcher.step32 Fletcher.New [2; 1; 0; 255; 9] [3; 1; 255; 254; 9].
Proof.
  split; [|split; [|split; [|split]]].
  - apply (C89_two16 [] 5 (repeat 1 84) 6 [7] 8 3); [| |vm_compute; discriminate|split; vm_compute; reflexivity];
      repeat constructor.
  - intros E. apply (C89_two16 [] 5 (repeat 1 83) 6 [7] 8 3) in E;
      [destruct E as [_ E]; vm_compute in E; discriminate E| | |vm_compute; discriminate]; repeat constructor.
  - reflexivity.
  - reflexivity.
  - intros E. apply (C89_two32 [] 0x0102 [] 0xFF00 [] 0x0103 0xFEFF [9]) in E;
      [destruct E as [_ E]; vm_compute in E; discriminate E| | |]; repeat constructor.
Qed.

(** ** C90 luhn: two digits (least significant first) *)

(** Twins: the same digit twice read as another digit twice. *)
Theorem C90_twin : forall pre d e post,
  digits_ok (pre ++ d :: d :: post) -> digits_ok (pre ++ e :: e :: post) ->
  digits_value (pre ++ d :: d :: post) < 2 ^ 64 -> digits_value (pre ++ e :: e :: post) < 2 ^ 64 ->
  (Luhn.Checksum (digits_value (pre ++ d :: d :: post)) =
   Luhn.Checksum (digits_value (pre ++ e :: e :: post)) <->
   d = e \/ (2 <= d <= 4 /\ e = d + 3) \/ (2 <= e <= 4 /\ d = e + 3)).
Proof. exact luhn_twin. Qed.
Print Assumptions C90_twin.

(** Swapping digits an odd distance apart. *)
Theorem C90_odd_swap : forall pre d mid e post,
  digits_ok (pre ++ d :: mid ++ e :: post) -> Nat.even (length mid) = true ->
  digits_value (pre ++ d :: mid ++ e :: post) < 2 ^ 64 -> digits_value (pre ++ e :: mid ++ d :: post) < 2 ^ 64 ->
  (Luhn.Checksum (digits_value (pre ++ d :: mid ++ e :: post)) =
   Luhn.Checksum (digits_value (pre ++ e :: mid ++ d :: post)) <->
   d = e \/ (d = 0 /\ e = 9) \/ (d = 9 /\ e = 0)).
Proof. exact luhn_odd_swap. Qed.
Print Assumptions C90_odd_swap.

(** Swapping digits an even distance apart is never seen. *)
Theorem C90_even_swap : forall pre d mid e post,
  digits_ok (pre ++ d :: mid ++ e :: post) -> Nat.odd (length mid) = true ->
  digits_value (pre ++ d :: mid ++ e :: post) < 2 ^ 64 -> digits_value (pre ++ e :: mid ++ d :: post) < 2 ^ 64 ->
  Luhn.Checksum (digits_value (pre ++ d :: mid ++ e :: post)) =
  Luhn.Checksum (digits_value (pre ++ e :: mid ++ d :: post)).
Proof. exact luhn_jump. Qed.
Print Assumptions C90_even_swap.

Example C90_nonvacuous :
  Luhn.Checksum 79922 = Luhn.Checksum 79955 /\ Luhn.Checksum 79911 <> Luhn.Checksum 79966
  /\ Luhn.Checksum 79381 <> Luhn.Checksum 89371
  /\ Luhn.Checksum 79381 = Luhn.Checksum 39781
  /\ digits_value [1;8;3;9;7] = 79381 /\ digits_value [1;8;7;9;3] = 39781.
Proof. repeat split; vm_compute; try reflexivity; discriminate. Qed.
