(** Properties C57-C60: package hash/whirlpool. [use cs] is what a user sees who
    makes a hash and then the calls cs on it. *)
From Coq Require Import String Ascii.
From Verif Require Import Base.Go Base.DigestApi Model.WhirlpoolTables Model.Whirlpool Spec.HexSpec Spec.ChecksumSpec
  Spec.CodegenSpec Spec.DigestSpec Spec.WhirlpoolSpec Proofs.WhirlpoolProofs.
Local Open Scope list_scope.
Local Open Scope N_scope.

(** ** C57 only the concatenation counts *)

Theorem C57_no_panic : forall cs, hcalls_ok cs -> exists rs, use cs = Ret rs /\
  Forall2 (fun c r => match c with
    | HWrite p => r = Wrote (length p)
    | HSum inp => exists d, r = Digest (inp ++ d) /\ length d = 64%nat /\ bytes_ok d
    | HReset => r = Done
    | HSize => r = Length 64
    | HBlockSize => r = Length 64 end) cs rs.
Proof. exact shape. Qed.
Print Assumptions C57_no_panic.

Theorem C57_concatenation : forall cs, hcalls_ok cs -> bytes_ok (written [] cs) /\
  exists rs d, use (cs ++ [HSum []]) = Ret (rs ++ [Digest d])
  /\ use [HWrite (written [] cs); HSum []] = Ret [Wrote (length (written [] cs)); Digest d].
Proof. exact concatenation. Qed.
Print Assumptions C57_concatenation.

Example C57_nonvacuous :
  let cs := [HWrite [1]; HReset; HWrite (repeat 7 31); HWrite [8; 9]; HWrite []] in
  hcalls_ok cs /\ written [] cs = repeat 7 31 ++ [8; 9]
  /\ (exists d, use (cs ++ [HSum [5]]) = Ret [Wrote 1; Done; Wrote 31; Wrote 2; Wrote 0; Digest (5 :: d)]).
Proof.
  split; [|split; [reflexivity|]].
  - repeat constructor.
  - eexists. vm_compute. reflexivity.
Qed.

(** ** C58 the published function *)

(** The byte counter has 64 bits, hence the bound. *)
Theorem C58_published : forall cs, hcalls_ok cs -> fed cs < 2 ^ 64 ->
  use cs = Ret (hash_trace Whirlpool 64 64 [] cs).
Proof. exact published. Qed.
Print Assumptions C58_published.

(** Only the message since the last Reset has to be short, whatever came before. *)
Theorem C58_message : forall cs inp, hcalls_ok cs -> bytes_ok inp -> N.of_nat (length (written [] cs)) < 2 ^ 64 ->
  exists rs, use (cs ++ [HSum inp]) = Ret (rs ++ [Digest (inp ++ Whirlpool (written [] cs))]).
Proof. exact message. Qed.
Print Assumptions C58_message.

(** No bound at all: the length field counts the bytes modulo 2^64, the blocks are all there. *)
Theorem C58_any_length : forall cs, hcalls_ok cs ->
  use cs = Ret (hash_trace (fun m => iterate compress (repeat 0 64)
    (padded (big_endian 32 (8 * (N.of_nat (length m) mod 2 ^ 64))) m)) 64 64 [] cs).
Proof. exact use_trace. Qed.
Print Assumptions C58_any_length.

(** One block: the state words, as bytes, go through the compression function. *)
Theorem C58_compress : forall ws t blk pos, length ws = 8%nat -> Forall (fun w => w < 2 ^ 64) ws ->
  length blk = 64%nat -> bytes_ok blk ->
  exists ws', hash (mkCtx ws t blk pos) = Ret (mkCtx ws' t blk 0) /\ length ws' = 8%nat
  /\ Forall (fun w => w < 2 ^ 64) ws' /\ flat_map (big_endian 8) ws' = compress (flat_map (big_endian 8) ws) blk.
Proof. exact hash_big. Qed.
Print Assumptions C58_compress.

Definition text (s : string) : list N := map N_of_ascii (list_ascii_of_string s).
Definition vector (p : string * string) : bool :=
  (if list_eq_dec N.eq_dec (flat_map numeral (Whirlpool (text (fst p)))) (text (snd p)) then true else false)
  && match use [HWrite (text (fst p)); HSum []] with
     | Ret [_; Digest d] => if list_eq_dec N.eq_dec (flat_map numeral d) (text (snd p)) then true else false
     | _ => false
     end.
(** Some of whirlpool_test.go (one block; length field just not fitting), on the specification and on the code model *)
Example C58_vectors : forallb vector [
   ("abc", "4E2448A4C6F486BB16B6562C73B4020BF3043E3A731BCE721AE1B303D97E6D4C7181EEBDB6C57E277D0E34957114CBD6C797FC9D95D8B582D225292076D4EEF5");
   ("abcdbcdecdefdefgefghfghighijhijk", "2A987EA40F917061F5D6F0A0E4644F488A7A5A52DEEE656207C562F988E95C6916BDC8031BC5BE1B7B947639FE050B56939BAAA0ADFF9AE6745B7B181C3BE3FD")]%string = true.
Proof. vm_compute. reflexivity. Qed.

(** ** C59 the tables *)

Theorem C59_generated : buildCirculantTable = Ret ct /\ buildRoundConstants ct = Ret rc.
Proof. exact generated. Qed.
Print Assumptions C59_generated.

Theorem C59_sbox : forall x, x < 256 -> nth_error sBox (N.to_nat x) = Some (S_box x).
Proof. exact sbox. Qed.
Print Assumptions C59_sbox.

Theorem C59_sbox_permutation : forall y, y < 256 -> exists! x, x < 256 /\ S_box x = y.
Proof. exact sbox_permutation. Qed.
Print Assumptions C59_sbox_permutation.

Theorem C59_entries : forall t x, (t < 8)%nat -> x < 256 ->
  exists e, nth_error ct (256 * t + N.to_nat x) = Some e /\ e < 2 ^ 64
  /\ forall j, (j < 8)%nat -> nth_error (big_endian 8 e) j = Some (gmul (circ t j) (S_box x)).
Proof. exact entries. Qed.
Print Assumptions C59_entries.

Theorem C59_round_constants : forall r, (r < 10)%nat -> exists c, nth_error rc r = Some c /\ c < 2 ^ 64
  /\ forall j, (j < 8)%nat -> nth_error (big_endian 8 c) j = Some (S_box (N.of_nat (8 * r + j))).
Proof. exact round_constants. Qed.
Print Assumptions C59_round_constants.

Theorem C59_lengths : length ct = 2048%nat /\ length rc = 10%nat /\ length sBox = 256%nat /\ rounds = 10%nat.
Proof. exact (conj eq_refl (conj eq_refl (conj eq_refl eq_refl))). Qed.
Print Assumptions C59_lengths.

(** The field product is the same on either side for the matrix entries and
    has 1 as its unit; 2 generates all 255 non-zero elements. *)
Example C59_field : forallb (fun a => forallb (fun b => gmul (N.of_nat a) b =? gmul b (N.of_nat a)) [1; 2; 4; 5; 8; 9]
      && (gmul 1 (N.of_nat a) =? N.of_nat a)) (seq 0 256) = true
  /\ pow_x 255 1 = 1 /\ pow_x 51 1 <> 1 /\ pow_x 85 1 <> 1 /\ pow_x 15 1 <> 1.
Proof. split; [|split; [|split; [|split]]]; vm_compute; (reflexivity || discriminate). Qed.
Example C59_nonvacuous : nth_error ct 259 = Some 0xfbe8e887e8136fcd /\ S_box 3 = 0xe8 /\ gmul 9 0xe8 = 0xfb.
Proof. repeat split; vm_compute; reflexivity. Qed.

(** ** C60 Sum changes nothing *)

Theorem C60_sum_pure : forall cs1 inp cs2, hcalls_ok cs1 -> bytes_ok inp -> hcalls_ok cs2 ->
  exists r1 d r2, length r1 = length cs1 /\ length d = 64%nat /\ bytes_ok d
  /\ use (cs1 ++ HSum inp :: cs2) = Ret (r1 ++ Digest (inp ++ d) :: r2) /\ use (cs1 ++ cs2) = Ret (r1 ++ r2).
Proof. exact sum_pure. Qed.
Print Assumptions C60_sum_pure.

Example C60_nonvacuous : exists d1 d2,
  use [HWrite [97]; HSum [1]; HWrite [98; 99]; HSum []] = Ret [Wrote 1; Digest (1 :: d1); Wrote 2; Digest d2] /\ d1 <> d2.
Proof. do 2 eexists. split; vm_compute; [reflexivity|discriminate]. Qed.
