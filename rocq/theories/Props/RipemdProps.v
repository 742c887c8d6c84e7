(** Properties C53-C56: package hash/ripemd. [use v cs] is what a user sees who
    makes a hash of variant v and then the calls cs on it. *)
From Coq Require Import String Ascii.
From Verif Require Import Base.Go Base.DigestApi Model.Ripemd Spec.HexSpec Spec.ChecksumSpec Spec.CodegenSpec
  Spec.DigestSpec Spec.RipemdSpec Proofs.RipemdProofs.
Local Open Scope list_scope.
Local Open Scope N_scope.

Definition size_of (v : variant) : nat := match v with V128 => 16 | V160 => 20 | V256 => 32 | V320 => 40 end.
Definition published (v : variant) : list N -> list N :=
  match v with V128 => RIPEMD128 | V160 => RIPEMD160 | V256 => RIPEMD256 | V320 => RIPEMD320 end.

(** ** C53 only the concatenation counts *)

(** No call panics, whatever the history; Write reports the whole slice. *)
Theorem C53_no_panic : forall v cs, hcalls_ok cs -> exists rs, use v cs = Ret rs /\
  Forall2 (fun c r => match c with
    | HWrite p => r = Wrote (length p)
    | HSum inp => exists d, r = Digest (inp ++ d) /\ length d = size_of v
    | HReset => r = Done
    | HSize => r = Length (size_of v)
    | HBlockSize => r = Length 64 end) cs rs.
Proof. intros [] cs; [exact (shape V128 cs)|exact (shape V160 cs)|exact (shape V256 cs)|exact (shape V320 cs)]. Qed.
Print Assumptions C53_no_panic.

(** After any history Sum gives the digest of one write of everything written
    since the last Reset. *)
Theorem C53_concatenation : forall v cs, hcalls_ok cs -> bytes_ok (written [] cs) /\
  exists rs d, use v (cs ++ [HSum []]) = Ret (rs ++ [Digest d])
  /\ use v [HWrite (written [] cs); HSum []] = Ret [Wrote (length (written [] cs)); Digest d].
Proof. exact concatenation. Qed.
Print Assumptions C53_concatenation.

Example C53_nonvacuous :
  let cs := [HWrite [1]; HSum [5]; HReset; HWrite (repeat 7 63); HWrite [8; 9]; HSum []; HWrite []; HWrite (repeat 3 130)] in
  hcalls_ok cs /\ written [] cs = repeat 7 63 ++ [8; 9] ++ repeat 3 130
  /\ (exists d, use V160 (cs ++ [HSum []]) = Ret ([Wrote 1; Digest (5 :: RIPEMD160 [1]); Done; Wrote 63; Wrote 2;
        Digest (RIPEMD160 (repeat 7 63 ++ [8; 9])); Wrote 0; Wrote 130; Digest d])).
Proof.
  split; [|split; [reflexivity|]].
  - repeat constructor.
  - eexists. vm_compute. reflexivity.
Qed.

(** ** C54 the published functions *)

Theorem C54_published : forall v cs, hcalls_ok cs ->
  use v cs = Ret (hash_trace (published v) (size_of v) 64 [] cs).
Proof. intros [] cs; [exact (use_trace V128 cs)|exact (use_trace V160 cs)|exact (use_trace V256 cs)|exact (use_trace V320 cs)]. Qed.
Print Assumptions C54_published.

(** One block: the compression functions. *)
Theorem C54_compress128 : forall h t blk pos, length h = 4%nat -> Forall (fun x => x < 2 ^ 32) h ->
  length blk = 64%nat -> bytes_ok blk ->
  hash128 (mkCtx (h ++ repeat 0 6) t blk pos) = Ret (mkCtx (compress128 h blk ++ repeat 0 6) t blk 0).
Proof. exact (fun h t blk pos L F => hash128_ok h t blk pos (conj L F)). Qed.
Print Assumptions C54_compress128.
Theorem C54_compress160 : forall h t blk pos, length h = 5%nat -> Forall (fun x => x < 2 ^ 32) h ->
  length blk = 64%nat -> bytes_ok blk ->
  hash160 (mkCtx (h ++ repeat 0 5) t blk pos) = Ret (mkCtx (compress160 h blk ++ repeat 0 5) t blk 0).
Proof. exact (fun h t blk pos L F => hash160_ok h t blk pos (conj L F)). Qed.
Print Assumptions C54_compress160.
Theorem C54_compress256 : forall h t blk pos, length h = 8%nat -> Forall (fun x => x < 2 ^ 32) h ->
  length blk = 64%nat -> bytes_ok blk ->
  hash256 (mkCtx (h ++ repeat 0 2) t blk pos) = Ret (mkCtx (compress256 h blk ++ repeat 0 2) t blk 0).
Proof. exact (fun h t blk pos L F => hash256_ok h t blk pos (conj L F)). Qed.
Print Assumptions C54_compress256.
Theorem C54_compress320 : forall h t blk pos, length h = 10%nat -> Forall (fun x => x < 2 ^ 32) h ->
  length blk = 64%nat -> bytes_ok blk ->
  hash320 (mkCtx (h ++ repeat 0 0) t blk pos) = Ret (mkCtx (compress320 h blk ++ repeat 0 0) t blk 0).
Proof. exact (fun h t blk pos L F => hash320_ok h t blk pos (conj L F)). Qed.
Print Assumptions C54_compress320.

(** The padded message: whole blocks, beginning with the message and ending
    with its length in bits. *)
Theorem C54_padding : forall m, exists z, (z < 64)%nat /\
  padded (bit_length m) m = m ++ 128 :: repeat 0 z ++ bit_length m
  /\ (length (padded (bit_length m) m) mod 64 = 0)%nat.
Proof. exact padded_blocks. Qed.
Print Assumptions C54_padding.

(** The published test values (all but the million a's), on the specification
    and on the code model. *)
Definition text (s : string) : list N := map N_of_ascii (list_ascii_of_string s).
Definition vector (v : variant) (p : string * string) : bool :=
  (if list_eq_dec N.eq_dec (flat_map numeral (published v (text (fst p)))) (text (snd p)) then true else false)
  && match use v [HWrite (text (fst p)); HSum []] with
     | Ret [_; Digest d] => if list_eq_dec N.eq_dec (flat_map numeral d) (text (snd p)) then true else false
     | _ => false
     end.

(** ripe128_test.go *)
Example C54_vectors_128 : forallb (vector V128) [
   ("", "CDF26213A150DC3ECB610F18F6B38B46");
   ("a", "86BE7AFA339D0FC7CFC785E72F578D33");
   ("abc", "C14A12199C66E4BA84636B0F69144C77");
   ("message digest", "9E327B3D6E523062AFC1132D7DF9D1B8");
   ("abcdefghijklmnopqrstuvwxyz", "FD2AA607F71DC8F510714922B371834E");
   ("abcdbcdecdefdefgefghfghighijhijkijkljklmklmnlmnomnopnopq", "A1AA0689D0FAFA2DDC22E88B49133A06");
   ("ABCDEFGHIJKLMNOPQRSTUVWXYZabcdefghijklmnopqrstuvwxyz0123456789", "D1E959EB179C911FAEA4624C60C5C702");
   ("The quick brown fox jumps over the lazy dog", "3FA9B57F053C053FBE2735B2380DB596");
   ("The quick brown fox jumps over the lazy cog", "3807AAAEC58FE336733FA55ED13259D9");
   ("The quick brown fox jumps over the lazy dog.", "F39288A385E5996C6FB2C01F7F8FBF2F");
   ("gnabgib", "1B6B23F7CFBA4BBF4209757466C1561B");
   ("12345678901234567890123456789012345678901234567890123456789012345678901234567890", "3F45EF194732C2DBB2C4A2C769795FA3")]%string = true.
Proof. vm_compute. reflexivity. Qed.

(** ripe160_test.go *)
Example C54_vectors_160 : forallb (vector V160) [
   ("The quick brown fox jumps over the lazy dog", "37F332F68DB77BD9D7EDD4969571AD671CF9DD3B");
   ("The quick brown fox jumps over the lazy cog", "132072DF690933835EB8B6AD0B77E7B6F14ACAD7");
   ("", "9C1185A5C5E9FC54612808977EE8F548B2258D31");
   ("a", "0BDC9D2D256B3EE9DAAE347BE6F4DC835A467FFE");
   ("abc", "8EB208F7E05D987A9B044A8E98C6B087F15A0BFC");
   ("message digest", "5D0689EF49D2FAE572B881B123A85FFA21595F36");
   ("abcdefghijklmnopqrstuvwxyz", "F71C27109C692C1B56BBDCEB5B9D2865B3708DBC");
   ("abcdbcdecdefdefgefghfghighijhijkijkljklmklmnlmnomnopnopq", "12A053384A9C0C88E405A06C27DCF49ADA62EB2B");
   ("ABCDEFGHIJKLMNOPQRSTUVWXYZabcdefghijklmnopqrstuvwxyz0123456789", "B0E20B6E3116640286ED3A87A5713079B21F5189");
   ("The quick brown fox jumps over the lazy dog.", "FC850169B1F2CE72E3F8AA0AEB5CA87D6F8519C6");
   ("gnabgib", "324ABA4F089151BD019C8C747EF8F4BEC0447112");
   ("12345678901234567890123456789012345678901234567890123456789012345678901234567890", "9B752E45573D4B39F4DBD3323CAB82BF63326BFB")]%string = true.
Proof. vm_compute. reflexivity. Qed.

(** ripe256_test.go *)
Example C54_vectors_256 : forallb (vector V256) [
   ("", "02BA4C4E5F8ECD1877FC52D64D30E37A2D9774FB1E5D026380AE0168E3C5522D");
   ("a", "F9333E45D857F5D90A91BAB70A1EBA0CFB1BE4B0783C9ACFCD883A9134692925");
   ("abc", "AFBD6E228B9D8CBBCEF5CA2D03E6DBA10AC0BC7DCBE4680E1E42D2E975459B65");
   ("message digest", "87E971759A1CE47A514D5C914C392C9018C7C46BC14465554AFCDF54A5070C0E");
   ("abcdefghijklmnopqrstuvwxyz", "649D3034751EA216776BF9A18ACC81BC7896118A5197968782DD1FD97D8D5133");
   ("abcdbcdecdefdefgefghfghighijhijkijkljklmklmnlmnomnopnopq", "3843045583AAC6C8C8D9128573E7A9809AFB2A0F34CCC36EA9E72F16F6368E3F");
   ("ABCDEFGHIJKLMNOPQRSTUVWXYZabcdefghijklmnopqrstuvwxyz0123456789", "5740A408AC16B720B84424AE931CBB1FE363D1D0BF4017F1A89F7EA6DE77A0B8");
   ("The quick brown fox jumps over the lazy dog", "C3B0C2F764AC6D576A6C430FB61A6F2255B4FA833E094B1BA8C1E29B6353036F");
   ("The quick brown fox jumps over the lazy cog", "B44055D843DEA5BCD2151E52B1A0DBC5E8E34493E5FE2F000C0E71F73C3DDCAE");
   ("The quick brown fox jumps over the lazy dog.", "379E373D9E1B6E71712B8F4A19B8FB125CAA3F4CE92A258EB764D721D9A08BAD");
   ("gnabgib", "0FE057F4F9AF9B0D4BB09B5FAE73BBE630D2FFB3D7B8614C9AC441A7D03EDEE7");
   ("12345678901234567890123456789012345678901234567890123456789012345678901234567890", "06FDCC7A409548AAF91368C06A6275B553E3F099BF0EA4EDFD6778DF89A890DD")]%string = true.
Proof. vm_compute. reflexivity. Qed.

(** ripe320_test.go *)
Example C54_vectors_320 : forallb (vector V320) [
   ("", "22D65D5661536CDC75C1FDF5C6DE7B41B9F27325EBC61E8557177D705A0EC880151C3A32A00899B8");
   ("a", "CE78850638F92658A5A585097579926DDA667A5716562CFCF6FBE77F63542F99B04705D6970DFF5D");
   ("abc", "DE4C01B3054F8930A79D09AE738E92301E5A17085BEFFDC1B8D116713E74F82FA942D64CDBC4682D");
   ("message digest", "3A8E28502ED45D422F68844F9DD316E7B98533FA3F2A91D29F84D425C88D6B4EFF727DF66A7C0197");
   ("abcdefghijklmnopqrstuvwxyz", "CABDB1810B92470A2093AA6BCE05952C28348CF43FF60841975166BB40ED234004B8824463E6B009");
   ("abcdbcdecdefdefgefghfghighijhijkijkljklmklmnlmnomnopnopq", "D034A7950CF722021BA4B84DF769A5DE2060E259DF4C9BB4A4268C0E935BBC7470A969C9D072A1AC");
   ("ABCDEFGHIJKLMNOPQRSTUVWXYZabcdefghijklmnopqrstuvwxyz0123456789", "ED544940C86D67F250D232C30B7B3E5770E0C60C8CB9A4CAFE3B11388AF9920E1B99230B843C86A4");
   ("The quick brown fox jumps over the lazy dog", "E7660E67549435C62141E51C9AB1DCC3B1EE9F65C0B3E561AE8F58C5DBA3D21997781CD1CC6FBC34");
   ("The quick brown fox jumps over the lazy cog", "393E0DF728C4CE3D79E7DCFD357D5C26F5C6D64C6D652DC53B6547B214EA9183E4F61C477EBF5CB0");
   ("The quick brown fox jumps over the lazy dog.", "4B743C0A2262F904097FDA33F0B8E03819BC012C5FC39643F17049C566EEE0B1961D1BD7B25A3E4D");
   ("gnabgib", "EFB9A476DAC2762191AA9890089ECCE637DAA14C22A2F8B6D024DF1AAB2DDDFAE159071D96196EFF");
   ("12345678901234567890123456789012345678901234567890123456789012345678901234567890", "557888AF5F6D8ED62AB66945C6D2A0A47ECD5341E915EB8FEA1D0524955F825DC717E4A008AB2D42")]%string = true.
Proof. vm_compute. reflexivity. Qed.

(** ** C55 the tables *)

Theorem C55_word_order : forall i j, (i < 5)%nat -> (j < 16)%nat ->
  nth_error r (i * 16 + j) = Some (N.of_nat (left_word i j))
  /\ nth_error rr (i * 16 + j) = Some (N.of_nat (right_word i j)).
Proof. exact word_order. Qed.
Print Assumptions C55_word_order.

Theorem C55_rotations : forall i j, (i < 5)%nat -> (j < 16)%nat ->
  nth_error s (i * 16 + j) = Some (shift i (left_word i j))
  /\ nth_error ss (i * 16 + j) = Some (shift i (right_word i j)).
Proof. exact rotations. Qed.
Print Assumptions C55_rotations.

Theorem C55_lengths : length r = 80%nat /\ length rr = 80%nat /\ length s = 80%nat /\ length ss = 80%nat
  /\ length k = 20%nat /\ length kk = 20%nat /\ length kk128 = 16%nat.
Proof. exact (conj eq_refl (conj eq_refl (conj eq_refl (conj eq_refl (conj eq_refl (conj eq_refl eq_refl)))))). Qed.
Print Assumptions C55_lengths.

(** The i-th constants as big-endian words: integer parts of 2^30 times the
    roots of 2, 3, 5, 7, stated with integers. *)
Theorem C55_constants :
  (forall i, (i < 5)%nat -> exists c, firstn 4 (skipn (4 * i) k) = big_endian 4 c /\
     let p := nth i [0; 2; 3; 5; 7] 0 in c ^ 2 <= 2 ^ 60 * p < (c + 1) ^ 2)
  /\ (forall i, (i < 5)%nat -> exists c, firstn 4 (skipn (4 * i) kk) = big_endian 4 c /\
     let p := nth i [2; 3; 5; 7; 0] 0 in c ^ 3 <= 2 ^ 90 * p < (c + 1) ^ 3)
  /\ (forall i, (i < 4)%nat -> exists c, firstn 4 (skipn (4 * i) kk128) = big_endian 4 c /\
     let p := nth i [2; 3; 5; 0] 0 in c ^ 3 <= 2 ^ 90 * p < (c + 1) ^ 3).
Proof. exact constants. Qed.
Print Assumptions C55_constants.

(** The word orders are permutations: every round uses every word once. *)
Theorem C55_permutation : forall i w, (i < 5)%nat -> (w < 16)%nat ->
  (exists! j, (j < 16)%nat /\ left_word i j = w) /\ (exists! j, (j < 16)%nat /\ right_word i j = w).
Proof. exact permutations. Qed.
Print Assumptions C55_permutation.

Example C55_nonvacuous : nth_error r 16 = Some 7 /\ nth_error rr 0 = Some 5 /\ nth_error s 79 = Some 6
  /\ be_at k 1 = Ret 0x5a827999 /\ be_at kk 3 = Ret 0x7a6d76e9 /\ be_at kk128 3 = Ret 0.
Proof. repeat split; vm_compute; reflexivity. Qed.

(** ** C56 Sum changes nothing *)

Theorem C56_sum_pure : forall v cs1 inp cs2, hcalls_ok cs1 -> bytes_ok inp -> hcalls_ok cs2 ->
  exists r1 d r2, length r1 = length cs1 /\ length d = size_of v
  /\ use v (cs1 ++ HSum inp :: cs2) = Ret (r1 ++ Digest (inp ++ d) :: r2) /\ use v (cs1 ++ cs2) = Ret (r1 ++ r2).
Proof. intros [] cs; [exact (sum_pure V128 cs)|exact (sum_pure V160 cs)|exact (sum_pure V256 cs)|exact (sum_pure V320 cs)]. Qed.
Print Assumptions C56_sum_pure.

Example C56_nonvacuous :
  use V128 [HWrite [97]; HSum [1]; HWrite [98; 99]; HSum []]
  = Ret [Wrote 1; Digest (1 :: RIPEMD128 [97]); Wrote 2; Digest (RIPEMD128 [97; 98; 99])]
  /\ RIPEMD128 [97] <> RIPEMD128 [97; 98; 99].
Proof. split; vm_compute; [reflexivity|discriminate]. Qed.
