(** Properties C34-C49, C76 and C77: package net. *)
From Coq Require Import Sorting.Sorted.
From Verif Require Import Base.Go Base.GoNet Base.NetApi Model.Net Spec.NetSpec
  Proofs.NetBasic Proofs.NetMore Proofs.NetRange Proofs.NetProofs.
Local Open Scope N_scope.

(** ** C34 IPv4/uint32 conversion *)

Theorem C34_uint_roundtrip : forall u, u < 2 ^ 32 -> Ipv4ToUint (Ipv4FromUint u) = Ret u.
Proof. exact from_to. Qed.
Print Assumptions C34_uint_roundtrip.

Theorem C34_ip_roundtrip : forall ip, length ip = 4%nat -> bytes_ok ip ->
  exists u, Ipv4ToUint ip = Ret u /\ Ipv4FromUint u = ip.
Proof. exact to_from. Qed.
Print Assumptions C34_ip_roundtrip.

Theorem C34_value : forall a b c d, a < 256 -> b < 256 -> c < 256 -> d < 256 ->
  Ipv4ToUint [a; b; c; d] = Ret (quad a b c d)
  /\ Ipv4ToUint (mapped ++ [a; b; c; d]) = Ret (quad a b c d).
Proof. exact ToUint_quad. Qed.
Print Assumptions C34_value.

Theorem C34_other : forall ip, bytes_ok ip -> (forall u, ~ is_addr ip u) -> Ipv4ToUint ip = Ret 0.
Proof. exact ToUint_other. Qed.
Print Assumptions C34_other.

Theorem C34_order : forall u v, u < 2 ^ 32 -> v < 2 ^ 32 ->
  u < v <-> lex_lt (addr u) (addr v).
Proof. exact addr_lex. Qed.
Print Assumptions C34_order.

(** The address functions agree with [addr], so the order theorem speaks of them. *)
Theorem C34_addr : forall u, u < 2 ^ 32 -> Ipv4FromUint u = addr u.
Proof. exact be32_addr. Qed.
Print Assumptions C34_addr.

Example C34_nonvacuous :
  Ipv4ToUint [192; 168; 1; 2] = Ret 3232235778
  /\ Ipv4ToUint [0;0;0;0;0;0;0;0;0;0;255;255;192;168;1;2] = Ret 3232235778
  /\ Ipv4ToUint [32;1;13;184;0;0;0;0;0;0;0;0;0;0;0;1] = Ret 0
  /\ Ipv4ToUint [1;2;3] = Ret 0 /\ Ipv4FromUint 3232235778 = [192; 168; 1; 2].
Proof. repeat split; vm_compute; reflexivity. Qed.

(** ** C35 mask/prefix length *)

Theorem C35_from_byte : forall b, b <= 32 ->
  length (MaskFromByte b) = 4%nat /\ mask_of_length (MaskFromByte b) (N.to_nat b) /\ MaskToByte (MaskFromByte b) = b.
Proof.
  intros b H. rewrite MaskFromByte_small by exact H.
  exact (conj eq_refl (conj (mask_addr_length b H) (MaskToByte_From b H))).
Qed.
Print Assumptions C35_from_byte.

Theorem C35_from_big_byte : forall b, 32 < b < 256 -> MaskFromByte b = [0; 0; 0; 0].
Proof. exact MaskFromByte_big. Qed.
Print Assumptions C35_from_big_byte.

(** Any mask, of any length: the number of ones when canonical, else 0. *)
Theorem C35_to_byte : forall m n, bytes_ok m -> mask_of_length m n -> MaskToByte m = N.of_nat n mod 256.
Proof. exact MaskToByte_length. Qed.
Print Assumptions C35_to_byte.

Theorem C35_to_byte_other : forall m, bytes_ok m -> (forall n, ~ mask_of_length m n) -> MaskToByte m = 0.
Proof. exact MaskToByte_other. Qed.
Print Assumptions C35_to_byte_other.

Example C35_nonvacuous :
  MaskFromByte 20 = [255; 255; 240; 0] /\ MaskToByte [255; 255; 240; 0] = 20
  /\ MaskToByte [255; 0; 255; 0] = 0 /\ (forall n, ~ mask_of_length [255; 0; 255; 0] n)
  /\ MaskFromByte 40 = [0; 0; 0; 0].
Proof.
  repeat split; try (vm_compute; reflexivity). intros n [_ H].
  pose proof (H 8%nat ltac:(cbn; lia)) as A. pose proof (H 16%nat ltac:(cbn; lia)) as B.
  change (bit_of [255; 0; 255; 0] 8) with false in A. change (bit_of [255; 0; 255; 0] 16) with true in B.
  symmetry in A, B. apply Nat.ltb_ge in A. apply Nat.ltb_lt in B. lia.
Qed.

(** ** C36 CidrEqual *)

Theorem C36_ipv4_partial : forall a b u v, is_addr (IP a) u -> is_addr (IP b) v ->
  exists r, CidrEqual (Some a) (Some b) = Ret r /\ (r = true <-> Mask a = Mask b /\ u = v).
Proof. exact CidrEqual_v4. Qed.
Print Assumptions C36_ipv4_partial.

Theorem C36_same_addresses_partial : forall u p u' p', aligned u p -> aligned u' p' ->
  exists r, CidrEqual (Some (net_of u p)) (Some (net_of u' p')) = Ret r
  /\ (r = true <-> forall x, x < 2 ^ 32 ->
        Contains (net_of u p) (addr x) = true <-> Contains (net_of u' p') (addr x) = true).
Proof. exact CidrEqual_sets. Qed.
Print Assumptions C36_same_addresses_partial.

(** 2001:db8::/32 and 2001:db9::/32 compare equal. *)
Theorem C36_refuted : exists a b ip,
  CidrEqual (Some a) (Some b) = Ret true /\ IP a <> IP b
  /\ Contains a ip = true /\ Contains b ip = false.
Proof.
  set (m := [255;255;255;255;0;0;0;0;0;0;0;0;0;0;0;0]).
  exists (mkNet [32;1;13;184;0;0;0;0;0;0;0;0;0;0;0;0] m), (mkNet [32;1;13;185;0;0;0;0;0;0;0;0;0;0;0;0] m),
         [32;1;13;184;0;0;0;0;0;0;0;0;0;0;0;1].
  split; [vm_compute; reflexivity|]. split; [discriminate|]. split; vm_compute; reflexivity.
Qed.
Print Assumptions C36_refuted.

Example C36_nonvacuous :
  aligned (quad 10 0 0 0) 8 /\ aligned (quad 10 1 0 0) 16
  /\ CidrEqual (Some (net_of (quad 10 0 0 0) 8)) (Some (net_of (quad 10 0 0 0) 8)) = Ret true
  /\ CidrEqual (Some (net_of (quad 10 0 0 0) 8)) (Some (net_of (quad 10 1 0 0) 16)) = Ret false.
Proof. unfold aligned. repeat split; vm_compute; congruence. Qed.

(** ** C37 first and last *)

Theorem C37_bounds : forall u p, aligned u p -> exists last,
  last = u + size p - 1
  /\ FirstIpv4 (Some (net_of u p)) = Ret (addr u) /\ LastIpv4 (Some (net_of u p)) = Ret (addr last)
  /\ Contains (net_of u p) (addr u) = true /\ Contains (net_of u p) (addr last) = true
  /\ (forall ip x, is_addr ip x -> Contains (net_of u p) ip = true <-> u <= x <= last)
  /\ (forall ip, bytes_ok ip -> (forall x, ~ is_addr ip x) -> Contains (net_of u p) ip = false).
Proof. exact first_last. Qed.
Print Assumptions C37_bounds.

Example C37_nonvacuous :
  aligned (quad 192 168 16 0) 20 /\ FirstIpv4 (Some (net_of (quad 192 168 16 0) 20)) = Ret [192; 168; 16; 0]
  /\ LastIpv4 (Some (net_of (quad 192 168 16 0) 20)) = Ret [192; 168; 31; 255].
Proof. unfold aligned. repeat split; vm_compute; congruence. Qed.

(** ** IpTree: the example history used below *)

Definition ex_calls : list (tree_call N) :=
  [CAddIp (addr (quad 10 0 0 1)) 1; CAddRange (addr (quad 10 0 0 2)) (addr (quad 10 0 0 9)) 2;
   CAddIp (mapped ++ addr (quad 10 0 0 0)) 4; CAddCidr (Some (net_of (quad 10 0 0 0) 30)) 8].
Lemma ex_addr u : u < 2 ^ 32 -> is_addr (addr u) u.
Proof. intros H. split; auto. Qed.
Lemma ex_proper : Forall proper ex_calls.
Proof.
  repeat constructor.
  - exists (quad 10 0 0 1). apply ex_addr. reflexivity.
  - exists (quad 10 0 0 2), (quad 10 0 0 9). repeat split; auto.
  - exists (quad 10 0 0 0). split; [reflexivity|auto].
  - exists (quad 10 0 0 0), 30. apply net_of_cidr; [reflexivity|discriminate].
Qed.
Definition ex_list (o : outcome (tree N)) : list (list N * list N * N) :=
  match o with Ret t => map (fun nv => (IP (fst nv), Mask (fst nv), snd nv)) (ListCidr t) | _ => [] end.
(** 10.0.0.0/29 value ((4+1)+2)+2 = 9, 10.0.0.8/31 value 2. *)
Example ex_result : ex_list (apply_all 20 (New N.add) ex_calls)
  = [([10;0;0;0], [255;255;255;248], 9); ([10;0;0;8], [255;255;255;254], 2)].
Proof. vm_compute. reflexivity. Qed.

(** ** C38 coverage *)

Theorem C38_coverage : forall V (merge : V -> V -> V) cs, Forall proper cs -> exists t k,
  (forall fuel, (k <= fuel)%nat -> apply_all fuel (New merge) cs = Ret t)
  /\ forall x, x < 2 ^ 32 -> listed (ListCidr t) x <-> exists c, In c cs /\ adds c x.
Proof. exact @coverage. Qed.
Print Assumptions C38_coverage.

Example C38_nonvacuous : Forall proper ex_calls /\ adds (nth 1 ex_calls (CAddCidr None 0)) (quad 10 0 0 5).
Proof.
  split; [exact ex_proper|]. exists (quad 10 0 0 2), (quad 10 0 0 9).
  split; [apply ex_addr; reflexivity|]. split; [apply ex_addr; reflexivity|]. split; discriminate.
Qed.

(** ** C39 canonical listing, after any calls that return *)

Theorem C39_canonical : forall V fuel (merge : V -> V -> V) cs t, apply_all fuel (New merge) cs = Ret t -> exists L,
  ListCidr t = map (fun x => let '(u, p, v) := x in (net_of u p, v)) L
  /\ (forall u p v, In (u, p, v) L -> aligned u p)
  /\ StronglySorted (fun x y => let '(u, p, _) := x in let '(u', _, _) := y in u + size p <= u') L
  /\ (forall u p v u' p' v', In (u, p, v) L -> In (u', p', v') L -> ~ halves u p u' p').
Proof. exact @canonical. Qed.
Print Assumptions C39_canonical.

Example C39_nonvacuous : exists t, apply_all 20 (New N.add) ex_calls = Ret t /\ length (ListCidr t) = 2%nat.
Proof. eexists. split; vm_compute; reflexivity. Qed.

(** ** C40 shortest *)

Theorem C40_shortest : forall V fuel (merge : V -> V -> V) cs t (L : list ipnet),
  apply_all fuel (New merge) cs = Ret t ->
  (forall n, In n L -> exists u p, is_cidr n u p) ->
  (forall x, x < 2 ^ 32 -> listed (ListCidr t) x <-> exists n, In n L /\ Contains n (addr x) = true) ->
  (length (ListCidr t) <= length L)%nat.
Proof. exact @shortest. Qed.
Print Assumptions C40_shortest.

(** The listing itself meets the hypotheses on L. *)
Example C40_nonvacuous : forall t, apply_all 20 (New N.add) ex_calls = Ret t ->
  (forall n, In n (map fst (ListCidr t)) -> exists u p, is_cidr n u p)
  /\ (forall x, x < 2 ^ 32 -> listed (ListCidr t) x <-> exists n, In n (map fst (ListCidr t)) /\ Contains n (addr x) = true).
Proof.
  intros t E. split.
  - destruct (canonical _ _ _ _ E) as (L & -> & A & _). intros n I. rewrite map_map in I. apply in_map_iff in I.
    destruct I as ([[u p] v] & <- & I). exists u, p. destruct (A u p v I) as (Hu & Hp & _).
    apply net_of_cidr; assumption.
  - intros x _. split.
    + intros (n & v & I & C). exists n. split; [|exact C]. apply in_map_iff. exists (n, v). auto.
    + intros (n & I & C). apply in_map_iff in I. destruct I as ([n' v] & <- & I). exists n', v. auto.
Qed.

(** ** C41 order, repetition and form do not matter *)

Theorem C41_order_free : forall V fuel1 fuel2 (merge1 merge2 : V -> V -> V) cs1 cs2 t1 t2,
  Forall proper cs1 -> Forall proper cs2 ->
  (forall x, x < 2 ^ 32 -> (exists c, In c cs1 /\ adds c x) <-> exists c, In c cs2 /\ adds c x) ->
  apply_all fuel1 (New merge1) cs1 = Ret t1 -> apply_all fuel2 (New merge2) cs2 = Ret t2 ->
  map fst (ListCidr t1) = map fst (ListCidr t2).
Proof. exact @order_free. Qed.
Print Assumptions C41_order_free.

(** The same for any trees whatever calls made them. *)
Theorem C41_same_set : forall V fuel1 fuel2 (merge1 merge2 : V -> V -> V) cs1 cs2 t1 t2,
  apply_all fuel1 (New merge1) cs1 = Ret t1 -> apply_all fuel2 (New merge2) cs2 = Ret t2 ->
  (forall x, x < 2 ^ 32 -> listed (ListCidr t1) x <-> listed (ListCidr t2) x) ->
  map fst (ListCidr t1) = map fst (ListCidr t2).
Proof. exact @same_set_same_list. Qed.
Print Assumptions C41_same_set.

Example C41_nonvacuous :
  (forall x, (exists c, In c ex_calls /\ adds c x) <-> exists c, In c (rev ex_calls) /\ adds c x)
  /\ map fst (ex_list (apply_all 20 (New N.add) (rev ex_calls))) = map fst (ex_list (apply_all 20 (New N.add) ex_calls))
  /\ ex_list (apply_all 20 (New N.add) (rev ex_calls)) <> ex_list (apply_all 20 (New N.add) ex_calls).
Proof.
  split; [|split; [vm_compute; reflexivity|vm_compute; discriminate]].
  intros x. split; intros (c & I & A); exists c; (split; [|exact A]).
  - apply -> in_rev. exact I.
  - apply in_rev. exact I.
Qed.

(** ** C42 AddRange *)

Theorem C42_range_partial : forall V fuel (merge : V -> V -> V) cs t s e a b v,
  apply_all fuel (New merge) cs = Ret t -> is_addr s a -> is_addr e b -> b < 2 ^ 32 - 1 -> exists t' k,
  (forall fuel', (k <= fuel')%nat -> AddRange fuel' t s e v = Ret t')
  /\ forall x, x < 2 ^ 32 -> listed (ListCidr t') x <-> listed (ListCidr t) x \/ a <= x <= b.
Proof. exact @AddRange_adds. Qed.
Print Assumptions C42_range_partial.

Theorem C42_empty_partial : forall V fuel (t : tree V) s e a b v,
  is_addr s a -> is_addr e b -> b < a -> AddRange fuel t s e v = Ret t.
Proof. exact @AddRange_empty. Qed.
Print Assumptions C42_empty_partial.

(** No number of rounds is enough when the range ends at 255.255.255.255. *)
Theorem C42_never_returns_partial : forall V fuel (t : tree V) s e a v,
  is_addr s a -> is_addr e (2 ^ 32 - 1) -> AddRange fuel t s e v = OutOfFuel.
Proof. exact @AddRange_top. Qed.
Print Assumptions C42_never_returns_partial.

Theorem C42_refuted : exists s e, s = [255; 255; 255; 0] /\ e = [255; 255; 255; 255] /\
  forall fuel, AddRange fuel (New N.add) s e 1 = OutOfFuel.
Proof.
  do 2 eexists. split; [reflexivity|]. split; [reflexivity|]. intros fuel.
  apply (AddRange_top fuel (New N.add) _ _ (quad 255 255 255 0)); split; [reflexivity|left|reflexivity|left];
  vm_compute; reflexivity.
Qed.
Print Assumptions C42_refuted.

Example C42_nonvacuous :
  ex_list (AddRange 20 (New N.add) [10;0;0;3] [10;0;0;12] 7)
  = [([10;0;0;3], [255;255;255;255], 7); ([10;0;0;4], [255;255;255;252], 7);
     ([10;0;0;8], [255;255;255;252], 7); ([10;0;0;12], [255;255;255;255], 7)].
Proof. vm_compute. reflexivity. Qed.

(** ** C43 three ways of adding *)

Theorem C43_ip : forall V (t : tree V) ip u v fuel, is_addr ip u -> u < 2 ^ 32 - 1 -> (0 < fuel)%nat ->
  AddIp t ip v = AddCidr t (Some (mkNet ip (MaskFromByte 32))) v /\ AddRange fuel t ip ip v = AddIp t ip v.
Proof. exact @ip_three_ways. Qed.
Print Assumptions C43_ip.

(** AddIp and AddCidr agree for 255.255.255.255 too. *)
Theorem C43_ip_cidr : forall V (t : tree V) ip v u, is_addr ip u ->
  AddIp t ip v = AddCidr t (Some (mkNet ip (MaskFromByte 32))) v.
Proof. exact @ip_cidr. Qed.
Print Assumptions C43_ip_cidr.

Theorem C43_cidr : forall V (t : tree V) u p v fuel first last,
  aligned u p -> u + size p < 2 ^ 32 -> (0 < fuel)%nat ->
  FirstIpv4 (Some (net_of u p)) = Ret first -> LastIpv4 (Some (net_of u p)) = Ret last ->
  AddRange fuel t first last v = AddCidr t (Some (net_of u p)) v.
Proof. exact @cidr_range. Qed.
Print Assumptions C43_cidr.

Example C43_nonvacuous :
  aligned (quad 192 168 0 0) 16 /\ quad 192 168 0 0 + size 16 < 2 ^ 32
  /\ ex_list (AddCidr (New N.add) (Some (net_of (quad 192 168 0 0) 16)) 3)
     = [([192; 168; 0; 0], [255; 255; 0; 0], 3)].
Proof. unfold aligned. repeat split; vm_compute; congruence. Qed.

(** ** C44 adding what is covered *)

Theorem C44_noop : forall V fuel (merge : V -> V -> V) cs t c,
  apply_all fuel (New merge) cs = Ret t -> proper c ->
  (forall x, x < 2 ^ 32 -> adds c x -> listed (ListCidr t) x) ->
  exists k, forall fuel', (k <= fuel')%nat -> apply fuel' t c = Ret t.
Proof. exact @covered_noop. Qed.
Print Assumptions C44_noop.

Theorem C44_idempotent : forall V (merge : V -> V -> V) cs c, Forall proper cs -> proper c -> In c cs ->
  exists t k, forall fuel, (k <= fuel)%nat ->
    apply_all fuel (New merge) cs = Ret t /\ apply_all fuel (New merge) (cs ++ [c]) = Ret t.
Proof. exact @idempotent. Qed.
Print Assumptions C44_idempotent.

Example C44_nonvacuous : Forall proper ex_calls /\ In (nth 1 ex_calls (CAddCidr None 0)) ex_calls
  /\ apply_all 20 (New N.add) (ex_calls ++ [nth 1 ex_calls (CAddCidr None 0)]) = apply_all 20 (New N.add) ex_calls.
Proof. split; [exact ex_proper|]. split; [right; left; reflexivity|vm_compute; reflexivity]. Qed.

(** ** C45 values: refinement of the reference block set *)

Theorem C45_reference : forall V (merge : V -> V -> V) cs, Forall proper cs -> exists t k B,
  (forall fuel, (k <= fuel)%nat -> apply_all fuel (New merge) cs = Ret t)
  /\ history merge no_blocks cs B
  /\ (forall u p v, B u p = Some v -> aligned u p)
  /\ forall n v, In (n, v) (ListCidr t) <-> exists u p, n = net_of u p /\ B u p = Some v.
Proof. exact @reference. Qed.
Print Assumptions C45_reference.

(** The reference is determined by the history. *)
Theorem C45_unique : forall V (merge : V -> V -> V) B cs B1 B2,
  history merge B cs B1 -> history merge B cs B2 -> B1 = B2.
Proof. exact @history_fun. Qed.
Print Assumptions C45_unique.

Example C45_nonvacuous :
  let B1 := insert_all N.add no_blocks [(quad 10 0 0 1, 32)] 1 in
  let B2 := insert_all N.add B1 (range_prefixes 8 (quad 10 0 0 2) (quad 10 0 0 9)) 2 in
  let B3 := insert_all N.add B2 [(quad 10 0 0 0, 32)] 4 in
  range_prefixes 8 (quad 10 0 0 2) (quad 10 0 0 9) = [(quad 10 0 0 2, 31); (quad 10 0 0 4, 30); (quad 10 0 0 8, 31)]
  /\ B2 (quad 10 0 0 2) 31 = Some 2 /\ B3 (quad 10 0 0 2) 31 = None
  /\ B3 (quad 10 0 0 0) 29 = Some 9 /\ B3 (quad 10 0 0 8) 31 = Some 2.
Proof. repeat split; vm_compute; reflexivity. Qed.

(** ** C46 listed values come from added ones *)

Theorem C46_closure : forall V (P : V -> Prop) fuel (merge : V -> V -> V) cs t,
  (forall a b, P a -> P b -> P (merge a b)) -> (forall c, In c cs -> P (call_value c)) ->
  apply_all fuel (New merge) cs = Ret t -> forall n v, In (n, v) (ListCidr t) -> P v.
Proof. exact @values_from_added. Qed.
Print Assumptions C46_closure.

Theorem C46_constant : forall V fuel (merge : V -> V -> V) cs t v0, merge v0 v0 = v0 ->
  (forall c, In c cs -> call_value c = v0) -> apply_all fuel (New merge) cs = Ret t ->
  forall n v, In (n, v) (ListCidr t) -> v = v0.
Proof.
  intros V fuel merge cs t v0 M C. apply (values_from_added (fun v => v = v0)); [|exact C].
  intros a b -> ->. exact M.
Qed.
Print Assumptions C46_constant.

Example C46_nonvacuous : (forall c, In c ex_calls -> N.land (call_value c) 240 = 0)
  /\ (forall a b, N.land a 240 = 0 -> N.land b 240 = 0 -> N.land (N.lor a b) 240 = 0)
  /\ ex_list (apply_all 20 (New N.lor) ex_calls) = [([10;0;0;0], [255;255;255;248], 7); ([10;0;0;8], [255;255;255;254], 2)].
Proof.
  split; [intros c [<-|[<-|[<-|[<-|[]]]]]; reflexivity|]. split; [|vm_compute; reflexivity].
  intros a b Ha Hb. rewrite N.land_lor_distr_l, Ha, Hb. reflexivity.
Qed.

(** ** C47 no value lost *)

(** With values that are lists and merge their concatenation, adding 10.0.0.0/25
    with [1] and then 10.0.0.0/24 with [2] loses [1]; adding 10.0.0.1 with [2]
    to 10.0.0.0/24 with [1] loses [2]. *)
Theorem C47_refuted : exists t1 t2,
  apply_all 0 (New (@app N)) [CAddCidr (Some (net_of (quad 10 0 0 0) 25)) [1]; CAddCidr (Some (net_of (quad 10 0 0 0) 24)) [2]] = Ret t1
  /\ map snd (ListCidr t1) = [[2]]
  /\ apply_all 0 (New (@app N)) [CAddCidr (Some (net_of (quad 10 0 0 0) 24)) [1]; CAddIp [10; 0; 0; 1] [2]] = Ret t2
  /\ map snd (ListCidr t2) = [[1]].
Proof. do 2 eexists. repeat split; vm_compute; reflexivity. Qed.
Print Assumptions C47_refuted.

(** A call disjoint from all others keeps its value: for every property R that
    merging preserves from either side, each address of the call lies in a
    listed CIDR whose value has R. The other calls may overlap each other. *)
Theorem C47_disjoint_partial : forall V (R : V -> Prop) fuel (merge : V -> V -> V) cs1 c cs2 t,
  (forall a b, R a \/ R b -> R (merge a b)) -> Forall proper (cs1 ++ c :: cs2) ->
  (forall c' x, In c' (cs1 ++ cs2) -> adds c x -> ~ adds c' x) ->
  R (call_value c) -> apply_all fuel (New merge) (cs1 ++ c :: cs2) = Ret t ->
  forall x, x < 2 ^ 32 -> adds c x -> exists n v, In (n, v) (ListCidr t) /\ Contains n (addr x) = true /\ R v.
Proof. exact @value_kept. Qed.
Print Assumptions C47_disjoint_partial.

Example C47_nonvacuous : exists t,
  apply_all 0 (New (@app N)) [CAddCidr (Some (net_of (quad 10 0 0 0) 25)) [1]; CAddCidr (Some (net_of (quad 10 0 0 128) 25)) [2]] = Ret t
  /\ map snd (ListCidr t) = [[1; 2]]
  /\ (forall a b : list N, In 1 a \/ In 1 b -> In 1 (a ++ b)).
Proof. eexists. split; [vm_compute; reflexivity|]. split; [vm_compute; reflexivity|]. intros. apply in_or_app. assumption. Qed.

(** ** C48 rebuilding *)

Theorem C48_rebuild : forall V fuel (merge : V -> V -> V) cs t, apply_all fuel (New merge) cs = Ret t ->
  forall fuel', apply_all fuel' (New merge) (map (fun nv => CAddCidr (Some (fst nv)) (snd nv)) (ListCidr t)) = Ret t.
Proof. exact @relist. Qed.
Print Assumptions C48_rebuild.

Example C48_nonvacuous : exists t, apply_all 20 (New N.add) ex_calls = Ret t /\ length (ListCidr t) = 2%nat.
Proof. exact C39_nonvacuous. Qed.

(** ** C49 not an IPv4 CIDR *)

(** 2001:db8::/33 makes 1.2.3.4 (and every other address) covered. *)
Theorem C49_refuted : exists n t,
  bytes_ok (IP n) /\ (forall x, ~ is_addr (IP n) x) /\ mask_of_length (Mask n) 33
  /\ Contains n [1; 2; 3; 4] = false
  /\ AddCidr (New N.add) (Some n) 1 = Ret t
  /\ ex_list (Ret t) = [([0; 0; 0; 0], [0; 0; 0; 0], 1)].
Proof.
  exists (mkNet [32;1;13;184;0;0;0;0;0;0;0;0;0;0;0;0] [255;255;255;255;128;0;0;0;0;0;0;0;0;0;0;0]).
  eexists. split; [repeat constructor|]. split.
  { intros x [_ [E|E]]; discriminate E. }
  split.
  { split; [cbn; lia|]. intros i Hi. cbn in Hi.
    assert (S : forallb (fun i => Bool.eqb (bit_of [255;255;255;255;128;0;0;0;0;0;0;0;0;0;0;0] i) (Nat.ltb i 33)) (seq 0 128) = true)
      by (vm_compute; reflexivity).
    rewrite forallb_forall in S. apply Bool.eqb_prop, S, in_seq. lia. }
  repeat split; vm_compute; reflexivity.
Qed.
Print Assumptions C49_refuted.

(** Exactly what happens: an address that is not IPv4 counts as 0.0.0.0 ... *)
Theorem C49_ipv6_partial : forall V (t : tree V) ip m b v, bytes_ok ip -> bytes_ok m ->
  (forall u, ~ is_addr ip u) -> mask_of_length m b -> (b <= 32)%nat ->
  AddCidr t (Some (mkNet ip m)) v = AddCidr t (Some (net_of 0 (N.of_nat b))) v.
Proof. exact @odd_cidr_v6. Qed.
Print Assumptions C49_ipv6_partial.

(** ... and a mask that is not canonical, or longer than 32, adds everything. *)
Theorem C49_whole_partial : forall V (t : tree V) ip m v, bytes_ok ip -> bytes_ok m ->
  (forall b, ~ mask_of_length m b) \/ (exists b, mask_of_length m b /\ (32 < b < 256)%nat) ->
  AddCidr t (Some (mkNet ip m)) v = AddCidr t (Some (net_of 0 0)) v.
Proof. exact @odd_cidr_whole. Qed.
Print Assumptions C49_whole_partial.

(** For every address and every mask at all: AddCidr is AddCidr of the IPv4 CIDR
    u/p, host bits or not, where u is 0 if the address is not IPv4 and p is the
    length of the mask as a byte, and 0 if it has none or if that exceeds 32. *)
Theorem C49_any_partial : forall V (t : tree V) ip m u k v, bytes_ok ip -> bytes_ok m ->
  is_addr ip u \/ (forall x, ~ is_addr ip x) /\ u = 0 ->
  mask_of_length m k \/ (forall b, ~ mask_of_length m b) /\ k = 0%nat ->
  let p := if N.of_nat k mod 256 <=? 32 then N.of_nat k mod 256 else 0 in
  is_cidr (net_of u p) u p /\ AddCidr t (Some (mkNet ip m)) v = AddCidr t (Some (net_of u p)) v.
Proof.
  intros V t ip m u k v Bi Bm Hu Hk p. split; [|apply odd_cidr_any; assumption].
  apply net_of_cidr.
  - destruct Hu as [Hu|[_ ->]]; [apply Hu|reflexivity].
  - unfold p. destruct (N.leb_spec (N.of_nat k mod 256) 32); lia.
Qed.
Print Assumptions C49_any_partial.

Example C49_nonvacuous :
  ex_list (AddCidr (New N.add) (Some (mkNet [10;1;2;3] [255;0;255;0])) 5) = [([0;0;0;0], [0;0;0;0], 5)]
  /\ ex_list (AddCidr (New N.add) (Some (mkNet [32;1;13;184;0;0;0;0;0;0;0;0;0;0;0;0] [255;255;0;0;0;0;0;0;0;0;0;0;0;0;0;0])) 5)
     = [([0;0;0;0], [255;255;0;0], 5)].
Proof. split; vm_compute; reflexivity. Qed.

(** ** C76 first and last of a CIDR built by hand *)

(** Any address form, host bits or not: the addresses contained in the CIDR are
    those from base u p to base u p + size p - 1. *)
Theorem C76_last_partial : forall n u p, is_cidr n u p -> length (IP n) = 4%nat ->
  exists last, LastIpv4 (Some n) = Ret (addr last) /\ Contains n (addr last) = true
  /\ (forall ip x, is_addr ip x -> Contains n ip = true -> x <= last).
Proof.
  intros n u p H L. exists (base u p + size p - 1).
  pose proof H as ([Hu _] & Hp & _). pose proof (base_aligned u p Hu Hp) as Al.
  pose proof (aligned_last _ p Al) as Lt.
  assert (0 < size p) by (apply N.neq_0_lt_0, N.pow_nonzero; lia).
  split; [|split].
  - rewrite (last_exact n u p H), L. reflexivity.
  - apply (contained_bounds n u p _ (base u p + size p - 1) H); [split; [lia|auto]|lia].
  - intros ip x X C. apply (contained_bounds n u p ip x H X) in C. lia.
Qed.
Print Assumptions C76_last_partial.

(** An IPv4-mapped address, as net.ParseIP returns it, counts as 0.0.0.0. *)
Theorem C76_mapped_partial : forall u p, p <= 32 ->
  LastIpv4 (Some (mkNet (mapped ++ addr u) (addr (2 ^ 32 - size p)))) = Ret (addr (size p - 1)).
Proof. exact LastIpv4_mapped. Qed.
Print Assumptions C76_mapped_partial.

(** FirstIpv4 gives back the address; that is the first contained one exactly
    when there are no host bits. *)
Theorem C76_first_partial : forall n u p, is_cidr n u p ->
  FirstIpv4 (Some n) = Ret (IP n) /\ is_addr (IP n) u
  /\ ((forall ip x, is_addr ip x -> Contains n ip = true -> u <= x) <-> u mod size p = 0).
Proof.
  intros n u p H. destruct (first_iff n u p H) as (A & B & C). split; [exact A|]. split; [exact B|].
  rewrite <- C. pose proof H as ([Hu _] & Hp & _). pose proof (base_aligned u p Hu Hp) as Al.
  assert (0 < size p) by (apply N.neq_0_lt_0, N.pow_nonzero; lia).
  assert (base u p <= u) by (unfold base; rewrite N.mul_comm; apply N.mul_div_le; lia).
  split.
  - intros Q. assert (X : is_addr (addr (base u p)) (base u p)) by (split; [apply Al|auto]).
    specialize (Q _ _ X). rewrite (contained_bounds n u p _ _ H X) in Q. lia.
  - intros E ip x X Q. apply (contained_bounds n u p ip x H X) in Q. lia.
Qed.
Print Assumptions C76_first_partial.

(** 10.0.0.0/8 with the address in 16-byte form: the last address comes out as
    0.255.255.255; 10.0.0.5/24 made by hand: the first comes out as 10.0.0.5. *)
Theorem C76_refuted : exists n last n',
  is_cidr n (quad 10 0 0 0) 8 /\ LastIpv4 (Some n) = Ret last
  /\ Contains n last = false /\ last = [0; 255; 255; 255]
  /\ is_cidr n' (quad 10 0 0 5) 24 /\ FirstIpv4 (Some n') = Ret [10; 0; 0; 5]
  /\ Contains n' [10; 0; 0; 4] = true.
Proof.
  exists (mkNet (mapped ++ addr (quad 10 0 0 0)) (addr (2 ^ 32 - size 8))). eexists.
  exists (net_of (quad 10 0 0 5) 24).
  split; [split; [split; [reflexivity|right; reflexivity]|split; [discriminate|reflexivity]]|].
  split; [vm_compute; reflexivity|]. split; [vm_compute; reflexivity|]. split; [reflexivity|].
  split; [apply net_of_cidr; [reflexivity|discriminate]|]. split; vm_compute; reflexivity.
Qed.
Print Assumptions C76_refuted.

Example C76_nonvacuous :
  is_cidr (net_of (quad 10 1 2 3) 12) (quad 10 1 2 3) 12
  /\ length (IP (net_of (quad 10 1 2 3) 12)) = 4%nat
  /\ LastIpv4 (Some (net_of (quad 10 1 2 3) 12)) = Ret [10; 15; 255; 255].
Proof.
  split; [apply net_of_cidr; [reflexivity|discriminate]|]. split; vm_compute; reflexivity.
Qed.

(** ** C77 which arguments panic *)

Theorem C77_add : forall V (t : tree V) fuel ip s e c v,
  (exists t', AddIp t ip v = Ret t') /\ (exists t', AddCidr t (Some c) v = Ret t')
  /\ AddCidr t None v = Panic /\ AddRange fuel t s e v <> Panic.
Proof.
  intros V t fuel ip s e c v. destruct (AddCidr_returns t c v) as [A B].
  split; [apply AddIp_returns|]. split; [exact B|]. split; [exact A|apply AddRange_no_panic].
Qed.
Print Assumptions C77_add.

Theorem C77_equal : forall a b, (CidrEqual a b = Panic <-> a = None \/ b = None)
  /\ (a <> None -> b <> None -> exists r, CidrEqual a b = Ret r).
Proof. exact CidrEqual_returns. Qed.
Print Assumptions C77_equal.

Theorem C77_first : forall n, FirstIpv4 n = Panic <-> n = None.
Proof. intros [n|]; cbn [FirstIpv4]; split; congruence. Qed.
Print Assumptions C77_first.

Theorem C77_last : LastIpv4 None = Panic /\ forall n,
  (LastIpv4 (Some n) = Panic <-> (length (IP n) < 4 \/ length (Mask n) < 4)%nat)
  /\ LastIpv4 (Some n) <> OutOfFuel.
Proof. split; [reflexivity|]. intros n. exact (conj (last_panic n) (last_total n)). Qed.
Print Assumptions C77_last.

Theorem C77_uint : forall ip, exists u, Ipv4ToUint ip = Ret u.
Proof. exact ToUint_not_panic. Qed.
Print Assumptions C77_uint.

Example C77_nonvacuous :
  LastIpv4 (Some (mkNet [10; 0; 0] [255; 0; 0; 0])) = Panic
  /\ LastIpv4 (Some (mkNet [10; 0; 0; 0; 0] [255; 0; 0; 0])) = Ret [10; 255; 255; 255]
  /\ CidrEqual (Some (mkNet [] [])) (Some (mkNet [1] [])) = Ret true.
Proof. repeat split; vm_compute; reflexivity. Qed.
