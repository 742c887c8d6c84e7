(** The memory models of the hashes against the models on lists. *)
From Verif Require Import Base.Go Base.Mem Base.Heap Base.DigestApi Base.HashApi Base.HashUse.
From Verif Require Import Model.Bytes Model.HashMem Proofs.Util Proofs.BytesProofs Proofs.HeapProofs.
From Verif Require Model.Ripemd Model.Whirlpool Model.Bcc Model.Lrc Model.Fletcher.
Local Open Scope N_scope.

Definition disj (a n b k : nat) : Prop := forall x, (a <= x < a + n)%nat -> ~ (b <= x < b + k)%nat.

(** An object in memory stands for a context. *)
Definition rep (m : mem) (c : obj) (t : ctx) : Prop :=
  ostate c = state t /\ ototal c = total t /\ opos c = bPos t /\ read m (oblock c) 64 = block t.

Definition keeps_block (f : ctx -> outcome ctx) : Prop := forall c t, f c = Ret t -> block t = block c.

Ltac unbind H := apply bind_ret in H; let x := fresh "x" in let E := fresh "E" in destruct H as (x & E & H).

Section Hash.
Context (hash : ctx -> outcome ctx) (Hk : keeps_block hash).

Lemma hash_obj_sim m c st tot b pos t : hash (mkCtx st tot b pos) = Ret t ->
  ostate c = st -> ototal c = tot -> read m (oblock c) 64 = b -> opos c = pos ->
  exists c', hash_obj hash m c = Ret c' /\ rep m c' t /\ oblock c' = oblock c.
Proof.
  intros H <- <- <- <-. unfold hash_obj. rewrite H. cbn [bind]. eexists. split; [reflexivity|].
  unfold rep. cbn [ostate ototal oblock opos]. rewrite (Hk _ _ H). repeat split; reflexivity.
Qed.

Lemma write_loop_sim fuel : forall m c p n space t t', rep m c t -> mem_ok m -> disj (off p) (len p) (oblock c) 64 ->
  Ripemd.write_loop fuel hash t (read m (off p) (len p)) n space = Ret t' ->
  exists m' c', write_loop fuel hash m c p n space = Ret (m', c') /\ rep m' c' t' /\ keeps (oblock c) 64 m m'
    /\ mem_ok m' /\ oblock c' = oblock c.
Proof.
  induction fuel as [|fuel IH]; intros m c p n space t t' R Hm D H.
  - cbn [Ripemd.write_loop write_loop] in *. destruct (Nat.ltb 0 n); [discriminate|]. injection H as <-.
    exists m, c. repeat split; try apply R; try exact Hm; apply keeps_refl.
  - cbn [Ripemd.write_loop write_loop] in *. destruct (Nat.ltb 0 n).
    2:{ injection H as <-. exists m, c. repeat split; try apply R; try exact Hm; apply keeps_refl. }
    destruct R as (R1 & R2 & R3 & R4). destruct (Nat.ltb n space).
    + unbind H. injection H as <-. rewrite <- R4, <- R3 in E. apply copy_from_read in E. destruct E as (F & C & K).
      unfold blk. rewrite F. cbn [bind]. eexists _, _. split; [reflexivity|]. unfold rep, at_pos. cbn [ostate ototal oblock opos state total bPos block].
      repeat split; try assumption; try congruence. apply copy_ok, Hm.
    + unbind H. unbind H. unbind H. unbind H.
      unfold slice_of in E. rewrite read_length in E. cbn [Nat.leb andb] in E.
      destruct (Nat.leb_spec space (len p)) as [L|L]; [|discriminate].
      injection E as E. rewrite Nat.sub_0_r in E. cbn [skipn] in E. rewrite read_firstn in E by exact L. subst x.
      rewrite <- R4, <- R3 in E0. pose (p0 := mkSlice (off p + 0) (space - 0)).
      assert (P0 : read m (off p) space = read m (off p0) (len p0)) by (unfold p0; cbn [off len]; rewrite Nat.add_0_r, Nat.sub_0_r; reflexivity).
      rewrite P0 in E0.
      apply copy_from_read in E0. destruct E0 as (F & C & K). unfold blk. rewrite F. cbn [bind].
      rewrite sub_ok by lia. fold p0. cbn [bind].
      set (m1 := copy m _ p0) in *.
      destruct (hash_obj_sim m1 (at_pos c (opos c + space)) _ _ _ _ _ E1) as (c1 & Ec & R' & B').
      1,2: cbn [ostate ototal at_pos]; assumption.
      1: exact C. 1: cbn [opos at_pos]; congruence.
      rewrite Ec. cbn [bind]. rewrite from_ok by exact L. cbn [bind].
      rewrite read_slice in E2 by (rewrite read_length; lia). rewrite read_length in E2. injection E2 as <-.
      cbn [oblock at_pos] in B'. rewrite <- R3 in *.
      destruct (IH m1 c1 (mkSlice (off p + space) (len p - space)) (n - space)%nat 64%nat x1 t') as (m' & c' & Ew & R'' & K' & M' & B'').
      * exact R'.
      * apply copy_ok, Hm.
      * rewrite B'. cbn [off len]. intros y Hy. apply D. lia.
      * cbn [off len]. rewrite <- H. f_equal. apply read_ext. intros y Hy. apply K. apply D. lia.
      * exists m', c'. split; [exact Ew|]. split; [exact R''|]. rewrite B' in *. split; [|split; [exact M'|exact B'']].
        apply (keeps_trans _ _ _ m1); assumption.
Qed.

Lemma Write_sim h c p t t' n : rep (cells h) c t -> mem_ok (cells h) -> disj (off p) (len p) (oblock c) 64 ->
  Ripemd.Write hash t (read (cells h) (off p) (len p)) = Ret (t', n) ->
  exists h' c', Write hash h c p = Ret (h', c', len p) /\ rep (cells h') c' t' /\ keeps (oblock c) 64 (cells h) (cells h')
    /\ mem_ok (cells h') /\ oblock c' = oblock c /\ brk h' = brk h.
Proof.
  intros (R1 & R2 & R3 & R4) Hm D H. unfold Ripemd.Write in H. rewrite read_length in H. unbind H. injection H as -> <-.
  unfold Write. cbn [ostate ototal oblock opos block state total bPos] in *.
  rewrite <- R1, <- R2, <- R3 in E. 
  edestruct (write_loop_sim (S (len p)) (cells h) (mkObj (ostate c) (add64 (ototal c) (u64 (N.of_nat (len p)))) (oblock c) (opos c)))
    as (m' & c' & Ew & R' & K & M & B); [|exact Hm| |exact E|].
  - repeat split; try reflexivity. exact R4.
  - exact D.
  - rewrite Ew. cbn [bind]. exists (mkHeap m' (brk h)), c'. cbn [cells brk]. cbn [oblock] in *. repeat split; try assumption; apply R'.
Qed.

(** ** Sum *)

Lemma clone_spec h c t : rep (cells h) c t -> (oblock c + 64 <= brk h)%nat -> mem_ok (cells h) ->
  exists g u, clone h c = (g, u) /\ rep (cells g) u t /\ oblock u = brk h /\ brk g = (brk h + 64)%nat
    /\ keeps (brk h) 64 (cells h) (cells g) /\ mem_ok (cells g).
Proof.
  intros (R1 & R2 & R3 & R4) Hb Hm. unfold clone, alloc. eexists _, _. split; [reflexivity|].
  unfold rep. cbn [ostate ototal oblock opos cells brk off].
  split; [|split; [reflexivity|split; [reflexivity|split]]].
  - repeat split; try assumption. rewrite <- R4. apply read_eq; [apply read_length|]. intros i Hi. rewrite nth_read by exact Hi.
    unfold copy, zeroed, blk. cbn [off len]. bcase; [|lia]. bcase; [lia|]. f_equal. lia.
  - intros x Hx. unfold copy, zeroed, blk. cbn [off len]. bcase; [lia|]. bcase; [lia|reflexivity].
  - apply copy_ok, zeroed_ok, Hm.
Qed.

Lemma u8_lt v : u8 v < 256.
Proof. unfold u8. apply N.mod_lt. discriminate. Qed.

(** A store into the block of a copy of the object. *)
Lemma store_blk m a i v b b' : upd b i v = Ret b' -> read m a 64 = b -> v < 256 -> mem_ok m ->
  exists m', store m (mkSlice a 64) i v = Ret m' /\ read m' a 64 = b' /\ keeps a 64 m m' /\ mem_ok m'.
Proof.
  intros H <- Hv Hm. apply store_read in H. destruct H as (S & R & K). eexists. split; [exact S|]. split; [exact R|]. split; [exact K|].
  apply set_ok; assumption.
Qed.

Lemma le_put32_sim m a n i v : (i + 4 <= n)%nat -> mem_ok m ->
  exists m', le_put32 m (mkSlice (a + i) (n - i)) v = Ret m' /\ read m' a n = copy_at (read m a n) i (le32 v)
    /\ keeps a n m m' /\ mem_ok m'.
Proof.
  intros H Hm. unfold le_put32. rewrite load_ok by (cbn [len]; lia). cbn [bind].
  repeat (rewrite store_ok by (cbn [len]; lia); cbn [bind off]). eexists. split; [reflexivity|].
  split; [|split].
  - apply read_eq; [rewrite copy_at_length by (rewrite read_length; lia); apply read_length|]. intros j Hj.
    rewrite nth_copy_at by (rewrite read_length; lia). rewrite read_length, nth_read by exact Hj.
    change (length (le32 v)) with 4%nat. unfold set.
    repeat match goal with |- context [Nat.eqb ?x ?y] => destruct (Nat.eqb_spec x y) end;
      bcase; try lia; try reflexivity;
      match goal with |- context [nth ?k (le32 v) 0] => first [replace k with 0%nat by lia; reflexivity|replace k with 1%nat by lia; reflexivity|replace k with 2%nat by lia; reflexivity|replace k with 3%nat by lia; reflexivity] end.
  - intros x Hx. unfold set. repeat match goal with |- context [Nat.eqb ?x ?y] => destruct (Nat.eqb_spec x y) end; try lia; reflexivity.
  - repeat (apply set_ok; [|apply u8_lt]). exact Hm.
Qed.
Lemma put_le32s_sim cnt : forall i st m a n out', mem_ok m -> Ripemd.out_loop cnt i st (read m a n) = Ret out' ->
  exists m', put_le32s cnt i st m (mkSlice a n) = Ret m' /\ read m' a n = out' /\ keeps a n m m' /\ mem_ok m'.
Proof.
  induction cnt as [|cnt IH]; intros i st m a n out' Hm H; cbn [Ripemd.out_loop put_le32s] in *.
  - injection H as <-. exists m. repeat split; try assumption. 
  - unbind H. rewrite read_length in H. destruct (Nat.leb_spec (i * 4 + 4) n) as [L|L]; [|discriminate].
    rewrite from_ok by (cbn [len]; lia). rewrite E. cbn [bind off len].
    destruct (le_put32_sim m a n (i * 4) x L Hm) as (m1 & E1 & R1 & K1 & M1). rewrite E1. cbn [bind]. rewrite <- R1 in H.
    destruct (IH _ _ _ _ _ _ M1 H) as (m' & E' & R' & K' & M'). exists m'. repeat split; try assumption.
    apply (keeps_trans _ _ _ m1); assumption.
Qed.
Lemma be_put64_sim m a n i v : (i + 8 <= n)%nat -> mem_ok m ->
  exists m', be_put64 m (mkSlice (a + i) (n - i)) v = Ret m' /\ read m' a n = copy_at (read m a n) i (be64 v)
    /\ keeps a n m m' /\ mem_ok m'.
Proof.
  intros H Hm. unfold be_put64. rewrite load_ok by (cbn [len]; lia). cbn [bind].
  repeat (rewrite store_ok by (cbn [len]; lia); cbn [bind off]). eexists. split; [reflexivity|].
  split; [|split].
  - apply read_eq; [rewrite copy_at_length by (rewrite read_length; lia); apply read_length|]. intros j Hj.
    rewrite nth_copy_at by (rewrite read_length; lia). rewrite read_length, nth_read by exact Hj.
    change (length (be64 v)) with 8%nat. unfold set.
    destruct (Nat.lt_ge_cases j i) as [A|A].
    + repeat match goal with |- context [Nat.eqb ?x ?y] => destruct (Nat.eqb_spec x y); [exfalso; lia|] end.
      bcase; [lia|reflexivity].
    + destruct (Nat.lt_ge_cases j (i + 8)) as [B|B].
      * replace (_ && _)%bool with true by (symmetry; apply andb_true_iff; split; [apply Nat.leb_le|apply Nat.ltb_lt]; lia).
        assert (Q : exists d, (d < 8)%nat /\ j = (i + d)%nat) by (exists (j - i)%nat; lia).
        destruct Q as (d & Hd & ->). replace (i + d - i)%nat with d by lia.
        do 8 (destruct d as [|d]; [repeat match goal with |- context [Nat.eqb ?x ?y] => destruct (Nat.eqb_spec x y); [try lia|try lia] end; reflexivity|]). lia.
      * repeat match goal with |- context [Nat.eqb ?x ?y] => destruct (Nat.eqb_spec x y); [exfalso; lia|] end.
        bcase; [lia|reflexivity].
  - intros x Hx. unfold set. repeat match goal with |- context [Nat.eqb ?x ?y] => destruct (Nat.eqb_spec x y); [exfalso; lia|] end. reflexivity.
  - repeat (apply set_ok; [|apply u8_lt]). exact Hm.
Qed.
Lemma put_be64s_sim cnt : forall i st m a n out', mem_ok m -> Whirlpool.out_loop cnt i st (read m a n) = Ret out' ->
  exists m', put_be64s cnt i st m (mkSlice a n) = Ret m' /\ read m' a n = out' /\ keeps a n m m' /\ mem_ok m'.
Proof.
  induction cnt as [|cnt IH]; intros i st m a n out' Hm H; cbn [Whirlpool.out_loop put_be64s] in *.
  - injection H as <-. exists m. repeat split; try assumption. 
  - unbind H. rewrite read_length in H. destruct (Nat.leb_spec (i * 8 + 8) n) as [L|L]; [|discriminate].
    rewrite from_ok by (cbn [len]; lia). rewrite E. cbn [bind off len].
    destruct (be_put64_sim m a n (i * 8) x L Hm) as (m1 & E1 & R1 & K1 & M1). rewrite E1. cbn [bind]. rewrite <- R1 in H.
    destruct (IH _ _ _ _ _ _ M1 H) as (m' & E' & R' & K' & M'). exists m'. repeat split; try assumption.
    apply (keeps_trans _ _ _ m1); assumption.
Qed.

(** What Sum hands to append. *)
Definition before_append (h g : heap) (outs : slice) (out : list N) : Prop :=
  off outs = (brk h + 64)%nat /\ len outs = length out /\ brk g = (brk h + 64 + length out)%nat
  /\ read (cells g) (off outs) (len outs) = out /\ keeps (brk h) (64 + length out) (cells h) (cells g) /\ mem_ok (cells g).

Lemma SumRipe_sim room n h c inp t out : rep (cells h) c t -> (oblock c + 64 <= brk h)%nat -> mem_ok (cells h) ->
  Ripemd.Sum hash n t [] = Ret (t, out) ->
  exists g outs, SumRipe room hash n h c inp = Ret (append room g inp outs) /\ before_append h g outs out.
Proof.
  intros R Hb Hm H. destruct (clone_spec h c t R Hb Hm) as (g & u & Ecl & (R1 & R2 & R3 & R4) & Bu & Bg & Kg & Mg).
  unfold SumRipe. rewrite Ecl. unfold Ripemd.Sum in H.
  unbind H. rename x into b1, E into Eb1. rewrite <- R3 in Eb1.
  destruct (store_blk _ _ _ _ _ _ Eb1 R4 eq_refl Mg) as (m1 & S1 & D1 & K1 & M1).
  unfold blk at 1. rewrite S1. cbn [bind].
  cbn [state total block bPos] in H. unbind H. rename x into t2, E into Et2.
  assert (Q : exists m2 u2, (if Nat.ltb 56 (opos (at_pos u (opos u + 1))) then
       let! z := from (blk (at_pos u (opos u + 1))) (opos (at_pos u (opos u + 1))) in
       let! m := Bytes.Zero m1 z in
       let! t := hash_obj hash m (at_pos u (opos u + 1)) in
       Ret (m, t)
     else Ret (m1, at_pos u (opos u + 1))) = Ret (m2, u2) /\ rep m2 u2 t2 /\ oblock u2 = oblock u /\ keeps (oblock u) 64 m1 m2 /\ mem_ok m2).
  { unfold at_pos, blk. cbn [opos oblock]. rewrite R3. destruct (Nat.ltb 56 (bPos t + 1)).
    - unbind Et2. rename x into b2, E into Eb2. replace (length b1) with 64%nat in Eb2 by (rewrite <- D1, read_length; reflexivity).
      rewrite <- D1 in Eb2. destruct (zero_read _ _ _ _ _ _ Eb2 M1) as (z & m2 & Ez & Em & D2 & K2 & M2).
      change (from (mkSlice (oblock u) 64) (bPos t + 1)) with (sub (mkSlice (oblock u) 64) (bPos t + 1) 64).
      rewrite Ez. cbn [bind]. rewrite Em. cbn [bind].
      destruct (hash_obj_sim m2 (mkObj (ostate u) (ototal u) (oblock u) (bPos t + 1)) _ _ _ _ _ Et2) as (u2 & Eu & R' & B'); try assumption; try reflexivity.
      rewrite Eu. cbn [bind]. exists m2, u2. split; [reflexivity|]. cbn [oblock] in B'. repeat split; try assumption; apply R'.
    - injection Et2 as <-. eexists _, _. split; [reflexivity|]. unfold rep. cbn [state total block bPos ostate ototal oblock opos].
      repeat split; try assumption. }
  destruct Q as (m2 & u2 & EQ & (T1 & T2 & T3 & T4) & B2 & K2 & M2). rewrite EQ. clear EQ. cbn [bind].
  unbind H. rename x into b3, E into Eb3. rewrite <- T4, <- T3 in Eb3.
  destruct (zero_read _ _ _ _ _ _ Eb3 M2) as (z3 & m3 & Ez3 & Em3 & D3 & K3 & M3).
  unfold blk, at_pos. cbn [oblock opos ototal]. rewrite Ez3. cbn [bind]. rewrite Em3. cbn [bind]. rewrite T2.
  clear Ez3 Em3.
  assert (Kall : keeps (brk h) 64 (cells h) m3).
  { rewrite Bu in *. rewrite B2 in *. eapply keeps_trans; [exact Kg|]. eapply keeps_trans; [exact K1|]. eapply keeps_trans; [exact K2|exact K3]. }
  rewrite <- Bu, <- B2 in Kall.
  Ltac st H D M Kall := unbind H;
    match goal with E : upd _ _ _ = Ret _ |- _ =>
      let m := fresh "m" in let S := fresh "S" in let D' := fresh "D" in let K := fresh "K" in let M' := fresh "M" in
      destruct (store_blk _ _ _ _ _ _ E D (u8_lt _) M) as (m & S & D' & K & M');
      cbn [Nat.add] in S |- *; rewrite S; cbn [bind]; clear S E;
      pose proof (keeps_trans _ _ _ _ _ Kall K) as Kall'; clear Kall K; rename Kall' into Kall; clear D M; rename D' into D; rename M' into M
    end.
  do 8 st H D3 M3 Kall.
  unbind H. rename x into t4, E into Et4.
  match type of Et4 with hash (mkCtx ?s ?to ?b ?po) = _ =>
    match type of D3 with read ?mm _ _ = _ =>
      destruct (hash_obj_sim mm (mkObj (ostate u2) (total t2) (oblock u2) 64) s to b po _ Et4) as (u4 & Eu4 & (V1 & V2 & V3 & V4) & B4); try assumption; try reflexivity
    end end.
  change (56 + 8)%nat with 64%nat. cbn [ostate ototal oblock opos]. try rewrite Eu4. cbn [bind]. unfold alloc. 
  apply bind_ret in H. destruct H as (o0 & Eo0 & H). apply bind_ret in H. destruct H as (o1 & Eo1 & H).
  injection H as <-. cbn [app]. rewrite make_bytes_nat in Eo0. injection Eo0 as <-.
  match goal with |- context [put_le32s _ _ _ (cells (mkHeap (zeroed (cells (mkHeap ?mm _)) ?b _) _)) _] =>
    rewrite <- (zeroed_read mm b (n * 4)) in Eo1;
    destruct (put_le32s_sim _ _ _ _ _ _ _ (zeroed_ok mm b (n * 4) M3) Eo1) as (q5 & E5 & D5 & K5 & M5); pose (mlast := mm) end.
  cbn [cells brk]. cbn [brk] in E5. rewrite V1. rewrite E5. cbn [bind]. eexists _, _. split; [reflexivity|].
  assert (Lo : length o1 = (n * 4)%nat) by (rewrite <- D5; apply read_length).
  unfold before_append. cbn [off len cells brk]. rewrite Lo, Bg. cbn [brk] in D5, K5. rewrite Bg in D5, K5.
  repeat split; try assumption.
  rewrite B2, Bu in Kall. apply keeps_trans with (m2 := zeroed mlast (brk h + 64) (n * 4)).
  2:{ eapply keeps_in; [| |exact K5]; lia. }
  intros y Hy. unfold zeroed. bcase; [lia|]. apply Kall. lia.
Qed.
End Hash.

(** ** The compression functions do not touch the block *)

Ltac unlet H := match type of H with
  | bind _ _ = Ret _ => unbind H
  | (let '(_, _) := ?x in _) = Ret _ => destruct x
  | context [let '(_, _) := ?x in _] => destruct x
  end.
Lemma keeps_ripe v : keeps_block (Ripemd.hash_fn v).
Proof.
  intros c t H. destruct v; cbn [Ripemd.hash_fn] in H;
    unfold Ripemd.hash128, Ripemd.hash160, Ripemd.hash256, Ripemd.hash320 in H; cbv zeta in H;
    repeat unlet H; injection H as <-; reflexivity.
Qed.
Lemma keeps_whirl : keeps_block Whirlpool.hash.
Proof. intros c t H. unfold Whirlpool.hash in H. repeat unlet H. injection H as <-. reflexivity. Qed.

Lemma bind_Ret {A B} (x : A) (k : A -> outcome B) : bind (Ret x) k = k x.
Proof. reflexivity. Qed.
Lemma SumWhirl_sim room h c inp t out : rep (cells h) c t -> (oblock c + 64 <= brk h)%nat -> mem_ok (cells h) ->
  Whirlpool.Sum t [] = Ret (t, out) ->
  exists g outs, SumWhirl room h c inp = Ret (append room g inp outs) /\ before_append h g outs out.
Proof.
  intros R Hb Hm H. destruct (clone_spec h c t R Hb Hm) as (g & u & Ecl & (R1 & R2 & R3 & R4) & Bu & Bg & Kg & Mg).
  unfold SumWhirl. rewrite Ecl. unfold Whirlpool.Sum in H. pose proof keeps_whirl as Hk. revert Hk H.
  generalize Whirlpool.hash. intros hash Hk H.
  unbind H. rename x into b1, E into Eb1. rewrite <- R3 in Eb1.
  destruct (store_blk _ _ _ _ _ _ Eb1 R4 eq_refl Mg) as (m1 & S1 & D1 & K1 & M1).
  unfold blk at 1. rewrite S1, bind_Ret. cbv beta zeta.
  cbn [state total block bPos] in H. unbind H. rename x into t2, E into Et2.
  assert (Q : exists m2 u2, (if Nat.ltb 32 (opos (at_pos u (opos u + 1))) then
       let! z := from (blk (at_pos u (opos u + 1))) (opos (at_pos u (opos u + 1))) in
       let! m := Bytes.Zero m1 z in
       let! t := hash_obj hash m (at_pos u (opos u + 1)) in
       Ret (m, t)
     else Ret (m1, at_pos u (opos u + 1))) = Ret (m2, u2) /\ rep m2 u2 t2 /\ oblock u2 = oblock u /\ keeps (oblock u) 64 m1 m2 /\ mem_ok m2).
  { unfold at_pos, blk. cbn [opos oblock]. rewrite R3. destruct (Nat.ltb 32 (bPos t + 1)).
    - unbind Et2. rename x into b2, E into Eb2. replace (length b1) with 64%nat in Eb2 by (rewrite <- D1, read_length; reflexivity).
      rewrite <- D1 in Eb2. destruct (zero_read _ _ _ _ _ _ Eb2 M1) as (z & m2 & Ez & Em & D2 & K2 & M2).
      change (from (mkSlice (oblock u) 64) (bPos t + 1)) with (sub (mkSlice (oblock u) 64) (bPos t + 1) 64).
      rewrite Ez. cbn [bind]. rewrite Em. cbn [bind].
      destruct (hash_obj_sim _ Hk m2 (mkObj (ostate u) (ototal u) (oblock u) (bPos t + 1)) _ _ _ _ _ Et2) as (u2 & Eu & R' & B'); try assumption; try reflexivity.
      rewrite Eu. cbn [bind]. exists m2, u2. split; [reflexivity|]. cbn [oblock] in B'. repeat split; try assumption; apply R'.
    - injection Et2 as <-. eexists _, _. split; [reflexivity|]. unfold rep. cbn [state total block bPos ostate ototal oblock opos].
      repeat split; try assumption. }
  destruct Q as (m2 & u2 & EQ & (T1 & T2 & T3 & T4) & B2 & K2 & M2). rewrite EQ, bind_Ret. clear EQ. cbv beta iota.
  unbind H. rename x into b3, E into Eb3. rewrite <- T4, <- T3 in Eb3.
  destruct (zero_read _ _ _ _ _ _ Eb3 M2) as (z3 & m3 & Ez3 & Em3 & D3 & K3 & M3).
  unfold blk. cbn [oblock opos ototal]. rewrite Ez3, bind_Ret. cbv beta. rewrite Em3, bind_Ret. cbv beta.
  replace (ototal c) with (total t) by (symmetry; apply R).
  clear Ez3 Em3.
  assert (Kall : keeps (brk h) 64 (cells h) m3).
  { rewrite Bu in *. rewrite B2 in *. eapply keeps_trans; [exact Kg|]. eapply keeps_trans; [exact K1|]. eapply keeps_trans; [exact K2|exact K3]. }
  rewrite <- Bu, <- B2 in Kall.
  Ltac st H D M Kall := unbind H;
    match goal with E : upd _ _ _ = Ret _ |- _ =>
      let m := fresh "m" in let S := fresh "S" in let D' := fresh "D" in let K := fresh "K" in let M' := fresh "M" in
      destruct (store_blk _ _ _ _ _ _ E D (u8_lt _) M) as (m & S & D' & K & M');
      rewrite S, bind_Ret; cbv beta; clear S E;
      pose proof (keeps_trans _ _ _ _ _ Kall K) as Kall'; clear Kall K; rename Kall' into Kall; clear D M; rename D' into D; rename M' into M
    end.
  do 9 st H D3 M3 Kall.
  unbind H. rename x into t4, E into Et4.
  match type of Et4 with hash (mkCtx ?s ?to ?b ?po) = _ =>
    match type of D3 with read ?mm _ _ = _ =>
      destruct (hash_obj_sim _ Hk mm u2 s to b po _ Et4) as (u4 & Eu4 & (V1 & V2 & V3 & V4) & B4); try assumption; try reflexivity
    end end.
  rewrite Eu4. cbn [bind]. unfold alloc.
  apply bind_ret in H. destruct H as (o0 & Eo0 & H). apply bind_ret in H. destruct H as (o1 & Eo1 & H).
  injection H as <-. cbn [app]. change (make_bytes 64) with (make_bytes (Z.of_nat 64)) in Eo0. rewrite make_bytes_nat in Eo0.
  assert (Eo : o0 = repeat 0 64) by congruence. subst o0.
  match goal with |- context [put_be64s _ _ _ (cells (mkHeap (zeroed (cells (mkHeap ?mm _)) ?b _) _)) _] =>
    rewrite <- (zeroed_read mm b 64) in Eo1;
    destruct (put_be64s_sim _ _ _ _ _ _ _ (zeroed_ok mm b 64 M3) Eo1) as (q5 & E5 & D5 & K5 & M5); pose (mlast := mm) end.
  cbn [cells brk]. cbn [brk] in E5. rewrite V1. rewrite E5. cbn [bind]. eexists _, _. split; [reflexivity|].
  assert (Lo : length o1 = 64%nat) by (rewrite <- D5; apply read_length).
  unfold before_append. cbn [off len cells brk]. rewrite Lo, Bg. cbn [brk] in D5, K5. rewrite Bg in D5, K5.
  repeat split; try assumption.
  rewrite B2, Bu in Kall. apply keeps_trans with (m2 := zeroed mlast (brk h + 64) 64).
  2:{ eapply keeps_in; [| |exact K5]; lia. }
  intros y Hy. unfold zeroed. bcase; [lia|]. apply Kall. lia.
Qed.
