(** Memory operations against operations on byte lists. *)
From Verif Require Import Base.Go Base.Mem Base.Heap Model.Bytes Model.HashBlock Spec.BytesSpec Proofs.Util Proofs.BytesProofs.
Local Open Scope N_scope.

Lemma bind_ret {A B} (e : outcome A) (k : A -> outcome B) y : bind e k = Ret y -> exists x, e = Ret x /\ k x = Ret y.
Proof. destruct e as [x| |]; intros H; try discriminate H. exists x. split; [reflexivity|exact H]. Qed.

(** ** read *)

Lemma read_length m a n : length (read m a n) = n.
Proof. unfold read. rewrite map_length, seq_length. reflexivity. Qed.
Lemma nth_read m a n i : (i < n)%nat -> nth i (read m a n) 0 = m (a + i)%nat.
Proof.
  intros H. unfold read. rewrite (nth_indep _ 0 (m 0%nat)) by (rewrite map_length, seq_length; exact H).
  rewrite map_nth, seq_nth by exact H. reflexivity.
Qed.
Lemma read_ext m m' a n : (forall x, (a <= x < a + n)%nat -> m' x = m x) -> read m' a n = read m a n.
Proof. intros H. unfold read. apply map_ext_in. intros x Hx. apply in_seq in Hx. apply H. lia. Qed.
Lemma read_eq m a n l : length l = n -> (forall i, (i < n)%nat -> m (a + i)%nat = nth i l 0) -> read m a n = l.
Proof.
  intros L H. apply (nth_ext _ _ 0 0); [rewrite read_length; lia|]. intros i Hi. rewrite read_length in Hi.
  rewrite nth_read by exact Hi. apply H, Hi.
Qed.
Lemma read_app m a n k : read m a (n + k) = read m a n ++ read m (a + n) k.
Proof. unfold read. rewrite seq_app, map_app. reflexivity. Qed.
Lemma read_ok m a n : mem_ok m -> bytes_ok (read m a n).
Proof. intros H. apply Forall_forall. intros x Hx. apply in_map_iff in Hx. destruct Hx as (y & <- & _). apply H. Qed.
Lemma read_firstn m a n k : (k <= n)%nat -> firstn k (read m a n) = read m a k.
Proof.
  intros H. replace n with (k + (n - k))%nat by lia. rewrite read_app, firstn_app, read_length, Nat.sub_diag.
  cbn [firstn]. rewrite app_nil_r. apply firstn_all2. rewrite read_length. lia.
Qed.
Lemma read_skipn m a n k : (k <= n)%nat -> skipn k (read m a n) = read m (a + k) (n - k).
Proof.
  intros H. replace n with (k + (n - k))%nat at 1 by lia. rewrite read_app, skipn_app, read_length, Nat.sub_diag.
  rewrite skipn_all2 by (rewrite read_length; lia). reflexivity.
Qed.
Lemma read_slice m a n i j : (i <= j <= n)%nat -> slice_of (read m a n) i j = Ret (read m (a + i) (j - i)).
Proof.
  intros [H1 H2]. unfold slice_of. rewrite read_length. rewrite (proj2 (Nat.leb_le _ _) H1), (proj2 (Nat.leb_le _ _) H2).
  cbn [andb]. rewrite read_skipn by lia. rewrite read_firstn by lia. reflexivity.
Qed.

Lemma nth_upd (l l' : list N) i v j : upd l i v = Ret l' -> nth j l' 0 = if Nat.eqb j i then v else nth j l 0.
Proof.
  revert i j l'. induction l as [|x l IH]; intros [|i] j l' H; cbn [upd] in H; try discriminate.
  - injection H as <-. destruct j; reflexivity.
  - apply bind_ret in H. destruct H as (t & E & H). injection H as <-. destruct j as [|j]; [reflexivity|]. cbn [nth Nat.eqb]. apply IH, E.
Qed.
Lemma upd_range {A} (l l' : list A) i v : upd l i v = Ret l' -> (i < length l)%nat.
Proof.
  intros H. destruct (Nat.lt_ge_cases i (length l)) as [L|L]; [exact L|]. rewrite upd_out in H by exact L. discriminate.
Qed.

(** ** Changes inside a region *)

Definition keeps (a n : nat) (m m' : mem) : Prop := forall x, ~ (a <= x < a + n)%nat -> m' x = m x.
Lemma keeps_refl a n m : keeps a n m m.
Proof. intros x _. reflexivity. Qed.
Lemma keeps_trans a n m1 m2 m3 : keeps a n m1 m2 -> keeps a n m2 m3 -> keeps a n m1 m3.
Proof. intros H1 H2 x Hx. rewrite H2, H1 by exact Hx. reflexivity. Qed.
Lemma keeps_in a n b k m m' : (b <= a)%nat -> (a + n <= b + k)%nat -> keeps a n m m' -> keeps b k m m'.
Proof. intros H1 H2 H x Hx. apply H. lia. Qed.
Lemma keeps_read a n m m' b k : keeps a n m m' -> (k = 0 \/ b + k <= a \/ a + n <= b)%nat -> read m' b k = read m b k.
Proof. intros H D. apply read_ext. intros x Hx. apply H. lia. Qed.

Lemma set_ok m a v : mem_ok m -> v < 256 -> mem_ok (set m a v).
Proof. intros H Hv x. unfold set. destruct (Nat.eqb x a); [exact Hv|apply H]. Qed.

Lemma store_read m a n i v l' : upd (read m a n) i v = Ret l' ->
  store m (mkSlice a n) i v = Ret (set m (a + i) v) /\ read (set m (a + i) v) a n = l' /\ keeps a n m (set m (a + i) v).
Proof.
  intros H. pose proof (upd_range _ _ _ _ H) as L. rewrite read_length in L.
  split; [apply store_ok; exact L|]. split.
  - apply read_eq; [rewrite (upd_length _ _ _ _ H); apply read_length|]. intros j Hj.
    rewrite (nth_upd _ _ _ _ j H), nth_read by exact Hj. unfold set.
    destruct (Nat.eqb_spec j i) as [->|D]; [rewrite Nat.eqb_refl; reflexivity|].
    replace (Nat.eqb (a + j) (a + i)) with false; [reflexivity|]. symmetry. apply Nat.eqb_neq. lia.
  - intros x Hx. unfold set. replace (Nat.eqb x (a + i)) with false; [reflexivity|]. symmetry. apply Nat.eqb_neq. lia.
Qed.

Lemma nth_copy_at l i src j : (i <= length l)%nat -> (j < length l)%nat ->
  nth j (copy_at l i src) 0 =
  if (Nat.leb i j && Nat.ltb j (i + Nat.min (length l - i) (length src)))%bool then nth (j - i) src 0 else nth j l 0.
Proof.
  intros Hi Hj. unfold copy_at. set (k := Nat.min _ _).
  assert (Lf : length (firstn i l) = i) by (rewrite firstn_length; lia).
  assert (Ls : length (firstn k src) = k) by (rewrite firstn_length; lia).
  destruct (Nat.leb_spec i j) as [A|A]; cbn [andb].
  - rewrite app_nth2 by lia. rewrite Lf. destruct (Nat.ltb_spec j (i + k)) as [B|B].
    + rewrite app_nth1 by lia.
      rewrite <- (firstn_skipn k src) at 2. rewrite app_nth1 by lia. reflexivity.
    + rewrite app_nth2 by lia. rewrite Ls.
      rewrite <- (firstn_skipn (i + k) l) at 2. rewrite app_nth2 by (rewrite firstn_length; lia).
      f_equal. rewrite firstn_length. lia.
  - rewrite app_nth1 by lia. rewrite <- (firstn_skipn i l) at 2. rewrite app_nth1 by lia. reflexivity.
Qed.
Lemma copy_at_length l i src : (i <= length l)%nat -> length (copy_at l i src) = length l.
Proof. intros H. unfold copy_at. rewrite !app_length, !firstn_length, skipn_length. lia. Qed.

Lemma copy_read m a n i p : (i <= n)%nat ->
  read (copy m (mkSlice (a + i) (n - i)) p) a n = copy_at (read m a n) i (read m (off p) (len p))
  /\ keeps a n m (copy m (mkSlice (a + i) (n - i)) p).
Proof.
  intros H. split.
  - apply read_eq; [rewrite copy_at_length by (rewrite read_length; exact H); apply read_length|].
    intros j Hj. rewrite nth_copy_at by (rewrite read_length; lia). rewrite !read_length. unfold copy. cbn [off len].
    rewrite (nth_read m a n j) by exact Hj.
    destruct (Nat.leb_spec i j) as [A|A]; cbn [andb].
    + rewrite (proj2 (Nat.leb_le (a + i) (a + j))) by lia. cbn [andb].
      destruct (Nat.ltb_spec j (i + Nat.min (n - i) (len p))) as [B|B].
      * rewrite (proj2 (Nat.ltb_lt _ _)) by lia. rewrite nth_read by lia. f_equal. lia.
      * rewrite (proj2 (Nat.ltb_ge _ _)) by lia. reflexivity.
    + rewrite (proj2 (Nat.leb_gt (a + i) (a + j))) by lia. reflexivity.
  - intros x Hx. unfold copy. cbn [off len]. bcase; [lia|reflexivity].
Qed.
Lemma copy_ok m d p : mem_ok m -> mem_ok (copy m d p).
Proof. intros H x. unfold copy. bcase; apply H. Qed.
Lemma copy_from_read m a n i p l' : copy_from (read m a n) i (read m (off p) (len p)) = Ret l' ->
  from (mkSlice a n) i = Ret (mkSlice (a + i) (n - i)) /\ read (copy m (mkSlice (a + i) (n - i)) p) a n = l'
  /\ keeps a n m (copy m (mkSlice (a + i) (n - i)) p).
Proof.
  unfold copy_from. rewrite read_length. destruct (Nat.leb_spec i n) as [L|L]; [|discriminate].
  intros E. injection E as <-. split; [apply (from_ok (mkSlice a n)); exact L|apply copy_read, L].
Qed.

Lemma zero_read m a n i j l' : zero_range (read m a n) i j = Ret l' -> mem_ok m ->
  exists z m', sub (mkSlice a n) i j = Ret z /\ Zero m z = Ret m' /\ read m' a n = l' /\ keeps a n m m' /\ mem_ok m'.
Proof.
  unfold zero_range. rewrite read_length. intros H Hm. apply bind_ret in H. destruct H as (z & Ez & H).
  apply bind_ret in H. destruct H as (q & Eq & H). injection H as <-.
  unfold sub in Ez. cbn [len off] in Ez.
  destruct (Nat.leb i j && Nat.leb j n)%bool eqn:B; [|discriminate]. injection Ez as <-.
  apply andb_prop in B. destruct B as [B1 B2]. apply Nat.leb_le in B1, B2.
  destruct (Zero_spec m (mkSlice (a + i) (j - i))) as (m' & E & Z & F).
  destruct (Zero_spec (fun x => nth x (read m a n) 0) (mkSlice i (j - i))) as (q' & E' & Z' & F').
  rewrite Eq in E'. injection E' as <-.
  unfold within, only_changes, within in *. cbn [off len] in *.
  exists (mkSlice (a + i) (j - i)), m'. split; [apply (sub_ok (mkSlice a n)); cbn [len]; lia|]. split; [exact E|]. split; [|split].
  - apply read_eq; [rewrite map_length; apply seq_length|]. intros x Hx.
    rewrite (nth_indep _ 0 (q 0%nat)) by (rewrite map_length, seq_length; exact Hx). rewrite map_nth, seq_nth by exact Hx.
    rewrite Nat.add_0_l. destruct (Nat.lt_ge_cases x i) as [L|L].
    + rewrite F, F' by lia. symmetry. apply nth_read, Hx.
    + destruct (Nat.lt_ge_cases x j) as [L2|L2]; [rewrite Z, Z' by lia; reflexivity|].
      rewrite F, F' by lia. symmetry. apply nth_read, Hx.
  - intros x Hx. apply F. lia.
  - intros x. destruct (Nat.lt_ge_cases x (a + i)) as [L|L]; [rewrite F by lia; apply Hm|].
    destruct (Nat.lt_ge_cases x (a + j)) as [L2|L2]; [rewrite Z by lia; reflexivity|rewrite F by lia; apply Hm].
Qed.

(** ** alloc and append *)

Lemma alloc_spec h n : let '(h', s) := alloc h n in
  off s = brk h /\ len s = n /\ brk h' = (brk h + n)%nat /\ (forall x, (brk h <= x < brk h + n)%nat -> cells h' x = 0)
  /\ keeps (brk h) n (cells h) (cells h').
Proof.
  unfold alloc. cbn [off len brk cells]. repeat split; try reflexivity.
  - intros x Hx. unfold zeroed. bcase; [reflexivity|lia].
  - intros x Hx. unfold zeroed. bcase; [lia|reflexivity].
Qed.
Lemma zeroed_ok m a n : mem_ok m -> mem_ok (zeroed m a n).
Proof. intros H x. unfold zeroed. bcase; [reflexivity|apply H]. Qed.
Lemma zeroed_read m a n : read (zeroed m a n) a n = repeat 0 n.
Proof.
  apply read_eq; [apply repeat_length|]. intros i Hi. unfold zeroed. bcase; [|lia]. symmetry. apply nth_repeat.
Qed.

(** What append does to memory below [lo] and what it returns. *)
Definition appended (lo : nat) (h : heap) (s : bslice) (xs : list N) (h' : heap) (r : bslice) : Prop :=
  (brk h <= brk h')%nat /\ contents (cells h') r = contents (cells h) s ++ xs /\ (blen r <= bcap r)%nat
  /\ if Nat.leb (blen s + length xs) (bcap s)
     then at_ r = at_ s /\ bcap r = bcap s
          /\ forall x, (x < lo)%nat -> ~ (at_ s + blen s <= x < at_ s + blen s + length xs)%nat -> cells h' x = cells h x
     else (lo <= at_ r)%nat /\ (at_ r + bcap r <= brk h')%nat /\ forall x, (x < lo)%nat -> cells h' x = cells h x.

Lemma append_spec room lo h s xs h' r : append room h s xs = (h', r) ->
  (lo <= brk h)%nat -> (blen s <= bcap s)%nat -> (bcap s = 0 \/ at_ s + bcap s <= brk h)%nat -> (off xs + len xs <= brk h)%nat ->
  (blen s + len xs <= bcap s -> at_ s + bcap s <= off xs \/ off xs + len xs <= at_ s)%nat ->
  mem_ok (cells h) ->
  appended lo h s (read (cells h) (off xs) (len xs)) h' r /\ mem_ok (cells h').
Proof.
  unfold append, appended. rewrite read_length. intros E Hlo Hs Ha Hx Hd Hm.
  destruct (Nat.leb_spec (blen s + len xs) (bcap s)) as [L|L].
  - injection E as <- <-. cbn [at_ blen bcap cells brk]. split; [|apply copy_ok, Hm].
    split; [lia|]. split; [|split; [lia|]]; [|split; [reflexivity|split; [reflexivity|]]].
    + unfold contents. cbn [at_ blen]. rewrite read_app. f_equal.
      * apply read_ext. intros x Hx'. unfold copy. cbn [off len]. bcase; [lia|reflexivity].
      * apply read_eq; [apply read_length|]. intros i Hi. unfold copy. cbn [off len].
        rewrite nth_read by exact Hi. rewrite Nat.min_id. bcase; [f_equal; lia|lia].
    + intros x Hx' Hn. unfold copy. cbn [off len]. bcase; [lia|reflexivity].
  - cbn [alloc] in E. unfold alloc in E. injection E as <- <-. cbn [at_ blen bcap cells brk off].
    split; [|apply copy_ok, copy_ok, zeroed_ok, Hm]. split; [lia|]. split; [|split; [lia|]]; [|split; [lia|split; [lia|]]].
    + unfold contents. cbn [at_ blen]. rewrite read_app. f_equal.
      * apply read_eq; [apply read_length|]. intros i Hi. rewrite nth_read by exact Hi.
        unfold copy, zeroed, window. cbn [off len]. rewrite !Nat.min_id. bcase; [lia|]. bcase; [|lia]. bcase; [lia|].
        f_equal. lia.
      * apply read_eq; [apply read_length|]. intros i Hi. rewrite nth_read by exact Hi.
        unfold copy, zeroed, window. cbn [off len]. rewrite !Nat.min_id. bcase; [|lia]. bcase; [lia|]. bcase; [lia|].
        f_equal. lia.
    + intros x Hx'. unfold copy, zeroed. cbn [off len]. bcase; [lia|]. bcase; [lia|]. bcase; [lia|reflexivity].
Qed.

Lemma append_values_spec room h s xs h' r : append_values room h s xs = (h', r) ->
  (blen s <= bcap s)%nat -> (bcap s = 0 \/ at_ s + bcap s <= brk h)%nat -> mem_ok (cells h) -> bytes_ok xs ->
  appended (brk h) h s xs h' r /\ mem_ok (cells h').
Proof.
  unfold append_values, alloc. set (t := mkSlice (brk h) (length xs)). set (g := mkHeap _ _). intros E Hs Ha Hm Hb.
  assert (R : read (cells g) (brk h) (length xs) = xs).
  { apply read_eq; [reflexivity|]. intros i Hi. unfold g, copy_text, t. cbn [cells off len]. bcase; [f_equal; lia|lia]. }
  assert (K : keeps (brk h) (length xs) (cells h) (cells g)).
  { intros x Hx. unfold g, copy_text, zeroed, t. cbn [cells off len]. bcase; [lia|]. bcase; [lia|reflexivity]. }
  assert (Mg : mem_ok (cells g)).
  { intros x. unfold g, copy_text, zeroed, t. cbn [cells off len]. bcase; [|bcase; [reflexivity|apply Hm]].
    apply Forall_nth; [exact Hb|]. lia. }
  destruct (append_spec room (brk h) g s t h' r E) as [A M]; try assumption; try (unfold g, t; cbn [brk off len]; lia).
  split; [|exact M]. unfold t in A. cbn [off len] in A. rewrite R in A.
  destruct A as (A1 & A2 & A3 & A4). unfold g in A1; cbn [brk] in A1.
  assert (C : contents (cells g) s = contents (cells h) s).
  { unfold contents. apply (keeps_read _ _ _ _ _ _ K). lia. }
  rewrite C in A2. repeat split; try assumption; try lia.
  destruct (Nat.leb (blen s + length xs) (bcap s)).
  - destruct A4 as (B1 & B2 & B3). repeat split; try assumption. intros x Hx Hn. rewrite B3 by assumption. apply K. lia.
  - destruct A4 as (B1 & B2 & B3). repeat split; try assumption. intros x Hx. rewrite B3 by assumption. apply K. lia.
Qed.
