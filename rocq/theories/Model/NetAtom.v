(** Package net once more, access by access: every read and write of a Tree, of
    a node of a tree, of the caller's slices and of memory that is returned is a
    step of its own. Local variables are not in memory, and the field merge of a
    Tree (set before New returns, never again) is kept with the pointer. *)
From Verif Require Import Base.Go Base.GoNet Base.Goroutine Base.GoUse Base.NetGo.
From Verif Require Model.Net.
Local Open Scope N_scope.

(** An iTreeNode (IpTree.go:10-13): none{} or &none{}, or a pointer to a copy of
    an all or a treeNode, as Go stores a struct in an interface. In memory it
    takes four cells: the type, and the three parts of the address. *)
Inductive inode := INone | IAll (p : addr) | ITree (p : addr).
Definition pointer (p : addr) : list N := [N.of_nat (who p); if lib p then 1 else 0; N.of_nat (num p)].
Definition inode_cells (i : inode) : list N :=
  match i with
  | INone => [0; 0; 0; 0]
  | IAll p => 1 :: pointer p
  | ITree p => 2 :: pointer p
  end.
Definition inode_of (l : list N) : inode :=
  match l with
  | [t; w; b; n] =>
      let p := mkA (N.to_nat w) (b =? 1) (N.to_nat n) in
      if t =? 1 then IAll p else if t =? 2 then ITree p else INone
  | _ => INone
  end.
Definition get_inode (a : addr) : code inode := do l <- gets a 4; Return (inode_of l).
Definition set_inode (a : addr) (i : inode) : code unit := sets a (inode_cells i).

(** IpTree.go:16-18, 27-29  all: one cell; newAll, stored in an interface *)
Definition new_all (v : N) : code inode :=
  do p <- new true 1;
  set p v ;;
  Return (IAll p).
(** IpTree.go:44-46  treeNode: two interfaces; stored in an interface *)
Definition new_tree (l r : inode) : code inode :=
  do p <- new true 8;
  set_inode p l ;;
  set_inode (shift p 4) r ;;
  Return (ITree p).
(** n.(all): the value if it is one *)
Definition as_all (i : inode) : code (option N) :=
  match i with IAll p => do v <- get p; Return (Some v) | _ => Return None end.

(** IpTree.go:58-93  add *)
Fixpoint add (merge : N -> N -> N) (parent : inode) (pos : N) (mask : nat) (end_ : N) (value : N)
    {struct mask} : code inode :=
  match parent with
  | IAll _ => Return parent
  | _ =>
      if N.of_nat mask <=? end_ then new_all value
      else
        do (l, r) <- match parent with
                     | ITree p => do l <- get_inode p; do r <- get_inode (shift p 4); Return (l, r)
                     | _ => Return (INone, INone)
                     end;
        match mask with
        | O => new_all value (* not reached: mask <= end *)
        | S mask' =>
            let odd := N.land (N.shiftr pos (N.of_nat mask')) 1 in
            do (l, r) <- (if odd =? 1 then do r' <- add merge r pos mask' end_ value; Return (l, r')
                          else do l' <- add merge l pos mask' end_ value; Return (l', r));
            do a <- as_all l;
            do b <- as_all r;
            match a, b with
            | Some a, Some b => new_all (merge a b)
            | _, _ => new_tree l r
            end
        end
  end.

(** Ipv4.go:21-25 and Mask.go:12-17: make([]byte, 4), filled by PutUint32 *)
Definition four_bytes (l : list N) : code gslice :=
  do a <- new false 4;
  sets a l ;;
  Return (mkS a 4 4).

(** IpTree.go:147-152  the function handed to each. The slice of CidrValues and
    the IPNet structs are values here. *)
Definition output (position bit : N) (value : N) : code (gslice * gslice * N) :=
  do ip <- four_bytes (Net.Ipv4FromUint position);
  do mask <- four_bytes (Net.MaskFromByte bit);
  Return (ip, mask, value).

(** IpTree.go:23-25, 37-39, 54-57  each, for trees of at most [depth] levels *)
Fixpoint each (depth : nat) (n : inode) (position mask : N) : code (list (gslice * gslice * N)) :=
  match depth with
  | O => Crash
  | S depth' =>
      match n with
      | INone => Return []
      | IAll p => do v <- get p; do e <- output position (sub8 31 mask) v; Return [e]
      | ITree p =>
          do l <- get_inode p;
          do r <- get_inode (shift p 4);
          do a <- each depth' l position (sub8 mask 1);
          do b <- each depth' r (N.lor position (shl32 1 mask)) (sub8 mask 1);
          Return (a ++ b)
      end
  end.

(** The bytes of a slice. (To4, Size and bytes.Compare read some of them.) *)
Definition bytes_at (s : gslice) : code (list N) := gets (base s) (slen s).

(** A *Tree and its merge function. *)
Definition ptree := (addr * (N -> N -> N))%type.
(** IpTree.go:100-103  New: root is none{} *)
Definition New (merge : N -> N -> N) : code ptree :=
  do t <- new true 4;
  set_inode t INone ;;
  Return (t, merge).
(** c := *t *)
Definition Copy (t : ptree) : code ptree :=
  do r <- get_inode (fst t);
  do c <- new true 4;
  set_inode c r ;;
  Return (c, snd t).
(** t.root = add(t.root, u, 32, end, value, t.merge) *)
Definition add_root (t : ptree) (u end_ value : N) : code unit :=
  do r <- get_inode (fst t);
  do r' <- add (snd t) r u 32 end_ value;
  set_inode (fst t) r'.
(** IpTree.go:106-109  AddIp *)
Definition AddIp (t : ptree) (ip : gslice) (value : N) : code unit :=
  do bs <- bytes_at ip;
  do u <- lift (Net.Ipv4ToUint bs);
  add_root t u 0 value.
(** IpTree.go:115-129  the loop of AddRange, at most [fuel] rounds *)
Fixpoint range_loop (fuel : nat) (t : ptree) (uStart uEnd value : N) : code unit :=
  if uStart <=? uEnd then
    match fuel with
    | O => Crash
    | S fuel' =>
        do m <- lift (Net.shrink 33 uStart uEnd (N.land (sub32 uStart 1) (not32 uStart)));
        do bit <- lift (Net.bit_len 33 m 0);
        add_root t uStart bit value ;;
        range_loop fuel' t (add32 uStart (add32 m 1)) uEnd value
    end
  else Return tt.
(** IpTree.go:112-130  AddRange. Ranges that end at 255.255.255.255 loop forever
    (C42); here they Crash. *)
Definition AddRange (t : ptree) (start end_ : gslice) (value : N) : code unit :=
  do s <- bytes_at start;
  do uStart <- lift (Net.Ipv4ToUint s);
  do e <- bytes_at end_;
  do uEnd <- lift (Net.Ipv4ToUint e);
  range_loop (N.to_nat (uEnd + 1 - uStart)) t uStart uEnd value.
(** IpTree.go:138-142  AddCidr *)
Definition AddCidr (t : ptree) (ip mask : gslice) (value : N) : code unit :=
  do i <- bytes_at ip;
  do u <- lift (Net.Ipv4ToUint i);
  do m <- bytes_at mask;
  add_root t u (sub8 32 (Net.MaskToByte m)) value.
(** IpTree.go:145-154  ListCidr. A tree has at most 33 levels. *)
Definition ListCidr (t : ptree) : code (list (gslice * gslice * N)) :=
  do r <- get_inode (fst t);
  each 33 r 0 31.

(** Cidr.go:34-41  LastIpv4 *)
Definition load_at (s : gslice) (j : nat) : code N :=
  if Nat.ltb j (slen s) then get (shift (base s) j) else Crash.
Definition last_byte (ip mask : gslice) (ret : addr) (j : nat) : code unit :=
  do a <- load_at ip j;
  do b <- load_at mask j;
  set (shift ret j) (N.lor a (not8 b)).
Definition LastIpv4 (ip mask : gslice) : code gslice :=
  do ret <- new false 4;
  last_byte ip mask ret 0 ;;
  last_byte ip mask ret 1 ;;
  last_byte ip mask ret 2 ;;
  last_byte ip mask ret 3 ;;
  Return (mkS ret 4 4).

(** ** Goroutines *)

Definition tree_at (ours mine : list ptree) (h : handle) : code ptree :=
  lift match h with Mine i => idx mine i | Ours i => idx ours i end.
Definition do_nact (ours mine : list ptree) (a : nact) : code (list ptree * nreply) :=
  match a with
  | GMake n c => do t <- new false c; Return (mine, PSlice (mkS t n c))
  | GStore s j v => if Nat.ltb j (slen s) then set (shift (base s) j) v ;; Return (mine, PDone) else Crash
  | GLoad s j => do v <- load_at s j; Return (mine, PByte v)
  | GToUint ip => do bs <- bytes_at ip; do u <- lift (Net.Ipv4ToUint bs); Return (mine, PNum u)
  | GFromUint u => do s <- four_bytes (Net.Ipv4FromUint u); Return (mine, PSlice s)
  | GMaskFrom b => do s <- four_bytes (Net.MaskFromByte b); Return (mine, PSlice s)
  | GMaskTo m => do bs <- bytes_at m; Return (mine, PNum (Net.MaskToByte bs))
  | GEqual ip m ip' m' =>
      do a <- bytes_at ip; do b <- bytes_at m; do c <- bytes_at ip'; do d <- bytes_at m';
      do e <- lift (Net.CidrEqual (Some (mkNet a b)) (Some (mkNet c d)));
      Return (mine, PBool e)
  | GFirst ip m => Return (mine, PSlice ip)
  | GLast ip m => do s <- LastIpv4 ip m; Return (mine, PSlice s)
  | GTree mg => do t <- New mg; Return (mine ++ [t], PTree)
  | GCopy h => do t <- tree_at ours mine h; do c <- Copy t; Return (mine ++ [c], PTree)
  | GAddIp h ip v => do t <- tree_at ours mine h; AddIp t ip v ;; Return (mine, PDone)
  | GAddRange h s e v => do t <- tree_at ours mine h; AddRange t s e v ;; Return (mine, PDone)
  | GAddCidr h ip m v => do t <- tree_at ours mine h; AddCidr t ip m v ;; Return (mine, PDone)
  | GList h => do t <- tree_at ours mine h; do l <- ListCidr t; Return (mine, PList l)
  end.
Fixpoint nbehave (ours mine : list ptree) (g : ngoroutine) : code (list nreply * list ptree) :=
  match g with
  | NStop => Return ([], mine)
  | NDo a k =>
      do (mine, r) <- do_nact ours mine a;
      do (rs, mine) <- nbehave ours mine (k r);
      Return (r :: rs, mine)
  end.
