(** The calls of Base/Sync.v, access by access: the hashes of Model/HashAtom.v,
    package net of Model/NetAtom.v, packages hex and codegen of Model/HexAtom.v
    (citations there), two functions of package bytes, make, and indexing of
    slices. *)
From Verif Require Import Base.Go Base.GoNet Base.Goroutine Base.HashUse Base.GoUse Base.Sync Model.HashAtom.
From Verif Require Model.Net Model.NetAtom Model.Hex Model.HexAtom.
Local Open Scope N_scope.

(** As in Model/BytesAtom.v, but for slices anywhere. Zero.go:9-17; the slice begins
    at [a] and has [n] bytes *)
Fixpoint zero_loop (fuel : nat) (a : addr) (n : nat) : code unit :=
  if Nat.ltb 8 n then
    match fuel with
    | O => Crash
    | S fuel' => sets a (repeat 0 8) ;; zero_loop fuel' (shift a 8) (n - 8)
    end
  else sets a (firstn n (repeat 0 8)).
(** Xor.go:9-19 *)
Fixpoint xor_loop (k i : nat) (d o : addr) : code unit :=
  match k with
  | O => Return tt
  | S k' =>
      do x <- get (shift d i);
      do y <- get (shift o i);
      set (shift d i) (N.lxor x y) ;;
      xor_loop k' (S i) d o
  end.

(** New, Write, Sum and Reset of the ten hashes (bcc.go:18-39, lrc.go:19-34,
    fletcher16.go:27-66, fletcher32.go:26-72, fletcher64.go:26-81 and, for RIPEMD and
    Whirlpool, as cited in Model/HashAtom.v); New, AddIp, AddRange, AddCidr and
    ListCidr (IpTree.go:100-154) and c := *t; the functions on addresses, masks and
    networks (Ipv4.go:9-25, Mask.go:12-22, Cidr.go:14-41); FromBytes, ToBytes and
    ToBytesFast (hex.go:36-111) and the functions of codegen (BytesToString.go:11-71,
    BytesToHexSep.go:13-51); Zero (Zero.go:9-17) and XorEq (Xor.go:9-19); the rest is
    Go itself *)
Definition tree_of (t : treev) : NetAtom.ptree := (tptr t, tmerge t).
Definition tree_as (t : NetAtom.ptree) : treev := mkTr (fst t) (snd t).
Definition do_ask (c : ask) : code got :=
  match c with
  | New_hash k => do h <- do_new k; Return (GotHash (mkH k h))
  | Write_to h p => do n <- do_write (hkind h) (hptr h) p; Return (GotCount n)
  | Sum_of h inp room => do s <- do_sum (hkind h) (hptr h) inp room; Return (GotSlice s)
  | Reset_of h => do_reset (hkind h) (hptr h) ;; Return GotNothing
  | Make_bytes n c => do t <- new false c; Return (GotSlice (mkS t n c))
  | Store_byte s j v => if Nat.ltb j (slen s) then set (shift (base s) j) v ;; Return GotNothing else Crash
  | Load_byte s j => if Nat.ltb j (slen s) then do v <- get (shift (base s) j); Return (GotByte v) else Crash
  | New_tree mg => do t <- NetAtom.New mg; Return (GotTree (tree_as t))
  | Copy_tree t => do c <- NetAtom.Copy (tree_of t); Return (GotTree (tree_as c))
  | Add_ip t ip v => NetAtom.AddIp (tree_of t) ip v ;; Return GotNothing
  | Add_range t s e v => NetAtom.AddRange (tree_of t) s e v ;; Return GotNothing
  | Add_cidr t ip mask v => NetAtom.AddCidr (tree_of t) ip mask v ;; Return GotNothing
  | List_tree t => do l <- NetAtom.ListCidr (tree_of t); Return (GotList l)
  | Ip_from u => do s <- NetAtom.four_bytes (Net.Ipv4FromUint u); Return (GotSlice s)
  | Ip_to ip => do bs <- NetAtom.bytes_at ip; do u <- lift (Net.Ipv4ToUint bs); Return (GotNum u)
  | Mask_from b => do s <- NetAtom.four_bytes (Net.MaskFromByte b); Return (GotSlice s)
  | Mask_to m => do bs <- NetAtom.bytes_at m; Return (GotNum (Net.MaskToByte bs))
  | Nets_equal ip m ip' m' =>
      do a <- NetAtom.bytes_at ip; do b <- NetAtom.bytes_at m; do c <- NetAtom.bytes_at ip'; do d <- NetAtom.bytes_at m';
      do e <- lift (Net.CidrEqual (Some (mkNet a b)) (Some (mkNet c d)));
      Return (GotBool e)
  | First_of ip m => Return (GotSlice ip)
  | Last_of ip m => do s <- NetAtom.LastIpv4 ip m; Return (GotSlice s)
  | Text_of f s =>
      do t <- match f with
              | In_hex => HexAtom.FromBytes s
              | In_string => HexAtom.BytesToString s
              | In_strings k => HexAtom.BytesToStringSep s k
              | In_list k => HexAtom.BytesToHexSep s k
              end;
      Return (GotText t)
  | Bytes_of tiny fast t =>
      let bd := if tiny then Hex.Tiny else Hex.Default in
      if fast then
        do r <- HexAtom.ToBytesFast bd t;
        Return match r with Some s => GotSlice s | None => GotNil end
      else
        do r <- HexAtom.ToBytes bd t;
        Return match r with
               | (Some s, None) => GotSlice s
               | (_, Some (Hex.InvalidHexAt c i)) => GotBad c i
               | (_, Some Hex.ErrLength) => GotOdd
               | (None, None) => GotNil
               end
  | Zero_bytes s => zero_loop (slen s) (base s) (slen s) ;; Return GotNothing
  | Xor_bytes d o =>
      let n := if Nat.ltb (slen o) (slen d) then slen o else slen d in
      xor_loop n 0 (base d) (base o) ;; Return (GotCount n)
  end.
