(** How many memory accesses the operations of the library may need. *)
From Verif Require Import Base.Go Base.Mem Base.Goroutine Base.GoUse Base.NetGo.
From Verif Require Base.BytesUse.
Local Open Scope nat_scope.

(** Hashes: linear in the bytes written, and in what Sum has to move if the
    slice it appends to is full. *)
Definition price (a : act) : nat :=
  match a with
  | Make_hash _ => 120
  | Do_write _ p => 4 * slen p + 240
  | Do_sum _ inp room => 3 * slen inp + room + 1000
  | Do_reset _ => 20
  | Make _ c => c + 1
  | Store _ _ _ | Load _ _ => 1
  end.
(** What was done, as the replies show, with the last operation that was begun. *)
Fixpoint bill (g : goroutine) (rs : list reply) : nat :=
  match g with
  | Stop => 0
  | Do a k => price a + match rs with r :: rs' => bill (k r) rs' | [] => 0 end
  end.

(** Package bytes. *)
Definition bytes_price (c : BytesUse.call) : nat :=
  match c with
  | BytesUse.CZero t => len t
  | BytesUse.CXorEq d o => 3 * Nat.min (len d) (len o)
  | BytesUse.CAdd e w s a b | BytesUse.CAddNative e w s a b => 5 * BytesUse.width_bytes w + 2 * match e with LittleEndian => 0 | BigEndian => len a end
  | BytesUse.CLoad _ _ | BytesUse.CStore _ _ _ => 1
  end.
Fixpoint bytes_bill (g : BytesUse.job) (rs : list BytesUse.result) : nat :=
  match g with
  | BytesUse.Stop => 0
  | BytesUse.Do c k => bytes_price c + match rs with r :: rs' => bytes_bill (k r) rs' | [] => 0 end
  end.

(** Package net. *)
(** Adding costs at most a constant, however many addresses the tree holds;
    listing is linear in what is listed. *)
Definition net_price (a : nact) (r : nreply) : nat :=
  match a with
  | GMake _ c => c + 1
  | GStore _ _ _ | GLoad _ _ => 1
  | GToUint s | GMaskTo s => slen s
  | GFromUint _ | GMaskFrom _ => 9
  | GEqual a b c d => slen a + slen b + slen c + slen d
  | GFirst _ _ => 0
  | GLast _ _ => 17
  | GTree _ => 9
  | GCopy _ => 13
  | GAddIp _ s _ => 875 + slen s
  | GAddCidr _ s m _ => 875 + slen s + slen m
  | GAddRange _ s e _ => 62 * 875 + slen s + slen e
  | GList _ => 4 + 275 * match r with PList l => length l | _ => 0 end
  end.
Fixpoint net_bill (g : ngoroutine) (rs : list nreply) : nat :=
  match g, rs with
  | NDo a k, r :: rs' => net_price a r + net_bill (k r) rs'
  | _, _ => 0
  end.
