(** What goroutines may expect that use hashes, trees, packages hex and codegen, Zero
    and XorEq of package bytes and slices, and synchronise in whatever way: that every call happens at once, provided that, when calls
    happen at once, no two goroutines are ever about to make calls that do not go
    together. A hash object is the texts written to it; a tree is its merge
    function and the calls made on it and on the trees it was copied from. *)
From Coq Require Import Sorted.
From Verif Require Import Base.Go Base.GoNet Base.NetApi Base.HashUse Base.Goroutine Base.Sync Spec.HashUseSpec.
From Verif Require Spec.NetSpec Spec.NetGoSpec Spec.HexSpec Spec.CodegenSpec Spec.LibUseSpec.
Local Open Scope N_scope.

(** The world: the bytes of all slices, for every goroutine how many bytes it has
    made, and for every pointer to a hash or tree what it is. *)
Inductive item := AHash (k : kind) (texts : list (list N)) | ATree (merge : N -> N -> N) (calls : list (tree_call N)).
Record world := mkWorld { bytes : addr -> N; made_by : nat -> nat; objects : addr -> option item }.
Definition nothing_yet : world := mkWorld (fun _ => 0) (fun _ => O) (fun _ => None).

Definition slice_text (w : world) (s : gslice) : list N := map (fun j => bytes w (shift (base s) j)) (seq 0 (slen s)).
(** A slice a program can have. *)
Definition slice_there (w : world) (s : gslice) : Prop :=
  (slen s <= scap s)%nat /\ lib (base s) = false /\ forall j, (j < scap s)%nat -> (num (base s) + j < made_by w (who (base s)))%nat.

(** The call made on a tree, with the bytes of the moment. *)
Definition called (w : world) (c : ask) : option (treev * tree_call N) :=
  match c with
  | Add_ip t ip v => Some (t, CAddIp (slice_text w ip) v)
  | Add_range t s e v => Some (t, CAddRange (slice_text w s) (slice_text w e) v)
  | Add_cidr t ip mask v => Some (t, CAddCidr (Some (mkNet (slice_text w ip) (slice_text w mask))) v)
  | _ => None
  end.
Definition tree_there (w : world) (t : treev) : Prop := exists cs, objects w (tptr t) = Some (ATree (tmerge t) cs).
Definition call_fine (w : world) (c : ask) : Prop :=
  match called w c with Some (t, x) => tree_there w t /\ NetSpec.proper x | None => False end.

(** A slice written as a text, and which slices can be (codegen panics on others). *)
Definition text_as (f : style) (xs : list N) : list N :=
  match f with
  | In_hex => flat_map HexSpec.numeral xs
  | In_string => CodegenSpec.go_string xs
  | In_strings k => CodegenSpec.go_strings (Z.to_nat k) xs
  | In_list k => CodegenSpec.go_list (Z.to_nat k) xs
  end.
Definition writable (f : style) (n : nat) : Prop :=
  match f with
  | In_hex => True
  | In_string => (Z.of_nat n < 2 ^ 58)%Z
  | In_strings k | In_list k => (Z.of_nat n < 2 ^ 58)%Z /\ LibUseSpec.sections_ok n k
  end.

(** No byte of [o] is one of [d] that comes earlier there. *)
Definition no_byte_before (d o : gslice) : Prop :=
  forall i j, (i < j)%nat -> (j < slen o)%nat -> (i < slen d)%nat -> shift (base o) j <> shift (base d) i.

(** A call that is used properly. *)
Definition proper (w : world) (c : ask) : Prop :=
  match c with
  | New_hash _ => True
  | Write_to h p => slice_there w p /\ exists ws, objects w (hptr h) = Some (AHash (hkind h) ws) /\ can_take (hkind h) ws (slice_text w p)
  | Sum_of h inp _ => slice_there w inp /\ exists ws, objects w (hptr h) = Some (AHash (hkind h) ws)
  | Reset_of h => exists ws, objects w (hptr h) = Some (AHash (hkind h) ws)
  | Make_bytes n c => (n <= c)%nat
  | Store_byte s j v => slice_there w s /\ (j < slen s)%nat /\ v < 256
  | Load_byte s j => slice_there w s /\ (j < slen s)%nat
  | New_tree _ => True
  | Copy_tree t | List_tree t => tree_there w t
  | Add_ip t ip _ => slice_there w ip /\ call_fine w c
  | Add_range t a b _ | Add_cidr t a b _ => slice_there w a /\ slice_there w b /\ call_fine w c
  | Ip_from u => u < 2 ^ 32
  | Mask_from b => b < 256
  | Ip_to s | Mask_to s => slice_there w s
  | Nets_equal a b a' b' => slice_there w a /\ slice_there w b /\ slice_there w a' /\ slice_there w b'
  | First_of a b => slice_there w a /\ slice_there w b
  | Last_of a b => slice_there w a /\ slice_there w b /\ (4 <= slen a)%nat /\ (4 <= slen b)%nat
  | Text_of f s => slice_there w s /\ writable f (slen s)
  | Bytes_of _ _ t => bytes_ok t
  | Zero_bytes s => slice_there w s
  | Xor_bytes d o => slice_there w d /\ slice_there w o /\ no_byte_before d o
  end.

(** What a call only looks at, and what it changes: hashes, trees and single
    bytes. Sum changes bytes only if they fit behind its argument; else it looks
    at its argument, to copy it. *)
Inductive thing := TheObject (h : addr) | TheByte (x : addr).
Definition digest_at (w : world) (h : addr) : list N := match objects w h with Some (AHash k ws) => digest_of k ws | _ => [] end.
Definition in_slice (s : gslice) (i n : nat) (t : thing) : Prop := exists j, (i <= j < i + n)%nat /\ t = TheByte (shift (base s) j).
Definition fits (w : world) (h : addr) (inp : gslice) : bool := Nat.leb (slen inp + length (digest_at w h)) (scap inp).
Definition looks (w : world) (c : ask) (t : thing) : Prop :=
  match c with
  | Write_to h p => in_slice p 0 (slen p) t
  | Sum_of h inp _ => t = TheObject (hptr h) \/ (fits w (hptr h) inp = false /\ in_slice inp 0 (slen inp) t)
  | Load_byte s j => t = TheByte (shift (base s) j)
  | Copy_tree r | List_tree r => t = TheObject (tptr r)
  | Add_ip _ ip _ => in_slice ip 0 (slen ip) t
  | Add_range _ a b _ | Add_cidr _ a b _ => in_slice a 0 (slen a) t \/ in_slice b 0 (slen b) t
  | Ip_to s | Mask_to s => in_slice s 0 (slen s) t
  | Nets_equal a b a' b' => in_slice a 0 (slen a) t \/ in_slice b 0 (slen b) t \/ in_slice a' 0 (slen a') t \/ in_slice b' 0 (slen b') t
  | Last_of a b => in_slice a 0 4 t \/ in_slice b 0 4 t
  | Text_of _ s => in_slice s 0 (slen s) t
  | Xor_bytes d o => let n := Nat.min (slen d) (slen o) in in_slice d 0 n t \/ in_slice o 0 n t
  | _ => False
  end.
Definition alters (w : world) (c : ask) (t : thing) : Prop :=
  match c with
  | Write_to h p => t = TheObject (hptr h)
  | Sum_of h inp _ => fits w (hptr h) inp = true /\ in_slice inp (slen inp) (length (digest_at w (hptr h))) t
  | Reset_of h => t = TheObject (hptr h)
  | Store_byte s j _ => t = TheByte (shift (base s) j)
  | Add_ip r _ _ | Add_range r _ _ _ | Add_cidr r _ _ _ => t = TheObject (tptr r)
  | Zero_bytes s => in_slice s 0 (slen s) t
  | Xor_bytes d o => in_slice d 0 (Nat.min (slen d) (slen o)) t
  | _ => False
  end.
Definition clash (w : world) (c c' : ask) : Prop := exists t, alters w c t /\ (looks w c' t \/ alters w c' t).

(** What a call of goroutine [id] does, and what comes back. *)
Definition overwritten (f : addr -> N) (a : addr) (xs : list N) : addr -> N :=
  fun x => if within a (length xs) x then nth (num x - num a) xs 0 else f x.
Definition set_object (w : world) (h : addr) (o : item) : world :=
  mkWorld (bytes w) (made_by w) (fun x => if same x h then Some o else objects w x).
Definition set_bytes (w : world) (a : addr) (xs : list N) : world := mkWorld (overwritten (bytes w) a xs) (made_by w) (objects w).
Definition add_bytes (id : nat) (w : world) (xs : list N) : world :=
  mkWorld (overwritten (bytes w) (mkA id false (made_by w id)) xs)
    (fun j => if Nat.eqb j id then (made_by w id + length xs)%nat else made_by w j) (objects w).
(** The answers of calls that only look, and the bytes that others make. *)
Definition answer (w : world) (c : ask) (r : got) : Prop :=
  match c with
  | Ip_to ip => exists u, r = GotNum u
      /\ (forall y, NetSpec.is_addr (slice_text w ip) y -> u = y) /\ ((forall y, ~ NetSpec.is_addr (slice_text w ip) y) -> u = 0)
  | Mask_to m => exists u, r = GotNum u
      /\ (forall n, NetSpec.mask_of_length (slice_text w m) n -> u = N.of_nat n mod 256) /\ ((forall n, ~ NetSpec.mask_of_length (slice_text w m) n) -> u = 0)
  | Nets_equal ip m ip' m' => exists b, r = GotBool b
      /\ (b = true <-> slice_text w m = slice_text w m' /\ forall x, NetSpec.is_addr (slice_text w ip) x <-> NetSpec.is_addr (slice_text w ip') x)
  | First_of ip m => r = GotSlice ip
  | Text_of f s => r = GotText (text_as f (slice_text w s))
  | _ => False
  end.
Definition makes (w : world) (c : ask) (xs : list N) : Prop :=
  match c with
  | Ip_from u => xs = NetSpec.addr u
  | Mask_from b => xs = if b <=? 32 then NetSpec.addr (2 ^ 32 - NetSpec.size b) else [0; 0; 0; 0]
  | Last_of ip m => xs = map (fun j => N.lor (bytes w (shift (base ip) j)) (255 - bytes w (shift (base m) j))) [0; 1; 2; 3]%nat
  | _ => False
  end.
(** The calls that overwrite bytes, with what, and the answer. *)
Definition overwrites (w : world) (c : ask) : option (addr * list N * got) :=
  match c with
  | Zero_bytes s => Some (base s, repeat 0 (slen s), GotNothing)
  | Xor_bytes d o =>
      let n := Nat.min (slen d) (slen o) in
      Some (base d, map (fun j => N.lxor (bytes w (shift (base d) j)) (bytes w (shift (base o) j))) (seq 0 n), GotCount n)
  | _ => None
  end.
(** Reading a text makes a slice of half as many bytes as there are characters, with
    the pairs of digits before the first bad one; it comes back only if there is
    no bad one and no single character at the end. *)
Definition read_bytes (t : list N) : list N :=
  LibUseSpec.read_pairs t ++ repeat 0 (length t / 2 - length (LibUseSpec.read_pairs t)).
Definition read_reply (fast : bool) (t : list N) (s : gslice) : got :=
  match LibUseSpec.first_bad t 0 with
  | Some (c, i) => if fast then GotNil else GotBad c i
  | None => if Nat.even (length t) then GotSlice s else if fast then GotNil else GotOdd
  end.
Inductive does (id : nat) (w : world) : ask -> world -> got -> Prop :=
| Does_new k h : objects w h = None -> does id w (New_hash k) (set_object w h (AHash k [])) (GotHash (mkH k h))
| Does_write h p ws : objects w (hptr h) = Some (AHash (hkind h) ws) ->
    does id w (Write_to h p) (set_object w (hptr h) (AHash (hkind h) (ws ++ [slice_text w p]))) (GotCount (slen p))
| Does_sum_here h inp room : fits w (hptr h) inp = true ->
    let d := digest_at w (hptr h) in
    does id w (Sum_of h inp room) (set_bytes w (shift (base inp) (slen inp)) d) (GotSlice (mkS (base inp) (slen inp + length d) (scap inp)))
| Does_sum_new h inp room : fits w (hptr h) inp = false ->
    let d := digest_at w (hptr h) in let n := (slen inp + length d)%nat in
    does id w (Sum_of h inp room) (add_bytes id w (slice_text w inp ++ d ++ repeat 0 room)) (GotSlice (mkS (mkA id false (made_by w id)) n (n + room)))
| Does_reset h : does id w (Reset_of h) (set_object w (hptr h) (AHash (hkind h) [])) GotNothing
| Does_make n c : does id w (Make_bytes n c) (add_bytes id w (repeat 0 c)) (GotSlice (mkS (mkA id false (made_by w id)) n c))
| Does_store s j v : does id w (Store_byte s j v) (set_bytes w (shift (base s) j) [v]) GotNothing
| Does_load s j : does id w (Load_byte s j) w (GotByte (bytes w (shift (base s) j)))
| Does_tree mg a : objects w a = None -> does id w (New_tree mg) (set_object w a (ATree mg [])) (GotTree (mkTr a mg))
| Does_copy t cs a : objects w (tptr t) = Some (ATree (tmerge t) cs) -> objects w a = None ->
    does id w (Copy_tree t) (set_object w a (ATree (tmerge t) cs)) (GotTree (mkTr a (tmerge t)))
| Does_add c t x cs : called w c = Some (t, x) -> objects w (tptr t) = Some (ATree (tmerge t) cs) ->
    does id w c (set_object w (tptr t) (ATree (tmerge t) (cs ++ [x]))) GotNothing
| Does_list t cs B L : objects w (tptr t) = Some (ATree (tmerge t) cs) -> NetSpec.history (tmerge t) NetSpec.no_blocks cs B ->
    StronglySorted (fun x y => let '(y1, p, _) := x in let '(y2, _, _) := y in y1 + NetSpec.size p <= y2) L ->
    (forall y p z, In (y, p, z) L <-> B y p = Some z) ->
    does id w (List_tree t) (add_bytes id w (NetGoSpec.entry_bytes L)) (GotList (NetGoSpec.entries id (made_by w id) L))
| Does_answer c r : answer w c r -> does id w c w r
| Does_bytes c xs : makes w c xs -> does id w c (add_bytes id w xs) (GotSlice (mkS (mkA id false (made_by w id)) (length xs) (length xs)))
| Does_read tiny fast t : does id w (Bytes_of tiny fast t) (add_bytes id w (read_bytes t))
    (read_reply fast t (mkS (mkA id false (made_by w id)) (length t / 2) (length t / 2)))
| Does_overwrite c a xs r : overwrites w c = Some (a, xs, r) -> does id w c (set_bytes w a xs) r.

Section Turns.
Context {G : Type}.
(** Every call happens at once. *)
Definition scene := (world * G * list (prog G))%type.
Inductive turn : scene -> scene -> Prop :=
| Calls w s gs i c k w' r : nth_error gs i = Some (Call c k) -> does i w c w' r -> turn (w, s, gs) (w', s, replaced i (k r) gs)
| Agrees w s gs i f n s' g : nth_error gs i = Some (Sync f) -> f n s = Some (s', g) -> turn (w, s, gs) (w, s', replaced i g gs).
Inductive turns : scene -> scene -> Prop :=
| No_turn p : turns p p
| A_turn p p1 p2 : turns p p1 -> turn p1 p2 -> turns p p2.

(** Calls are proper, and goroutines that are about to make calls at the same time
    do not get in each other's way. *)
Definition fair (p : scene) : Prop :=
  let '(w, s, gs) := p in
  (forall i c k, nth_error gs i = Some (Call c k) -> proper w c)
  /\ forall i j c c' k k', i <> j -> nth_error gs i = Some (Call c k) -> nth_error gs j = Some (Call c' k') -> ~ clash w c c'.
Definition well_synchronised (s : G) (gs : list (prog G)) : Prop := forall p, turns (nothing_yet, s, gs) p -> fair p.

(** The same goroutines, some of them in the middle of a call that has not
    happened yet. *)
Definition stands_before (v : worker G) (g : prog G) : Prop :=
  match stands_at v with
  | Between g' => g = g'
  | Inside c _ k => g = Call c k
  end.
Definition in_progress (v : worker G) : Prop := exists c p k, stands_at v = Inside c p k.
End Turns.
