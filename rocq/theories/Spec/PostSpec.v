(** Letters: some goroutines send messages as hex texts, others take the texts and
    turn them back into bytes. A sender has one buffer, which it fills again for
    its next message as soon as the text is posted. What they synchronise with is
    what a channel holds, and the list of what has arrived. The channel has room
    for so many texts; a sender waits if it is full. Which of the texts a reader
    comes by is left open, so there may be several channels as well, of the same
    room together. *)
From Verif Require Import Base.Go Base.Goroutine Base.HashUse Base.Sync.
Local Open Scope N_scope.

(** A letter has the number of its sender, the number of the message, and the
    text; what arrives has a slice instead. *)
Record post := mkPost { letters : list (nat * nat * list N); arrived : list (nat * nat * gslice); complaints : bool }.
Definition no_post : post := mkPost [] [] false.

Inductive role := Sends (n : nat) (ms : list (list N)) | Receives (tiny fast : bool) (m : nat).

(** A sender: s := make([]byte, n), then for each message it stores the bytes,
    and sends hex.FromBytes(s). *)
Fixpoint stores (s : gslice) (j : nat) (xs : list N) (k : prog post) : prog post :=
  match xs with
  | [] => k
  | x :: xs' => Call (Store_byte s j x) (fun _ => stores s (S j) xs' k)
  end.
Section Office.
Context (room : nat).
Definition posts (l : nat * nat * list N) (k : prog post) : prog post :=
  Sync (fun _ b => if Nat.ltb (length (letters b)) room then Some (mkPost (letters b ++ [l]) (arrived b) (complaints b), k) else None).
Definition encodes (s : gslice) (i j : nat) (k : prog post) : prog post :=
  Call (Text_of In_hex s) (fun r => match r with GotText t => posts (i, j, t) k | _ => Finish end).
Fixpoint sends_all (s : gslice) (i j : nat) (ms : list (list N)) : prog post :=
  match ms with
  | [] => Finish
  | xs :: ms' => stores s 0 xs (encodes s i j (sends_all s i (S j) ms'))
  end.
Definition sender (n i : nat) (ms : list (list N)) : prog post :=
  Call (Make_bytes n n) (fun r => match r with GotSlice s => sends_all s i 0 ms | _ => Finish end).

(** A receiver: takes a letter, whichever it comes by, and calls hex.ToBytes or
    hex.ToBytesFast; it complains if there is an error. *)
Definition delivers (i j : nat) (s : gslice) (k : prog post) : prog post :=
  Sync (fun _ b => Some (mkPost (letters b) (arrived b ++ [(i, j, s)]) (complaints b), k)).
Definition complains : prog post := Sync (fun _ b => Some (mkPost (letters b) (arrived b) true, Finish)).
Definition decodes (tiny fast : bool) (i j : nat) (t : list N) (k : prog post) : prog post :=
  Call (Bytes_of tiny fast t) (fun r => match r with GotSlice s => delivers i j s k | _ => complains end).
Fixpoint receiver (tiny fast : bool) (m : nat) : prog post :=
  match m with
  | O => Finish
  | S m' => Sync (fun n b => match nth_error (letters b) n with
                             | Some (i, j, t) => Some (mkPost (firstn n (letters b) ++ skipn (S n) (letters b)) (arrived b) (complaints b),
                                                       decodes tiny fast i j t (receiver tiny fast m'))
                             | None => None
                             end)
  end.

Definition plays (i : nat) (r : role) : prog post :=
  match r with Sends n ms => sender n i ms | Receives tiny fast m => receiver tiny fast m end.
Fixpoint players (i : nat) (rs : list role) : list (prog post) :=
  match rs with [] => [] | r :: rs' => plays i r :: players (S i) rs' end.
Definition post_office (rs : list role) : list (prog post) := players 0 rs.
End Office.

(** The messages of a sender fill its buffer. *)
Definition role_ok (r : role) : Prop :=
  match r with Sends n ms => Forall (fun xs => length xs = n /\ bytes_ok xs) ms | Receives _ _ _ => True end.
(** Message [j] of goroutine [i]. *)
Definition message (rs : list role) (i j : nat) : option (list N) :=
  match nth_error rs i with Some (Sends _ ms) => nth_error ms j | _ => None end.
(** How many messages there are, and how many letters are to be taken. *)
Definition sent (rs : list role) : nat := list_sum (map (fun r => match r with Sends _ ms => length ms | Receives _ _ _ => O end) rs).
Definition asked (rs : list role) : nat := list_sum (map (fun r => match r with Sends _ _ => O | Receives _ _ m => m end) rs).
