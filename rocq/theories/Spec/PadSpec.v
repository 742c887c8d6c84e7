(** A shared key: goroutine 0 makes a key and shows it, and every other goroutine
    xors a message of its own with it, some number of times, all of them at the
    same time if they like. When all are finished goroutine 0 wipes out the key.
    What they synchronise with is the key that is shown, and the list of those
    that are finished. *)
From Verif Require Import Base.Go Base.Goroutine Base.HashUse Base.Sync.
Local Open Scope N_scope.

(** Whoever is finished tells the number of its message and its slice. *)
Record table := mkTable { key_at : option gslice; finished : list (nat * gslice) }.
Definition empty_table : table := mkTable None [].

Fixpoint fills (s : gslice) (j : nat) (xs : list N) (k : prog table) : prog table :=
  match xs with
  | [] => k
  | x :: xs' => Call (Store_byte s j x) (fun _ => fills s (S j) xs' k)
  end.
(** s := make([]byte, n), the bytes are stored, and on it goes. *)
Definition prepares (xs : list N) (k : gslice -> prog table) : prog table :=
  Call (Make_bytes (length xs) (length xs)) (fun r => match r with GotSlice s => fills s 0 xs (k s) | _ => Finish end).

(** The maker of the key; [n] is the number of the others. *)
Definition wipes (s : gslice) : prog table := Call (Zero_bytes s) (fun _ => Finish).
Definition waits_for_all (n : nat) (s : gslice) : prog table :=
  Sync (fun _ b => if Nat.eqb (length (finished b)) n then Some (b, wipes s) else None).
Definition lays_out (n : nat) (s : gslice) : prog table := Sync (fun _ b => Some (mkTable (Some s) (finished b), waits_for_all n s)).
Definition key_maker (key : list N) (n : nat) : prog table := prepares key (lays_out n).

(** bytes.XorEq(s, key), r times. *)
Definition hands_in (i : nat) (s : gslice) : prog table := Sync (fun _ b => Some (mkTable (key_at b) (finished b ++ [(i, s)]), Finish)).
Fixpoint xors (i : nat) (s key : gslice) (r : nat) : prog table :=
  match r with
  | O => hands_in i s
  | S r' => Call (Xor_bytes s key) (fun _ => xors i s key r')
  end.
Definition waits_for_key (i r : nat) (s : gslice) : prog table :=
  Sync (fun _ b => match key_at b with Some key => Some (b, xors i s key r) | None => None end).
Definition scribe (i : nat) (m : list N * nat) : prog table := prepares (fst m) (waits_for_key i (snd m)).
Fixpoint scribes (i : nat) (ms : list (list N * nat)) : list (prog table) :=
  match ms with [] => [] | m :: ms' => scribe i m :: scribes (S i) ms' end.
Definition office (key : list N) (ms : list (list N * nat)) : list (prog table) := key_maker key (length ms) :: scribes 0 ms.

(** Byte [q] of a message that was xored [r] times. What is longer than the key
    stays. *)
Definition xored (key xs : list N) (r q : nat) : N := if Nat.even r then nth q xs 0 else N.lxor (nth q xs 0) (nth q key 0).
