(** A relay: goroutine 0 makes a hash, goroutines 1, 2, ... n write one byte each,
    and the last takes the sum; the hash goes from hand to hand. What they
    synchronise with is what a row of channels would hold: whose turn it is, the
    hash that waits for them, and in the end the sum. *)
From Verif Require Import Base.Go Base.Goroutine Base.HashUse Base.Sync.
Local Open Scope N_scope.

Record baton := mkB { turn_of : nat; waiting : option hashv; outcome : option gslice }.
Definition at_first : baton := mkB 0 None None.

(** The hash goes to goroutine [j]; and goroutine [i] takes it when it comes. *)
Definition hands (h : hashv) (j : nat) : prog baton := Sync (fun _ _ => Some (mkB j (Some h) None, Finish)).
Definition receives (i : nat) (k : hashv -> prog baton) : prog baton :=
  Sync (fun _ b => match waiting b with
                   | Some h => if Nat.eqb (turn_of b) i then Some (mkB i None None, k h) else None
                   | None => None
                   end).

Definition maker (k : kind) : prog baton :=
  Call (New_hash k) (fun r => match r with GotHash h => hands h 1 | _ => Finish end).
Definition writes_it (i : nat) (p : gslice) (h : hashv) : prog baton := Call (Write_to h p) (fun _ => hands h (S i)).
Definition waits_for_it (i : nat) (p : gslice) : prog baton := receives i (writes_it i p).
Definition stores_it (i : nat) (x : N) (p : gslice) : prog baton := Call (Store_byte p 0 x) (fun _ => waits_for_it i p).
Definition runner (i : nat) (x : N) : prog baton :=
  Call (Make_bytes 1 1) (fun r => match r with GotSlice p => stores_it i x p | _ => Finish end).
Definition tells (s : gslice) : prog baton := Sync (fun _ b => Some (mkB (turn_of b) None (Some s), Finish)).
Definition sums_it (i : nat) (h : hashv) : prog baton :=
  Call (Sum_of h (mkS (mkA i false 0) 0 0) 0) (fun r => match r with GotSlice s => tells s | _ => Finish end).
Definition last_runner (i : nat) : prog baton := receives i (sums_it i).

Definition role (k : kind) (xs : list N) (i : nat) : prog baton :=
  if Nat.eqb i 0 then maker k
  else if Nat.leb i (length xs) then runner i (nth (i - 1) xs 0)
  else last_runner i.
Definition relay (k : kind) (xs : list N) : list (prog baton) := map (role k xs) (seq 0 (length xs + 2)).

(** A publication: goroutine 0 makes a hash, writes bytes to it, and shows it to
    the others, who all take its sum, at the same time if they like. *)
Record board := mkBoard { shown : option hashv; sums : list gslice }.
Definition blank : board := mkBoard None [].
Definition shows (h : hashv) : prog board := Sync (fun _ b => Some (mkBoard (Some h) (sums b), Finish)).
Fixpoint puts_all (h : hashv) (p : gslice) (xs : list N) : prog board :=
  match xs with
  | [] => shows h
  | x :: xs' => Call (Store_byte p 0 x) (fun _ => Call (Write_to h p) (fun _ => puts_all h p xs'))
  end.
Definition author1 (xs : list N) (h : hashv) : prog board :=
  Call (Make_bytes 1 1) (fun r => match r with GotSlice p => puts_all h p xs | _ => Finish end).
Definition author (k : kind) (xs : list N) : prog board :=
  Call (New_hash k) (fun r => match r with GotHash h => author1 xs h | _ => Finish end).
Definition adds (s : gslice) : prog board := Sync (fun _ b => Some (mkBoard (shown b) (sums b ++ [s]), Finish)).
Definition reads_it (i : nat) (h : hashv) : prog board :=
  Call (Sum_of h (mkS (mkA i false 0) 0 0) 0) (fun r => match r with GotSlice s => adds s | _ => Finish end).
Definition reader (i : nat) : prog board :=
  Sync (fun _ b => match shown b with Some h => Some (b, reads_it i h) | None => None end).
Definition publication (k : kind) (xs : list N) (n : nat) : list (prog board) := author k xs :: map reader (seq 1 n).
