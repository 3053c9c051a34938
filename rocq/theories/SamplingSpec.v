(** What the sampling should compute. *)
From Coq Require Import Reals.
From Verif Require Import Base RSpec.
Local Open Scope R_scope.

(** the window at [i] is too flat to be z-normalised *)
Definition flat (ts : list R) (w i : nat) : bool := if Rle_dec (sd_of (window ts w i)) (/ 10000) then true else false.
(** positions at distance at least [zone] *)
Definition apart (zone i j : nat) : bool := ((i + zone <=? j) || (j + zone <=? i))%nat.
(** two windows that may be compared *)
Definition usable_pair (ts : list R) (w zone : nat) (ij : nat * nat) : bool :=
  negb (flat ts w (fst ij)) && negb (flat ts w (snd ij)) && apart zone (fst ij) (snd ij).
(** the first [T] draws *)
Definition draws {A} (draw : nat -> A) (T : nat) : list A := map draw (seq 0 T).
Definition usable_pairs (ts : list R) (w zone : nat) (draw : nat -> nat * nat) (T : nat) : list (nat * nat) :=
  filter (usable_pair ts w zone) (draws draw T).
Definition usable_positions (ts : list R) (w : nat) (draw : nat -> nat) (T : nat) : list nat :=
  filter (fun i => negb (flat ts w i)) (draws draw T).
(** all lists of [T] independent uniform draws from [l], and how many of them satisfy [event] *)
Fixpoint sequences {A} (l : list A) (T : nat) : list (list A) :=
  match T with
  | O => [[]]
  | S T => flat_map (fun a => map (cons a) (sequences l T)) l
  end.
Definition chance {A} (l : list A) (T : nat) (event : list A -> bool) : R :=
  INR (length (filter event (sequences l T))) / INR (length (sequences l T)).
