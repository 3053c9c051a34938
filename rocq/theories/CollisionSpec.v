(** Independent hash bytes: a finite probability space.

    An outcome says, for each of [n] repetitions and each of [k] bytes of a hash value,
    whether the two subsequences of a pair got the same byte. *)
From Coq Require Import Reals.
From Verif Require Import Base RSpec.
Local Open Scope R_scope.

(** all lists of length [n] over the entries [l] *)
Fixpoint lists_of {A} (l : list A) (n : nat) : list (list A) :=
  match n with
  | O => [[]]
  | S n => flat_map (fun a => map (cons a) (lists_of l n)) l
  end.
Definition outcomes (n k : nat) : list (list (list bool)) := lists_of (lists_of [true; false] k) n.
(** each byte is equal with probability [p], independently of the others *)
Definition weight (p : R) (outcome : list (list bool)) : R :=
  fold_right Rmult 1 (map (fun equal : bool => if equal then p else 1 - p) (concat outcome)).
Definition probability (p : R) (n k : nat) (event : list (list bool) -> bool) : R :=
  total (map (weight p) (filter event (outcomes n k))).

(** the pair collides in a repetition at a prefix if all bytes of the prefix are equal *)
Definition collides_at (prefix : nat) (bytes : list bool) : bool := forallb (fun equal => equal) (firstn prefix bytes).
(** the pair has collided in none of the visited repetitions, each visited at some prefix *)
Definition never_met (visits : list (nat * nat)) (outcome : list (list bool)) : bool :=
  forallb (fun '(repetition, prefix) => negb (collides_at prefix (nth repetition outcome []))) visits.
(** visiting the first [reps] repetitions at one prefix *)
Definition pass (reps prefix : nat) : list (nat * nat) := map (fun repetition => (repetition, prefix)) (seq 0 reps).
