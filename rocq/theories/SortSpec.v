(** What sorting means. *)
From Verif Require Import Base.

(** non-decreasing hash values along the list *)
Definition sorted_by_hash (l : list (N * N)) : Prop :=
  forall i j x y, i < j -> nth_error l i = Some x -> nth_error l j = Some y -> (fst x <= fst y)%N.

(** pairs with the same hash appear in the same order in both lists *)
Definition same_hash_same_order (l l' : list (N * N)) : Prop :=
  forall h, filter (fun e => N.eqb (fst e) h) l = filter (fun e => N.eqb (fst e) h) l'.

(** strictly or equally ordered as tuples *)
Definition sorted_as_tuples (l : list (N * N)) : Prop :=
  forall i j x y, i < j -> nth_error l i = Some x -> nth_error l j = Some y ->
    (fst x < fst y)%N \/ (fst x = fst y /\ (snd x <= snd y)%N).

(** pairs of equal hash carry increasing indices *)
Definition equal_hashes_increasing (l : list (N * N)) : Prop :=
  forall i j x y, i < j -> nth_error l i = Some x -> nth_error l j = Some y ->
    fst x = fst y -> (snd x <= snd y)%N.
