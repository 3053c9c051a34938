(** What "overlap" means, independently of the code. *)
From Verif Require Import Base.

(** Two positions conflict when they are closer than the exclusion zone. *)
Definition too_close (ez a b : nat) : Prop := a < b + ez /\ b < a + ez.

(** A list of positions is admissible when any two entries are far enough. *)
Definition all_apart (ez : nat) (l : list nat) : Prop :=
  forall i j a b, nth_error l i = Some a -> nth_error l j = Some b -> i <> j -> ~ too_close ez a b.

(** Two sets of positions conflict when some position of one conflicts with some
    position of the other. *)
Definition sets_conflict (ez : nat) (xs ys : list nat) : Prop :=
  exists x y, In x xs /\ In y ys /\ too_close ez x y.
