(** What the brute-force searches are meant to compute. *)
From Coq Require Import Permutation.
From Verif Require Import Base F64 OverlapsSpec.

(** distances are numbers >= 0 or NaN *)
Definition nonneg (d : nat -> nat -> f64) : Prop :=
  forall x y, is_nan (d x y) = false -> fle f_zero (d x y) = true.

(** [e] is the largest distance between two members of [l] (0 for fewer than two members) *)
Definition max_pairwise (d : nat -> nat -> f64) (l : list nat) (e : f64) : Prop :=
  (length l <= 1 -> e = f_zero) /\
  (forall a b x y, a < b -> nth_error l a = Some x -> nth_error l b = Some y -> fle (d y x) e = true) /\
  (2 <= length l -> exists a b x y, a < b /\ nth_error l a = Some x /\ nth_error l b = Some y /\ e = d y x).

(** [o] is a possible result of sorting the positions [0 .. length d - 1] by their distance *)
Definition sorted_order (d : list f64) (o : list nat) : Prop :=
  Permutation o (seq 0 (length d)) /\
  (existsb is_nan d = false ->
   forall i j a b x y, i < j -> nth_error o i = Some a -> nth_error o j = Some b ->
     nth_error d a = Some x -> nth_error d b = Some y -> fle x y = true).

(** what sorting the positions by distance may do: return an arrangement (sorted when
    all distances are numbers), or panic, which needs a distance that is not a number *)
Definition sort_outcome (d : list f64) (r : option (list nat)) : Prop :=
  match r with Some o => sorted_order d o | None => existsb is_nan d = true end.

(** no two members are trivial matches of each other *)
Definition pairwise_apart (ez : nat) (l : list nat) : Prop :=
  forall a b x y, a < b -> nth_error l a = Some x -> nth_error l b = Some y -> ~ too_close ez x y.

(** [x] is a closest candidate among those away from every chosen position *)
Definition nearest_free (d : nat -> f64) (cand : nat -> Prop) (ez : nat) (chosen : list nat) (x : nat) : Prop :=
  cand x /\ (forall y, In y chosen -> ~ too_close ez x y) /\
  forall z, cand z -> (forall y, In y chosen -> ~ too_close ez z y) -> fle (d x) (d z) = true.

(** [l] is a greedy neighbourhood of [from]: starting from [from], repeatedly take a
    closest candidate away from those taken, until there are [k] or none is left *)
Definition greedy_neighbourhood (d : nat -> f64) (cand : nat -> Prop) (ez k from : nat) (l : list nat) : Prop :=
  nth_error l 0 = Some from /\
  (forall i x, nth_error l (S i) = Some x -> nearest_free d cand ez (firstn (S i) l) x) /\
  length l <= Nat.max k 1 /\
  (length l < k -> forall z, cand z -> exists y, In y l /\ too_close ez z y).
