(** What a history of insertions and emissions is meant to do. *)
From Verif Require Import Base F64 OverlapsSpec TopK.

(** the motiflets inserted by a history *)
Definition inserted (ops : list tk_op) : list motiflet :=
  flat_map (fun op => match op with OpInsert m => [m] | _ => [] end) ops.
Definition conflicting (ez : nat) (x y : motiflet) : Prop := sets_conflict ez (ml_indices x) (ml_indices y).

Definition numbers (l : list motiflet) : Prop := forall m, In m l -> is_nan (ml_extent m) = false.
Definition by_extent (l : list motiflet) : Prop :=
  StronglySorted (fun x y => flt (ml_extent x) (ml_extent y) = true) l.
(** motiflets with the same extent are the same motiflet *)
Definition tie_free (l : list motiflet) : Prop :=
  forall x y, In x l -> In y l -> feq (ml_extent x) (ml_extent y) = true -> ml_indices x = ml_indices y.
Definition pairwise_disjoint (ez : nat) (l : list motiflet) : Prop :=
  forall a b x y, a < b -> nth_error l a = Some x -> nth_error l b = Some y -> ~ conflicting ez x y.

(** [ans] is the answer "up to [k] best pairwise non-overlapping candidates": repeatedly
    take a candidate of smallest extent among those overlapping none of the ones taken *)
Inductive best_answer (ez : nat) (cands : list motiflet) : nat -> list motiflet -> Prop :=
| ba_zero : best_answer ez cands 0 []
| ba_more k ans m :
    best_answer ez cands k ans -> length ans = k ->
    In m cands -> (forall r, In r ans -> ~ conflicting ez m r) ->
    (forall c, In c cands -> (forall r, In r ans -> ~ conflicting ez c r) -> fle (ml_extent m) (ml_extent c) = true) ->
    best_answer ez cands (S k) (ans ++ [m])
| ba_end k ans :
    best_answer ez cands k ans ->
    (forall c, In c cands -> exists r, In r ans /\ conflicting ez c r) ->
    best_answer ez cands (S k) ans.
