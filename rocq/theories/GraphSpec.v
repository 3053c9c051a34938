(** What the neighbour graph is meant to report. *)
From Verif Require Import Base F64 OverlapsSpec BruteSpec Graph.

(** the edges given so far at node [i]: neighbour and distance *)
Fixpoint edges (ops : list g_op) (i : nat) : list (f64 * nat) :=
  match ops with
  | [] => []
  | GInsert d a b :: t => (if a =? i then [(d, b)] else []) ++ (if b =? i then [(d, a)] else []) ++ edges t i
  | _ :: t => edges t i
  end.

(** all insertions are between nodes below [n], with distances that are numbers without sign *)
Definition well_formed (n : nat) (ops : list g_op) : Prop :=
  forall d a b, In (GInsert d a b) ops ->
    a < n /\ b < n /\ is_nan d = false /\ is_sign_negative d = false.

(** an edge was given at node [i] since the last reset *)
Fixpoint touched_since (t0 : bool) (ops : list g_op) (i : nat) : bool :=
  match ops with
  | [] => t0
  | GInsert _ a b :: t => touched_since (t0 || (a =? i) || (b =? i)) t i
  | GReset :: t => touched_since false t i
  | GRead _ :: t => touched_since t0 t i
  end.
Definition touched (ops : list g_op) (i : nat) : bool := touched_since false ops i.

(** [(indices, distances)] is a nearest neighbourhood of node [i] with at most [k] members,
    chosen greedily among the given edges *)
Definition nearest_neighbourhood (ez k i : nat) (es : list (f64 * nat)) (indices : list nat) (distances : list f64) : Prop :=
  length indices = length distances /\
  nth_error indices 0 = Some i /\ nth_error distances 0 = Some f_zero /\
  length indices <= Nat.max k 1 /\
  pairwise_apart ez indices /\
  (forall p q d e, p < q -> nth_error distances p = Some d -> nth_error distances q = Some e -> fle d e = true) /\
  (forall p j d, nth_error indices (S p) = Some j -> nth_error distances (S p) = Some d -> In (d, j) es) /\
  (forall d j, In (d, j) es ->
     (exists p j' d', nth_error indices p = Some j' /\ nth_error distances p = Some d' /\
        fle d' d = true /\ (j' = j \/ too_close ez j' j)) \/
     (k <= length indices /\ forall p d', nth_error distances p = Some d' -> fle d' d = true)).

(** a pair of nodes is always given with the same distance *)
Definition same_distances (ops : list g_op) : Prop :=
  forall i d d' j, In (d, j) (edges ops i) -> In (d', j) (edges ops i) -> d = d'.

(** the neighbours (and distances) of node [i] in the neighbourhoods of [i] among [reports] *)
Definition reported_for (i : nat) (reports : list (list nat * list f64)) (d : f64) (j : nat) : Prop :=
  exists indices distances p, In (indices, distances) reports /\ nth_error indices 0 = Some i /\
    nth_error indices (S p) = Some j /\ nth_error distances (S p) = Some d.
