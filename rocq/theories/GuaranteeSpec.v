(** What a search is meant to guarantee about the motiflets it returns. *)
From Verif Require Import Base F64 HashValue OverlapsSpec EnumSpec BruteSpec Moves TopK Iterator IteratorSpec.

(** The two routines computing a distance agree, and the one with a threshold gives up only
    on pairs that are farther than the threshold.  In exact arithmetic this is C46 and C47. *)
Record exact_distances (p : problem) : Prop := {
  ex_sym : forall i j, p_zeucl p i j = p_zeucl p j i;
  ex_some : forall i j t d, p_zeucl_threshold p i j t = Some d -> d = p_zeucl p i j;
  ex_below : forall i j t, fle (p_zeucl p i j) t = true -> p_zeucl_threshold p i j t = Some (p_zeucl p i j)
}.

(** What holds in floating point (C93, C95): the routine with a threshold has a distance [T] of
    its own for two windows of the index, in whatever order.  It returns that distance or
    gives up, and it gives up only on pairs at least as far apart as the threshold: at least
    for the thresholds there can be, [seed] being the distance of the sampled pair. *)
Definition used_threshold (p : problem) (seed t : f64) : Prop :=
  t = f_inf \/ t = seed \/ exists i j, indexed p i /\ indexed p j /\ i <> j /\ t = p_zeucl p i j.
Record coherent (p : problem) (seed : f64) (T : nat -> nat -> f64) : Prop := {
  co_sym : forall i j, T i j = T j i;
  co_zsym : forall i j, p_zeucl p i j = p_zeucl p j i;
  co_some : forall i j t d, i < j -> indexed p i -> indexed p j -> p_zeucl_threshold p i j t = Some d -> d = T i j;
  co_none : forall i j t, i < j -> indexed p i -> indexed p j -> is_nan t = false -> used_threshold p seed t -> p_zeucl_threshold p i j t = None -> fle t (T i j) = true;
  co_number : forall i j, indexed p i -> indexed p j -> i <> j -> is_nan (T i j) = false
}.

(** The windows [u], [v], which do not overlap, have the same hash up to prefix [q] in
    repetition [r], outside the last bucket (see C11). *)
Definition meet (tables : list table) (ez q r u v : nat) : Prop :=
  ~ too_close ez u v /\
  exists t x y, nth_error tables r = Some t /\ collide (fst t) q x y /\ ~ in_last_bucket (fst t) q x /\
    ((nth_error (snd t) x = Some (N.of_nat u) /\ nth_error (snd t) y = Some (N.of_nat v)) \/
     (nth_error (snd t) x = Some (N.of_nat v) /\ nth_error (snd t) y = Some (N.of_nat u))).

(** [u], [v] meet in one of the first [reps] repetitions at the current prefix, or in one of the
    repetitions gone through at the previous prefix: the failure probability of the
    configuration with [reps] repetitions is that of the opposite event (see C43). *)
Definition searched (p : problem) (s : iter) (reps u v : nat) : Prop :=
  let c := it_conf s in
  (exists r, r < reps /\ meet (it_tables s) (p_ez p) (c_prefix c) r u v) \/
  (exists q m r, c_prev c = Some q /\ c_prev_reps c = Some m /\ r < m /\ meet (it_tables s) (p_ez p) q r u v).

(** State [s'] comes right after [s] in a run, by a turn of the loop. *)
Definition turn_of (p : problem) (a b : nat) (d : f64) (s s' : iter) : Prop :=
  exists h fuel, trace p a b d (s' :: s :: h) /\ loop_body p s true fuel = Ret (inl s').
(** State [s] occurs in a run, and there the threshold on collisions stops the search. *)
Definition stop_of (p : problem) (a b : nat) (d : f64) (s : iter) : Prop :=
  (exists h, trace p a b d (s :: h)) /\ p_stop p = true /\ p_threshold p < it_candidates s.

(** The failure probability of the configuration of [s], after its repetition, for distance [e]. *)
Definition failure_after (p : problem) (s : iter) (e : f64) : f64 :=
  let c := it_conf s in p_failure p e (c_rep c + 1) (c_prefix c) (c_prev c) (c_prev_reps c).

(** no two windows of the index away from window [i] are at the same distance [T] from it *)
Definition no_ties_by (p : problem) (T : nat -> nat -> f64) (i : nat) : Prop :=
  forall x y, indexed p x -> indexed p y -> ~ too_close (p_ez p) i x -> ~ too_close (p_ez p) i y -> feq (T i x) (T i y) = true -> x = y.
Definition no_ties_at (p : problem) (i : nat) : Prop := no_ties_by p (p_zeucl p) i.
