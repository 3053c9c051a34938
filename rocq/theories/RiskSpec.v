(** How likely it is that a search returns a pair although a closer one exists. *)
From Coq Require Import Reals.
From Verif Require Import Base F64 HashValue OverlapsSpec EnumSpec BruteSpec Moves TopK Iterator IteratorSpec GuaranteeSpec ScheduleSpec Collision CollisionSpec.

(** The random choices that matter for the pair [u], [v]: for each of [n] repetitions and each
    of the eight bytes, whether both windows get the same byte. *)
Definition outcome : Type := list (list bool).
(** The search made for an outcome.  Everything else may depend on the outcome in any way:
    the other hash values, and the pair [x_first], [x_second] at distance [x_extent] found by
    sampling. *)
Record experiment := Experiment {
  x_problem : outcome -> problem;
  x_first : outcome -> nat;
  x_second : outcome -> nat;
  x_extent : outcome -> f64
}.

(** In table [t], the rows of [u] and [v] have the same hash up to prefix [q], outside the
    last bucket (see C11). *)
Definition share (t : table) (q u v : nat) : Prop :=
  exists x y, collide (fst t) q x y /\ ~ in_last_bucket (fst t) q x /\
    ((nth_error (snd t) x = Some (N.of_nat u) /\ nth_error (snd t) y = Some (N.of_nat v)) \/
     (nth_error (snd t) x = Some (N.of_nat v) /\ nth_error (snd t) y = Some (N.of_nat u))).

(** What is asked of the search for outcome [o].  The windows [u], [v] are at distance [D] and do
    not overlap, and the tables are as the outcome says.  One pair is asked for; no pair is
    dropped by sampling; there is no threshold on collisions. *)
Record search_of (x : experiment) (n u v : nat) (D : f64) (o : outcome) : Prop := {
  so_sound : sound (x_problem x o);
  so_seed : seed_ok (x_problem x o) (x_first x o) (x_second x o) (x_extent x o);
  so_exact : exact_distances (x_problem x o);
  so_coins : forall c i j, p_coin (x_problem x o) c i j = true;
  so_top : p_top_k (x_problem x o) = 1;
  so_stop : p_stop (x_problem x o) = false;
  so_distance : p_zeucl (x_problem x o) u v = D;
  so_apart : ~ too_close (p_ez (x_problem x o)) u v;
  so_tables : forall r k q, r < n -> 1 <= k <= 8 -> 1 <= q <= 8 -> collides_at q (nth r o []) = true -> share (p_table (x_problem x o) r k) q u v
}.

(** The failure probability the search computes for extents from [D] on is the one of C42
    for the distance [distance], up to the accuracy between [p_delta] and [limit]. *)
Definition calibrated (p : problem) (D : f64) (width distance limit : R) : Prop :=
  forall e reps prefix prev prev_reps, fle D e = true -> flt (p_failure p e reps prefix prev prev_reps) (p_delta p) = true ->
    (failure_probability width distance reps prefix prev prev_reps < limit)%R.

(** In some session with at most [n] repetitions a pair is returned that is farther apart
    than [D]. *)
Definition returns_farther (x : experiment) (n : nat) (D : f64) (o : outcome) : Prop :=
  exists cbs fuel s answers m,
    session (x_problem x o) (x_first x o) (x_second x o) (x_extent x o) cbs fuel = Ret (s, answers) /\
    length (it_tables s) <= n /\ In (Item m) answers /\ length (ml_indices m) = 2 /\ flt D (ml_extent m) = true.

(** [plan] is a schedule that does not depend on the outcome *)
Definition one_schedule (x : experiment) (n : nat) (plan : nat -> config) : Prop :=
  (exists p0, 1 <= p0 <= 8 /\ plan 0 = config_start p0) /\
  (forall i, stays_on (plan i) (plan (S i)) \/ (may_leave (plan i) /\ steps_down (plan i) (plan (S i)))) /\
  (forall o s s', In o (outcomes n 8) -> turn_of (x_problem x o) (x_first x o) (x_second x o) (x_extent x o) s s' -> exists i, it_conf s = plan i).
