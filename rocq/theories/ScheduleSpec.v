(** What the schedule of the search is expected to be, independently of the code.

    A configuration is a repetition, a prefix length, and what was done at the previous
    (longer) prefix.  The search moves through configurations; moving to a shorter prefix
    is decided by comparing the estimated costs of confirming the smallest distance that is
    not confirmed yet. *)
From Coq Require Import Floats.SpecFloat.
From Verif Require Import Base F64 HashValue Moves Iterator.

(** [r] repetitions at prefix [q] are enough for distance [d] *)
Definition enough (p : problem) (d : f64) (q r : nat) : Prop := flt (p_delta p) (p_failure p d r q None None) = false.

(** The repetitions charged for [d] at prefix [q]: one more than the least that is enough,
    or all of the budget. *)
Definition charged (p : problem) (d : f64) (q n : nat) : Prop :=
  (exists r, n = r + 1 /\ n <= p_max_repetitions p /\ enough p d q r /\ forall r', r' < r -> ~ enough p d q r') \/
  (n = p_max_repetitions p /\ forall r, r < p_max_repetitions p -> ~ enough p d q r).

(** The estimated cost, in floating point: infinite if it takes the whole budget, otherwise
    n * (cost of the collisions + cost of setting up the repetitions that are missing),
    if [have] repetitions are there. *)
Definition costs (p : problem) (have : nat) (d : f64) (q : nat) (x : f64) : Prop :=
  exists n collisions, charged p d q n /\ nth_error (p_expected p) q = Some collisions /\
    (n = p_max_repetitions p /\ x = f_inf \/
     n < p_max_repetitions p /\
     x = SFmul 53 1024 (f_of_nat n)
           (SFadd 53 1024 (SFmul 53 1024 (p_collision_cost p) collisions) (SFmul 53 1024 (p_setup_cost p) (f_of_nat (n - have))))).

(** at least eight repetitions at the first prefix; at least as many as at the previous one afterwards *)
Definition owed (c : config) : nat := match c_prev_reps c with Some r => r | None => 8 end.
Definition may_leave (c : config) : Prop := owed c <= c_rep c + 1.

Definition stays_on (c c' : config) : Prop :=
  c_rep c' = c_rep c + 1 /\ c_prefix c' = c_prefix c /\ c_prev c' = c_prev c /\ c_prev_reps c' = c_prev_reps c.
Definition steps_down (c c' : config) : Prop :=
  c_rep c' = 0 /\ c_prefix c' + 1 = c_prefix c /\ c_prev c' = Some (c_prefix c) /\ c_prev_reps c' = Some (c_rep c + 1).

(** some shorter prefix is not more expensive, and not beyond the budget *)
Definition shorter_is_no_worse (p : problem) (have : nat) (d : f64) (prefix : nat) : Prop :=
  exists q y z, q < prefix /\ costs p have d q y /\ costs p have d prefix z /\ is_infinite y = false /\ fle y z = true.
