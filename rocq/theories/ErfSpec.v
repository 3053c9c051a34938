(** The error function, as an integral. *)
From Coq Require Import Reals.
From Coquelicot Require Import Coquelicot.
Local Open Scope R_scope.

Definition error_function (x : R) : R := 2 / sqrt PI * RInt (fun t => exp (- (t * t))) 0 x.
(** the probability that a standard normal variable is at most [x] *)
Definition normal_distribution (x : R) : R := (1 + error_function (x / sqrt 2)) / 2.
(** [a] is within [e] of [b] *)
Definition within (e a b : R) : Prop := Rabs (a - b) <= e.
(** how many comparisons of bytes a failure probability is about: [reps] repetitions at one
    prefix, and the repetitions after them at the previous prefix *)
Definition bytes_compared (reps prefix : nat) (prev prev_reps : option nat) : nat :=
  reps * prefix + match prev, prev_reps with Some q, Some n => (n - reps) * q | _, _ => 0 end.
