(** What is assumed of the exponential function of the system library, and how exact the
    computed collision probability is. *)
From Coq Require Import Reals Floats.SpecFloat.
From Verif Require Import Base F64 FpOps.
Local Open Scope R_scope.

(** [exp] for arguments not above 0: a number from 0 to 1, within 2^-50 of the true value; 0 for
    minus infinity.  The error of a correctly rounded [exp] is at most 2^-54 there. *)
Definition exp_within (fexp : f64 -> f64) : Prop :=
  (forall y, number y -> fval y <= 0 -> number (fexp y) /\ 0 <= fval (fexp y) <= 1 /\ Rabs (fval (fexp y) - exp (fval y)) <= powerRZ 2 (-50)) /\
  fexp (S754_infinity true) = S754_zero false.
(** a positive number that is neither huge nor tiny *)
Definition moderate (x : f64) : Prop := number x /\ powerRZ 2 (-200) <= fval x <= powerRZ 2 200.
(** a distance: 0 or a positive number that is neither huge nor tiny *)
Definition distance64 (d : f64) : Prop := d = S754_zero false \/ moderate d.
(** the error of the computed collision probability for this [width] and this distance *)
Definition probability_gap (width d : f64) : R := 3.31 / 10 ^ 10 + powerRZ 2 (-48) * (fval d / fval width).
