(** What the theorems on brute-force searches in floating point assume of the sliding dot
    product; see ProjSpec.v and AccSpec.v. *)
From Coq Require Import Reals Floats.SpecFloat.
From Verif Require Import Base F64 RSpec FpOps FloatSeries FloatSpec FloatHash ProjSpec AccSpec.
Local Open Scope R_scope.

(** Every dot product of a z-normalised window with a window is within [err], and the
    squared distances are at least [gap], which is more than the rounding can amount to:
    [10 w eps] for the statistics on record and [5 err] over the standard deviation for the
    dot products. *)
Definition dots_within (ts : list f64) (w : nat) (s : fseries) (sdp : list f64 -> nat -> f64) (eps err gap : R) : Prop :=
  forall from i normal, (from < length ts - w)%nat -> (i < length ts - w)%nat -> i <> from -> fznormalized s from = Ret normal ->
    dot_within ts w normal i err (sdp normal i) /\
    5 * (err / sd_of (exact_window ts w i)) + 20 * (INR w * eps) <= gap /\
    gap < exact_distance ts w from i ^ 2.
