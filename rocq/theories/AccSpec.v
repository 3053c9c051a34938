(** What the theorems on whole searches over a series of floating point numbers say: see
    FloatSpec.v for single windows and distances. *)
From Coq Require Import Reals Floats.SpecFloat.
From Verif Require Import Base F64 RSpec OverlapsSpec Iterator IteratorSpec FpOps FloatSeries FloatSpec.
Local Open Scope R_scope.

(** [p] is a search over the windows of length [w] of [ts], with the distances computed from
    what is on record in [s], and with no flat window in its index. *)
Record search_over (z : zeros) (ts : list f64) (w : nat) (s : fseries) (p : problem) : Prop := {
  so_n : p_n p = (length ts - w)%nat;
  so_zeucl : forall i j, p_zeucl p i j = match fzeucl z s i j with Ret d => d | _ => f_nan end;
  so_threshold : forall i j t, p_zeucl_threshold p i j t = match fzeucl_threshold z s i j t with Ret o => o | _ => None end;
  so_lively : forall i, indexed p i -> lively s i
}.
(** What is on record is accurate for every window that is not flat. *)
Definition accurate (s : fseries) (n : nat) (e : Z) (eps : R) : Prop :=
  forall i, (i < n)%nat -> lively s i -> accurate_at s i e eps.
(** The distance of the definition, between two windows of a series. *)
Definition exact_distance (ts : list f64) (w i j : nat) : R := zdistance (exact_window ts w i) (exact_window ts w j).
(** The pair found by sampling comes with a number: its square is within [gap] of that of the
    exact distance.  It is an entry of a distance profile (timeseries.rs 259-269), not what
    the distance routine returns; see C120 for its error. *)
Definition seed_within (ts : list f64) (w : nat) (gap : R) (a b : nat) (d : f64) : Prop :=
  distance_value d /\ Rabs (fval d ^ 2 - exact_distance ts w a b ^ 2) <= gap.
(** The largest distance between two members of [l] is [e]. *)
Definition widest (D : nat -> nat -> R) (l : list nat) (e : R) : Prop :=
  (forall a b x y, (a < b)%nat -> nth_error l a = Some x -> nth_error l b = Some y -> D x y <= e) /\
  (exists a b x y, (a < b)%nat /\ nth_error l a = Some x /\ nth_error l b = Some y /\ e = D x y).
(** [l] has [k] members: starting from [from], always take a closest candidate away from
    those taken. *)
Definition greedy_exact (D : nat -> R) (cand : nat -> Prop) (ez k from : nat) (l : list nat) : Prop :=
  nth_error l 0 = Some from /\ length l = k /\
  forall q x, nth_error l (S q) = Some x ->
    cand x /\ (forall y, In y (firstn (S q) l) -> ~ too_close ez x y) /\
    forall z, cand z -> (forall y, In y (firstn (S q) l) -> ~ too_close ez z y) -> D x <= D z.
(** The distances from [from] of any two candidates away from it differ by more than [gap]. *)
Definition separated (D : nat -> R) (cand : nat -> Prop) (ez from : nat) (gap : R) : Prop :=
  forall x y, cand x -> cand y -> ~ too_close ez from x -> ~ too_close ez from y -> x <> y -> gap < Rabs (D x - D y).
