(** What the theorems on floating point say of values: see FpOps.v for [is_f64], [number]
    and [fval]. *)
From Coq Require Import Reals Floats.SpecFloat.
From Verif Require Import Base F64 RSpec Iterator FpOps FloatSeries.
Local Open Scope R_scope.

(** Data of moderate size: finite, and at most [2^200] (about 10^60) in absolute value. *)
Definition moderate (ts : list f64) : Prop :=
  forall x, In x ts -> number x /\ Rabs (fval x) <= 2 ^ 200.
(** A window length the constructor can use, of at most [2^52] values. *)
Definition usable (ts : list f64) (w : nat) : Prop :=
  (1 <= w <= length ts)%nat /\ (Z.of_nat w <= 2 ^ 52)%Z.

(** [d] is a finite distance. *)
Definition distance_value (d : f64) : Prop := number d /\ 0 <= fval d.
(** Every entry of a series is an [f64]. *)
Definition holds_f64 (s : fseries) : Prop :=
  (forall x, In x (fs_data s) -> is_f64 x) /\ (forall x, In x (fs_avg s) -> is_f64 x) /\ (forall x, In x (fs_sd s) -> is_f64 x).
(** Position [i] has a window, with recorded mean [m], recorded standard deviation [sd] and
    values [a]. *)
Definition window_at (s : fseries) (i : nat) (m sd : f64) (a : list f64) : Prop :=
  nth_error (fs_avg s) i = Some m /\ nth_error (fs_sd s) i = Some sd /\
  (i + fs_w s <= length (fs_data s))%nat /\ a = firstn (fs_w s) (skipn i (fs_data s)).
(** The window at [i] is not flat: its recorded standard deviation is above the threshold. *)
Definition lively (s : fseries) (i : nat) : Prop := fis_flat s i = Ret false.
(** The windows at [i] and [j] hold the same values. *)
Definition copies (ts : list f64) (w i j : nat) : Prop :=
  forall k, (k < w)%nat -> nth_error ts (i + k) = nth_error ts (j + k).
(** The numbers in [l] are finite and at most [2^e] in absolute value. *)
Definition at_most (e : Z) (l : list f64) : Prop :=
  forall x, In x l -> number x /\ Rabs (fval x) <= powerRZ 2 e.
(** The values of the window at [i], as real numbers. *)
Definition exact_window (ts : list f64) (w i : nat) : list R := map fval (firstn w (skipn i ts)).
(** The mean and standard deviation on record for the window at [i] are within [eps] of
    its standard deviation, and so is what can be said of its values, at most [2^e], with
    53 bits. *)
Definition accurate_at (s : fseries) (i : nat) (e : Z) (eps : R) : Prop :=
  exists m sd : f64, nth_error (fs_avg s) i = Some m /\ nth_error (fs_sd s) i = Some sd /\
    Rabs (fval m - mean_of (exact_window (fs_data s) (fs_w s) i)) <= eps * sd_of (exact_window (fs_data s) (fs_w s) i) /\
    Rabs (fval sd - sd_of (exact_window (fs_data s) (fs_w s) i)) <= eps * sd_of (exact_window (fs_data s) (fs_w s) i) /\
    at_most e (firstn (fs_w s) (skipn i (fs_data s))) /\
    (INR (fs_w s) + 16) * powerRZ 2 (-53) * powerRZ 2 e <= eps * sd_of (exact_window (fs_data s) (fs_w s) i).
