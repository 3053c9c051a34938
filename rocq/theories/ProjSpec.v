(** What the theorems on projections, hash values and distance profiles in floating point say. *)
From Coq Require Import Reals Floats.SpecFloat.
From Verif Require Import Base F64 RSpec HashSpec HashValue HashingSpec Iterator FpOps FloatSeries FloatSpec FloatHash.
Local Open Scope R_scope.

(** the projection of the z-normalised window at [i] on the vector [v] *)
Definition exact_projection (ts : list f64) (w : nat) (v : list f64) (i : nat) : R :=
  inner (map fval v) (znorm (exact_window ts w i)).
(** the sum of the absolute values *)
Definition magnitude (v : list f64) : R := total (map (fun x => Rabs (fval x)) v).
(** The value [x] stands for the dot product of [v] and the window at [i] and is within [err]
    of it. *)
Definition dot_within (ts : list f64) (w : nat) (v : list f64) (i : nat) (err : R) (x : f64) : Prop :=
  number x /\ Rabs (fval x - inner (map fval v) (exact_window ts w i)) <= err.
(** how far the computed projection can be from the exact one, if the statistics on record
    are within [eps] and the dot product within [err] *)
Definition slack (ts : list f64) (w : nat) (v : list f64) (i : nat) (eps err : R) : R :=
  2 * (err / sd_of (exact_window ts w i)) + eps * (4 * magnitude v + 2 * Rabs (exact_projection ts w v i)) + powerRZ 2 (-1050).

(** Eight vectors of moderate size as long as the windows, eight shifts, a positive width. *)
Definition fhasher_ok (hs : fhasher) (w : nat) : Prop :=
  length (fh_vectors hs) = 8%nat /\ (forall v, In v (fh_vectors hs) -> length v = w /\ moderate v) /\
  length (fh_shifts hs) = 8%nat /\ (forall x, In x (fh_shifts hs) -> number x /\ Rabs (fval x) <= 2 ^ 1000) /\
  number (fh_width hs) /\ 0 < fval (fh_width hs).
Definition vector (hs : fhasher) (k : nat) : list f64 := nth k (fh_vectors hs) [].
(** the exact number of buckets the projection on vector [k] is away from 0 *)
Definition exact_bucket (hs : fhasher) (ts : list f64) (w k i : nat) : R :=
  (exact_projection ts w (vector hs k) i + fval (nth k (fh_shifts hs) f_zero)) / fval (fh_width hs).
(** how many buckets off the computed one can be *)
Definition bucket_slack (hs : fhasher) (ts : list f64) (w k i : nat) (eps err : R) : R :=
  2 * (slack ts w (vector hs k) i eps err / fval (fh_width hs)) + Rabs (exact_bucket hs ts w k i) * powerRZ 2 (-51) + powerRZ 2 (-1075).
(** The standard deviation on record for window [i] is below the limit for flat windows. *)
Definition below_limit (s : fseries) (i : nat) : Prop :=
  exists sd, nth_error (fs_sd s) i = Some sd /\ fval sd < fval fflat_threshold.
(** The entry of window [i] in the table of hash values: its number, and a byte for each of
    the first [max_k] vectors, which is that of a number of buckets no more than the slack
    away from the exact one. *)
Definition frow_of (hs : fhasher) (ts : list f64) (w max_k i : nat) (eps err : R) (row : N * N) : Prop :=
  is_u64 (fst row) /\ snd row = (N.of_nat i mod 2 ^ 32)%N /\
  (forall k, (k < max_k)%nat -> exists z : R, byte_of z (byte_at (fst row) k) /\ Rabs (z - exact_bucket hs ts w k i) <= bucket_slack hs ts w k i eps err) /\
  (forall k, (max_k <= k)%nat -> (k < 8)%nat -> byte_at (fst row) k = 0%N).
