(** The brute-force searches over a series of floating point numbers: Brute.v applied to what
    FloatSeries.v and FloatHash.v compute (src/timeseries.rs 157-207, 463-505, 523-599,
    src/distance.rs 23-58). *)
From Coq Require Import Floats.SpecFloat.
From Verif Require Import Base F64 Iterator Brute FpOps FloatSeries FloatHash.

(** timeseries.rs 536-538 and 584-588: the distance of window [i] in the profile of [from].
    NaN stands for an abort, which the search passes on in either case. *)
Definition brute_raw (z : zeros) (s : fseries) (sdp : list f64 -> nat -> f64) (from i : nat) : f64 :=
  match
    (let! buf := fznormalized s from in
     let! x := fznormalized_value s (fsum z buf) i (sdp buf i) in
     Ret (fsqrt64 (fsub (fmul f_two (f_of_nat (fs_w s))) (fmul f_two x))))
  with Ret d => d | _ => f_nan end.

(** what the searches use of the series (motiflets.rs 24-150, motifs.rs 84-152, knn.rs 70-94);
    [sdp] is the sliding dot product, as in FloatHash.v *)
Definition brute_series (z : zeros) (s : fseries) (sdp : list f64 -> nat -> f64) : series :=
  Series (fnum_subsequences s)
    (fun i => match fis_flat s i with Ret b => b | _ => false end)
    (brute_raw z s sdp)
    (fun i j => match fzeucl z s i j with Ret d => d | _ => f_nan end).
