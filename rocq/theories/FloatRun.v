(** A whole search in floating point: what src/motiflets.rs 384-466 hands to the iterator,
    with the index of src/index.rs 425-520 and the distances of src/distance.rs, all computed
    with rounded operations. *)
From Coq Require Import Floats.SpecFloat.
From Verif Require Import Base F64 HashValue Enumerator Moves Profile Brute Iterator Powi FpOps FloatSeries FloatErf FloatColl FloatHash.

(** index.rs 493-499: the hash functions of repetition [r], all with the width of the index.
    [vectors r] and [shifts r] are what comes out of the random generator. *)
Definition fhashers (vectors : nat -> list (list f64)) (shifts : nat -> list f64) (width : f64) (r : nat) : fhasher :=
  FHasher (vectors r) (shifts r) width.
(** index.rs 499-510, the entries of repetition [r] when [k] functions are evaluated.  A panic
    is shown as an empty table; there is none for [k <= 8], see [c127_tables]. *)
Definition findex_table (z : zeros) (s : fseries) (sdp : list f64 -> nat -> f64) (arrange : nat -> nat -> list (N * N) -> list (N * N))
    (hs : nat -> fhasher) (r k : nat) : list N * list N :=
  match frepetition_table z (arrange r k) (hs r) s sdp k with Ret t => t | _ => ([], []) end.
(** index.rs 529-531 and 549-566: the probability is that of the first hash function. *)
Definition findex_failure (fexp : f64 -> f64) (hs : nat -> fhasher) (d : f64) (reps prefix : nat) (prev prev_reps : option nat) : f64 :=
  failure_f64 (fcollision_probability fexp (fh_width (hs 0)) d) reps prefix prev prev_reps.
(** motiflets.rs 384-466.  The configuration, the coins, the costs and the profile are those
    of [rest]; the rest of the search comes from the series.  [fexp] is the exponential
    function of the mathematical library. *)
Definition fsearch (z : zeros) (s : fseries) (sdp : list f64 -> nat -> f64) (fexp : f64 -> f64) (arrange : nat -> nat -> list (N * N) -> list (N * N))
    (hs : nat -> fhasher) (rest : problem) : problem := {|
  p_n := fnum_subsequences s;
  p_ez := p_ez rest; p_max_k := p_max_k rest; p_top_k := p_top_k rest;
  p_zeucl := fun i j => match fzeucl z s i j with Ret d => d | _ => f_nan end;
  p_zeucl_threshold := fun i j t => match fzeucl_threshold z s i j t with Ret o => o | _ => None end;
  p_table := findex_table z s sdp arrange hs;
  p_failure := findex_failure fexp hs;
  p_delta := p_delta rest; p_coin := p_coin rest; p_expected := p_expected rest;
  p_setup_cost := p_setup_cost rest; p_collision_cost := p_collision_cost rest; p_max_repetitions := p_max_repetitions rest;
  p_buffer := p_buffer rest; p_threshold := p_threshold rest; p_stop := p_stop rest; p_nan_first := p_nan_first rest |}.
