(** Projections, distance profiles and hash values in floating point: src/timeseries.rs
    157-165, 463-505, 523-599 and src/index.rs 221-254, with every operation rounded as the
    code rounds it.  FFT.v and Hashing.v are the same code over the reals.

    The sliding dot product goes through the FFT library, whose roundings are not known:
    [sdp v i] is what it gives for the vector [v] and the window at [i].  Here each window
    is handed over once and in order (C49).  Debug assertions are left out, as in a release
    build. *)
From Coq Require Import Floats.SpecFloat.
From Verif Require Import Base F64 HashValue FFT Iterator FpOps FloatSeries Quantise.

(** timeseries.rs 196-198 *)
Definition fnum_subsequences (s : fseries) : nat := length (fs_data s) - fs_w s.
(** timeseries.rs 157-165 *)
Definition fznormalized (s : fseries) (i : nat) : res (list f64) :=
  let! m := fmean s i in
  let! sd := fsd s i in
  let! a := fsubsequence s i in
  Ret (map (fun x => fdiv (fsub x m) sd) a).
(** timeseries.rs 471-479 and 495-503: what is handed over instead of the dot product [x] *)
Definition fznormalized_value (s : fseries) (sumv : f64) (i : nat) (x : f64) : res f64 :=
  let! sd := fsd s i in
  if flt sd fflat_threshold then Ret f_nan
  else
    let! m := fmean s i in
    assert_ (flt f_zero sd) (Ret (fsub (fdiv x sd) (fdiv (fmul sumv m) sd))).
(** timeseries.rs 463-482: the values for all windows *)
Definition fprojections (z : zeros) (s : fseries) (sdp : list f64 -> nat -> f64) (v : list f64) : res (list f64) :=
  assert_ (length v =? fs_w s)
    (let sumv := fsum z v in
     mapM (fun i => fznormalized_value s sumv i (sdp v i)) (seq 0 (fnum_subsequences s))).
(** timeseries.rs 523-599; the two buffers are local here *)
Definition fdistance_profile (z : zeros) (s : fseries) (sdp : list f64 -> nat -> f64) (from : nat) : res (list f64) :=
  let! buf := fznormalized s from in
  let! out := fprojections z s sdp buf in
  mapM (fun ix : nat * f64 =>
    let '(i, x) := ix in
    if i =? from then Ret f_zero
    else
      let! flat := fis_flat s i in
      if flat then Ret f_nan
      else
        let d := fsqrt64 (fsub (fmul f_two (f_of_nat (fs_w s))) (fmul f_two x)) in
        assert_ (negb (is_nan d)) (Ret d)) (combine (seq 0 (fnum_subsequences s)) out).

(** index.rs 96-101 *)
Record fhasher := FHasher { fh_vectors : list (list f64); fh_shifts : list f64; fh_width : f64 }.
(** index.rs 221-254 *)
Definition fhash (z : zeros) (hs : fhasher) (s : fseries) (sdp : list f64 -> nat -> f64) (max_k : nat) : res (list (N * N)) :=
  foreach (seq 0 max_k)
    (fun k out =>
       let! v := get (fh_vectors hs) k in
       let! shift := get (fh_shifts hs) k in
       let! values := fprojections z s sdp v in
       mapM (fun ixo : nat * (f64 * (N * N)) =>
         let '(i, (x, o)) := ixo in
         if is_nan x then Ret (u64_max, u32_max)
         else
           let! h := set_byte (fst o) k (quantise_f64 shift (fh_width hs) x) in
           Ret (h, (N.of_nat i mod 2 ^ 32)%N)) (combine (seq 0 (fnum_subsequences s)) (combine values out)))
    (repeat (0, 0)%N (fnum_subsequences s)).

(** index.rs 495-510, 275-278: one repetition.  [arrange] is the sort by hash value, which
    is not stable.  Where the two columns are kept is in Disk.v. *)
Definition frepetition_table (z : zeros) (arrange : list (N * N) -> list (N * N)) (hs : fhasher) (s : fseries)
    (sdp : list f64 -> nat -> f64) (max_k : nat) : res (list N * list N) :=
  let! l := fhash z hs s sdp max_k in
  Ret (map fst (arrange l), map snd (arrange l)).
