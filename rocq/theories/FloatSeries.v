(** The series and its distances in floating point: src/timeseries.rs 92-207, 617-739 and
    src/distance.rs 23-181, with every operation rounded as the code rounds it.  Series.v is
    the same code over the reals.

    [usize] sums are unbounded (no vector is long enough for them to wrap).  Debug
    assertions are left out, as in a release build.  [x.powi(2)] is [x * x]. *)
From Coq Require Import Floats.SpecFloat.
From Verif Require Import Base F64 Iterator FpOps.

(** The standard library starts a sum of [f64] from 0.0 or, in later releases, from -0.0,
    and the same holds for sums of SIMD vectors.  The theorems hold for both. *)
Record zeros := Zeros { z_scalar : bool; z_simd : bool }.

(** [.sum::<f64>()] *)
Definition fsum (z : zeros) (l : list f64) : f64 := fold_left fadd l (S754_zero (z_scalar z)).
(** [v[a..b]] *)
Definition cut {A} (l : list A) (a b : nat) : res (list A) :=
  assert_ ((a <=? b) && (b <=? length l)) (Ret (firstn (b - a) (skipn a l))).

(** ** Rolling statistics *)

(** timeseries.rs 658, 665: [v.iter().map(|x| (x - mean).powi(2)).sum::<f64>()] *)
Definition squares (z : zeros) (v : list f64) (mean : f64) : f64 :=
  fsum z (map (fun x => let d := fsub x mean in fmul d d) v).
(** timeseries.rs 656-659 *)
Definition fcomp_d_squared (z : zeros) (ts : list f64) (w i : nat) : res f64 :=
  let! v := cut ts i (i + w) in
  let mean := fdiv (fsum z v) (f_of_nat w) in
  Ret (squares z v mean).

(** timeseries.rs 653-708.  The first window is not checked, the others are. *)
Definition frolling_stat_part (z : zeros) (ts : list f64) (w : nat) (avg sd : list f64) : res (list f64 * list f64) :=
  let n_subs := length ts - w in
  let! v := cut ts 0 w in
  let mean := fdiv (fsum z v) (f_of_nat w) in
  let d_squared := squares z v mean in
  let! avg := put avg 0 mean in
  let! sd := put sd 0 (fsqrt64 (fdiv d_squared (f_of_nat w))) in
  let! '(mean, d_squared, avg, sd) :=
    foreach (seq 1 (n_subs - 1))
      (fun i (s : f64 * f64 * list f64 * list f64) =>
         let '(mean, d_squared, avg, sd) := s in
         let old_mean := mean in
         let! new := get ts (i + w - 1) in
         let! old := get ts (i - 1) in
         let mean := fadd mean (fdiv (fsub new old) (f_of_nat w)) in
         let new_d_squared :=
           fadd d_squared (fmul (fsub new old) (fsub (fadd (fsub new mean) old) old_mean)) in
         let! d_squared := (if flt f_zero new_d_squared then Ret new_d_squared else fcomp_d_squared z ts w i) in
         assert_ (is_finite mean)
           (let! avg := put avg i mean in
            let x := fsqrt64 (fdiv d_squared (f_of_nat w)) in
            assert_ (is_finite x)
              (let! sd := put sd i x in
               Ret (mean, d_squared, avg, sd)))) (mean, d_squared, avg, sd) in
  Ret (avg, sd).

(** timeseries.rs 617-647, for any chunk size.  The parts written by the calls are
    consecutive: here each call gets its own part, and they are put together at the end. *)
Definition frolling_stat_chunked (z : zeros) (chunk_size : nat) (ts : list f64) (w : nat) : res (list f64 * list f64) :=
  let n_subs := length ts - w in
  let chunks := n_subs / chunk_size in
  let! '(avg, sd) :=
    foreach (seq 0 chunks)
      (fun i (s : list f64 * list f64) =>
         let start := i * chunk_size in
         let end_ := (i + 1) * chunk_size in
         let! part := cut ts start (end_ + w) in
         let! '(a, b) := frolling_stat_part z part w (repeat f_zero chunk_size) (repeat f_zero chunk_size) in
         Ret (fst s ++ a, snd s ++ b)) ([], []) in
  if 0 <? n_subs mod chunk_size then
    let start := chunks * chunk_size in
    let! part := cut ts start (n_subs + w) in
    let! '(a, b) := frolling_stat_part z part w (repeat f_zero (n_subs - start)) (repeat f_zero (n_subs - start)) in
    Ret (avg ++ a, sd ++ b)
  else Ret (avg, sd).
(** timeseries.rs 623 *)
Definition fchunk_size : nat := N.to_nat 1000000.
Definition frolling_stat (z : zeros) (ts : list f64) (w : nat) : res (list f64 * list f64) :=
  frolling_stat_chunked z fchunk_size ts w.

(** timeseries.rs 719-739; the local buffer has no effect *)
Definition frolling_stat_slow (z : zeros) (ts : list f64) (w : nat) : res (list f64 * list f64) :=
  foreach (seq 0 (length ts - w))
    (fun i (s : list f64 * list f64) =>
       let! v := cut ts i (i + w) in
       let mean := fdiv (fsum z v) (f_of_nat w) in
       let sd := fsqrt64 (fdiv (squares z v mean) (f_of_nat w)) in
       assert_ (is_finite mean)
         (assert_ (is_finite sd)
            (Ret (fst s ++ [mean], snd s ++ [sd])))) ([], []).

(** ** Windowed time series *)
(** timeseries.rs 92-102 *)
Record fseries := FSeries { fs_data : list f64; fs_w : nat; fs_avg : list f64; fs_sd : list f64 }.

(** timeseries.rs 104-123 *)
Definition fseries_new (z : zeros) (ts : list f64) (w : nat) (precise : bool) : res fseries :=
  assert_ (w <=? length ts)
    (let! '(avg, sd) := (if precise then frolling_stat_slow z ts w else frolling_stat z ts w) in
     Ret (FSeries ts w avg sd)).

(** timeseries.rs 152-154 *)
Definition fsubsequence (s : fseries) (i : nat) : res (list f64) := cut (fs_data s) i (i + fs_w s).
(** timeseries.rs 167-173 *)
Definition fmean (s : fseries) (i : nat) : res f64 := get (fs_avg s) i.
Definition fsd (s : fseries) (i : nat) : res f64 := get (fs_sd s) i.
(** timeseries.rs 94-95, 175-177: the constant [0.0001], as the nearest [f64] *)
Definition fflat_threshold : f64 := S754_finite false 7378697629483821 (-66).
Definition fis_flat (s : fseries) (i : nat) : res bool :=
  let! x := fsd s i in Ret (fle x fflat_threshold).

(** ** Distances *)

(** [chunks_exact(k)] and its [remainder()] *)
Definition whole_chunks {A} (k : nat) (l : list A) : list (list A) :=
  map (fun c => firstn k (skipn (c * k) l)) (seq 0 (length l / k)).
Definition rest {A} (k : nat) (l : list A) : list A := skipn (length l / k * k) l.
(** lane by lane operations on SIMD values, and [zip] followed by [map] *)
Definition zip_with {A B} (f : A -> A -> B) (a b : list A) : list B := map (fun ab => f (fst ab) (snd ab)) (combine a b).
(** [.sum::<Simd<f64, k>>()] *)
Definition fsimd_sum (z : zeros) (k : nat) (l : list (list f64)) : list f64 :=
  fold_left (zip_with fadd) l (repeat (S754_zero (z_simd z)) k).

(** distance.rs 158-177 *)
Definition fdot (z : zeros) (a b : list f64) : f64 :=
  let rem := fsum z (zip_with fmul (rest 8 a) (rest 8 b)) in
  let part := fsum z (fsimd_sum z 8 (zip_with (zip_with fmul) (whole_chunks 8 a) (whole_chunks 8 b))) in
  fadd part rem.
(** distance.rs 179-181 *)
Definition fnorm (z : zeros) (a : list f64) : f64 := fsqrt64 (fdot z a a).

(** distance.rs 127-155 *)
Definition fzdot (z : zeros) (a : list f64) (ma sda : f64) (b : list f64) (mb sdb : f64) : f64 :=
  if feq sda f_zero || feq sdb f_zero then f_nan
  else
    let f x y := fmul (fsub x ma) (fsub y mb) in
    let rem := fsum z (zip_with f (rest 4 a) (rest 4 b)) in
    let part := fsum z (fsimd_sum z 4 (zip_with (zip_with f) (whole_chunks 4 a) (whole_chunks 4 b))) in
    fdiv (fadd part rem) (fmul sda sdb).

(** distance.rs 60-71 *)
Definition fzeucl_slow (s : fseries) (i j : nat) : res f64 :=
  let! mi := fmean s i in
  let! mj := fmean s j in
  let! si := fsd s i in
  let! sj := fsd s j in
  let! a := fsubsequence s i in
  let! b := fsubsequence s j in
  Ret (fsqrt64
         (fold_left
            (fun acc xy =>
               let d := fsub (fdiv (fsub (fst xy) mi) si) (fdiv (fsub (snd xy) mj) sj) in
               fadd acc (fmul d d)) (combine a b) f_zero)).

(** the constant [2.0] *)
Definition f_two : f64 := S754_finite false 4503599627370496 (-51).

(** distance.rs 23-58 *)
Definition fzeucl (z : zeros) (s : fseries) (i j : nat) : res f64 :=
  if i =? j then Ret f_zero
  else
    let! a := fsubsequence s i in
    let! ma := fmean s i in
    let! sa := fsd s i in
    let! b := fsubsequence s j in
    let! mb := fmean s j in
    let! sb := fsd s j in
    let dotp := fzdot z a ma sa b mb sb in
    let! d := (if flt (f_of_nat (fs_w s)) dotp then fzeucl_slow s i j
               else Ret (fsqrt64 (fsub (fmul f_two (f_of_nat (fs_w s))) (fmul f_two dotp)))) in
    assert_ (negb (is_nan d)) (Ret d).

(** distance.rs 90-96 and 99-111: add the terms one by one, and give up as soon as the sum
    exceeds the threshold *)
Fixpoint faccumulate (terms : list f64) (threshold : f64) (s : f64) : option f64 :=
  match terms with
  | [] => Some s
  | t :: l => let s := fadd s t in if flt threshold s then None else faccumulate l threshold s
  end.
(** distance.rs 91-92 *)
Definition fterm (mi si mj sj x y : f64) : f64 :=
  let d := fsub (fdiv (fsub x mi) si) (fdiv (fsub y mj) sj) in fmul d d.
(** distance.rs 99-107 *)
Definition fchunk_term (z : zeros) (mi si mj sj : f64) (x y : list f64) : f64 :=
  let off := fsub (fmul mi sj) (fmul mj si) in
  let d := zip_with (fun x y => fsub (fsub (fmul x sj) (fmul y si)) off) x y in
  let d := map (fun d => fmul d d) d in
  fdiv (fsum z d) (fmul (fmul (fmul si sj) si) sj).
(** distance.rs 76-114 *)
Definition fzeucl_threshold (z : zeros) (s : fseries) (i j : nat) (threshold : f64) : res (option f64) :=
  let threshold := fmul threshold threshold in
  let! mi := fmean s i in
  let! mj := fmean s j in
  let! si := fsd s i in
  let! sj := fsd s j in
  let! a := fsubsequence s i in
  let! b := fsubsequence s j in
  match faccumulate (zip_with (fterm mi si mj sj) (rest 4 a) (rest 4 b)) threshold f_zero with
  | None => Ret None
  | Some acc =>
      match faccumulate (zip_with (fchunk_term z mi si mj sj) (whole_chunks 4 a) (whole_chunks 4 b)) threshold acc with
      | None => Ret None
      | Some acc => Ret (Some (fsqrt64 acc))
      end
  end.
