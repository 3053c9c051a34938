(** Windowed time series in exact arithmetic: src/timeseries.rs 90-280, 600-740, and
    src/distance.rs.

    Numbers are reals: nothing here says anything about rounding.  [option R] is used where
    the code can produce NaN ([None]).  Division by zero is that of Coq's reals, where the
    code would get an infinity or NaN: the theorems exclude it. *)
From Coq Require Import Reals.
From Verif Require Import Base.
Local Open Scope R_scope.

(** [.iter().sum()] *)
Definition rsum (l : list R) : R := fold_left Rplus l 0.
(** [v[a..b]] *)
Definition slice (l : list R) (a b : nat) : res (list R) :=
  assert_ ((a <=? b)%nat && (b <=? length l)%nat) (Ret (firstn (b - a) (skipn a l))).
Definition gtb (a b : R) : bool := if Rlt_dec b a then true else false.
(** [x.powi(2)] *)
Definition sq (x : R) : R := x * x.

(** ** Rolling statistics *)

(** timeseries.rs 656-659 *)
Definition comp_d_squared (ts : list R) (w i : nat) : res R :=
  let! v := slice ts i (i + w) in
  let mean := rsum v / INR w in
  Ret (rsum (map (fun x => sq (x - mean)) v)).

(** timeseries.rs 653-708; the debug assertions are left out, and the values are always
    finite *)
Definition rolling_stat_part (ts : list R) (w : nat) (avg sd : list R) : res (list R * list R) :=
  let n_subs := (length ts - w)%nat in
  let! v := slice ts 0 w in
  let mean := rsum v / INR w in
  let d_squared := rsum (map (fun x => sq (x - mean)) v) in
  let! avg := put avg 0 mean in
  let! sd := put sd 0 (sqrt (d_squared / INR w)) in
  let! '(mean, d_squared, avg, sd) :=
    foreach (seq 1 (n_subs - 1))
      (fun i (s : R * R * list R * list R) =>
         let '(mean, d_squared, avg, sd) := s in
         let old_mean := mean in
         let! new := get ts (i + w - 1) in
         let! old := get ts (i - 1) in
         let mean := mean + (new - old) / INR w in
         let new_d_squared := d_squared + (new - old) * (new - mean + old - old_mean) in
         let! d_squared := (if gtb new_d_squared 0 then Ret new_d_squared else comp_d_squared ts w i) in
         let! avg := put avg i mean in
         let! sd := put sd i (sqrt (d_squared / INR w)) in
         Ret (mean, d_squared, avg, sd)) (mean, d_squared, avg, sd) in
  Ret (avg, sd).

(** timeseries.rs 617-647, for any chunk size.  The parts written by the calls are
    consecutive: here each call gets its own part, and they are put together at the end. *)
Definition rolling_stat_chunked (chunk_size : nat) (ts : list R) (w : nat) : res (list R * list R) :=
  let n_subs := (length ts - w)%nat in
  let chunks := (n_subs / chunk_size)%nat in
  let! '(avg, sd) :=
    foreach (seq 0 chunks)
      (fun i (s : list R * list R) =>
         let start := (i * chunk_size)%nat in
         let end_ := ((i + 1) * chunk_size)%nat in
         let! part := slice ts start (end_ + w) in
         let! '(a, b) := rolling_stat_part part w (repeat 0 chunk_size) (repeat 0 chunk_size) in
         Ret (fst s ++ a, snd s ++ b)) ([], []) in
  if (0 <? n_subs mod chunk_size)%nat then
    let start := (chunks * chunk_size)%nat in
    let! part := slice ts start (n_subs + w) in
    let! '(a, b) := rolling_stat_part part w (repeat 0 (n_subs - start)) (repeat 0 (n_subs - start)) in
    Ret (avg ++ a, sd ++ b)
  else Ret (avg, sd).
(** timeseries.rs 623 *)
Definition chunk_size : nat := N.to_nat 1000000.
Definition rolling_stat (ts : list R) (w : nat) : res (list R * list R) := rolling_stat_chunked chunk_size ts w.

(** timeseries.rs 719-739; the local buffer has no effect *)
Definition rolling_stat_slow (ts : list R) (w : nat) : res (list R * list R) :=
  foreach (seq 0 (length ts - w))
    (fun i (s : list R * list R) =>
       let! v := slice ts i (i + w) in
       let mean := rsum v / INR w in
       let sd := sqrt (rsum (map (fun x => sq (x - mean)) v) / INR w) in
       Ret (fst s ++ [mean], snd s ++ [sd])) ([], []).

(** ** Windowed time series *)
(** timeseries.rs 92-102 *)
Record series := Series { s_data : list R; s_w : nat; s_avg : list R; s_sd : list R }.

(** timeseries.rs 104-123 *)
Definition series_new (ts : list R) (w : nat) (precise : bool) : res series :=
  assert_ (w <=? length ts)%nat
    (let! '(avg, sd) := (if precise then rolling_stat_slow ts w else rolling_stat ts w) in
     Ret (Series ts w avg sd)).

(** timeseries.rs 152-154 *)
Definition subsequence (s : series) (i : nat) : res (list R) := slice (s_data s) i (i + s_w s).
(** timeseries.rs 167-173 *)
Definition mean (s : series) (i : nat) : res R := get (s_avg s) i.
Definition sd (s : series) (i : nat) : res R := get (s_sd s) i.
(** timeseries.rs 156-165; [output] has the right length *)
Definition znormalized (s : series) (i : nat) : res (list R) :=
  let! m := mean s i in
  let! sd := sd s i in
  let! v := subsequence s i in
  Ret (map (fun x => (x - m) / sd) v).
(** timeseries.rs 94-95, 175-177 *)
Definition flat_sd_threshold : R := / 10000.
Definition is_flat (s : series) (i : nat) : res bool :=
  let! x := sd s i in
  Ret (if Rle_dec x flat_sd_threshold then true else false).
(** timeseries.rs 179-184 *)
Definition count_flat (s : series) : nat :=
  length (filter (fun x => if Rle_dec x flat_sd_threshold then true else false) (s_sd s)).
(** timeseries.rs 196-198 *)
Definition num_subsequences (s : series) : nat := length (s_data s) - s_w s.
(** timeseries.rs 205-207 *)
Definition maximum_distance (s : series) : R := 2 * sqrt (INR (s_w s)).

(** ** Distances *)

(** [chunks_exact(k)] and its [remainder()] *)
Definition chunks_exact (k : nat) (l : list R) : list (list R) :=
  map (fun c => firstn k (skipn (c * k) l)) (seq 0 (length l / k)).
Definition remainder (k : nat) (l : list R) : list R := skipn (length l / k * k) l.
(** lane by lane operations on SIMD values *)
Definition lanes2 (f : R -> R -> R) (a b : list R) : list R := map (fun ab => f (fst ab) (snd ab)) (combine a b).
(** [.sum::<Simd<_, LANES>>().as_array().iter().sum()] *)
Definition simd_sum (k : nat) (l : list (list R)) : R := rsum (fold_left (lanes2 Rplus) l (repeat 0 k)).

(** distance.rs 158-177 *)
Definition dot (a b : list R) : R :=
  let rem := rsum (lanes2 Rmult (remainder 8 a) (remainder 8 b)) in
  let part := simd_sum 8 (map (fun ab => lanes2 Rmult (fst ab) (snd ab)) (combine (chunks_exact 8 a) (chunks_exact 8 b))) in
  part + rem.
(** distance.rs 179-181 *)
Definition norm (a : list R) : R := sqrt (dot a a).

(** distance.rs 127-155 *)
Definition zdot (a : list R) (ma sda : R) (b : list R) (mb sdb : R) : option R :=
  if Req_EM_T sda 0 then None
  else if Req_EM_T sdb 0 then None
  else
    let f x y := (x - ma) * (y - mb) in
    let rem := rsum (lanes2 f (remainder 4 a) (remainder 4 b)) in
    let part := simd_sum 4 (map (fun ab => lanes2 f (fst ab) (snd ab)) (combine (chunks_exact 4 a) (chunks_exact 4 b))) in
    Some ((part + rem) / (sda * sdb)).

(** distance.rs 60-71 *)
Definition zeucl_slow (s : series) (i j : nat) : res R :=
  let! mi := mean s i in
  let! mj := mean s j in
  let! si := sd s i in
  let! sj := sd s j in
  let! a := subsequence s i in
  let! b := subsequence s j in
  Ret (sqrt (fold_left (fun acc xy => let d := (fst xy - mi) / si - (snd xy - mj) / sj in acc + d * d) (combine a b) 0)).

(** [f64::sqrt]: NaN for negative numbers *)
Definition fsqrt (x : R) : option R := if Rlt_dec x 0 then None else Some (sqrt x).

(** distance.rs 23-58 *)
Definition zeucl (s : series) (i j : nat) : res R :=
  if (i =? j)%nat then Ret 0
  else
    let! a := subsequence s i in
    let! ma := mean s i in
    let! sa := sd s i in
    let! b := subsequence s j in
    let! mb := mean s j in
    let! sb := sd s j in
    match zdot a ma sa b mb sb with
    | None => Panic      (* the comparison is false and the square root is NaN *)
    | Some dotp =>
        if gtb dotp (INR (s_w s)) then zeucl_slow s i j
        else
          match fsqrt (2 * INR (s_w s) - 2 * dotp) with
          | None => Panic
          | Some d => Ret d
          end
    end.

(** A threshold: a number, or infinity ([None]). *)
Definition exceeds (x : R) (threshold : option R) : bool :=
  match threshold with Some t => gtb x t | None => false end.
(** distance.rs 76-114: the sum of the terms, given up as soon as it exceeds the threshold *)
Fixpoint accumulate (terms : list R) (threshold : option R) (s : R) : option R :=
  match terms with
  | [] => Some s
  | t :: l => let s := s + t in if exceeds s threshold then None else accumulate l threshold s
  end.
Definition zeucl_threshold (s : series) (i j : nat) (threshold : option R) : res (option R) :=
  let threshold := option_map (fun t => t * t) threshold in
  let! mi := mean s i in
  let! mj := mean s j in
  let! si := sd s i in
  let! sj := sd s j in
  let! a := subsequence s i in
  let! b := subsequence s j in
  let rem := lanes2 (fun x y => sq ((x - mi) / si - (y - mj) / sj)) (remainder 4 a) (remainder 4 b) in
  match accumulate rem threshold 0 with
  | None => Ret None
  | Some acc =>
      let off := mi * sj - mj * si in
      let terms := map (fun ab => rsum (lanes2 (fun x y => sq (x * sj - y * si - off)) (fst ab) (snd ab)) / (si * sj * si * sj))
                     (combine (chunks_exact 4 a) (chunks_exact 4 b)) in
      match accumulate terms threshold acc with
      | None => Ret None
      | Some acc => Ret (Some (sqrt acc))
      end
  end.

(** ** Polynomials, src/stats/evaluate.rs 14-25 *)
Definition polynomial (z : R) (coeff : list R) : R :=
  match rev coeff with
  | [] => 0
  | last :: rest => fold_left (fun sum c => c + z * sum) rest last
  end.
