(** The Python classes on a list of numbers, in floating point: pyattimo/src/lib.rs 79-88 and
    221-431 with src/motiflets.rs 384-470.

    Python.v takes the prepared series, the index and the samples as given; here they are
    computed.  Left out as there: the conversions of pyo3, signal handling, the plots and the
    observability file. *)
From Coq Require Import Floats.SpecFloat.
From Verif Require Import Base F64 Overlaps Brute TopK Iterator Text Main Python Counts FpOps FloatSeries FloatHash FloatWidth FloatRun FloatBrute FloatSample FloatStart FloatMain.

(** lib.rs 279-296, without the series.  [delta] and [seed] are part of the [world]: the
    failure probability and the random numbers. *)
Record arguments := Arguments {
  a_w : nat; a_support : nat; a_top_k : nat;
  a_max_memory : option (list N); a_exclusion_zone : option nat; a_brute_force_threshold : nat;
  a_fraction_threshold : f64; a_stop_on_threshold : bool }.
(** lib.rs 298: half a window is not the default here, a whole one is *)
Definition a_zone (a : arguments) : nat := match a_exclusion_zone a with Some zone => zone | None => a_w a end.

(** lib.rs 317 and 335, as [python_limit] in Counts.v *)
Definition flimit (checks : bool) (n : nat) (fraction : f64) : res N :=
  let! m := usize_sub checks (N.of_nat n) 1 in
  let! p := usize_mul checks (N.of_nat n) m in
  Ret (as_usize (fmul (f_of_N (p / 2)) fraction)).
(** lib.rs 335-336: [set_collision_threshold] and [set_stop_on_collisions_threshold] *)
Definition with_limit (q : problem) (limit : N) (stop : bool) : problem := {|
  p_n := p_n q; p_ez := p_ez q; p_max_k := p_max_k q; p_top_k := p_top_k q;
  p_zeucl := p_zeucl q; p_zeucl_threshold := p_zeucl_threshold q; p_table := p_table q;
  p_failure := p_failure q; p_delta := p_delta q; p_coin := p_coin q;
  p_expected := p_expected q; p_setup_cost := p_setup_cost q; p_collision_cost := p_collision_cost q;
  p_max_repetitions := p_max_repetitions q; p_buffer := p_buffer q; p_threshold := N.to_nat limit;
  p_stop := stop; p_nan_first := p_nan_first q |}.

(** motiflets.rs 384-466 as called from lib.rs 325-336, for an index of width [width] *)
Definition fpy_rest (a : arguments) (n_w : world) (memory limit : N) : problem :=
  with_limit (with_arguments (n_rest n_w memory) (a_support a) (a_top_k a) (a_zone a) false) limit (a_stop_on_threshold a).
Definition fpy_search (a : arguments) (n_w : world) (s : fseries) (width : f64) (memory limit : N) : problem :=
  fsearch (n_zeros n_w) s (n_sdp n_w) (n_exp n_w) (n_sort n_w) (fhashers (n_vectors n_w) (n_shifts n_w width) width) (fpy_rest a n_w memory limit).

(** lib.rs 260-275.  [o_problem] is used by the search only. *)
Record pyobject := PyObject { o_series : fseries; o_problem : problem; o_average : f64; o_iter : pyiter }.

(** lib.rs 319-324: [expect] *)
Definition fpy_memory (checks : bool) (a : arguments) (n_w : world) : res N :=
  match a_max_memory a with
  | Some text => let! size := from_str checks text in match size with Some size => Ret size | None => Panic end
  | None => Ret (n_memory n_w / 2)%N
  end.
(** lib.rs 283-363; [brute_force_motiflets] as in release mode, motiflets.rs 93-94.  The product in the assertion, line 300, is not limited to 64 bits here. *)
Definition fpy_new (checks : bool) (a : arguments) (n_w : world) (ts : list f64) (fuel : nat) : res pyobject :=
  let! s := fseries_new (n_zeros n_w) ts (a_w a) false in
  let n := fnum_subsequences s in
  let zone := a_zone a in
  assert_ (a_support a * zone <=? n)
    (let! limit := flimit checks n (a_fraction_threshold a) in
     if a_brute_force_threshold a <? n then
       let! memory := fpy_memory checks a n_w in
       let! _ := ffft_new (length (fs_data s)) (a_w a) fuel in
       let! width := findex_width (n_given n_w) (n_zeros n_w) (n_sort_all n_w) (n_sort_trial n_w) s (n_sdp n_w) zone
                       (n_vector n_w) (fun width => n_shifts n_w width 0) (n_vectors n_w 0) fuel in
       let! average := faverage_pairwise_distance (n_average_samples n_w) (n_zeros n_w) s zone (n_pairs n_w) fuel in
       let! '(minimum, _, (x, y)) := fnearest_neighbor_distance_stats (n_nearest_samples n_w) (n_zeros n_w) s (n_sdp n_w) zone (n_draws n_w) fuel in
       let p := fpy_search a n_w s width memory limit in
       let! i := iter_new p x y minimum in
       Ret (PyObject s p average (Enumerator i))
     else
       let! average := faverage_pairwise_distance (n_average_samples n_w) (n_zeros n_w) s zone (n_pairs n_w) fuel in
       (* motiflets.rs 96; the average is computed again on line 99, with the same numbers *)
       let! _ := ffft_new (length (fs_data s)) (a_w a) fuel in
       let! motiflets := brute_force_motiflets (brute_series (n_zeros n_w) s (n_sdp n_w)) (n_order n_w) (a_support a) zone (n_split n_w) in
       Ret (PyObject s (fpy_search a n_w s f_zero 0 limit) average
              (BruteForce 0 (map (fun '(extent, indices) => KMotiflet (length indices) indices extent (SFdiv prec emax average extent)) motiflets)))).
(** a sequence of calls of [__next__], lib.rs 369-400 *)
Definition fpy_calls (y : pyobject) (cbs : list (nat -> bool)) (fuel : nat) : res (pyiter * list (pyanswer kmotiflet)) :=
  py_calls (py_next (o_problem y) (o_average y)) cbs (o_iter y) fuel.

(** the same for [MotifsIterator], lib.rs 221-248, which has [support = 2] *)
Definition fpy_motif_calls (y : pyobject) (cbs : list (nat -> bool)) (fuel : nat) : res (pyiter * list (pyanswer pymotif)) :=
  py_calls (py_next_motif (o_problem y) (o_average y)) cbs (o_iter y) fuel.

(** lib.rs 402-431, in release mode as above.  Half a window is the default here. *)
Definition fmotiflet_brute_force (n_w : world) (ts : list f64) (w support : nat) (exclusion_zone : option nat) (fuel : nat) : res (list kmotiflet) :=
  let! s := fseries_new (n_zeros n_w) ts w false in
  let zone := match exclusion_zone with Some zone => zone | None => w / 2 end in
  assert_ (support * zone <=? fnum_subsequences s)
    (let! average := faverage_pairwise_distance (n_average_samples n_w) (n_zeros n_w) s zone (n_pairs n_w) fuel in
     let! _ := ffft_new (length (fs_data s)) w fuel in
     let! motiflets := brute_force_motiflets (brute_series (n_zeros n_w) s (n_sdp n_w)) (n_order n_w) support zone (n_split n_w) in
     Ret (map (fun '(extent, indices) => KMotiflet (length indices) indices extent (SFdiv prec emax average extent)) motiflets)).

(** lib.rs 79-81 *)
Definition fvalues (s : fseries) (m : kmotiflet) (i : nat) : res (list f64) :=
  let! p := get (km_indices m) i in fsubsequence s p.
(** lib.rs 83-87 *)
Definition fzvalues (s : fseries) (m : kmotiflet) (i : nat) : res (list f64) :=
  let! p := get (km_indices m) i in fznormalized s p.
