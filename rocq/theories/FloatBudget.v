(** The program of FloatMain.v and the Python class of FloatPython.v with the number of repetitions that fit in the memory computed
    as in the code, with machine words (Budget.v): src/index.rs 441-445 and 852-855, called
    from src/motiflets.rs 398-401 and 421.

    The simplifications are those of FloatMain.v, FloatPython.v and Budget.v. *)
From Coq Require Import Floats.SpecFloat.
From Verif Require Import Base F64 Overlaps Brute TopK Iterator Text Main Python Counts FpOps FloatSeries FloatHash FloatWidth FloatRun FloatBrute FloatSample FloatStart FloatMain FloatPython Budget.

(** index.rs 901-906: the statistics with the budget [m] *)
Definition with_budget (q : problem) (m : N) : problem := {|
  p_n := p_n q; p_ez := p_ez q; p_max_k := p_max_k q; p_top_k := p_top_k q;
  p_zeucl := p_zeucl q; p_zeucl_threshold := p_zeucl_threshold q; p_table := p_table q;
  p_failure := p_failure q; p_delta := p_delta q; p_coin := p_coin q;
  p_expected := p_expected q; p_setup_cost := p_setup_cost q; p_collision_cost := p_collision_cost q;
  p_max_repetitions := N.to_nat m; p_buffer := p_buffer q; p_threshold := p_threshold q;
  p_stop := p_stop q; p_nan_first := p_nan_first q |}.

(** index.rs 394: the repetitions of a new index *)
Definition initial_repetitions : N := 8.

(** main.rs 122-170 and motiflets.rs 409-421, as [find_motiflets] of Main.v *)
Definition find_motiflets64 (checks : bool) (o : options) (e : setting) (fuel : nat) : res (option (list contrasted)) :=
  if o_exact o then find_motiflets checks o e fuel
  else
    let! max_memory :=
      match o_max_memory o with
      | Some text => from_str checks text
      | None => Ret (Some (e_memory e / 2)%N)
      end in
    match max_memory with
    | None => Ret None
    | Some max_memory =>
        let p := with_arguments (e_index e max_memory) (o_support o) (o_topk o) (e_w e / 2) false in
        let! average := e_average e fuel in
        let! '(a, b, d) := e_seed e fuel in
        let! m := max_repetitions64 checks (N.of_nat (p_n p)) initial_repetitions max_memory fuel in
        let p := with_budget p m in
        let! s := iter_new p a b d in
        let! l := collect p s fuel in
        Ret (Some (map (fun m => contrasted_new (ml_indices m) (ml_extent m) average) l))
    end.

(** main.rs 76-183.  The repetitions kept in main memory are counted before the width is
    doubled, index.rs 441-445; here after that. *)
Definition fprogram64 (checks : bool) (show : f64 -> list N) (o : options) (w : nat) (precise : bool) (prefix : option nat)
    (n_w : world) (file : list N) (fuel : nat) : res (option (list N)) :=
  let! loaded := load_from (n_parse n_w) prefix file fuel in
  match loaded with
  | None => Ret None
  | Some ts =>
      let! s := fseries_new (n_zeros n_w) ts w precise in
      let! width := fprepare checks o n_w w s fuel in
      match width with
      | None => Ret None
      | Some width =>
          let! _ := if o_exact o then Ret 0%N
                    else max_repetitions_in_memory64 checks (N.of_nat (fnum_subsequences s)) (n_memory n_w) fuel in
          let! found := find_motiflets64 checks o (fsetting o n_w w s width) fuel in
          match found with
          | None => Ret None
          | Some motiflets => Ret (Some (output_csv show motiflets))
          end
      end
  end.

(** lib.rs 304-363, as in [fpy_new] of FloatPython.v, for a prepared series; the repetitions
    kept in main memory as above *)
Definition fpy_build64 (checks : bool) (a : arguments) (n_w : world) (s : fseries) (fuel : nat) : res pyobject :=
  let n := fnum_subsequences s in
  let zone := a_zone a in
  let! limit := flimit checks n (a_fraction_threshold a) in
  if a_brute_force_threshold a <? n then
    let! memory := fpy_memory checks a n_w in
    let! _ := ffft_new (length (fs_data s)) (a_w a) fuel in
    let! width := findex_width (n_given n_w) (n_zeros n_w) (n_sort_all n_w) (n_sort_trial n_w) s (n_sdp n_w) zone
                    (n_vector n_w) (fun width => n_shifts n_w width 0) (n_vectors n_w 0) fuel in
    let! _ := max_repetitions_in_memory64 checks (N.of_nat n) (n_memory n_w) fuel in
    let! average := faverage_pairwise_distance (n_average_samples n_w) (n_zeros n_w) s zone (n_pairs n_w) fuel in
    let! '(minimum, _, (x, y)) := fnearest_neighbor_distance_stats (n_nearest_samples n_w) (n_zeros n_w) s (n_sdp n_w) zone (n_draws n_w) fuel in
    let! m := max_repetitions64 checks (N.of_nat n) initial_repetitions memory fuel in
    let p := with_budget (fpy_search a n_w s width memory limit) m in
    let! i := iter_new p x y minimum in
    Ret (PyObject s p average (Enumerator i))
  else
    let! average := faverage_pairwise_distance (n_average_samples n_w) (n_zeros n_w) s zone (n_pairs n_w) fuel in
    let! _ := ffft_new (length (fs_data s)) (a_w a) fuel in
    let! motiflets := brute_force_motiflets (brute_series (n_zeros n_w) s (n_sdp n_w)) (n_order n_w) (a_support a) zone (n_split n_w) in
    Ret (PyObject s (fpy_search a n_w s f_zero 0 limit) average
           (BruteForce 0 (map (fun '(extent, indices) => KMotiflet (length indices) indices extent (SFdiv prec emax average extent)) motiflets))).
(** lib.rs 283-363.  The product in the assertion, line 300, is not limited to 64 bits here;
    see [fpy_new_words] in FloatAccept.v. *)
Definition fpy_new64 (checks : bool) (a : arguments) (n_w : world) (ts : list f64) (fuel : nat) : res pyobject :=
  let! s := fseries_new (n_zeros n_w) ts (a_w a) false in
  assert_ (a_support a * a_zone a <=? fnum_subsequences s) (fpy_build64 checks a n_w s fuel).
