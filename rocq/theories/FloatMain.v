(** The program from the text of its input file to the text of its output file, in floating
    point: src/main.rs 76-183 with src/load.rs 28-52, src/motiflets.rs 86-150 and 384-470 and
    src/index.rs 425-471.

    Main.v takes the prepared series, the index and the samples as given; here they are
    computed.  Left out as there: the parsing of the options, logging, timing, the memory
    monitor, and failures to read or write a file. *)
From Coq Require Import Floats.SpecFloat.
From Verif Require Import Base F64 Brute Iterator Text Main FpOps FloatSeries FloatHash FloatWidth FloatRun FloatBrute FloatSample FloatStart.

(** What the program takes from its libraries and from its surroundings. *)
Record world := World {
  (* [fast_float::parse_partial] *)
  n_parse : list N -> option (f64 * nat);
  (* the signs of empty sums in the vector code *)
  n_zeros : zeros;
  (* the sliding dot products, by Fourier transform *)
  n_sdp : list f64 -> nat -> f64;
  (* the exponential function *)
  n_exp : f64 -> f64;
  (* the unstable sorts: of the projections, of the pools while the width is searched for, of
     the pools of the index and of the windows by distance *)
  n_sort_all : list f64 -> list f64;
  n_sort_trial : f64 -> list (N * N) -> list (N * N);
  n_sort : nat -> nat -> list (N * N) -> list (N * N);
  n_order : nat -> option (list nat);
  (* how rayon shares out the windows *)
  n_split : split;
  (* the environment variable ATTIMO_QUANTIZATION *)
  n_given : option (list N);
  (* random numbers: the vector of [compute_width], the shifts for a width and the vectors of
     a repetition, pairs of windows and windows *)
  n_vector : list f64;
  n_shifts : f64 -> nat -> list f64;
  n_vectors : nat -> list (list f64);
  n_pairs : nat -> nat * nat;
  n_draws : nat -> nat;
  (* how many samples: 100000 and 1000 in the code, timeseries.rs 214 and 248 *)
  n_average_samples : nat;
  n_nearest_samples : nat;
  (* the failure probability, the coins, the costs and the profile for an amount of memory *)
  n_rest : N -> problem;
  (* the memory of the machine *)
  n_memory : N
}.

(** timeseries.rs 757-797: the loop over the chunks, without their contents.  The step of the
    loop is the length of a chunk minus that of a window. *)
Definition fft_length64 (n w : nat) : N :=
  N.min (N.max 16384 (2 ^ N.log2_up (N.of_nat w))) (2 ^ N.log2_up (N.of_nat n)).
Definition ffft_new (n w fuel : nat) : res unit :=
  loop fuel
    (fun begin =>
       if (begin <? N.of_nat n)%N then
         assert_ (N.of_nat w <=? fft_length64 n w)%N (Ret (inl (begin + (fft_length64 n w - N.of_nat w))%N))
       else Ret (inr tt)) 0%N.

(** motiflets.rs 384-466 and 86-150: the search, for an index of width [width]. *)
Definition fsetting (o : options) (n_w : world) (w : nat) (s : fseries) (width : f64) : setting := {|
  e_w := w;
  e_series := brute_series (n_zeros n_w) s (n_sdp n_w);
  e_order := n_order n_w;
  e_split := n_split n_w;
  e_index := fun memory =>
    fsearch (n_zeros n_w) s (n_sdp n_w) (n_exp n_w) (n_sort n_w) (fhashers (n_vectors n_w) (n_shifts n_w width) width) (n_rest n_w memory);
  e_seed := fun fuel =>
    let! '(minimum, _, (a, b)) := fnearest_neighbor_distance_stats (n_nearest_samples n_w) (n_zeros n_w) s (n_sdp n_w) (w / 2) (n_draws n_w) fuel in
    Ret (a, b, minimum);
  (* the exact search calls [FFTData::new] after this, main.rs 126-127 *)
  e_average := fun fuel =>
    let! average := faverage_pairwise_distance (n_average_samples n_w) (n_zeros n_w) s (w / 2) (n_pairs n_w) fuel in
    let! _ := if o_exact o then ffft_new (length (fs_data s)) w fuel else Ret tt in
    Ret average;
  e_memory := n_memory n_w |}.

(** main.rs 134-145 and motiflets.rs 394-401: before the samples are drawn.  [None] is an
    error: the memory size could not be read. *)
Definition fprepare (checks : bool) (o : options) (n_w : world) (w : nat) (s : fseries) (fuel : nat) : res (option f64) :=
  if o_exact o then Ret (Some f_zero) (* there is no index *)
  else
    let! max_memory :=
      match o_max_memory o with
      | Some text => from_str checks text
      | None => Ret (Some (n_memory n_w / 2)%N)
      end in
    match max_memory with
    | None => Ret None
    | Some _ =>
        let! _ := ffft_new (length (fs_data s)) w fuel in
        let! width := findex_width (n_given n_w) (n_zeros n_w) (n_sort_all n_w) (n_sort_trial n_w) s (n_sdp n_w) (w / 2)
                        (n_vector n_w) (fun width => n_shifts n_w width 0) (n_vectors n_w 0) fuel in
        Ret (Some width)
    end.

(** main.rs 76-183: the text of the output file, [None] after an error *)
Definition fprogram (checks : bool) (show : f64 -> list N) (o : options) (w : nat) (precise : bool) (prefix : option nat)
    (n_w : world) (file : list N) (fuel : nat) : res (option (list N)) :=
  let! loaded := load_from (n_parse n_w) prefix file fuel in
  match loaded with
  | None => Ret None
  | Some ts =>
      let! s := fseries_new (n_zeros n_w) ts w precise in
      let! width := fprepare checks o n_w w s fuel in
      match width with
      | None => Ret None
      | Some width => run checks show o (fsetting o n_w w s width) fuel
      end
  end.
