(** The Python constructors with the product in their assertion computed with a machine word:
    pyattimo/src/lib.rs 297-303 and 412-418.

    The simplifications are those of FloatBudget.v. *)
From Coq Require Import Floats.SpecFloat.
From Verif Require Import Base F64 Overlaps Brute TopK Iterator Text Main Python Counts FpOps FloatSeries FloatHash FloatWidth FloatRun FloatBrute FloatSample FloatStart FloatMain FloatPython Budget FloatBudget.

(** lib.rs 299-303: [support * exclusion_zone <= num_subsequences], then [k] *)
Definition accept {A} (checks : bool) (support zone n : nat) (k : res A) : res A :=
  let! p := usize_mul checks (N.of_nat support) (N.of_nat zone) in
  assert_ (p <=? N.of_nat n)%N k.

(** lib.rs 283-363 *)
Definition fpy_new_words (checks : bool) (a : arguments) (n_w : world) (ts : list f64) (fuel : nat) : res pyobject :=
  let! s := fseries_new (n_zeros n_w) ts (a_w a) false in
  accept checks (a_support a) (a_zone a) (fnum_subsequences s) (fpy_build64 checks a n_w s fuel).

(** lib.rs 405-431, as [fmotiflet_brute_force] of FloatPython.v *)
Definition fmotiflet_brute_force_words (checks : bool) (n_w : world) (ts : list f64) (w support : nat) (exclusion_zone : option nat) (fuel : nat) : res (list kmotiflet) :=
  let! s := fseries_new (n_zeros n_w) ts w false in
  let zone := match exclusion_zone with Some zone => zone | None => w / 2 end in
  accept checks support zone (fnum_subsequences s)
    (let! average := faverage_pairwise_distance (n_average_samples n_w) (n_zeros n_w) s zone (n_pairs n_w) fuel in
     let! _ := ffft_new (length (fs_data s)) w fuel in
     let! motiflets := brute_force_motiflets (brute_series (n_zeros n_w) s (n_sdp n_w)) (n_order n_w) support zone (n_split n_w) in
     Ret (map (fun '(extent, indices) => KMotiflet (length indices) indices extent (SFdiv prec emax average extent)) motiflets)).
