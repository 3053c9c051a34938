(** The width an index starts from: src/index.rs 425-471 with the environment variable
    ATTIMO_QUANTIZATION. *)
From Coq Require Import Floats.SpecFloat.
From Verif Require Import Base F64 Text Decimal FpOps FloatSeries FloatHash FloatWidth.

(** index.rs 433-438.  [given] is the value of the variable as character codes, [None] if it
    is not set or not unicode; [str::parse] is that of Decimal.v. *)
Definition fstart_width (given : option (list N)) (computed : res f64) : res f64 :=
  match given with
  | Some text => match parse_f64 text with Some x => Ret x | None => Panic end
  | None => computed
  end.
(** index.rs 425-471: the width of the index.  [v] is the vector sampled by [compute_width];
    with a given width the generator is not advanced, so that [shifts] and [vectors] are
    others in the two cases. *)
Definition findex_width (given : option (list N)) (z : zeros) (sort_all : list f64 -> list f64) (arrange : f64 -> list (N * N) -> list (N * N))
    (s : fseries) (sdp : list f64 -> nat -> f64) (ez : nat) (v : list f64) (shifts : f64 -> list f64) (vectors : list (list f64)) (fuel : nat) : res f64 :=
  let! width := fstart_width given (fcompute_width z sort_all s sdp v) in
  ffind_width z arrange s sdp ez shifts vectors width fuel.
