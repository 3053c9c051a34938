(** The quantisation width in floating point: src/index.rs 104-134, 169-216 and 444-471, with
    every operation rounded as the code rounds it.  Hashing.v is the same code over the
    reals. *)
From Coq Require Import Floats.SpecFloat.
From Verif Require Import Base F64 HashValue Enumerator Iterator FpOps FloatSeries FloatHash.

(** index.rs 104-134.  [Uniform::new(0, width)] of rand 0.8.5 panics unless [0 < width] and
    [width] is finite.  [shifts width] are the numbers that come out of the generator for
    that width; the vectors do not depend on it. *)
Definition fhasher_new (shifts : f64 -> list f64) (vectors : list (list f64)) (width : f64) : res fhasher :=
  assert_ (flt f_zero width) (assert_ (is_finite width) (Ret (FHasher vectors (shifts width) width))).

(** index.rs 192-199 *)
Fixpoint fdrop_infinite (l : list f64) : list f64 :=
  match l with
  | x :: l' => if is_infinite x then fdrop_infinite l' else l
  | [] => []
  end.
Definition fpop_infinite (l : list f64) : list f64 := rev (fdrop_infinite (rev l)).
(** [f64::max], of numbers *)
Definition f_max (a b : f64) : f64 := if flt a b then b else a.
(** index.rs 169-216, without the log messages.  [arrange] is the sort by [total_cmp]; the
    positions kept next to the products are not used. *)
Definition fcompute_width (z : zeros) (arrange : list f64 -> list f64) (s : fseries) (sdp : list f64 -> nat -> f64) (v : list f64) : res f64 :=
  let! dotps := fprojections z s sdp v in
  let dotps := fpop_infinite (arrange (map (fun x => if is_nan x then S754_infinity false else x) dotps)) in
  let! perc1 := get dotps (length dotps / 100) in
  let! perc99 := get dotps (99 * length dotps / 100) in
  Ret (fdiv (f_max (SFabs perc1) (SFabs perc99)) (f_of_nat 128)).

(** index.rs 444-471: the width is doubled until the first repetition has collisions at the
    longest prefix.  The generator is cloned in every round. *)
Definition ffind_width (z : zeros) (arrange : f64 -> list (N * N) -> list (N * N)) (s : fseries) (sdp : list f64 -> nat -> f64) (ez : nat)
    (shifts : f64 -> list f64) (vectors : list (list f64)) (width : f64) (fuel : nat) : res f64 :=
  loop fuel
    (fun width =>
       let! hs := fhasher_new shifts vectors width in
       let! '(hashes, indices) := frepetition_table z (arrange width) hs s sdp K in
       let! e := enum_new fuel hashes indices K None in
       let! c := estimate_num_collisions fuel ez e in
       if (0 <? c)%nat then Ret (inr width) else Ret (inl (fmul width f_two)))
    width.
