(** The error function and the collision probability in floating point: src/stats/erf.rs,
    src/stats/evaluate.rs, src/stats/mod.rs and src/index.rs 146-155, with every operation
    rounded as the code rounds it.  Erf.v is the same code over the reals; the coefficients
    are taken from there.

    The exponential function of the system library, [f64::exp], is the parameter [fexp]. *)
From Coq Require Import QArith Floats.SpecFloat.
From Verif Require Import Base F64 Iterator FpOps Erf.

(** A decimal literal: the [f64] nearest to it, by division with a single rounding.  The
    two operands need not be [f64] values. *)
Definition lit (q : Q) : f64 :=
  match Qnum q with
  | Z0 => S754_zero false
  | Zpos n => SFdiv prec emax (S754_finite false n 0) (S754_finite false (Qden q) 0)
  | Zneg n => SFdiv prec emax (S754_finite true n 0) (S754_finite false (Qden q) 0)
  end.

(** evaluate.rs 14-24 *)
Definition fpolynomial (z : f64) (coeff : list f64) : f64 :=
  match rev coeff with
  | [] => S754_zero false
  | last :: rest => fold_left (fun sum c => fadd c (fmul z sum)) rest last
  end.
Definition fpoly (z : f64) (coeff : list Q) : f64 := fpolynomial z (map lit coeff).

(** one branch of erf.rs 591-669: the polynomials are evaluated at [z - start] *)
Definition fbranch (z : f64) (start : Q) (num den : list Q) (b : Q) : f64 * f64 :=
  (fdiv (fpoly (fsub z (lit start)) num) (fpoly (fsub z (lit start)) den), lit b).
(** erf.rs 591-669: the pair [(r, b)] *)
Definition ferf_branches (z : f64) : f64 * f64 :=
  if flt z (lit 0.75) then fbranch z 0.5 ERF_IMPL_BN ERF_IMPL_BD 0.3440242112 else
  if flt z (lit 1.25) then fbranch z 0.75 ERF_IMPL_CN ERF_IMPL_CD 0.419990927 else
  if flt z (lit 2.25) then fbranch z 1.25 ERF_IMPL_DN ERF_IMPL_DD 0.4898625016 else
  if flt z (lit 3.5) then fbranch z 2.25 ERF_IMPL_EN ERF_IMPL_ED 0.5317370892 else
  if flt z (lit 5.25) then fbranch z 3.5 ERF_IMPL_FN ERF_IMPL_FD 0.5489973426 else
  if flt z (lit 8) then fbranch z 5.25 ERF_IMPL_GN ERF_IMPL_GD 0.5571740866 else
  if flt z (lit 11.5) then fbranch z 8 ERF_IMPL_HN ERF_IMPL_HD 0.5609807968 else
  if flt z (lit 17) then fbranch z 11.5 ERF_IMPL_IN ERF_IMPL_ID 0.5626493692 else
  if flt z (lit 24) then fbranch z 17 ERF_IMPL_JN ERF_IMPL_JD 0.5634598136 else
  if flt z (lit 38) then fbranch z 24 ERF_IMPL_KN ERF_IMPL_KD 0.5638477802 else
  if flt z (lit 60) then fbranch z 38 ERF_IMPL_LN ERF_IMPL_LD 0.5640528202 else
  if flt z (lit 85) then fbranch z 60 ERF_IMPL_MN ERF_IMPL_MD 0.5641309023 else
  fbranch z 85 ERF_IMPL_NN ERF_IMPL_ND 0.5641584396.
(** erf.rs 583-674: [result] for [z] not below 0 *)
Definition ferf_result (fexp : f64 -> f64) (z : f64) : f64 :=
  if flt z (lit 0.5) then
    if flt z (lit 1e-10) then fadd (fmul z (lit 1.125)) (fmul z (lit 0.003379167095512573896158903121545171688))
    else fadd (fmul z (lit 1.125)) (fdiv (fmul z (fpoly z ERF_IMPL_AN)) (fpoly z ERF_IMPL_AD))
  else if flt z (lit 110) then
    let '(r, b) := ferf_branches z in
    let g := fdiv (fexp (fmul (SFopp z) z)) z in
    fadd (fmul g b) (fmul g r)
  else S754_zero false.
(** erf.rs 676-682, and the whole function for [z] not below 0 *)
Definition ferf_impl_nonneg (fexp : f64 -> f64) (z : f64) (inv : bool) : f64 :=
  if (inv && fle (lit 0.5) z)%bool then ferf_result fexp z
  else if (fle (lit 0.5) z || inv)%bool then fsub (lit 1) (ferf_result fexp z)
  else ferf_result fexp z.
(** erf.rs 572-683; the recursive calls are on a positive argument *)
Definition ferf_impl (fexp : f64 -> f64) (z : f64) (inv : bool) : f64 :=
  if flt z (S754_zero false) then
    if inv then
      if flt z (SFopp (lit 0.5)) then fsub (lit 2) (ferf_impl_nonneg fexp (SFopp z) true)
      else fadd (lit 1) (ferf_impl_nonneg fexp (SFopp z) false)
    else SFopp (ferf_impl_nonneg fexp (SFopp z) false)
  else ferf_impl_nonneg fexp z inv.
(** erf.rs 40-50 *)
Definition ferfc (fexp : f64 -> f64) (x : f64) : f64 :=
  match x with
  | S754_nan => S754_nan
  | S754_infinity false => S754_zero false
  | S754_infinity true => lit 2
  | _ => ferf_impl fexp x true
  end.
(** stats/mod.rs 48-50; [std::f64::consts::SQRT_2] *)
Definition fcdf_unchecked (fexp : f64 -> f64) (x mean std_dev : f64) : f64 :=
  fmul (lit 0.5) (ferfc fexp (fdiv (fsub mean x) (fmul std_dev (lit 1.41421356237309504880168872420969807856967187537694)))).
(** stats/mod.rs 33-46: [Normal::default().cdf(x)] *)
Definition fnormal_cdf (fexp : f64 -> f64) (x : f64) : f64 := fcdf_unchecked fexp x (S754_zero false) (lit 1).

(** index.rs 146-154; [std::f64::consts::PI] *)
Definition fcollision_probability (fexp : f64 -> f64) (r d : f64) : f64 :=
  fsub (fsub (lit 1) (fmul (lit 2) (fnormal_cdf fexp (fdiv (SFopp r) d))))
    (fmul (fdiv (lit 2) (fmul (fsqrt64 (fmul (lit 3.14159265358979323846264338327950288419716939937510) (lit 2))) (fdiv r d)))
       (fsub (lit 1) (fexp (fdiv (fmul (SFopp r) r) (fmul (fmul (lit 2) d) d))))).
