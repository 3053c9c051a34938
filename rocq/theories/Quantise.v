(** Quantisation of a projection in floating point: src/index.rs 236-241. *)
From Coq Require Import Floats.SpecFloat.
From Verif Require Import Base F64 Iterator FpOps.

(** [h as i64]: towards zero, and to the nearest [i64] if there is none; 0 for NaN *)
Definition as_i64 (x : f64) : Z :=
  let clamp z := Z.max (- 2 ^ 63) (Z.min (2 ^ 63 - 1) z) in
  match x with
  | S754_finite s m e =>
      let magnitude := (match e with Zneg k => Zpos m / 2 ^ Zpos k | _ => Zpos m * 2 ^ e end)%Z in
      clamp (if s then - magnitude else magnitude)%Z
  | S754_infinity s => clamp (if s then - 2 ^ 64 else 2 ^ 64)%Z
  | _ => 0%Z
  end.
(** index.rs 237-241, for a projection [x] that is not NaN.  [h.signum() * 127.0] is 127 with
    the sign of [h]. *)
Definition quantise_f64 (shift width x : f64) : N :=
  let h := fdiv (fadd x shift) width in
  let h := if flt (f_of_nat 128) (SFabs h) then (if is_sign_negative h then SFopp (f_of_nat 127) else f_of_nat 127) else h in
  Z.to_N (Z.land (as_i64 h) 255).
