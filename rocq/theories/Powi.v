(** The failure probability as it is computed: src/index.rs 549-566, in floating point. *)
From Coq Require Import Floats.SpecFloat.
From Verif Require Import Base F64 Profile Iterator FpOps.

(** [f64::powi] for exponents not below 0.  Rust does not say how it rounds; this is the
    routine of the compiler's runtime library ([__powidf2]): repeated squaring. *)
Fixpoint powi_loop (a r : f64) (b : positive) : f64 :=
  match b with
  | xH => fmul r a
  | xO b => powi_loop (fmul a a) r b
  | xI b => powi_loop (fmul a a) (fmul r a) b
  end.
Definition powi (a : f64) (n : nat) : f64 :=
  match N.of_nat n with N0 => f_one | Npos b => powi_loop a f_one b end.

(** index.rs 549-566; [p] is the collision probability at the distance (557).  The casts to
    [i32] are exact for fewer than 2^31 repetitions. *)
Definition failure_f64 (p : f64) (reps prefix : nat) (prev_prefix prev_prefix_repetitions : option nat) : f64 :=
  let cur_fail := powi (fsub f_one (powi p prefix)) reps in
  let prev_fail :=
    match prev_prefix, prev_prefix_repetitions with
    | Some prefix, Some repetitions => powi (fsub f_one (powi p prefix)) (repetitions - reps)
    | _, _ => f_one
    end in
  fmul cur_fail prev_fail.
