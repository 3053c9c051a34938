(** How the index is calibrated before the search starts: src/index.rs 873-899. *)
From Coq Require Import Floats.SpecFloat.
From Verif Require Import Base F64 HashValue Enumerator Profile Iterator FpOps.

(** index.rs 881 and 882 *)
Definition max_samples : N := 10000.
Definition calibration_buffer : nat := N.to_nat 65536.

(** index.rs 887-894: the pairs of one batch.  [distance] is [zeucl_threshold], whose result
    is unwrapped; [break] leaves this batch only. *)
Fixpoint measure_batch (distance : nat -> nat -> f64 -> res (option f64)) (batch : list (N * N)) (samples : N) : res N :=
  match batch with
  | [] => Ret samples
  | (a, b) :: t =>
      let! d := distance (N.to_nat a) (N.to_nat b) f_inf in
      match d with
      | None => Panic
      | Some _ =>
          let samples := (samples + 1)%N in
          if (max_samples <? samples)%N then Ret samples else measure_batch distance t samples
      end
  end.

(** index.rs 886-895: all the batches of the enumerator *)
Definition measure_all (distance : nat -> nat -> f64 -> res (option f64)) (ez : nat) (s : enumerator) (fuel : nat) : res N :=
  loop fuel
    (fun st : enumerator * N =>
       let '(s, samples) := st in
       let! '(s, r) := enum_next fuel calibration_buffer ez true s in
       match r with
       | None => Ret (inr samples)
       | Some batch =>
           let! samples := measure_batch distance batch samples in
           Ret (inl (s, samples))
       end) (s, 0%N).

(** index.rs 883-895: how many distances are computed, for the table of the first
    repetition *)
Definition calibrate (distance : nat -> nat -> f64 -> res (option f64)) (hashes indices : list N) (ez prefix : nat) (fuel : nat) : res N :=
  let! s := enum_new fuel hashes indices prefix None in
  measure_all distance ez s fuel.

(** [c as f64] *)
Definition f_of_Z (c : Z) : f64 := binary_normalize prec emax c 0 false.
(** [samples as f64] *)
Definition f_of_N (n : N) : f64 := binary_normalize prec emax (Z.of_N n) 0 false.

(** index.rs 896-899: the cost of one collision, from the seconds that went by *)
Definition cost_of (elapsed setup_cost : f64) (samples : N) : res f64 :=
  let cost := fdiv elapsed (f_of_N samples) in
  assert_ (negb (is_nan cost)) (assert_ (negb (is_nan setup_cost)) (Ret cost)).

(** index.rs 873-899, for the profile of the index *)
Definition collision_cost_of (distance : nat -> nat -> f64 -> res (option f64)) (hashes indices : list N) (ez : nat)
  (expected_collisions : list f64) (elapsed setup_cost : f64) (fuel : nat) : res (N * f64) :=
  let! prefix := calibration_prefix expected_collisions in
  let! samples := calibrate distance hashes indices ez prefix fuel in
  let! cost := cost_of elapsed setup_cost samples in
  Ret (samples, cost).

(** ** The profile of the index, index.rs 649-669 *)

(** index.rs 603-605 and 636-646: the counts of one repetition, with infinity for prefix 0;
    Profile.v keeps those for prefixes 1..8 as integers *)
Definition profile_row (counts : list Z) : list f64 := f_inf :: map f_of_Z counts.
(** index.rs 656-661: [for (aa, bb) in a.iter_mut().zip(b) { *aa += bb }] *)
Fixpoint add_row (a b : list f64) : list f64 :=
  match a, b with
  | x :: a, y :: b => fadd x y :: add_row a b
  | _, _ => a
  end.
(** index.rs 655 *)
Definition zero_row : list f64 := repeat (S754_zero false) (K + 1).
(** index.rs 651-662: how rayon may split the rows.  A thread adds the rows of its part one
    after the other, starting from zeros; the sums of two parts are added. *)
Inductive plan := Part (rows : list (list f64)) | Both (left right : plan).
Fixpoint plan_rows (p : plan) : list (list f64) :=
  match p with Part rows => rows | Both l r => plan_rows l ++ plan_rows r end.
Fixpoint reduce (p : plan) : list f64 :=
  match p with
  | Part rows => fold_left add_row rows zero_row
  | Both l r => add_row (reduce l) (reduce r)
  end.
(** index.rs 650 and 664-668.  [reps] is [get_repetitions().min(4)]; the plan is one for
    the rows of the first [reps] repetitions. *)
Definition collision_profile (reps : nat) (p : plan) : list f64 :=
  map (fun acc => fdiv acc (f_of_nat reps)) (reduce p).
