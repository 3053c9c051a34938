(** Collision and failure probabilities in exact arithmetic: src/index.rs 146-155, 549-566,
    929-974, and src/stats/mod.rs. *)
From Coq Require Import Reals.
From Coquelicot Require Import Coquelicot.
From Verif Require Import Base.
Local Open Scope R_scope.

(** The complementary error function.  src/stats/erf.rs approximates it with rational
    functions; here it is exact.  Erf.v models the approximation, and P_Erf.v bounds the difference. *)
Definition erfc (z : R) : R := 1 - 2 / sqrt PI * RInt (fun t => exp (- (t * t))) 0 z.
(** stats/mod.rs 55-57, with [mean = 0] and [std_dev = 1] as in [Normal::default()] *)
Definition normal_cdf (x : R) : R := / 2 * erfc ((0 - x) / (1 * sqrt 2)).

(** index.rs 146-155.  At distance 0 the quotient [r / d] is infinite, and the result is
    [1 - 2 * 0 - 0 * (1 - 0)]. *)
Definition collision_probability_at (width d : R) : R :=
  if Req_EM_T d 0 then 1
  else
    let r := width in
    1 - 2 * normal_cdf (- r / d)
      - 2 / (sqrt (PI * 2) * (r / d)) * (1 - exp (- r * r / (2 * d * d))).

(** index.rs 549-566; the casts to [i32] are exact for fewer than 2^31 repetitions *)
Definition failure_probability (width d : R) (reps prefix : nat) (prev_prefix prev_prefix_repetitions : option nat) : R :=
  let p := collision_probability_at width d in
  let cur_fail := (1 - p ^ prefix) ^ reps in
  let prev_fail :=
    match prev_prefix, prev_prefix_repetitions with
    | Some prefix, Some repetitions => (1 - p ^ prefix) ^ (repetitions - reps)
    | _, _ => 1
    end in
  cur_fail * prev_fail.

(** index.rs 835-844 *)
Record stats := Stats {
  expected_collisions : list R;
  repetition_setup_cost : R;
  collision_cost : R;
  max_repetitions : nat
}.
(** index.rs 940-970: one entry; [None] is an infinite cost *)
Definition cost_to_confirm (fuel : nat) (st : stats) (width d delta : R) (index_repetitions prefix : nat) (collisions : R) :
  res (option R * nat) :=
  let maxreps := max_repetitions st in
  let! nreps :=
    loop fuel
      (fun '(nreps, fp) =>
         if (if Rlt_dec delta fp then true else false) && (nreps <? maxreps)%nat then
           Ret (inl (S nreps, failure_probability width d nreps prefix None None))
         else Ret (inr nreps)) (0%nat, 1) in
  if (maxreps <=? nreps)%nat then Ret (None, maxreps)
  else
    let new_repetitions := INR (nreps - index_repetitions) in
    Ret (Some (INR nreps * (collision_cost st * collisions + repetition_setup_cost st * new_repetitions)), nreps).
(** index.rs 929-974 *)
Definition costs_to_confirm (fuel : nat) (st : stats) (max_prefix : nat) (width d delta : R) (index_repetitions : nat) :
  res (list (option R * nat)) :=
  assert_ (S max_prefix <=? length (expected_collisions st))%nat
    (foreach (combine (seq 0 (S max_prefix)) (firstn (S max_prefix) (expected_collisions st)))
       (fun '(prefix, collisions) out =>
          let! c := cost_to_confirm fuel st width d delta index_repetitions prefix collisions in
          Ret (out ++ [c])) []).
