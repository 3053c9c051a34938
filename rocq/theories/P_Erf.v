(** C89, C90: how exact the computed error function, collision probability and failure
    probability are, for all arguments.  The arithmetic is exact; the constants, the branches
    and their bounds are those of the code. *)
From Coq Require Import Reals Lra QArith Qreals.
From Coquelicot Require Import Coquelicot.
From Verif Require Import Base RSpec Series Collision CollisionSpec CollisionProofs Gauss Erf ErfSpec PolyZ ErfProofs ErfBound ErfLow ErfAll P_Collision.
Local Open Scope R_scope.

(** * C89 *)
Theorem c89_accuracy : forall x, within (3.3 / 10 ^ 10) (erf_computed x) (error_function x) /\ within (3.3 / 10 ^ 10) (erfc_computed x) (1 - error_function x).
Proof.
  intros x. destruct (impl_error x) as (A & _). unfold within, erfc_computed. change (1 - error_function x) with (erfc x). split; [|exact A].
  rewrite erf_is_impl. pose proof (impl_complement x) as C. replace (error_function x) with (1 - erfc x) by (unfold erfc, error_function; ring).
  replace (erf_impl x false - (1 - erfc x)) with (- (erf_impl x true - erfc x)) by lra. rewrite Rabs_Ropp. exact A.
Qed.
Print Assumptions c89_accuracy.

(** Near 0 the error is relative to the argument *)
Theorem c89_near_zero : forall x, Rabs x < / 2 -> within (3 / 10 ^ 13 * Rabs x) (erf_computed x) (error_function x).
Proof.
  intros x H. destruct (impl_error x) as (_ & _ & A). unfold within.
  rewrite erf_is_impl. pose proof (impl_complement x) as C. replace (error_function x) with (1 - erfc x) by (unfold erfc, error_function; ring).
  replace (erf_impl x false - (1 - erfc x)) with (- (erf_impl x true - erfc x)) by lra. rewrite Rabs_Ropp. exact (A H).
Qed.
Print Assumptions c89_near_zero.

Theorem c89_shape : forall x,
  erf_computed x + erfc_computed x = 1 /\ erf_computed (- x) = - erf_computed x /\ -1 <= erf_computed x <= 1 /\ 0 <= erfc_computed x <= 2.
Proof.
  intros x. destruct (impl_error x) as (_ & B & _). rewrite !erf_is_impl. unfold erfc_computed. pose proof (impl_complement x).
  split; [assumption|]. split; [|lra]. destruct (Req_EM_T x 0) as [->|N]; [rewrite Ropp_0, impl_zero; ring|apply impl_odd, N].
Qed.
Print Assumptions c89_shape.

Theorem c89_normal : forall x, within (1.65 / 10 ^ 10) (normal_cdf_computed x) (normal_distribution x) /\
  0 <= normal_cdf_computed x <= 1 /\ normal_cdf_computed x + normal_cdf_computed (- x) = 1.
Proof.
  intros x. unfold normal_cdf_computed, cdf_unchecked. rewrite half.
  assert (E : forall x, (0 - x) / (1 * sqrt 2) = - (x / sqrt 2)) by (intros y; unfold Rdiv; rewrite Rmult_1_l; ring). rewrite !E.
  replace (- x / sqrt 2) with (- (x / sqrt 2)) by (unfold Rdiv; ring). set (z := x / sqrt 2). unfold normal_distribution, within. fold z.
  destruct (c89_accuracy (- z)) as (_ & A). destruct (c89_shape (- z)) as (C & _ & _ & B).
  destruct (c89_shape z) as (C' & O & _ & _). rewrite Ropp_involutive.
  assert (Eo : error_function (- z) = - error_function z) by (unfold error_function; change (K2 * G (- z) = - (K2 * G z)); rewrite G_odd; ring).
  unfold within in A. rewrite Eo in A. apply both in A. split; [apply Rabs_le; lra|]. split; lra.
Qed.
Print Assumptions c89_normal.

(** A negative argument beyond the first branch, and one in it *)
Example c89_nonvacuous : within (3.3 / 10 ^ 10) (erf_computed (- 7 / 3)) (error_function (- 7 / 3)) /\
  within (3 / 10 ^ 13 * Rabs (/ 4)) (erf_computed (/ 4)) (error_function (/ 4)) /\ erf_computed (/ 4) <> 0.
Proof.
  split; [apply c89_accuracy|]. split; [apply c89_near_zero; rewrite Rabs_pos_eq; lra|].
  rewrite erf_is_impl. unfold erf_impl. destruct (Rlt_dec (/ 4) 0); [lra|]. unfold erf_impl_nonneg. pose proof half. destruct (Rle_dec (Q2R 0.5) (/ 4)); [lra|]. cbn [andb orb].
  pose proof (lower_range (/ 4) ltac:(lra)). lra.
Qed.

(** * C90 *)
Theorem c90_collision : forall width d, 0 < width -> 0 <= d ->
  within (3.3 / 10 ^ 10) (collision_probability_computed width d) (collision_probability_at width d).
Proof. exact collision_error. Qed.
Print Assumptions c90_collision.

Theorem c90_between : forall width d, 0 < width -> 0 < d -> 0 < collision_probability_computed width d < 1.
Proof. exact collision_inside. Qed.
Print Assumptions c90_between.

Lemma computed_unit width d : 0 < width -> 0 <= d -> 0 <= collision_probability_computed width d <= 1.
Proof.
  intros Hw Hd. destruct (Req_EM_T d 0) as [->|N]; [unfold collision_probability_computed; destruct (Req_EM_T 0 0); lra|].
  pose proof (collision_inside width d Hw ltac:(lra)). lra.
Qed.
Theorem c90_failure : forall width d reps prefix prev prev_reps, 0 < width -> 0 <= d ->
  within (INR (bytes_compared reps prefix prev prev_reps) * (3.3 / 10 ^ 10))
    (failure_probability_computed width d reps prefix prev prev_reps) (failure_probability width d reps prefix prev prev_reps) /\
  0 <= failure_probability_computed width d reps prefix prev prev_reps <= 1.
Proof.
  intros width d reps prefix prev prev_reps Hw Hd. pose proof (computed_unit width d Hw Hd) as U. pose proof (collision_unit width d Hw Hd) as U'.
  split; [|exact (fail_unit _ reps prefix prev prev_reps U)].
  pose proof (collision_error width d Hw Hd) as E. unfold within, failure_probability_computed, failure_probability, bytes_compared. cbv zeta.
  set (p := collision_probability_computed width d) in *. set (p' := collision_probability_at width d) in *. clearbody p p'.
  assert (M : forall k n, Rabs ((1 - p ^ k) ^ n - (1 - p' ^ k) ^ n) <= INR (n * k) * (3.3 / 10 ^ 10)).
  { intros k n. rewrite mult_INR, Rmult_assoc. apply miss_close; assumption. }
  assert (B : forall q k n, 0 <= q <= 1 -> 0 <= (1 - q ^ k) ^ n <= 1) by (intros q k n Hq; apply pow_unit, miss_unit, Hq).
  rewrite plus_INR, Rmult_plus_distr_r.
  destruct prev as [q|]; [destruct prev_reps as [n|]|].
  - apply mult_close; auto.
  - apply mult_close; auto; try lra. cbn [INR]. rewrite Rminus_diag_eq, Rabs_R0 by reflexivity. lra.
  - apply mult_close; auto; try lra. cbn [INR]. rewrite Rminus_diag_eq, Rabs_R0 by reflexivity. lra.
Qed.
Print Assumptions c90_failure.

(** What a confirmation says about the hashes.  If the computed failure probability is below
    [delta], a pair at that distance has escaped all visits of the repetitions with probability
    below [delta] plus 3.3e-10 for each comparison of bytes. *)
Theorem c90_confirmed : forall width d reps prefix prev_reps prev earlier n k delta, 0 < width -> 0 <= d ->
  (reps <= n)%nat -> (prev_reps <= n)%nat -> (prefix <= prev)%nat -> (prev <= k)%nat ->
  (forall repetition longer, In (repetition, longer) earlier -> (repetition < prev_reps)%nat /\ (prev <= longer)%nat) ->
  failure_probability_computed width d reps prefix (Some prev) (Some prev_reps) < delta ->
  probability (collision_probability_at width d) n k (never_met (earlier ++ pass prev_reps prev ++ pass reps prefix)) <
    delta + INR (bytes_compared reps prefix (Some prev) (Some prev_reps)) * (3.3 / 10 ^ 10).
Proof.
  intros width d reps prefix prev_reps prev earlier n k delta Hw Hd L1 L2 L3 L4 He C.
  rewrite <- (c43_previous_prefix width d reps prefix prev_reps prev earlier n k L1 L2 L3 L4 He).
  destruct (c90_failure width d reps prefix (Some prev) (Some prev_reps) Hw Hd) as (A & _). unfold within in A. apply both in A. lra.
Qed.
Print Assumptions c90_confirmed.

Theorem c90_confirmed_first : forall width d reps prefix n k delta, 0 < width -> 0 <= d -> (reps <= n)%nat -> (prefix <= k)%nat ->
  failure_probability_computed width d reps prefix None None < delta ->
  probability (collision_probability_at width d) n k (never_met (pass reps prefix)) < delta + INR (reps * prefix) * (3.3 / 10 ^ 10).
Proof.
  intros width d reps prefix n k delta Hw Hd L1 L2 C. rewrite <- (c43_first_prefix width d reps prefix n k L1 L2).
  destruct (c90_failure width d reps prefix None None Hw Hd) as (A & _). unfold within, bytes_compared in A. rewrite Nat.add_0_r in A. apply both in A. lra.
Qed.
Print Assumptions c90_confirmed_first.

(** Equal windows: one repetition confirms them *)
Example c90_nonvacuous : failure_probability_computed 4 0 1 8 None None < 0.05 /\ 0 < collision_probability_computed 4 2 < 1 /\
  within (3.3 / 10 ^ 10) (collision_probability_computed 4 2) (collision_probability_at 4 2).
Proof.
  split; [|split; [apply c90_between; lra|apply c90_collision; lra]]. unfold failure_probability_computed, collision_probability_computed. destruct (Req_EM_T 0 0); [|lra].
  cbv zeta. rewrite pow1. cbn [pow]. lra.
Qed.
