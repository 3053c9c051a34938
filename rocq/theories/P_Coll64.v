(** Property theorems C121: the error function, the collision probability and the failure
    probability in floating point.  Specification: ErfSpec.v, FloatErfSpec.v, Collision.v (the
    collision probability as an integral) and CollisionSpec.v (random bytes).
    Model: FloatErf.v, Powi.v. *)
From Coq Require Import Reals Lra Lia QArith Qreals Floats.SpecFloat.
From Coquelicot Require Import Coquelicot.
From Flocq Require Import Core Relative Sterbenz BinarySingleNaN.
From Verif Require Import Base F64 RSpec Series Iterator Collision CollisionSpec CollisionProofs FpOps FloatProofs FloatBound FloatErr FloatTerm FloatProj PolyZ Gauss Erf ErfSpec ErfProofs ErfBound ErfLow ErfAll
  FloatErf FloatErfSpec FloatErfP FloatErfR FloatErfI FloatColl FloatCollP Powi P_Collision P_Erf HashValue Profile IteratorSpec EndSpec P_Iterator P_Iterator2 P_End P_Powi.
Local Open Scope R_scope.

Lemma pow2_bp k : powerRZ 2 k = bp k. Proof. symmetry. apply (bpow_powerRZ radix2 k). Qed.
Lemma error_erfc x : 1 - error_function x = erfc x. Proof. reflexivity. Qed.

(** * The complementary error function *)
Theorem c121_erfc : forall (fexp : f64 -> f64) (x : f64), exp_within fexp -> number x ->
  number (ferfc fexp x) /\ 0 <= fval (ferfc fexp x) /\ within (3.31 / 10 ^ 10) (fval (ferfc fexp x)) (1 - error_function (fval x)).
Proof.
  intros fexp x X Nx. rewrite ferfc_number by exact Nx. destruct (impl_near fexp x true X Nx) as (N & P & E). split; [exact N|]. split; [apply P; reflexivity|].
  unfold within. rewrite error_erfc. destruct (impl_error (fval x)) as (I & _). apply Rabs_le_inv in E, I. rewrite u53 in E. apply Rabs_le. lra.
Qed.
Print Assumptions c121_erfc.
Theorem c121_erfc_ends : forall fexp, ferfc fexp (S754_infinity false) = S754_zero false /\ fval (ferfc fexp (S754_infinity true)) = 2 /\ ferfc fexp S754_nan = S754_nan.
Proof. intros fexp. split; [reflexivity|]. split; [apply lit2|reflexivity]. Qed.
Print Assumptions c121_erfc_ends.

(** * The collision probability *)
Lemma shape_neg x : number x -> fval x < 0 -> exists m e, x = S754_finite true m e.
Proof.
  intros (_ & F) L. destruct x as [s|s| |s m e]; try discriminate F; [cbn in L; lra|]. destruct s; [eauto|]. exfalso. assert (0 < fval (S754_finite false m e)) by (apply F2R_gt_0; reflexivity). lra.
Qed.
Lemma shape_pos x : number x -> 0 < fval x -> exists m e, x = S754_finite false m e.
Proof.
  intros (_ & F) L. destruct x as [s|s| |s m e]; try discriminate F; [cbn in L; lra|]. destruct s; [|eauto]. exfalso. assert (fval (S754_finite true m e) < 0) by (apply F2R_lt_0; reflexivity). lra.
Qed.
Lemma moderate_bp x : moderate x -> number x /\ bp (-200) <= fval x <= bp 200.
Proof. intros (N & B). rewrite !pow2_bp in B. split; assumption. Qed.
Lemma collision_zero fexp r : exp_within fexp -> moderate r -> fcollision_probability fexp r (S754_zero false) = lit 1.
Proof.
  intros (_ & X) M. destruct (moderate_bp r M) as (Nr & Br). pose proof (bpow_gt_0 radix2 (-200)) as P0. destruct (opp_val r Nr) as (No & Vo).
  assert (Hs : exists m e, fmul (SFopp r) r = S754_finite true m e).
  { assert (B : bp (-400) <= fval r * fval r <= bp 400) by (apply (prod_bp _ _ 200 200); assumption). pose proof (bpow_gt_0 radix2 (-400)) as P4.
    destruct (fmul_le (SFopp r) r (bp 400) No Nr) as (N & V & _); [apply fmt_bpow; lia|apply bp_top; lia|rewrite Vo, <- Ropp_mult_distr_l, Rabs_Ropp, Rabs_pos_eq; lra|].
    apply shape_neg; [exact N|]. rewrite V, Vo, <- Ropp_mult_distr_l, rnd_opp. assert (bp (-400) <= rnd (fval r * fval r)); [|lra].
    rewrite <- (rnd_id (bp (-400))) by (apply fmt_bpow; lia). apply rnd_le. lra. }
  destruct Hs as (m & e & Hs). destruct (shape_pos r Nr ltac:(lra)) as (m' & e' & Hr). unfold fcollision_probability, fnormal_cdf, fcdf_unchecked. rewrite Hs.
  replace (fdiv (S754_finite true m e) (fmul (fmul (lit 2) (S754_zero false)) (S754_zero false))) with (S754_infinity true) by (vm_compute; reflexivity). rewrite X.
  rewrite Hr. change (fdiv (SFopp (S754_finite false m' e')) (S754_zero false)) with (S754_infinity true). change (fdiv (S754_finite false m' e') (S754_zero false)) with (S754_infinity false).
  change (fsub (S754_zero false) (S754_infinity true)) with (S754_infinity false).
  replace (fdiv (S754_infinity false) (fmul (lit 1) (lit 1.41421356237309504880168872420969807856967187537694))) with (S754_infinity false) by (vm_compute; reflexivity).
  vm_compute. reflexivity.
Qed.
Lemma gap_units k : 3.3 / 10 ^ 10 + 900 * u + 32 * u * k <= 3.31 / 10 ^ 10 + powerRZ 2 (-48) * k.
Proof.
  replace (powerRZ 2 (-48)) with (32 * u). { rewrite u53. lra. }
  rewrite pow2_bp. change 32 with (bp 5). change u with (bp (-53)). rewrite <- bpow_plus. reflexivity.
Qed.
Theorem c121_collision : forall (fexp : f64 -> f64) (width d : f64), exp_within fexp -> moderate width -> distance64 d ->
  number (fcollision_probability fexp width d) /\ fval (fcollision_probability fexp width d) <= 1 /\
  within (probability_gap width d) (fval (fcollision_probability fexp width d)) (collision_probability_at (fval width) (fval d)).
Proof.
  intros fexp r d X Mr [->|Md]; destruct (moderate_bp r Mr) as (Nr & Br).
  - rewrite collision_zero by assumption. destruct lit1 as (N & V). rewrite V. split; [exact N|]. split; [lra|]. unfold within, collision_probability_at, probability_gap. cbn [fval SF2R].
    destruct (Req_EM_T 0 0); [|lra]. rewrite Rminus_diag_eq, Rabs_R0 by reflexivity. unfold Rdiv. rewrite Rmult_0_l, Rmult_0_r. lra.
  - destruct (moderate_bp d Md) as (Nd & Bd). destruct (collision_near fexp r d X Nr Nd Br Bd) as (N & L & E & _). split; [exact N|]. split; [exact L|].
    unfold within, probability_gap. eapply Rle_trans; [exact E|]. apply gap_units.
Qed.
Print Assumptions c121_collision.

(** * Within the chances *)
Lemma true_least w d K : 0 < w -> 0 <= d -> 2 <= K -> d <= K * w -> 0.28 / (K * sqrt 2) <= collision_probability_at w d.
Proof.
  intros Pw Pd PK L. pose proof sqrt2_range as S2. apply Rle_trans with (collision_probability_at w (K * w)); [|apply collision_antitone; lra].
  assert (PKw : 0 < K * w) by (apply Rmult_lt_0_compat; lra). assert (Ez : w / (K * w) / sqrt 2 = / (K * sqrt 2)) by (field; repeat split; lra).
  assert (2 <= K * sqrt 2) by (apply Rle_trans with (2 * 1); [lra|]; apply Rmult_le_compat; lra).
  pose proof (collision_small w (K * w) Pw PKw) as C. rewrite Ez in C. unfold Rdiv. apply C. apply Rinv_le_contravar; lra.
Qed.
Lemma distance_nonneg d : distance64 d -> 0 <= fval d.
Proof. intros [->|M]; [cbn; lra|]. destruct (moderate_bp d M) as (_ & B). pose proof (bpow_gt_0 radix2 (-200)). lra. Qed.
Lemma moderate_pos x : moderate x -> 0 < fval x.
Proof. intros M. destruct (moderate_bp x M) as (_ & B). pose proof (bpow_gt_0 radix2 (-200)). lra. Qed.
Lemma gap_bound width d K : moderate width -> distance64 d -> 0 <= K -> fval d <= K * fval width -> 0 <= probability_gap width d <= 3.31 / 10 ^ 10 + / 281474976710656 * K.
Proof.
  intros Mw Dd PK L. pose proof (moderate_pos _ Mw) as Pw. pose proof (distance_nonneg _ Dd) as Pd. unfold probability_gap. replace (powerRZ 2 (-48)) with (/ 281474976710656) by (rewrite pow2_bp; reflexivity).
  assert (0 <= fval d / fval width <= K).
  { split; [apply Rdiv_le_0_compat; assumption|]. apply (Rmult_le_reg_r (fval width)); [exact Pw|]. unfold Rdiv. rewrite Rmult_assoc, Rinv_l by lra. lra. }
  lra.
Qed.
Theorem c121_chance : forall (fexp : f64 -> f64) (width d : f64), exp_within fexp -> moderate width -> distance64 d -> fval d <= powerRZ 2 20 * fval width ->
  chance (fcollision_probability fexp width d).
Proof.
  intros fexp width d X Mw Dd L. destruct (c121_collision fexp width d X Mw Dd) as (N & L1 & E). split; [exact N|]. split; [|exact L1].
  replace (powerRZ 2 20) with 1048576 in L by (rewrite pow2_bp; reflexivity).
  pose proof (true_least _ _ 1048576 (moderate_pos _ Mw) (distance_nonneg _ Dd) ltac:(lra) L) as T. pose proof (gap_bound _ _ 1048576 Mw Dd ltac:(lra) L) as G.
  pose proof sqrt2_range as S2. assert (0.28 / (1048576 * (3 / 2)) <= 0.28 / (1048576 * sqrt 2)). { unfold Rdiv at 1 3. apply Rmult_le_compat_l; [lra|]. apply Rinv_le_contravar; lra. }
  unfold within in E. apply Rabs_le_inv in E. lra.
Qed.
Print Assumptions c121_chance.

(** * The failure probability *)
Lemma failure_close p p' e reps prefix prev prev_reps : 0 <= p <= 1 -> 0 <= p' <= 1 -> Rabs (p - p') <= e ->
  Rabs (exact_failure p reps prefix prev prev_reps - exact_failure p' reps prefix prev prev_reps) <= INR (bytes_compared reps prefix prev prev_reps) * e.
Proof.
  intros U U' E. assert (E0 : 0 <= e) by (eapply Rle_trans; [apply Rabs_pos|exact E]). unfold exact_failure, bytes_compared.
  assert (M : forall k n, Rabs ((1 - p ^ k) ^ n - (1 - p' ^ k) ^ n) <= INR (n * k) * e).
  { intros k n. rewrite mult_INR, Rmult_assoc. apply miss_close; assumption. }
  assert (Un : forall q, 0 <= q <= 1 -> forall k n, 0 <= (1 - q ^ k) ^ n <= 1) by (intros q Q k n; apply pow_unit, miss_unit, Q).
  destruct prev as [q|], prev_reps as [m|]; rewrite ?Nat.add_0_r, ?Rmult_1_r; try apply M.
  rewrite plus_INR, Rmult_plus_distr_r. apply mult_close; auto.
Qed.
Theorem c121_failure : forall (fexp : f64 -> f64) (width d : f64) (reps prefix : nat) (prev prev_reps : option nat),
  exp_within fexp -> moderate width -> distance64 d -> fval d <= powerRZ 2 20 * fval width ->
  let f := failure_f64 (fcollision_probability fexp width d) reps prefix prev prev_reps in
  chance f /\
  within (INR (bytes_compared reps prefix prev prev_reps) * probability_gap width d + INR (roundings reps prefix prev prev_reps) * powerRZ 2 (-54))
    (fval f) (failure_probability (fval width) (fval d) reps prefix prev prev_reps).
Proof.
  intros fexp width d reps prefix prev prev_reps X Mw Dd L. cbv zeta. pose proof (c121_chance fexp width d X Mw Dd L) as C.
  destruct (c114_accuracy _ reps prefix prev prev_reps C) as (Cf & E). split; [exact Cf|]. rewrite pow2_bp. unfold within. rewrite exact_failure_is.
  destruct (c121_collision fexp width d X Mw Dd) as (_ & _ & Ec). unfold within in Ec.
  pose proof (failure_close _ _ _ reps prefix prev prev_reps (proj2 C) (collision_unit _ _ (moderate_pos _ Mw) (distance_nonneg _ Dd)) Ec) as F.
  apply Rabs_le_inv in E, F. apply Rabs_le. lra.
Qed.
Print Assumptions c121_failure.
(** A distance that the computed failure probability confirms has been met by random bytes with
    probability above 1 - delta, up to the two errors. *)
Theorem c121_confirmed : forall (fexp : f64 -> f64) (width d delta : f64) (reps prefix prev_reps prev : nat) earlier (n k : nat),
  exp_within fexp -> moderate width -> distance64 d -> fval d <= powerRZ 2 20 * fval width -> number delta ->
  (reps <= n)%nat -> (prev_reps <= n)%nat -> (prefix <= prev)%nat -> (prev <= k)%nat ->
  (forall repetition longer, In (repetition, longer) earlier -> (repetition < prev_reps)%nat /\ (prev <= longer)%nat) ->
  flt (failure_f64 (fcollision_probability fexp width d) reps prefix (Some prev) (Some prev_reps)) delta = true ->
  probability (collision_probability_at (fval width) (fval d)) n k (never_met (earlier ++ pass prev_reps prev ++ pass reps prefix)) <
    fval delta + INR (bytes_compared reps prefix (Some prev) (Some prev_reps)) * probability_gap width d + INR (roundings reps prefix (Some prev) (Some prev_reps)) * powerRZ 2 (-54).
Proof.
  intros fexp width d delta reps prefix prev_reps prev earlier n k X Mw Dd L Nd L1 L2 L3 L4 He F.
  rewrite <- (c43_previous_prefix _ _ reps prefix prev_reps prev earlier n k L1 L2 L3 L4 He).
  destruct (c121_failure fexp width d reps prefix (Some prev) (Some prev_reps) X Mw Dd L) as (Cf & E). cbv zeta in Cf, E.
  rewrite flt_val in F; [|apply Cf|exact Nd]. revert F. unfold Rlt_bool. destruct (Rcompare_spec (fval (failure_f64 (fcollision_probability fexp width d) reps prefix (Some prev) (Some prev_reps))) (fval delta)) as [H|H|H]; intros F; try discriminate F.
  unfold within in E. apply Rabs_le_inv in E. lra.
Qed.
Print Assumptions c121_confirmed.
Theorem c121_confirmed_first : forall (fexp : f64 -> f64) (width d delta : f64) (reps prefix n k : nat),
  exp_within fexp -> moderate width -> distance64 d -> fval d <= powerRZ 2 20 * fval width -> number delta -> (reps <= n)%nat -> (prefix <= k)%nat ->
  flt (failure_f64 (fcollision_probability fexp width d) reps prefix None None) delta = true ->
  probability (collision_probability_at (fval width) (fval d)) n k (never_met (pass reps prefix)) <
    fval delta + INR (reps * prefix) * probability_gap width d + INR (reps * (prefix + 2) + 1) * powerRZ 2 (-54).
Proof.
  intros fexp width d delta reps prefix n k X Mw Dd L Nd L1 L2 F. rewrite <- (c43_first_prefix _ _ reps prefix n k L1 L2).
  destruct (c121_failure fexp width d reps prefix None None X Mw Dd L) as (Cf & E). cbv zeta in Cf, E.
  rewrite flt_val in F; [|apply Cf|exact Nd]. revert F. unfold Rlt_bool. destruct (Rcompare_spec (fval (failure_f64 (fcollision_probability fexp width d) reps prefix None None)) (fval delta)) as [H|H|H]; intros F; try discriminate F.
  unfold within, bytes_compared, roundings in E. rewrite !Nat.add_0_r in E. apply Rabs_le_inv in E. lra.
Qed.
Print Assumptions c121_confirmed_first.

(** * A search for one pair ends *)
(** if no distance between windows is above eight times the width of the hash *)
Theorem c121_pair_ends_partial :
  forall (p : problem) (a b : nat) (d : f64) (s0 : iter) (fexp : f64 -> f64) (width : f64),
    sound p -> seed_ok p a b d -> well_behaved p d -> p_top_k p = 1%nat -> p_max_k p = 2%nat ->
    exp_within fexp -> moderate width ->
    (forall e reps q prev m, p_failure p e reps q prev m = failure_f64 (fcollision_probability fexp width e) reps q prev m) ->
    (forall e, e = d \/ (exists i j, (i < p_n p)%nat /\ (j < p_n p)%nat /\ e = p_zeucl p i j) -> is_finite e = true ->
       distance64 e /\ fval e <= 8 * fval width) ->
    number (p_delta p) -> 0 < fval (p_delta p) ->
    iter_new p a b d = Ret s0 ->
    (forall cbs, exists s answers, returns (session p a b d cbs) (s, answers)) /\
    exists n s answers, returns (session p a b d (repeat (fun _ => true) n)) (s, answers ++ [End]).
Proof.
  intros p a b d s0 fexp width Sd So W H1 H2 X Mw Hf He Nd Pd E. apply (c114_pair_ends_partial p a b d s0 (fcollision_probability fexp width)); auto.
  intros e Ee Fe. destruct (He e Ee Fe) as (De & L). pose proof (moderate_pos _ Mw) as Pw.
  assert (L20 : fval e <= powerRZ 2 20 * fval width). { replace (powerRZ 2 20) with 1048576 by (rewrite pow2_bp; reflexivity). lra. }
  pose proof (c121_chance fexp width e X Mw De L20) as C. split; [exact C|]. destruct (c121_collision fexp width e X Mw De) as (_ & _ & Ec). unfold within in Ec. apply Rabs_le_inv in Ec.
  pose proof (true_least _ _ 8 Pw (distance_nonneg _ De) ltac:(lra) L) as T. pose proof (gap_bound _ _ 8 Mw De ltac:(lra) L) as G.
  pose proof sqrt2_range as S2. assert (0.28 / (8 * (3 / 2)) <= 0.28 / (8 * sqrt 2)). { unfold Rdiv at 1 3. apply Rmult_le_compat_l; [lra|]. apply Rinv_le_contravar; lra. }
  lra.
Qed.
Print Assumptions c121_pair_ends_partial.

(** * An infinite distance has no collision probability *)
Theorem c121_infinite : forall fexp width, exp_within fexp -> moderate width ->
  fexp (S754_zero true) = lit 1 ->
  fcollision_probability fexp width (S754_infinity false) = S754_nan.
Proof.
  intros fexp width X Mw E0. destruct (moderate_bp width Mw) as (Nr & Br). pose proof (bpow_gt_0 radix2 (-200)) as P0. destruct (opp_val width Nr) as (No & Vo).
  assert (Hs : exists m e, fmul (SFopp width) width = S754_finite true m e).
  { assert (B : bp (-400) <= fval width * fval width <= bp 400) by (apply (prod_bp _ _ 200 200); assumption). pose proof (bpow_gt_0 radix2 (-400)) as P4.
    destruct (fmul_le (SFopp width) width (bp 400) No Nr) as (N & V & _); [apply fmt_bpow; lia|apply bp_top; lia|rewrite Vo, <- Ropp_mult_distr_l, Rabs_Ropp, Rabs_pos_eq; lra|].
    apply shape_neg; [exact N|]. rewrite V, Vo, <- Ropp_mult_distr_l, rnd_opp. assert (bp (-400) <= rnd (fval width * fval width)); [|lra].
    rewrite <- (rnd_id (bp (-400))) by (apply fmt_bpow; lia). apply rnd_le. lra. }
  destruct Hs as (m & e & Hs). destruct (shape_pos width Nr ltac:(lra)) as (m' & e' & Hr). unfold fcollision_probability. rewrite Hs.
  replace (fdiv (S754_finite true m e) (fmul (fmul (lit 2) (S754_infinity false)) (S754_infinity false))) with (S754_zero true) by (vm_compute; reflexivity).
  assert (Ex : fsub (lit 1) (fexp (S754_zero true)) = S754_zero false) by (rewrite E0; vm_compute; reflexivity).
  rewrite Ex, Hr. replace (fdiv (S754_finite false m' e') (S754_infinity false)) with (S754_zero false) by reflexivity.
  match goal with |- fsub _ ?y = _ => replace y with S754_nan by (vm_compute; reflexivity) end. destruct (fsub (lit 1) _); reflexivity.
Qed.
Print Assumptions c121_infinite.

(** * The hypotheses can be met *)
(** an exponential function that is correctly rounded *)
Definition of_R (v : R) : f64 :=
  SpecFloat.binary_normalize prec emax (Ztrunc (scaled_mantissa radix2 (SpecFloat.fexp prec emax) (rnd v))) (cexp radix2 (SpecFloat.fexp prec emax) (rnd v)) false.
Lemma of_R_val v : 0 <= v <= 1 -> number (of_R v) /\ fval (of_R v) = rnd v.
Proof.
  intros B. unfold of_R. rewrite normalize_equiv.
  pose proof (binary_normalize_correct prec emax Hprec Hmax mode_NE (Ztrunc (scaled_mantissa radix2 (SpecFloat.fexp prec emax) (rnd v))) (cexp radix2 (SpecFloat.fexp prec emax) (rnd v)) false) as C.
  cbv zeta in C. assert (F : fmt (rnd v)) by (apply generic_format_round; [exact Hexp|exact (valid_rnd_N _)]).
  assert (E : F2R (Float radix2 (Ztrunc (scaled_mantissa radix2 (SpecFloat.fexp prec emax) (rnd v))) (cexp radix2 (SpecFloat.fexp prec emax) (rnd v))) = rnd v) by (symmetry; exact F).
  rewrite E in C. change (round radix2 (SpecFloat.fexp prec emax) (round_mode mode_NE)) with rnd in C. rewrite (rnd_id (rnd v) F) in C.
  assert (R0 : 0 <= rnd v <= 1). { split; [apply rnd_pos; lra|]. rewrite <- (rnd_id 1) by (change 1 with (bp 0); apply fmt_bpow; lia). apply rnd_le. lra. }
  rewrite Rlt_bool_true in C by (rewrite Rabs_pos_eq by lra; apply Rle_lt_trans with (bp 0); [change (bp 0) with 1; lra|apply bpow_lt; reflexivity]).
  destruct C as (C1 & C2 & _). set (z := BinarySingleNaN.binary_normalize _ _ _ _ _ _ _ _) in *. clearbody z. split.
  - split; [apply valid_binary_B2SF|]. destruct z; try discriminate C2; reflexivity.
  - rewrite <- C1. destruct z; try discriminate C2; reflexivity.
Qed.
Definition best_exp (y : f64) : f64 := match y with S754_infinity true => S754_zero false | _ => of_R (exp (fval y)) end.
Lemma best_exp_within : exp_within best_exp.
Proof.
  split; [|reflexivity]. intros y Ny L. assert (E : best_exp y = of_R (exp (fval y))) by (destruct Ny as (_ & F); destruct y; try discriminate F; reflexivity). rewrite E.
  pose proof (exp_pos (fval y)) as P. pose proof (exp_le_1 _ L) as P1. destruct (of_R_val (exp (fval y)) ltac:(lra)) as (N & V). split; [exact N|]. rewrite V. split.
  - split; [apply rnd_pos; lra|]. rewrite <- (rnd_id 1) by (change 1 with (bp 0); apply fmt_bpow; lia). apply rnd_le. lra.
  - eapply Rle_trans; [apply err_below; lra|]. rewrite pow2_bp. apply bpow_le. lia.
Qed.
Definition four : f64 := S754_finite false 4503599627370496 (-50).
Lemma four_val : fval four = 4. Proof. unfold fval, four, SF2R, F2R. cbn. field. Qed.
Lemma moderate_small x : number x -> 1 <= fval x <= 8 -> moderate x.
Proof. intros N B. split; [exact N|]. rewrite !pow2_bp. assert (bp (-200) <= bp 0) by (apply bpow_le; lia). assert (bp 3 <= bp 200) by (apply bpow_le; lia). change (bp 0) with 1 in *. change (bp 3) with 8 in *. lra. Qed.
Lemma moderate_four : moderate four. Proof. apply moderate_small; [split; reflexivity|rewrite four_val; lra]. Qed.
(** width 4, distances 0 and 1, two repetitions of 8 bytes *)
Example c121_case :
  exp_within best_exp /\ moderate four /\ distance64 (lit 1) /\ distance64 (S754_zero false) /\ fval (lit 1) <= powerRZ 2 20 * fval four /\
  within (4 / 10 ^ 10) (fval (fcollision_probability best_exp four (lit 1))) (collision_probability_at 4 1) /\
  failure_f64 (fcollision_probability best_exp four (S754_zero false)) 2 8 None None = S754_zero false /\
  flt (failure_f64 (fcollision_probability best_exp four (S754_zero false)) 2 8 None None) one_half = true.
Proof.
  pose proof best_exp_within as X. pose proof moderate_four as M. destruct lit1 as (N1 & V1).
  assert (M1 : moderate (lit 1)) by (apply moderate_small; [exact N1|rewrite V1; lra]). split; [exact X|]. split; [exact M|]. split; [right; exact M1|]. split; [left; reflexivity|].
  split; [rewrite V1, four_val, pow2_bp; change (bp 20) with 1048576; lra|]. split.
  - destruct (c121_collision best_exp four (lit 1) X M (or_intror M1)) as (_ & _ & E). rewrite V1, four_val in E. unfold within, probability_gap in *. eapply Rle_trans; [exact E|].
    rewrite V1, four_val, pow2_bp. change (bp (-48)) with (/ 281474976710656). lra.
  - rewrite collision_zero by assumption. split; vm_compute; reflexivity.
Qed.
(** a search whose failure probabilities are computed so *)
Definition toy_collision : problem := {|
  p_n := 13; p_ez := 2; p_max_k := 2; p_top_k := 1;
  p_zeucl := toy_distance; p_zeucl_threshold := below toy_distance;
  p_table := fun _ _ => (toy_hashes, [0; 4; 8; 12]%N);
  p_failure := fun e => failure_f64 (fcollision_probability best_exp four e);
  p_delta := one_half; p_coin := fun _ _ _ => false;
  p_expected := toy_expected; p_setup_cost := fl 1; p_collision_cost := fl 1; p_max_repetitions := 100;
  p_buffer := 4; p_threshold := 7; p_stop := false; p_nan_first := true |}.
Lemma fl_moderate x : number x -> 1 <= fval x <= 8 -> moderate x /\ fval x <= 8 * fval four.
Proof. intros N B. split; [apply moderate_small; assumption|rewrite four_val; lra]. Qed.
Lemma toy_distances e : (exists i j, e = toy_distance i j) -> moderate e /\ fval e <= 8 * fval four.
Proof.
  intros (i & j & ->). destruct (toy_distance_cases i j) as [->|[->|[->| ->]]]; (apply fl_moderate; [split; vm_compute; reflexivity|unfold fval, SF2R, F2R; cbn; lra]).
Qed.
Example c121_pair_case : sound toy_collision /\ seed_ok toy_collision 4 8 (fl 2) /\ well_behaved toy_collision (fl 2) /\
  p_top_k toy_collision = 1%nat /\ p_max_k toy_collision = 2%nat /\
  (forall e, e = fl 2 \/ (exists i j, (i < p_n toy_collision)%nat /\ (j < p_n toy_collision)%nat /\ e = p_zeucl toy_collision i j) -> is_finite e = true ->
     distance64 e /\ fval e <= 8 * fval four) /\
  number (p_delta toy_collision) /\ 0 < fval (p_delta toy_collision) /\ exists s, iter_new toy_collision 4 8 (fl 2) = Ret s.
Proof.
  split; [destruct toy_sound as [A B C D E F G H]; split; auto|]. split; [exact toy_seed|]. split; [destruct toy_behaved; split; auto|]. split; [reflexivity|]. split; [reflexivity|].
  split.
  { intros e He _. assert (Q : exists i j, e = toy_distance i j) by (destruct He as [->|(i & j & _ & _ & ->)]; [exists 4%nat, 8%nat; reflexivity|exists i, j; reflexivity]).
    destruct (toy_distances e Q). split; [right; assumption|assumption]. }
  split; [split; reflexivity|]. split; [cbn [p_delta toy_collision]; rewrite one_half_val; lra|].
  assert (Q : forall f, exists s, iter_new {| p_n := 13; p_ez := 2; p_max_k := 2; p_top_k := 1; p_zeucl := toy_distance; p_zeucl_threshold := below toy_distance;
    p_table := fun _ _ => (toy_hashes, [0; 4; 8; 12]%N); p_failure := f; p_delta := one_half; p_coin := fun _ _ _ => false;
    p_expected := toy_expected; p_setup_cost := fl 1; p_collision_cost := fl 1; p_max_repetitions := 100;
    p_buffer := 4; p_threshold := 7; p_stop := false; p_nan_first := true |} 4 8 (fl 2) = Ret s) by (intros f; eexists; vm_compute; reflexivity).
  apply Q.
Qed.
