(** C42, C43, C44: collision and failure probabilities. *)
From Coq Require Import Reals Lra.
From Coquelicot Require Import Coquelicot.
From Verif Require Import Base RSpec Gauss Collision CollisionSpec CollisionProofs.
Local Open Scope R_scope.

(** * C44 *)
Theorem c44_between : forall width d, 0 < width -> 0 < d -> 0 < collision_probability_at width d < 1.
Proof. exact collision_bounds. Qed.
Print Assumptions c44_between.

Theorem c44_decreasing : forall width d d', 0 < width -> 0 < d -> d < d' ->
  collision_probability_at width d' < collision_probability_at width d.
Proof. exact collision_decreasing. Qed.
Print Assumptions c44_decreasing.

(** The distribution function in the formula is the integral of the normal density: it
    has that density as its derivative, and the value 1/2 at 0. *)
Theorem c44_normal_distribution : normal_cdf 0 = / 2 /\
  forall x, is_derive normal_cdf x (exp (- (x * x) / 2) / sqrt (2 * PI)).
Proof.
  assert (E : forall x, normal_cdf x = / 2 - / sqrt (2 * PI) * Gint (- x)) by (intros x; rewrite <- normal_cdf_gauss; f_equal; lra).
  split; [rewrite E, Ropp_0, Gint_0; lra|]. intros x.
  apply (is_derive_ext (fun x => / 2 - / sqrt (2 * PI) * Gint (- x))); [intros t; symmetry; apply E|].
  replace (exp (- (x * x) / 2) / sqrt (2 * PI)) with (0 - / sqrt (2 * PI) * (-1 * gauss (- x))).
  - apply (is_derive_minus (fun _ => / 2) (fun x => / sqrt (2 * PI) * Gint (- x)) x); [apply (is_derive_const (/ 2) x)|].
    apply (is_derive_scal (fun x => Gint (- x)) x). apply (is_derive_comp Gint (fun x => - x) x); [apply Gint_derive|]. auto_derive; [exact I|ring].
  - unfold gauss. replace (- x * - x) with (x * x) by ring. unfold Rdiv. ring.
Qed.
Print Assumptions c44_normal_distribution.

(** A width and two distances *)
Example c44_between_nonvacuous : 0 < collision_probability_at 4 2 < 1 /\ collision_probability_at 4 3 < collision_probability_at 4 2.
Proof. split; [apply c44_between|apply c44_decreasing]; lra. Qed.

(** * C42 *)
Theorem c42_probability : forall width d reps prefix prev prev_reps, 0 < width -> 0 <= d ->
  0 <= failure_probability width d reps prefix prev prev_reps <= 1.
Proof. intros width d reps prefix prev prev_reps Hw Hd. exact (fail_unit _ reps prefix prev prev_reps (collision_unit width d Hw Hd)). Qed.
Print Assumptions c42_probability.

(** More repetitions at the current prefix, which is not longer than the previous one *)
Theorem c42_repetitions : forall width d reps reps' prefix prev prev_reps, 0 < width -> 0 <= d ->
  (forall q, prev = Some q -> (prefix <= q)%nat) -> (reps <= reps')%nat ->
  failure_probability width d reps' prefix prev prev_reps <= failure_probability width d reps prefix prev prev_reps.
Proof. intros width d reps reps' prefix prev prev_reps Hw Hd Hq L. exact (fail_reps _ reps reps' prefix prev prev_reps (collision_unit width d Hw Hd) Hq L). Qed.
Print Assumptions c42_repetitions.

Theorem c42_distance : forall width d d' reps prefix prev prev_reps, 0 < width -> 0 <= d -> d <= d' ->
  failure_probability width d reps prefix prev prev_reps <= failure_probability width d' reps prefix prev prev_reps.
Proof.
  intros width d d' reps prefix prev prev_reps Hw Hd L. assert (Hd' : 0 <= d') by lra.
  exact (fail_p _ _ reps prefix prev prev_reps (proj1 (collision_unit width d' Hw Hd')) (collision_antitone width d d' Hw Hd L) (proj2 (collision_unit width d Hw Hd))).
Qed.
Print Assumptions c42_distance.

(** A confirmed distance confirms every smaller one *)
Theorem c42_confirms_smaller : forall width d d' reps prefix prev prev_reps delta, 0 < width -> 0 <= d' -> d' <= d ->
  failure_probability width d reps prefix prev prev_reps < delta -> failure_probability width d' reps prefix prev prev_reps < delta.
Proof. intros width d d' reps prefix prev prev_reps delta Hw H0 L H. pose proof (c42_distance width d' d reps prefix prev prev_reps Hw H0 L). lra. Qed.
Print Assumptions c42_confirms_smaller.

(** The costs: one entry per prefix.  A finite cost comes with a number of repetitions that
    suffices, less than the maximum and at most one more than necessary. *)
Theorem c42_costs : forall st max_prefix width d delta index_repetitions, 0 < width -> 0 <= d ->
  (max_prefix < length (expected_collisions st))%nat ->
  exists costs, returns (fun fuel => costs_to_confirm fuel st max_prefix width d delta index_repetitions) costs /\
    length costs = S max_prefix /\
    (forall prefix nreps, nth_error costs prefix = Some (None, nreps) ->
       nreps = max_repetitions st /\
       forall reps, (reps + 2 <= nreps)%nat -> delta < failure_probability width d reps prefix None None) /\
    (forall prefix cost nreps, nth_error costs prefix = Some (Some cost, nreps) ->
       (nreps <= max_repetitions st)%nat /\
       failure_probability width d nreps prefix None None <= delta /\
       (forall reps, (reps + 2 <= nreps)%nat -> delta < failure_probability width d reps prefix None None) /\
       exists collisions, nth_error (expected_collisions st) prefix = Some collisions /\
         cost = INR nreps * (collision_cost st * collisions + repetition_setup_cost st * INR (nreps - index_repetitions))).
Proof.
  intros st max_prefix width d delta ir Hw Hd HL. destruct (costs_ok st max_prefix width d delta ir Hw Hd HL) as (costs & Ef & El & Hs).
  exists costs. split; [exists (S (max_repetitions st)); intros n Hn; apply Ef; lia|]. split; [exact El|]. split.
  - intros prefix n E. destruct (Hs prefix _ E) as (c & _ & H1 & H2 & H3 & _). cbn [fst snd] in *. split; [apply H3; reflexivity|exact H2].
  - intros prefix cost n E. destruct (Hs prefix _ E) as (c & Ec & H1 & H2 & _ & H4). cbn [fst snd] in *. destruct (H4 cost eq_refl) as (H5 & H6).
    split; [exact H1|]. split; [exact H5|]. split; [exact H2|]. exists c. split; [exact Ec|exact H6].
Qed.
Print Assumptions c42_costs.

(** Three prefixes, confirming distance 1/2 at failure probability 1/10 *)
Definition three_prefixes : stats := Stats [3; 2; 1] 1 1 10.
Example c42_costs_nonvacuous : exists costs,
  returns (fun fuel => costs_to_confirm fuel three_prefixes 2 4 (1/2) (1/10) 3) costs /\ length costs = 3%nat /\
  nth_error costs 0 = Some (Some 6, 2%nat).
Proof.
  destruct (c42_costs three_prefixes 2 4 (1/2) (1/10) 3) as (costs & E & L & HN & HS); [lra|lra|cbn; lia|].
  exists costs. split; [exact E|]. split; [exact L|].
  assert (F : forall n, failure_probability 4 (1/2) (S n) 0 None None = 0) by (intros n; unfold failure_probability; cbn [pow]; ring).
  destruct (nth_error costs 0) as [([c|], n)|] eqn:En; [|exfalso|apply nth_error_None in En; lia].
  - destruct (HS 0%nat c n En) as (H1 & H2 & H3 & col & Ec & ->). cbn in Ec. injection Ec as <-.
    destruct n as [|[|[|n]]].
    + unfold failure_probability in H2. cbn [pow] in H2. lra.
    + exfalso. destruct E as (n0 & E). specialize (E (S (n0 + 20)) ltac:(lia)). unfold costs_to_confirm in E. cbn [assert_ length expected_collisions three_prefixes Nat.leb] in E.
      cbn [seq firstn combine foreach] in E. unfold cost_to_confirm at 1 in E. cbn [max_repetitions three_prefixes] in E. rewrite !Nat.add_succ_r in E. cbn [loop] in E. clear HN HS.
      destruct (Rlt_dec (1/10) 1); [|lra]. cbn [andb Nat.ltb Nat.leb] in E.
      replace (failure_probability 4 (1 / 2) 0 0 None None) with 1 in E by (unfold failure_probability; cbn [pow]; ring).
      destruct (Rlt_dec (1/10) 1); [|lra]. cbn [andb Nat.ltb Nat.leb] in E. rewrite F in E. destruct (Rlt_dec (1/10) 0); [lra|]. cbn [andb Nat.leb bind] in E.
      destruct (cost_to_confirm _ _ _ _ _ _ 1 _) in E; [|discriminate E|discriminate E]. cbn [bind] in E. destruct (cost_to_confirm _ _ _ _ _ _ 2 _) in E; [|discriminate E|discriminate E]. cbn [bind app] in E.
      apply Ret_inj in E. subst costs. cbn in En. injection En as _ En. discriminate En.
    + cbn [three_prefixes collision_cost repetition_setup_cost Nat.sub INR]. do 3 f_equal. ring.
    + specialize (H3 1%nat ltac:(lia)). rewrite F in H3. lra.
  - destruct (HN 0%nat n En) as (-> & H). specialize (H 1%nat ltac:(cbn; lia)). rewrite F in H. lra.
Qed.
Example c42_nonvacuous : 0 <= failure_probability 4 2 5 3 (Some 4%nat) (Some 9%nat) <= 1 /\
  failure_probability 4 2 6 3 (Some 4%nat) (Some 9%nat) <= failure_probability 4 2 5 3 (Some 4%nat) (Some 9%nat) /\
  failure_probability 4 1 5 3 (Some 4%nat) (Some 9%nat) <= failure_probability 4 2 5 3 (Some 4%nat) (Some 9%nat).
Proof.
  split; [apply c42_probability; lra|]. split; [apply c42_repetitions; [lra|lra|intros q E; injection E as <-; lia|lia]|apply c42_distance; lra].
Qed.

(** * C43 *)
(** The iterator has visited the first [prev_reps] repetitions at the previous, longer
    prefix, then the first [reps] repetitions at the current prefix.  Before that it may have
    visited some of these repetitions at still longer prefixes. *)
Theorem c43_previous_prefix : forall width d reps prefix prev_reps prev earlier n k,
  (reps <= n)%nat -> (prev_reps <= n)%nat -> (prefix <= prev)%nat -> (prev <= k)%nat ->
  (forall repetition longer, In (repetition, longer) earlier -> (repetition < prev_reps)%nat /\ (prev <= longer)%nat) ->
  failure_probability width d reps prefix (Some prev) (Some prev_reps) =
  probability (collision_probability_at width d) n k (never_met (earlier ++ pass prev_reps prev ++ pass reps prefix)).
Proof.
  intros width d reps prefix prev_reps prev earlier n k L1 L2 L3 L4 He. symmetry. apply (missed_probability _ reps prefix prev_reps prev n k); try lia.
  intros o _. apply never_met_rows; assumption.
Qed.
Print Assumptions c43_previous_prefix.

Theorem c43_first_prefix : forall width d reps prefix n k, (reps <= n)%nat -> (prefix <= k)%nat ->
  failure_probability width d reps prefix None None =
  probability (collision_probability_at width d) n k (never_met (pass reps prefix)).
Proof.
  intros width d reps prefix n k L1 L2. symmetry.
  rewrite (missed_probability _ reps prefix 0 prefix n k) by (try lia; intros o _; apply (never_met_rows [] reps prefix 0 prefix n o); try lia; intros r q []).
  reflexivity.
Qed.
Print Assumptions c43_first_prefix.

(** It is a probability space: the weights of the outcomes are not negative and add up to 1 *)
Theorem c43_space : forall p n k, 0 <= p <= 1 ->
  (forall outcome, 0 <= weight p outcome) /\ probability p n k (fun _ => true) = 1.
Proof.
  intros p n k Hp. split.
  - intros o. unfold weight. induction (concat o) as [|b l IH]; cbn [map fold_right]; [lra|]. apply Rmult_le_pos; [destruct b; lra|exact IH].
  - rewrite (missed_probability p 0 0 0 0 n k) by (try lia; intros o _; symmetry; apply forallb_forall; reflexivity). cbn [pow Nat.sub]. ring.
Qed.
Print Assumptions c43_space.

(** Two repetitions of two bytes each, both visited at prefix 2, then the first at prefix 1 *)
Example c43_nonvacuous : length (outcomes 2 2) = 16%nat /\
  filter (fun o => negb (never_met (pass 2 2 ++ pass 1 1) o)) (outcomes 2 2) <> [] /\
  failure_probability 4 2 1 1 (Some 2%nat) (Some 2%nat) = probability (collision_probability_at 4 2) 2 2 (never_met (pass 2 2 ++ pass 1 1)).
Proof.
  split; [reflexivity|]. split; [discriminate|]. apply (c43_previous_prefix 4 2 1 1 2 2 [] 2 2); try lia. intros r q [].
Qed.
