(** How likely it is that a pair is returned although a closer one exists (C106). *)
From Coq Require Import Reals Lra.
From Verif Require Import Base F64 HashValue OverlapsSpec EnumSpec BruteSpec RSpec Moves TopK Iterator IteratorSpec
  GuaranteeSpec ScheduleSpec Gauss Collision CollisionSpec CollisionProofs NormalProofs RiskSpec RiskProofs IteratorProofs IteratorLoop IteratorSteps HashProofs HashSpec P_Iterator.
Local Open Scope R_scope.

(** * C106: the probability of returning a pair farther apart than the closest one *)
(** The bytes of the closest pair are equal with a probability [p] not below the one of the
    formula (C104), independently.  Whatever the schedule, and whatever it depends on: *)
Theorem c106_any_schedule :
  forall (x : experiment) (n u v : nat) (D : f64) (p width distance limit : R) (wrong : outcome -> bool),
    0 < width -> 0 <= distance -> collision_probability_at width distance <= p <= 1 -> 0 <= limit ->
    (forall o, In o (outcomes n 8) -> search_of x n u v D o /\ calibrated (x_problem x o) D width distance limit) ->
    (forall o, In o (outcomes n 8) -> wrong o = true -> returns_farther x n D o) ->
    probability p n 8 wrong <= INR (8 + 7 * n) * limit.
Proof.
  intros x n u v D p width distance limit wrong W Dd Hp Hl Hs Hw. pose proof (collision_unit width distance W Dd) as U.
  unfold probability. eapply Rle_trans; [apply (union (weight p) wrong (fun c => never_met (visits c)) (first_confirming width distance limit n)); [intros o; apply weight_nonneg; lra|]|].
  - intros o Ho Wo. destruct (Hs o Ho) as (S & C). destruct (farther_missed x n u v D width distance limit o S C (Hw o Ho Wo)) as (s & s' & _ & Cf & F & M).
    apply (some_first width distance limit n (it_conf s)); assumption.
  - eapply Rle_trans; [apply (total_bound _ _ limit)|].
    + intros c Hc. destruct (first_confirming_ok _ _ _ _ _ Hc) as (Cf & F). eapply Rle_trans; [apply (visits_probability width distance p n c W Dd Hp Cf)|lra].
    + apply Rmult_le_compat_r; [exact Hl|]. apply le_INR, first_confirming_length.
Qed.
Print Assumptions c106_any_schedule.

(** If the schedule is the same for all outcomes: *)
Theorem c106_one_schedule :
  forall (x : experiment) (n u v : nat) (D : f64) (p width distance limit : R) (wrong : outcome -> bool) (plan : nat -> config),
    0 < width -> 0 <= distance -> collision_probability_at width distance <= p <= 1 -> 0 <= limit ->
    (forall o, In o (outcomes n 8) -> search_of x n u v D o /\ calibrated (x_problem x o) D width distance limit) ->
    one_schedule x n plan ->
    (forall o, In o (outcomes n 8) -> wrong o = true -> returns_farther x n D o) ->
    probability p n 8 wrong <= limit.
Proof.
  intros x n u v D p width distance limit wrong plan W Dd Hp Hl Hs (P0 & P1 & P2) Hw. pose proof (collision_unit width distance W Dd) as U.
  assert (Wn : forall o, 0 <= weight p o) by (intros o; apply weight_nonneg; lra).
  assert (H : forall o, In o (outcomes n 8) -> wrong o = true -> exists i, conf_ok (plan i) n /\ confirms width distance limit (plan i) = true /\ never_met (visits (plan i)) o = true).
  { intros o Ho Wo. destruct (Hs o Ho) as (S & C). destruct (farther_missed x n u v D width distance limit o S C (Hw o Ho Wo)) as (s & s' & T & Cf & F & M).
    destruct (P2 o s s' Ho T) as (i & Ei). exists i. rewrite <- Ei. split; [exact Cf|]. split; [|exact M]. unfold confirms. destruct (Rlt_dec _ _); [reflexivity|contradiction]. }
  destruct (existsb wrong (outcomes n 8)) eqn:Ew.
  - apply existsb_exists in Ew. destruct Ew as (o0 & Ho0 & Wo0). destruct (H o0 Ho0 Wo0) as (i0 & Ok0 & C0 & _).
    destruct (least_index (fun i => confirms width distance limit (plan i)) i0 C0) as (j & Lj & Cj & Mj).
    pose proof (plan_ok plan P0 P1 j i0 n Lj Ok0) as Okj.
    assert (Fj : failure_of width distance (plan j) < limit) by (unfold confirms in Cj; destruct (Rlt_dec _ _); [assumption|discriminate]).
    unfold probability. eapply Rle_trans; [apply (union (weight p) wrong (fun c => never_met (visits c)) [plan j] _ Wn)|].
    + intros o Ho Wo. destruct (H o Ho Wo) as (i & _ & Ci & Mi). exists (plan j). split; [left; reflexivity|]. apply (plan_visits plan P0 P1 j i); [apply Mj, Ci|exact Mi].
    + pose proof (visits_probability width distance p n (plan j) W Dd Hp Okj) as V. unfold probability in V. cbn [map]. unfold total at 1. cbn [fold_right]. lra.
  - unfold probability. eapply Rle_trans; [apply (union (weight p) wrong (fun c => never_met (visits c)) [] _ Wn)|cbn; exact Hl].
    intros o Ho Wo. exfalso. assert (existsb wrong (outcomes n 8) = true) by (apply existsb_exists; eauto). congruence.
Qed.
Print Assumptions c106_one_schedule.

(** ** The example: three windows, of which the closest two meet in the first repetition or not *)
Local Close Scope R_scope.
Definition lucky_hashes (met : bool) : list N := [0; if met then 0 else 0x0100000000000000; 0x0200000000000000; 0x0300000000000000]%N.
(** prefix 1 from the start; the first repetition confirms *)
Definition lucky (met : bool) : problem := {|
  p_n := 13; p_ez := 2; p_max_k := 2; p_top_k := 1;
  p_zeucl := toy_distance; p_zeucl_threshold := below toy_distance;
  p_table := fun r _ => (lucky_hashes (if r =? 0 then met else true), [0; 4; 8; 12]%N);
  p_failure := fun _ reps prefix _ _ => if (prefix =? 1) && (1 <=? reps) then f_zero else fl 1;
  p_delta := half; p_coin := fun _ _ _ => true;
  p_expected := [f_inf; fl 2000; half; half; half; half; half; half; half]; p_setup_cost := fl 1; p_collision_cost := fl 1; p_max_repetitions := 100;
  p_buffer := 4; p_threshold := 7; p_stop := false; p_nan_first := true |}.
Definition lucky_experiment : experiment := {|
  x_problem := fun o => lucky (collides_at 1 (nth 0 o []));
  x_first := fun _ => 4; x_second := fun _ => 8; x_extent := fun _ => fl 2 |}.
Definition unlucky (o : outcome) : bool := negb (collides_at 1 (nth 0 o [])).

Lemma lucky_table met : table_ok (lucky_hashes met) [0; 4; 8; 12]%N.
Proof.
  split; [reflexivity|]. split.
  - intros h Hh. unfold is_u64. destruct met; cbn in Hh; intuition (subst; reflexivity).
  - intros i j a b L Hi Hj. destruct met;
    do 4 (destruct i as [|i]; [do 4 (destruct j as [|j]; [cbn in *; injection Hi as <-; injection Hj as <-; lia|]); destruct j; discriminate|]);
    destruct i; discriminate.
Qed.
Lemma lucky_sound met : sound (lucky met).
Proof.
  split.
  - cbn. lia.
  - cbn. lia.
  - intros r k _. split; [apply lucky_table|discriminate].
  - intros r k x i _ H. left. cbn [p_table lucky snd] in H. apply nth_error_In in H. cbn in H. intuition (subst; reflexivity).
  - intros a b t d. apply below_sign. intros i j. destruct (toy_distance_cases i j) as [->|[->|[->| ->]]]; reflexivity.
  - intros i j _. cbn [p_zeucl lucky]. destruct (toy_distance_cases i j) as [->|[->|[->| ->]]]; reflexivity.
  - intros i j _ _ _. cbn [p_zeucl lucky]. destruct (toy_distance_cases i j) as [->|[->|[->| ->]]]; reflexivity.
  - reflexivity.
Qed.
Lemma lucky_exact met : exact_distances (lucky met).
Proof.
  split.
  - intros i j. cbn [p_zeucl lucky]. unfold toy_distance. rewrite (Nat.min_comm i j), (Nat.max_comm i j). reflexivity.
  - intros i j t d. cbn [p_zeucl_threshold p_zeucl lucky]. unfold below. destruct (fle _ t); [|discriminate]. intros E. injection E as <-. reflexivity.
  - intros i j t. cbn [p_zeucl_threshold p_zeucl lucky]. unfold below. intros ->. reflexivity.
Qed.
Lemma lucky_share met k q r : 1 <= q <= 8 -> (r = 0 -> met = true) -> share (p_table (lucky met) r k) q 0 4.
Proof.
  intros Lq Hm. exists 0, 1. cbn [p_table lucky fst snd].
  replace (if r =? 0 then met else true) with true by (destruct (Nat.eqb_spec r 0); [rewrite Hm by assumption|]; reflexivity).
  split; [|split; [|left; split; reflexivity]].
  - split; [lia|]. exists 0%N, 0%N. repeat split.
  - intros (hx & hl & H1 & H2 & A). cbn in H1, H2. injection H1 as <-. injection H2 as <-. specialize (A 0 ltac:(lia)). vm_compute in A. discriminate.
Qed.
Lemma lucky_search o : search_of lucky_experiment 8 0 4 (fl 1) o.
Proof.
  split; cbn [lucky_experiment x_problem x_first x_second x_extent].
  - apply lucky_sound.
  - repeat split; cbn; try lia. unfold too_close. lia.
  - apply lucky_exact.
  - reflexivity.
  - reflexivity.
  - reflexivity.
  - reflexivity.
  - cbn. unfold too_close. lia.
  - intros r k q _ _ Lq C. apply lucky_share; [exact Lq|]. intros ->. apply (collides_longer 1 q); [lia|exact C].
Qed.
Lemma lucky_returns o : unlucky o = true -> returns_farther lucky_experiment 8 (fl 1) o.
Proof.
  intros H. unfold unlucky in H. apply negb_true_iff in H.
  assert (E : exists s, session (lucky false) 4 8 (fl 2) [always] 30 = Ret (s, [Item (Motiflet [4; 8] (fl 2))]) /\ length (it_tables s) = 8)
    by (eexists; split; [vm_compute; reflexivity|vm_compute; reflexivity]).
  destruct E as (s & E & L). unfold returns_farther, lucky_experiment. cbn [x_problem x_first x_second x_extent]. rewrite H.
  exists [always], 30, s, [Item (Motiflet [4; 8] (fl 2))], (Motiflet [4; 8] (fl 2)).
  split; [exact E|]. split; [lia|]. split; [left; reflexivity|]. split; reflexivity.
Qed.
(** bytes are equal with probability at least 199/200 at distance 1 for width 1000 *)
Local Open Scope R_scope.
Lemma wide : 199 / 200 <= collision_probability_at 1000 1 <= 1.
Proof.
  split; [|apply collision_unit; lra]. rewrite collision_shape by lra. replace (1000 / 1) with 1000 by field. unfold shape.
  destruct scale_pos as (S1 & S2). pose proof (Gint_near 1000 ltac:(lra)) as G. pose proof (gauss_pos 1000) as Gp.
  assert (S3 : 2 / sqrt (2 * PI) <= 1).
  { apply (Rmult_le_reg_r (sqrt (2 * PI))); [apply sqrt_lt_R0; pose proof PI_RGT_0; lra|]. unfold Rdiv. rewrite Rmult_assoc, Rinv_l by (pose proof (sqrt_lt_R0 (2 * PI) ltac:(pose proof PI_RGT_0; lra)); lra).
    replace (2 * 1) with (sqrt (2 * 2)) by (rewrite sqrt_square; lra). rewrite Rmult_1_l. apply sqrt_le_1; pose proof PI2_3_2; lra. }
  set (k := 2 / sqrt (2 * PI)) in *. set (z := sqrt (PI / 2)) in *.
  assert (B : z - 5 / 1000 <= Gint 1000 - (1 - gauss 1000) / 1000) by lra.
  assert (C : k * (z - 5 / 1000) <= k * (Gint 1000 - (1 - gauss 1000) / 1000)) by (apply Rmult_le_compat_l; lra). nra.
Qed.
Lemma lucky_calibrated met : calibrated (lucky met) (fl 1) 1000 1 (1 / 100).
Proof.
  intros e reps prefix prev prev_reps _ F. cbn [p_failure p_delta lucky] in F.
  destruct ((prefix =? 1)%nat && (1 <=? reps)%nat)%bool eqn:E; [|vm_compute in F; discriminate]. apply andb_true_iff in E. destruct E as (E1 & E2).
  apply Nat.eqb_eq in E1. apply Nat.leb_le in E2. subst prefix. pose proof wide as W. set (p := collision_probability_at 1000 1) in *. unfold failure_probability. fold p.
  assert (A : forall q m, 0 <= (1 - p ^ q) ^ m <= 1).
  { intros q m. assert (0 <= p ^ q <= 1) by (split; [apply pow_le; lra|rewrite <- (pow1 q); apply pow_incr; lra]). split; [apply pow_le; lra|]. apply Rle_trans with (1 ^ m); [apply pow_incr; lra|rewrite pow1; lra]. }
  assert (B : (1 - p ^ 1) ^ reps <= 1 / 200).
  { destruct reps as [|m]; [lia|]. cbn [pow]. pose proof (A 1%nat m) as A1. cbn [pow] in A1. nra. }
  assert (C : 0 <= match prev with Some prefix => match prev_reps with Some repetitions => (1 - p ^ prefix) ^ (repetitions - reps) | None => 1 end | None => 1 end <= 1)
    by (destruct prev, prev_reps; try lra; apply A).
  pose proof (A 1%nat reps). nra.
Qed.
Local Close Scope R_scope.
(** the prefix cannot become shorter than 1 *)
Definition lucky_plan (i : nat) : config := Config i 1 None None.
Lemma lucky_schedule : one_schedule lucky_experiment 8 lucky_plan.
Proof.
  split; [exists 1; split; [lia|reflexivity]|]. split; [intros i; left; unfold stays_on, lucky_plan; cbn; repeat split; lia|].
  intros o s s' _ (h & fuel & T & _). apply trace_tail in T. cbn [lucky_experiment x_problem x_first x_second x_extent] in T. set (met := collides_at 1 (nth 0 o [])) in *.
  assert (So : seed_ok (lucky met) 4 8 (fl 2)) by (repeat split; cbn; try lia; unfold too_close; lia).
  enough (G : forall h, trace (lucky met) 4 8 (fl 2) h -> exists s l, h = s :: l /\ exists i, it_conf s = lucky_plan i).
  { destruct (G _ T) as (s0 & l & E & H). injection E as <- <-. exact H. }
  clear T h s s' fuel. intros h T. induction T as [s E|s s' l T IH St].
  - exists s, []. split; [reflexivity|]. destruct (new_inv _ _ _ _ s (lucky_sound met) So E) as (_ & _ & _ & _ & _ & _ & p0 & Ep & ->).
    exists 0. vm_compute in Ep. injection Ep as <-. reflexivity.
  - destruct IH as (s0 & l0 & Eq & i & Ei). injection Eq as <- <-. exists s', (s :: l). split; [reflexivity|].
    destruct (trace_inv _ _ _ _ _ (lucky_sound met) So T) as (s0 & l0 & Eq & I). injection Eq as <- <-.
    destruct (step_cases _ _ s s' (lucky_sound met) I St) as (_ & [(_ & f & E)|[(_ & -> & _)| ->]]); [|eauto|eauto].
    destruct (turn_inv _ _ s s' f (lucky_sound met) I E) as (_ & _ & _ & _ & ch & Ec). exists (i + 1). rewrite Ei in Ec. unfold config_move, lucky_plan in Ec. cbn [c_prefix c_rep c_prev c_prev_reps] in Ec.
    destruct (1 <=? _) in Ec; cbn in Ec; [|discriminate]. apply Ret_inj in Ec. symmetry. exact Ec.
Qed.
Local Open Scope R_scope.
(** The first repetition alone confirms; a farther pair is returned exactly if the two closest
    windows do not meet there. *)
Example c106_met : probability (collision_probability_at 1000 1) 8 8 unlucky <= 1 / 100.
Proof.
  pose proof wide. apply (c106_one_schedule lucky_experiment 8 0 4 (fl 1) _ 1000 1 (1 / 100) unlucky lucky_plan); try lra.
  - intros o _. split; [apply lucky_search|apply lucky_calibrated].
  - exact lucky_schedule.
  - intros o _. apply lucky_returns.
Qed.
Example c106_happens : exists o, In o (outcomes 8 8) /\ unlucky o = true /\ returns_farther lucky_experiment 8 (fl 1) o.
Proof.
  exists (repeat (repeat false 8) 8). split; [|split; [reflexivity|apply lucky_returns; reflexivity]].
  unfold outcomes. generalize 8%nat at 2 4. intros n.
  assert (H : forall {A} (l : list A) a n, In a l -> In (repeat a n) (lists_of l n)).
  { intros A l a m Ha. induction m as [|m IH]; [left; reflexivity|]. cbn [lists_of repeat]. apply in_flat_map. exists a. split; [exact Ha|]. apply in_map. exact IH. }
  apply H. apply H. right. left. reflexivity.
Qed.
