(** Property theorems C134, continued: the cost of a collision, and what becomes of the search
    when none was measured.  Specification: ScheduleSpec.v, IteratorSpec.v.  Model: Calibrate.v,
    Iterator.v. *)
From Coq Require Import Reals Lra Floats.SpecFloat.
From Flocq Require Import Core IEEE754.BinarySingleNaN.
From Verif Require Import Base F64 F64Arith HashValue HashSpec HashProofs OverlapsSpec Enumerator EnumSpec EnumProofs Moves
  TopK Graph Profile Iterator IteratorSpec IteratorProofs IteratorLoop IteratorCalls IteratorSteps P_Iterator P_Iterator2
  GuaranteeSpec GuaranteeProofs GuaranteeTrace P_Guarantee ScheduleSpec P_Schedule FpOps Calibrate P_Enum P_Calibrate.

Lemma of_N_nat n : f_of_N n = f_of_nat (N.to_nat n).
Proof. unfold f_of_N, f_of_nat. rewrite N_nat_Z. reflexivity. Qed.

(** The seconds [elapsed] and [setup] are what a clock gives: finite and not negative.  If
    distances were computed, the cost is the time of one of them, correctly rounded; if none
    was, the cost is infinite, or the calibration aborts when the clock shows no time. *)
Theorem c134_cost :
  forall (elapsed setup : f64) (samples : N),
    number elapsed -> (0 <= fval elapsed)%R -> number setup -> (samples <= 2 ^ 53)%N ->
    ((0 < samples)%N -> exists cost, cost_of elapsed setup samples = Ret cost /\ number cost /\
       fval cost = rnd (fval elapsed / INR (N.to_nat samples))) /\
    (samples = 0%N -> (0 < fval elapsed)%R -> cost_of elapsed setup samples = Ret f_inf) /\
    (samples = 0%N -> fval elapsed = 0%R -> cost_of elapsed setup samples = Panic).
Proof.
  intros elapsed setup samples Ne Pe (_ & Fs) L. assert (Ns : is_nan setup = false) by (destruct setup; try discriminate Fs; reflexivity).
  split; [|split].
  - intros P. destruct (of_nat_exact (N.to_nat samples)) as (Nn & En); [lia|].
    assert (P1 : (1 <= INR (N.to_nat samples))%R) by (change 1%R with (INR 1); apply le_INR; lia).
    unfold cost_of. rewrite of_N_nat, Ns.
    destruct (fdiv_val elapsed (f_of_nat (N.to_nat samples)) Ne Nn) as (Nq & Eq); [lra| |].
    { rewrite En. apply Rle_lt_trans with (Rabs (fval elapsed)).
      - apply rnd_abs_le.
        + apply generic_format_abs. apply fmt_val, Ne.
        + unfold Rdiv. rewrite Rabs_mult. rewrite <- (Rmult_1_r (Rabs (fval elapsed))) at 2. apply Rmult_le_compat_l; [apply Rabs_pos|].
          rewrite Rabs_pos_eq by (left; apply Rinv_0_lt_compat; lra). rewrite <- Rinv_1. apply Rinv_le_contravar; lra.
      - destruct (to_B elapsed (proj1 Ne)) as (eb & <-). rewrite fval_B. apply abs_B2R_lt_emax. }
    exists (fdiv elapsed (f_of_nat (N.to_nat samples))). rewrite En in Eq. split; [|auto].
    destruct Nq as (_ & Fq). destruct (fdiv _ _); try discriminate Fq; reflexivity.
  - intros -> P. unfold cost_of. rewrite Ns. change (f_of_N 0) with (S754_zero false). destruct Ne as (_ & Fe).
    destruct elapsed as [[]|[]| |[] m e]; try discriminate Fe; cbn [fdiv SFdiv xorb]; try reflexivity.
    + exfalso. cbn in P. lra.
    + exfalso. cbn in P. lra.
    + exfalso. revert P. apply Rle_not_lt. apply F2R_le_0. cbn. lia.
  - intros -> E. unfold cost_of. change (f_of_N 0) with (S754_zero false). destruct Ne as (_ & Fe).
    destruct elapsed as [[]|[]| |[] m e]; try discriminate Fe; try reflexivity; exfalso; revert E.
    + apply Rlt_not_eq. apply F2R_lt_0. cbn. lia.
    + apply Rgt_not_eq. apply F2R_gt_0. cbn. lia.
Qed.
Print Assumptions c134_cost.

(** ** With an infinite cost *)
Lemma all_infinite p d s have e q x : well_behaved p d -> p_collision_cost p = f_inf ->
  (forall c, nth_error (p_expected p) q = Some c -> flt f_zero c = true) -> q <= s -> costs p have e q x -> x = f_inf.
Proof.
  intros W Ci Pos _ (n & c & Ch & E & [(_ & ->)|(L & ->)]); [reflexivity|]. rewrite Ci.
  assert (N1 : 1 <= n) by (destruct Ch as [(r & -> & _)|(En & _)]; lia).
  pose proof (wb_repetitions _ _ W). destruct (wb_setup _ _ W) as (S0 & S1). specialize (Pos c E).
  replace (SFmul 53 1024 f_inf c) with (SFmul 53 1024 c f_inf) by (destruct c as [[]|[]| |[]]; reflexivity).
  apply cost_infinite; auto; lia.
Qed.

Lemma new_prefix p a b d s : iter_new p a b d = Ret s -> first_meaningful_prefix (p_expected p) = Ret (c_prefix (it_conf s)).
Proof.
  unfold iter_new. intros E.
  destruct (add_repetitions p [] 1 K) as [t1| |]; cbn [bind] in E; try discriminate E.
  destruct (add_repetitions p t1 INITIAL_REPETITIONS K) as [t2| |]; cbn [bind] in E; try discriminate E.
  destruct (calibration_prefix (p_expected p)); cbn [bind] in E; try discriminate E.
  destruct (first_meaningful_prefix (p_expected p)) as [p0| |]; cbn [bind] in E; try discriminate E.
  destruct (0 <? p0); cbn [assert_] in E; [|discriminate E].
  repeat (match type of E with (let! _ := ?e in _) = Ret _ => destruct e; cbn [bind] in E; try discriminate E end).
  apply Ret_inj in E. subst s. reflexivity.
Qed.

(** If no pair was measured, so that the cost of a collision is infinite, the search stays at
    its first prefix for ever: turn after turn it goes to the next repetition, which is added
    to the index, even beyond the number of repetitions that fits in the memory given. *)
Theorem c134_never_shorter :
  forall (p : problem) (a b : nat) (d : f64) (s : iter) (h : list iter) (p0 : nat),
    sound p -> seed_ok p a b d -> well_behaved p d -> p_collision_cost p = f_inf ->
    first_meaningful_prefix (p_expected p) = Ret p0 ->
    (forall q c, q <= p0 -> nth_error (p_expected p) q = Some c -> flt f_zero c = true) ->
    trace p a b d (s :: h) ->
    c_prefix (it_conf s) = p0 /\ c_prev (it_conf s) = None /\
    forall s', turn_of p a b d s s' -> c_rep (it_conf s') = c_rep (it_conf s) + 1 /\ c_rep (it_conf s') < length (it_tables s').
Proof.
  intros p a b d s h p0 Sd So W Ci F Pos T.
  assert (Turn : forall s s', turn_of p a b d s s' -> c_prefix (it_conf s) = p0 -> stays_on (it_conf s) (it_conf s')).
  { intros s1 s2 Tn Ep.
    assert (Co : forall q x e, q <= c_prefix (it_conf s1) -> costs p (length (it_tables s1)) e q x -> x = f_inf).
    { intros q x e L C. apply (all_infinite p d q (length (it_tables s1)) e q x W Ci); [intros c; apply Pos; lia|lia|exact C]. }
    destruct (c88_schedule p a b d s1 s2 Sd So (wb_delta _ _ W) Tn) as ([St|Dn] & Iff); [|exact St|].
    - intros q x e L _ C. rewrite (Co q x e L C). auto.
    - exfalso. apply Iff in Dn. destruct Dn as (_ & x & Ex & [(_ & Sh)|(Fx & _)]).
      + destruct Sh as (q & y & z & L & Cy & _ & Iy & _). rewrite (Co q y x ltac:(lia) Cy) in Iy. discriminate Iy.
      + destruct Tn as (h1 & fl & T1 & _). destruct (trace_inv p a b d _ Sd So T1) as (sx & lx & Eq & I). injection Eq as <- <-.
        rewrite (next_is_finite p a b d s2 x W I Ex) in Fx. discriminate Fx. }
  assert (G : forall l, trace p a b d l -> forall s h, l = s :: h -> c_prefix (it_conf s) = p0 /\ c_prev (it_conf s) = None).
  { clear s h T. intros l T. induction T as [s1 E|s1 s2 l T IH St]; intros s h El; injection El as <- <-.
    - pose proof (new_prefix p a b d s1 E) as Np. rewrite F in Np. apply Ret_inj in Np. split; [symmetry; exact Np|].
      unfold iter_new in E. destruct (add_repetitions p [] 1 K) as [t1| |]; cbn [bind] in E; try discriminate E.
      destruct (add_repetitions p t1 INITIAL_REPETITIONS K) as [t2| |]; cbn [bind] in E; try discriminate E.
      destruct (calibration_prefix (p_expected p)); cbn [bind] in E; try discriminate E. rewrite F in E. cbn [bind] in E.
      destruct (0 <? p0); cbn [assert_] in E; [|discriminate E].
      repeat (match type of E with (let! _ := ?e in _) = Ret _ => destruct e; cbn [bind] in E; try discriminate E end).
      apply Ret_inj in E. subst s1. reflexivity.
    - destruct (IH s1 l eq_refl) as (P1 & P2). pose proof St as St'. destruct (trace_inv p a b d _ Sd So T) as (sx & lx & Eq & I). injection Eq as <- <-.
      destruct St as (go & fuel & [B|(x & B)]).
      + destruct (loop_body_inl _ _ _ _ _ B) as (-> & _). assert (Tn : turn_of p a b d s1 s2) by (exists l, fuel; split; [constructor; assumption|exact B]).
        destruct (Turn s1 s2 Tn P1) as (_ & Q1 & Q2 & _). rewrite Q1, Q2. auto.
      + pose proof (loop_body_cases p _ s1 go fuel _ Sd I B) as C. destruct x as [|m|]; cbn beta iota in C.
        * destruct C as (-> & _). auto.
        * destruct C as (_ & _ & _ & _ & Ec). rewrite Ec. auto.
        * destruct C as (_ & _ & _ & _ & _ & Ec & _). rewrite Ec. auto. }
  destruct (G _ T s h eq_refl) as (P1 & P2). split; [exact P1|]. split; [exact P2|]. intros s' Tn.
  destruct (Turn s s' Tn P1) as (Q & _). split; [exact Q|].
  destruct Tn as (h1 & fl & T1 & _). destruct (trace_inv p a b d _ Sd So T1) as (sx & lx & Eq & I). injection Eq as <- <-.
  apply (inv_conf _ _ _ I).
Qed.
Print Assumptions c134_never_shorter.

(** ** An index for which nothing is measured: two windows share all eight bytes, so that the
    quantisation width is accepted; at seven bytes there is only one bucket, which is the last. *)
Definition crowd_hashes : list N := [1; 1]%N ++ map N.of_nat (seq 2 60).
Definition crowd_indices : list N := map N.of_nat (seq 0 62).
Definition crowd_profile : list f64 := f_inf :: map (fun c => f_of_Z c) [1891; 1891; 1891; 1891; 1891; 1891; 1891; 1]%Z.

Lemma crowd_ok : table_ok crowd_hashes crowd_indices.
Proof.
  split; [reflexivity|]. split.
  - intros h Hh. unfold is_u64. apply in_app_or in Hh as [Hh|Hh]; [cbn in Hh; intuition (subst; reflexivity)|].
    apply in_map_iff in Hh as (k & <- & Hk). apply in_seq in Hk. lia.
  - assert (G : forallb (fun ij => let '(i, j) := ij in match nth_error crowd_hashes i, nth_error crowd_hashes j with Some a, Some b => negb (i <=? j) || (a <=? b)%N | _, _ => true end)
        (list_prod (seq 0 62) (seq 0 62)) = true) by (vm_compute; reflexivity).
    intros i j a b L Ea Eb. rewrite forallb_forall in G. specialize (G (i, j)). cbv beta iota in G. rewrite Ea, Eb in G.
    assert (Li : i < length crowd_hashes) by (apply nth_error_Some; congruence). assert (Lj : j < length crowd_hashes) by (apply nth_error_Some; congruence).
    change (length crowd_hashes) with 62 in *. specialize (G ltac:(apply in_prod; apply in_seq; lia)).
    apply orb_prop in G as [G|G]; [apply negb_true_iff, Nat.leb_gt in G; lia|apply N.leb_le, G].
Qed.

(** the index accepts this table, and its profile has more than 1000 collisions at seven
    bytes; yet no distance is computed, whatever the series and the exclusion zone *)
Theorem c134_some_measured_refuted :
  exists (hashes indices : list N) (ez : nat) (profile : list f64),
    table_ok hashes indices /\ NoDup indices /\
    (exists s n, enum_new 100 hashes indices 8 None = Ret s /\ estimate_num_collisions 100 ez s = Ret n /\ 0 < n) /\
    (exists counts, collision_profile_at hashes indices ez 100 = Ret counts /\ profile = f_inf :: map (fun c => f_of_Z c) counts) /\
    calibration_prefix profile = Ret 7 /\
    (forall distance, returns (calibrate distance hashes indices ez 7) 0%N) /\
    (forall distance elapsed setup, number elapsed -> number setup -> (0 < fval elapsed)%R ->
       returns (collision_cost_of distance hashes indices ez profile elapsed setup) (0%N, f_inf)) /\
    (forall distance setup, number setup -> panics (collision_cost_of distance hashes indices ez profile (S754_zero false) setup)).
Proof.
  exists crowd_hashes, crowd_indices, 1, crowd_profile.
  assert (C : forall distance, calibrate distance crowd_hashes crowd_indices 1 7 100 = Ret 0%N).
  { intros distance. unfold calibrate.
    assert (E : exists s, enum_new 100 crowd_hashes crowd_indices 7 None = Ret s /\ enum_next 100 calibration_buffer 1 true s = Ret (s, None)).
    { eexists. split; [vm_compute; reflexivity|]. unfold enum_next. generalize calibration_buffer. intros cb. cbn [loop]. vm_compute. reflexivity. }
    destruct E as (s & -> & E). cbn [bind]. unfold measure_all. cbn [loop]. rewrite E. reflexivity. }
  assert (M : forall distance elapsed setup, fmono (collision_cost_of distance crowd_hashes crowd_indices 1 crowd_profile elapsed setup)).
  { intros distance elapsed setup. unfold collision_cost_of. apply (fmono_bind (fun f => calibration_prefix crowd_profile)); [apply fmono_const|]. intros q.
    apply (fmono_bind (fun f => calibrate distance crowd_hashes crowd_indices 1 q f)); [apply calibrate_mono|]. intros n. apply fmono_const. }
  split; [exact crowd_ok|]. split; [apply FinFun.Injective_map_NoDup; [intros x y E; lia|apply seq_NoDup]|].
  split; [eexists; eexists; split; [vm_compute; reflexivity|]; split; [vm_compute; reflexivity|lia]|].
  split; [eexists; split; [vm_compute; reflexivity|reflexivity]|]. split; [vm_compute; reflexivity|].
  split; [intros distance; apply (fmono_returns _ 100); [apply calibrate_mono|apply C]|]. split.
  - intros distance elapsed setup Ne Ns Pe. apply (fmono_returns _ 100); [apply M|]. unfold collision_cost_of.
    change (calibration_prefix crowd_profile) with (Ret 7). cbn [bind]. rewrite C. cbn [bind].
    rewrite (proj1 (proj2 (c134_cost elapsed setup 0 Ne (Rlt_le _ _ Pe) Ns ltac:(lia))) eq_refl Pe). reflexivity.
  - intros distance setup Ns. apply (fmono_panics _ 100); [apply M|]. unfold collision_cost_of.
    change (calibration_prefix crowd_profile) with (Ret 7). cbn [bind]. rewrite C. reflexivity.
Qed.
Print Assumptions c134_some_measured_refuted.

(** the toy search, but nothing can be confirmed at prefix 6 and the cost is infinite: after
    twenty turns it is still at prefix 6, with 21 repetitions, where [toy_hard] left it after
    eight; only six repetitions fit in the memory *)
Definition toy_stuck : problem := {|
  p_n := 13; p_ez := 2; p_max_k := 3; p_top_k := 1;
  p_zeucl := toy_distance; p_zeucl_threshold := below toy_distance;
  p_table := fun _ _ => (toy_hashes, [0; 4; 8; 12]%N);
  p_failure := fun _ reps prefix _ _ => if (prefix <? 6) && (3 <=? reps) then f_zero else fl 1;
  p_delta := half; p_coin := fun _ _ _ => true;
  p_expected := toy_expected; p_setup_cost := fl 1; p_collision_cost := f_inf; p_max_repetitions := 6;
  p_buffer := 4; p_threshold := 7; p_stop := false; p_nan_first := true |}.
Example c134_never_shorter_case : sound toy_stuck /\ seed_ok toy_stuck 4 8 (fl 2) /\ well_behaved toy_stuck (fl 2) /\
  p_collision_cost toy_stuck = f_inf /\ first_meaningful_prefix (p_expected toy_stuck) = Ret 6 /\
  (forall q c, q <= 6 -> nth_error (p_expected toy_stuck) q = Some c -> flt f_zero c = true) /\
  exists s h, trace toy_stuck 4 8 (fl 2) (s :: h) /\ c_prefix (it_conf s) = 6 /\ c_rep (it_conf s) = 20 /\ length (it_tables s) = 21.
Proof.
  split; [destruct toy_sound; split; assumption|]. split; [exact toy_seed|]. split; [destruct toy_behaved; split; auto; reflexivity|].
  split; [reflexivity|]. split; [vm_compute; reflexivity|]. split.
  - intros q c L E. do 7 (destruct q as [|q]; [cbn in E; injection E as <-; vm_compute; reflexivity|]). lia.
  - assert (E : exists s0 s, iter_new toy_stuck 4 8 (fl 2) = Ret s0 /\ nth_state toy_stuck 20 s0 = Ret s /\ c_prefix (it_conf s) = 6 /\ c_rep (it_conf s) = 20 /\ length (it_tables s) = 21).
    { eexists. eexists. split; [vm_compute; reflexivity|]. split; [vm_compute; reflexivity|]. repeat split. }
    destruct E as (s0 & s & E0 & E & R). destruct (nth_trace _ _ _ _ _ E0 20 s E) as (h & T). exists s, h. auto.
Qed.
Example c134_cost_case : cost_of (fl 3) (fl 1) 2 = Ret (SFdiv 53 1024 (fl 3) (fl 2)) /\ cost_of (fl 3) (fl 1) 0 = Ret f_inf /\
  cost_of (S754_zero false) (fl 1) 0 = Panic /\ cost_of (S754_zero false) (fl 1) 2 = Ret (S754_zero false).
Proof. vm_compute. auto. Qed.
