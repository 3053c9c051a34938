(** C130: the width given in the environment. *)
From Coq Require Import Reals Lra Lia String Floats.SpecFloat.
From Flocq Require Import Core BinarySingleNaN.
From Verif Require Import Base F64 RSpec RealProofs SortSpec OverlapsSpec EnumSpec Enumerator EnumProofs EstimateProofs SeriesProofs FFT FFTProofs HashSpec HashValue HashProofs Hashing HashingSpec HashingProofs WidthProofs
  Iterator FpOps FloatSeries FloatSpec FloatProofs FloatRoll FloatBound FloatDist FloatDist2 FloatThr FloatErr FloatMean FloatSd FloatVar FloatSum FloatTerm FloatPair FloatProj P_Float P_Float2 P_Acc P_Acc2
  Quantise P_Quantise FloatHash ProjSpec P_Proj P_Hashing P_Acc4 P_Width FloatWidth FloatWidthP P_Width64
  Text TextSpec Decimal DecimalSpec DecimalProofs P_Decimal FloatStart.
Import FpOps.
Local Open Scope R_scope.

(** * C130: a width given in the environment *)
(** The text is a decimal number: the width searched from is the [f64] nearest to it.  If
    that is positive and finite, the index gets the first of its doublings that has collisions
    at the longest prefix, or the program aborts because none has.  What would have been
    computed from the series plays no role. *)
Theorem c130_given :
  forall (z : zeros) (ts : list f64) (w : nat) (precise : bool) (s : fseries) (sdp : list f64 -> nat -> f64) (ez : nat)
         (sort_all : list f64 -> list f64) (sample : list f64)
         (shifts : f64 -> list f64) (vectors : list (list f64)) (arrange : f64 -> list (N * N) -> list (N * N)) (text : list N) (v : R),
    moderate ts -> usable ts w -> fseries_new z ts w precise = Ret s -> (w < length ts)%nat ->
    vectors64_ok vectors w -> eight shifts -> (forall width, sorts (arrange width)) ->
    signed_text text v -> / 2 ^ 1074 <= v < largest ->
    exists width, reads_as width v /\ 0 < fval width /\
    ((exists result j, returns (findex_width (Some text) z sort_all arrange s sdp ez sample shifts vectors) result /\
       number result /\ fval result = fval width * 2 ^ j /\
       (exists c, (0 < c)%nat /\ returns (festimate_for z arrange s sdp ez shifts vectors result) c) /\
       forall i wi, (i < j)%nat -> number wi -> fval wi = fval width * 2 ^ i ->
         returns (festimate_for z arrange s sdp ez shifts vectors wi) 0%nat) \/
     (panics (findex_width (Some text) z sort_all arrange s sdp ez sample shifts vectors) /\
       forall i wi, number wi -> fval wi = fval width * 2 ^ i ->
         returns (festimate_for z arrange s sdp ez shifts vectors wi) 0%nat)).
Proof.
  intros z ts w precise s sdp ez sort_all sample shifts vectors arrange text v Mo U E Hn Hv H8 So S (V1 & V2).
  destruct (signed_parse text v S) as (neg & n & e & P & _). set (width := signed neg (nearest_decimal n e)) in *.
  pose proof (reads text v width S P) as Rd. assert (V0 : 0 < v) by (pose proof (Rinv_0_lt_compat (2 ^ 1074) ltac:(apply pow_lt; lra)); lra).
  assert (Va : Rabs v < largest) by (rewrite Rabs_right; lra). destruct (proj1 Rd Va) as (Nw & Best).
  assert (Pw : 0 < fval width).
  { assert (B : / 2 ^ 1074 = bp (-1074)) by (rewrite pow_powerRZ, <- powerRZ_neg', (bpow_powerRZ radix2 (-1074)); reflexivity). rewrite B in V1.
    destruct (some_f64 (bp (-1074))) as (y & Ny & Vy); [apply fmt_bpow; lia|rewrite Rabs_right by (apply Rle_ge, bpow_ge_0); apply bp_top; lia|].
    specialize (Best y Ny). rewrite Vy in Best. pose proof (bpow_gt_0 radix2 (-1074)) as PB.
    destruct (Rle_lt_dec (fval width) 0) as [C|C]; [|exact C]. exfalso. rewrite (Rabs_left1 (fval width - v)) in Best by lra. rewrite (Rabs_left1 (bp (-1074) - v)) in Best by lra. lra. }
  exists width. split; [exact Rd|]. split; [exact Pw|].
  assert (Eq : forall fuel, findex_width (Some text) z sort_all arrange s sdp ez sample shifts vectors fuel = ffind_width z arrange s sdp ez shifts vectors width fuel).
  { intros fuel. unfold findex_width, fstart_width. rewrite P. reflexivity. }
  unfold returns, panics. destruct (c126_outcome z ts w precise s sdp ez shifts vectors arrange width Mo U E Hn Hv H8 So Nw Pw) as [(result & j & (F & A) & B)|((F & A) & B)].
  - left. exists result, j. split; [exists F; intros m L; rewrite Eq; apply A, L|exact B].
  - right. split; [exists F; intros m L; rewrite Eq; apply A, L|exact B].
Qed.
Print Assumptions c130_given.
(** A text that is not a number, a number that is 0 or below, [inf] and [nan] abort the
    program, as does a number too large. *)
Theorem c130_refused :
  forall (z : zeros) (s : fseries) (sdp : list f64 -> nat -> f64) (ez : nat) (sort_all : list f64 -> list f64) (sample : list f64)
         (shifts : f64 -> list f64) (vectors : list (list f64)) (arrange : f64 -> list (N * N) -> list (N * N)) (text : list N),
    (forall v, signed_text text v -> v <= 0 \/ largest < v) ->
    panics (findex_width (Some text) z sort_all arrange s sdp ez sample shifts vectors).
Proof.
  intros z s sdp ez sort_all sample shifts vectors arrange text H.
  destruct (parse_f64 text) as [x|] eqn:P; [|exists O; intros m _; unfold findex_width, fstart_width; rewrite P; reflexivity].
  assert (Eq : forall fuel, findex_width (Some text) z sort_all arrange s sdp ez sample shifts vectors fuel = ffind_width z arrange s sdp ez shifts vectors x fuel).
  { intros fuel. unfold findex_width, fstart_width. rewrite P. reflexivity. }
  assert (Pa : is_f64 x /\ ~ (number x /\ 0 < fval x)).
  { destruct (parse_inv text x P) as [(word & neg & W)|(v & S)].
    - rewrite (word_parse _ _ _ W) in P. injection P as <-. destruct (list_eq_dec N.eq_dec word (codes "nan")); (split; [vm_compute; try destruct neg; reflexivity|]); intros ((_ & C) & _); discriminate C.
    - pose proof (reads text v x S P) as Rd. destruct (H v S) as [V|V].
      + clear Rd. destruct (signed_parse text v S) as (neg & n & e & P' & Ev). rewrite P in P'. injection P' as ->. pose proof (nval_nonneg n e) as G.
        pose proof (bpow_gt_0 radix2 64) as P64. destruct neg; cbn [signed].
        * destruct (holds_nearest n e) as [(Ny & Vy & Y)|([->|(Ny & Y)] & _)].
          -- destruct (opp_number _ Ny) as (No & Vo). split; [apply No|]. intros (_ & C). rewrite Vo in C. lra.
          -- split; [reflexivity|]. intros ((_ & C) & _). discriminate C.
          -- destruct (opp_number _ Ny) as (No & Vo). split; [apply No|]. intros (_ & C). rewrite Vo in C. lra.
        * assert (Z : nval n e = 0) by lra. destruct (holds_nearest n e) as [(Ny & Vy & Y)|(_ & Y)]; rewrite Z, rnd0 in *; [|lra].
          split; [apply Ny|]. intros (_ & C). lra.
      + rewrite (proj1 (proj2 Rd) V). split; [reflexivity|]. intros ((_ & C) & _). discriminate C. }
  destruct Pa as (Ix & Nx). destruct (c126_positive z s sdp ez shifts vectors arrange x Ix Nx) as (F & A). exists F. intros m L. rewrite Eq. apply A, L.
Qed.
Print Assumptions c130_refused.

(** Without the variable the search starts from the width computed from the series (C126). *)
Theorem c130_unset :
  forall (z : zeros) (s : fseries) (sdp : list f64 -> nat -> f64) (ez : nat) (sort_all : list f64 -> list f64) (sample : list f64)
         (shifts : f64 -> list f64) (vectors : list (list f64)) (arrange : f64 -> list (N * N) -> list (N * N)) (width : f64) (fuel : nat),
    fcompute_width z sort_all s sdp sample = Ret width ->
    findex_width None z sort_all arrange s sdp ez sample shifts vectors fuel = ffind_width z arrange s sdp ez shifts vectors width fuel.
Proof. intros z s sdp ez sort_all sample shifts vectors arrange width fuel E. unfold findex_width, fstart_width. rewrite E. reflexivity. Qed.
Print Assumptions c130_unset.
Example c130_given_case : moderate bump_data /\ usable bump_data 2 /\ fseries_new z_ex bump_data 2 true = Ret bump_series /\ (2 < length bump_data)%nat /\
  vectors64_ok bump_vectors 2 /\ eight no_shifts /\ (forall width : f64, sorts by_hash) /\
  signed_text (codes "0.2e1") (2 / 10 ^ 1 * 10 ^ 1) /\ / 2 ^ 1074 <= 2 / 10 ^ 1 * 10 ^ 1 < largest /\
  findex_width (Some (codes "0.2e1")) z_ex (fun l => l) (fun _ => by_hash) bump_series bump_dot 1 [] no_shifts bump_vectors 30 = Ret f_two.
Proof.
  split; [apply bump_moderate|]. split; [apply bump_usable|]. split; [apply bump_new|]. split; [unfold bump_data, nums; rewrite map_length; cbn; lia|].
  split; [apply bump_vectors_ok|]. split; [intros width; reflexivity|]. split; [intros width; apply by_hash_sorts|]. split.
  { apply no_sign. apply (exponent (codes "0.2") (2 / 10 ^ 1) 101%N [] [1%N]); [apply (point_text [0%N] [2%N])|left; reflexivity|left; reflexivity|]; (split; [discriminate|repeat constructor; vm_compute; reflexivity]). }
  assert (P : 4 <= 2 ^ 1024) by (apply Rle_trans with (2 ^ 2); [lra|apply Rle_pow; [lra|lia]]).
  assert (Q : 4 <= 2 ^ 54) by (apply Rle_trans with (2 ^ 2); [lra|apply Rle_pow; [lra|lia]]).
  assert (I1 : / 2 ^ 54 <= / 4) by (apply Rinv_le; lra).
  assert (T : 4 <= 2 ^ 1074) by (apply Rle_trans with (2 ^ 2); [lra|apply Rle_pow; [lra|lia]]).
  assert (I2 : / 2 ^ 1074 <= / 4) by (apply Rinv_le; lra).
  replace (2 / 10 ^ 1 * 10 ^ 1) with 2 by field. split; [|vm_compute; reflexivity].
  split; [lra|]. unfold largest. generalize dependent (2 ^ 1024). generalize dependent (/ 2 ^ 54). intros a Ha b Hb. apply Rlt_le_trans with (4 * (3 / 4)); [lra|]. apply Rmult_le_compat; lra.
Qed.
Example c130_refused_case : signed_text (codes "-0.5") (- (5 / 10 ^ 1)) /\ (forall v, signed_text (codes "wide") v -> v <= 0 \/ largest < v) /\
  (forall v, signed_text (codes "inf") v -> v <= 0 \/ largest < v) /\ parse_f64 (codes "inf") = Some f_inf.
Proof.
  assert (G : forall t, (forall x, parse_f64 t <> Some x) -> forall v, signed_text t v -> v <= 0 \/ largest < v).
  { intros t H v S. destruct (signed_parse t v S) as (neg & n & e & P & _). destruct (H _ P). }
  split. { apply (minus_sign (codes "0.5")), no_exponent, (point_text [0%N] [5%N]). split; [discriminate|repeat constructor; vm_compute; reflexivity]. }
  split; [apply G; vm_compute; discriminate|]. split; [|reflexivity].
  intros v S. exfalso. pose proof (signed_chars _ _ S) as F. apply Forall_inv in F. vm_compute in F. destruct F as [F|F]; [discriminate F|discriminate F].
Qed.
Example c130_unset_case : exists width, fcompute_width z_ex (isort (total_leb true)) bump_series bump_dot (nums [1; 0]%nat) = Ret width /\
  exists result, findex_width None z_ex (isort (total_leb true)) (fun _ => by_hash) bump_series bump_dot 1 (nums [1; 0]%nat) no_shifts bump_vectors 40 = Ret result /\ flt f_zero result = true.
Proof. eexists. split; [vm_compute; reflexivity|]. eexists. split; vm_compute; reflexivity. Qed.
