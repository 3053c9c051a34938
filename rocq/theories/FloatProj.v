(** The projection of a z-normalised window, computed from its dot product and its recorded
    mean and deviation. *)
From Coq Require Import Reals Lra Lia Floats.SpecFloat.
From Flocq Require Import Core Relative Plus_error BinarySingleNaN.
From Verif Require Import Base F64 RSpec RealProofs SeriesProofs FFTProofs Iterator FpOps FloatSeries FloatProofs FloatRoll FloatBound FloatDist FloatDist2 FloatThr FloatErr FloatMean FloatSd FloatSum FloatTerm FloatPair.
Local Open Scope R_scope.

(** ** The roundings *)
Lemma mul_up x y c : 0 <= c -> x <= y -> c * x <= c * y.
Proof. intros; apply Rmult_le_compat_l; assumption. Qed.
Lemma tri3 a b c : Rabs (a + b + c) <= Rabs a + Rabs b + Rabs c.
Proof. eapply Rle_trans; [apply Rabs_triang|]. pose proof (Rabs_triang a b). lra. Qed.
Lemma near_abs x y d : Rabs (x - y) <= d -> Rabs x <= Rabs y + d.
Proof. intros H. replace x with ((x - y) + y) by ring. pose proof (Rabs_triang (x - y) y). lra. Qed.
Lemma proj_core (v f g h eps t ts r a b x y q1 y2 q2 out : R) :
  0 <= v <= / 1000 -> 0 <= t -> 0 <= ts -> 0 <= h -> 0 <= f -> 0 <= g <= 49 / 16 * h -> 0 <= eps <= / 64 ->
  63 / 64 <= r <= 64 / 63 -> Rabs (r - 1) <= eps * r ->
  Rabs (x - a) <= f -> Rabs (y - b) <= g -> v * Rabs a <= h / 17 -> v * Rabs b <= h / 17 ->
  Rabs (q1 - x * r) <= v * Rabs (x * r) + t ->
  Rabs (y2 - y * r) <= v * Rabs (y * r) + ts ->
  Rabs (q2 - y2) <= v * Rabs y2 + t ->
  Rabs (out - (q1 - q2)) <= v * Rabs (q1 - q2) ->
  Rabs (out - (a - b)) <= 2 * f + 2 * (eps * Rabs (a - b)) + 4 * h + 4 * (t + ts).
Proof.
  intros V T TS Hh Hf Hg He Hr R1 Xa Yb Va Vb Q1 Y2 Q2 O.
  assert (PX : forall z, 0 <= Rabs z) by apply Rabs_pos.
  assert (RR : forall z, Rabs (z * r) = Rabs z * r) by (intros; rewrite Rabs_mult, (Rabs_pos_eq r) by lra; reflexivity).
  assert (Vs : forall z, 0 <= z -> v * z <= z / 1000) by (intros z0 Hz; assert (v * z0 <= / 1000 * z0) by (apply Rmult_le_compat_r; lra); lra).
  assert (VX : v * Rabs (x * r) <= 64 / 63 * (h / 17 + f / 1000)).
  { rewrite RR. pose proof (near_abs _ _ _ Xa) as N. pose proof (mul_up _ _ v ltac:(lra) N). pose proof (Vs f Hf).
    assert (v * Rabs x <= h / 17 + f / 1000) by lra. apply Rle_trans with ((h / 17 + f / 1000) * r); [rewrite <- Rmult_assoc; apply Rmult_le_compat_r; lra|].
    rewrite Rmult_comm. apply Rmult_le_compat_r; lra. }
  assert (VY : v * Rabs (y * r) <= 64 / 63 * (h / 17 + 49 / 16 * h / 1000)).
  { rewrite RR. pose proof (near_abs _ _ _ Yb) as N. pose proof (mul_up _ _ v ltac:(lra) N). pose proof (Vs g ltac:(lra)).
    assert (v * Rabs y <= h / 17 + 49 / 16 * h / 1000) by lra. apply Rle_trans with ((h / 17 + 49 / 16 * h / 1000) * r); [rewrite <- Rmult_assoc; apply Rmult_le_compat_r; lra|].
    rewrite Rmult_comm. apply Rmult_le_compat_r; lra. }
  set (VXr := v * Rabs (x * r)) in *. set (VYr := v * Rabs (y * r)) in *.
  assert (P1 : 0 <= VXr) by (apply Rmult_le_pos; [lra|apply PX]). assert (P2 : 0 <= VYr) by (apply Rmult_le_pos; [lra|apply PX]).
  pose proof (near_abs _ _ _ Y2) as N2. pose proof (mul_up _ _ v ltac:(lra) N2) as M2. pose proof (Vs (VYr + ts) ltac:(lra)).
  assert (V2 : v * Rabs y2 <= VYr + (VYr + ts) / 1000) by (unfold VYr in *; lra).
  pose proof (near_abs _ _ _ Q1) as N1. pose proof (near_abs _ _ _ Q2) as N3.
  assert (N4 : Rabs (q1 - q2) <= (Rabs (x * r) + Rabs (y * r)) + (VXr + VYr + v * Rabs y2 + 2 * t + ts)).
  { unfold Rminus. eapply Rle_trans; [apply Rabs_triang|]. rewrite Rabs_Ropp. lra. }
  assert (P3 : 0 <= v * Rabs y2) by (apply Rmult_le_pos; [lra|apply PX]).
  pose proof (mul_up _ _ v ltac:(lra) N4) as M4. pose proof (Vs (VXr + VYr + v * Rabs y2 + 2 * t + ts) ltac:(lra)) as S4.
  assert (V4 : v * Rabs (q1 - q2) <= VXr + VYr + (VXr + VYr + v * Rabs y2 + 2 * t + ts) / 1000) by (unfold VXr, VYr in *; lra).
  assert (E0 : Rabs ((x - a) * r + - ((y - b) * r) + (a - b) * (r - 1)) <= 64 / 63 * f + 64 / 63 * g + 64 / 63 * (eps * Rabs (a - b))).
  { eapply Rle_trans; [apply tri3|]. rewrite Rabs_Ropp, !RR, (Rabs_mult (a - b)).
    assert (A1 : Rabs (x - a) * r <= f * (64 / 63)) by (apply Rmult_le_compat; auto; lra).
    assert (A2 : Rabs (y - b) * r <= g * (64 / 63)) by (apply Rmult_le_compat; auto; lra).
    assert (A3 : Rabs (r - 1) <= eps * (64 / 63)) by (eapply Rle_trans; [exact R1|]; apply Rmult_le_compat_l; lra).
    assert (A4 : Rabs (a - b) * Rabs (r - 1) <= Rabs (a - b) * (eps * (64 / 63))) by (apply Rmult_le_compat_l; [apply PX|exact A3]). lra. }
  assert (PE : 0 <= eps * Rabs (a - b)) by (apply Rmult_le_pos; [lra|apply PX]).
  replace (out - (a - b)) with ((out - (q1 - q2)) + (q1 - x * r) + - (q2 - y2) + - (y2 - y * r) + ((x - a) * r + - ((y - b) * r) + (a - b) * (r - 1))) by ring.
  pose proof (Rabs_triang ((out - (q1 - q2)) + (q1 - x * r) + - (q2 - y2) + - (y2 - y * r)) ((x - a) * r + - ((y - b) * r) + (a - b) * (r - 1))) as T1.
  pose proof (Rabs_triang ((out - (q1 - q2)) + (q1 - x * r) + - (q2 - y2)) (- (y2 - y * r))) as T2.
  pose proof (tri3 (out - (q1 - q2)) (q1 - x * r) (- (q2 - y2))) as T3. rewrite !Rabs_Ropp in *.
  fold VXr in Q1. fold VYr in Y2. lra.
Qed.

Section Proj.
  Variables (z : zeros) (w : nat) (a v : list f64) (m sd val : f64) (M eps err : R).
  Hypothesis La : length a = w.
  Hypothesis Lv : length v = w.
  Hypothesis Lw : (1 <= w)%nat.
  Hypothesis Hw : (Z.of_nat w <= 2 ^ 52)%Z.
  Hypothesis A : forall x, In x a -> bnd x 200.
  Hypothesis B : forall x, In x v -> bnd x 240.
  Hypothesis Mm : bnd m 221.
  Hypothesis Sd : bnd sd 228.
  Hypothesis F : not_flat sd.
  Notation va := (vals a).
  Notation vv := (vals v).
  Notation mu := (mean_of va).
  Notation al := (sd_of va).
  Notation W := (INR w).
  Hypothesis He : 0 < eps <= / 64.
  Hypothesis Cm : Rabs (fval m - mu) <= eps * al.
  Hypothesis Cs : Rabs (fval sd - al) <= eps * al.
  Hypothesis HA : forall x, In x a -> Rabs (fval x) <= M.
  Hypothesis Ra : (W + 16) * (u * M) <= eps * al.
  Hypothesis Nv : number val.
  Hypothesis Ev : Rabs (fval val - inner vv va) <= err.
  Hypothesis Err : err <= bp 500.
  Notation T := (weight v).
  Notation sv := (fsum z v).

  Lemma pal_ge : bp (-15) <= al /\ bp (-15) <= fval sd. Proof. apply (sd_ge eps He sd va); assumption. Qed.
  Lemma pal : 0 < al. Proof. pose proof pal_ge. pose proof (bpow_gt_0 radix2 (-15)). lra. Qed.
  Lemma psd : 0 < fval sd. Proof. pose proof pal_ge. pose proof (bpow_gt_0 radix2 (-15)). lra. Qed.
  Lemma pW : 1 <= W. Proof. apply (W1 w Lw). Qed.
  Lemma pM : 0 <= M.
  Proof. destruct a as [|x l]; [cbn in La; lia|]. eapply Rle_trans; [apply Rabs_pos|]. apply (HA x). left; reflexivity. Qed.
  Lemma al_M : al <= M. Proof. apply (sd_le w a a m M 0 La La Lw A A HA HA a La HA). Qed.
  Lemma pT : 0 <= T. Proof. apply weight_nonneg. Qed.
  Lemma mu_M : Rabs mu <= M.
  Proof.
    apply mean_abs; [destruct a; [cbn in La; lia|discriminate]|]. intros x Hx. apply in_map_iff in Hx as (y & <- & Hy). apply HA, Hy.
  Qed.
  Lemma inner_weight : Rabs (inner vv va) <= T * M.
  Proof.
    clear - La Lv HA. subst w. revert v Lv. induction a as [|x l IH]; intros [|y v'] Lv; try discriminate.
    - unfold inner, weight. cbn. rewrite Rabs_R0. lra.
    - unfold inner, weight in *. cbn [map combine] in *. rewrite !total_cons. cbn [fst snd].
      eapply Rle_trans; [apply Rabs_triang|]. rewrite Rabs_mult.
      specialize (IH ltac:(intros u0 Hu; apply HA; right; exact Hu) v' ltac:(injection Lv as Lv; exact Lv)).
      pose proof (HA x (or_introl eq_refl)) as Hx. pose proof (Rabs_pos (fval y)).
      assert (Rabs (fval y) * Rabs (fval x) <= Rabs (fval y) * M) by (apply Rmult_le_compat_l; lra). lra.
  Qed.
  Lemma uM : u * M <= eps / 17 * al.
  Proof.
    pose proof pW. pose proof pM. pose proof u_pos. assert (0 <= u * M) by (apply Rmult_le_pos; lra).
    assert (17 * (u * M) <= (W + 16) * (u * M)) by (apply Rmult_le_compat_r; lra). lra.
  Qed.
  Lemma WuM : W * (u * M) <= eps * al.
  Proof. pose proof pM. pose proof u_pos. assert (0 <= u * M) by (apply Rmult_le_pos; lra). lra. Qed.
  Lemma Wu : W * u <= / 2.
  Proof.
    apply Rle_trans with (bp 52 * u).
    - apply Rmult_le_compat_r; [pose proof u_pos; lra|]. rewrite INR_IZR_INZ. change (bp 52) with (IZR (2 ^ 52)). apply IZR_le. lia.
    - rewrite <- bpow_plus. change (52 + -53)%Z with (-1)%Z. change (bp (-1)) with (/ 2). lra.
  Qed.
  Lemma sv_close : number sv /\ Rabs (fval sv - total vv) <= 2 * (W * u) * T /\ Rabs (fval sv) <= bp 292.
  Proof.
    destruct (fsum_bound z 240 v) as (N & Bd); [lia|lia|exact B|]. split; [exact N|]. split.
    - eapply Rle_trans; [apply (fsum_grow z 240 v); [lia|lia|exact B]|]. apply Rmult_le_compat_r; [apply pT|]. rewrite Lv. apply grow_small, Wu.
    - eapply Rle_trans; [apply Bd|]. rewrite Lv. change 292%Z with (52 + 240)%Z. rewrite bpow_plus. apply Rmult_le_compat_r; [apply bpow_ge_0|].
      rewrite INR_IZR_INZ. change (bp 52) with (IZR (2 ^ 52)). apply IZR_le. lia.
  Qed.
  Lemma sum_T : Rabs (total vv) <= T. Proof. apply weight_total. Qed.
  Lemma m_M : Rabs (fval m) <= 65 / 64 * M.
  Proof.
    pose proof (near_abs _ _ _ Cm) as N. pose proof mu_M. pose proof al_M. pose proof pal.
    assert (eps * al <= / 64 * al) by (apply Rmult_le_compat_r; lra). lra.
  Qed.
  Lemma product_close : Rabs (fval sv * fval m - total vv * mu) <= 49 / 16 * (T * eps) * al.
  Proof.
    destruct sv_close as (_ & E & _). replace (fval sv * fval m - total vv * mu) with ((fval sv - total vv) * fval m + total vv * (fval m - mu)) by ring.
    eapply Rle_trans; [apply Rabs_triang|]. rewrite !Rabs_mult. pose proof pT as PT. pose proof m_M as Bm. pose proof sum_T as BT. pose proof WuM as Q. pose proof pM. pose proof pal.
    assert (A1 : Rabs (fval sv - total vv) * Rabs (fval m) <= 2 * (W * u) * T * (65 / 64 * M)) by (apply Rmult_le_compat; auto using Rabs_pos).
    assert (A2 : Rabs (total vv) * Rabs (fval m - mu) <= T * (eps * al)) by (apply Rmult_le_compat; auto using Rabs_pos).
    assert (A3 : T * (W * (u * M)) <= T * (eps * al)) by (apply Rmult_le_compat_l; assumption).
    replace (2 * (W * u) * T * (65 / 64 * M)) with (65 / 32 * (T * (W * (u * M)))) in A1 by field.
    assert (0 <= T * (eps * al)) by (apply Rmult_le_pos; [exact PT|apply Rmult_le_pos; lra]). lra.
  Qed.
  Definition proj : f64 := fsub (fdiv val sd) (fdiv (fmul sv m) sd).
  Lemma proj_close : number proj /\ Rabs (fval proj) <= bp 900 /\
    Rabs (fval proj - inner vv (znorm va)) <= 2 * (err / al) + eps * (4 * T + 2 * Rabs (inner vv (znorm va))) + bp (-1050).
  Proof.
    destruct pal_ge as (G1 & G2). pose proof pal as Pa. pose proof psd as Ps. destruct sv_close as (Ns & _ & Bs).
    assert (S14 : bp (-15) <= Rabs (fval sd)) by (rewrite Rabs_pos_eq; lra).
    assert (Bsv : bnd sv 292) by (split; assumption).
    assert (T292 : T <= bp 292).
    { unfold weight. pose proof (total_abs (map (fun x => Rabs (fval x)) v) (bp 240)) as H. rewrite map_length, Lv in H.
      apply Rle_trans with (INR w * bp 240).
      - eapply Rle_trans; [apply Rle_abs|]. apply H. intros x Hx. apply in_map_iff in Hx as (y & <- & Hy). rewrite Rabs_Rabsolu. apply (B y Hy).
      - change 292%Z with (52 + 240)%Z. rewrite bpow_plus. apply Rmult_le_compat_r; [apply bpow_ge_0|].
        rewrite INR_IZR_INZ. change (bp 52) with (IZR (2 ^ 52)). apply IZR_le. lia. }
    assert (IB : Rabs (inner vv va) <= bp 492).
    { clear - A B La Lv T292. assert (H : Rabs (inner vv va) <= T * bp 200).
      { subst w. clear - A Lv. revert v Lv. induction a as [|x l IH]; intros [|y v'] Lv; try discriminate.
        - unfold inner, weight. cbn. rewrite Rabs_R0. lra.
        - unfold inner, weight in *. cbn [map combine] in *. rewrite !total_cons. cbn [fst snd].
          eapply Rle_trans; [apply Rabs_triang|]. rewrite Rabs_mult.
          specialize (IH ltac:(intros u0 Hu; apply A; right; exact Hu) v' ltac:(injection Lv as Lv; exact Lv)).
          destruct (A x (or_introl eq_refl)) as (_ & Hx). pose proof (Rabs_pos (fval y)).
          assert (Rabs (fval y) * Rabs (fval x) <= Rabs (fval y) * bp 200) by (apply Rmult_le_compat_l; lra). lra. }
      eapply Rle_trans; [exact H|]. change 492%Z with (292 + 200)%Z. rewrite bpow_plus. apply Rmult_le_compat_r; [apply bpow_ge_0|exact T292]. }
    assert (Bval : bnd val 501).
    { split; [exact Nv|]. eapply Rle_trans; [apply (near_abs _ _ _ Ev)|]. change 501%Z with (500 + 1)%Z. rewrite bp_double.
      assert (bp 492 <= bp 500) by (apply bpow_le; lia). lra. }
    assert (B1 : bnd (fdiv val sd) (501 - -15)) by (apply div_bnd; auto; try lia; apply Sd).
    assert (Bm2 : bnd (fmul sv m) (292 + 221)) by (apply mul_bnd; auto; lia).
    assert (B2 : bnd (fdiv (fmul sv m) sd) (513 - -15)) by (apply div_bnd; auto; try lia; apply Sd).
    assert (B1' : bnd (fdiv val sd) 530) by (apply (bnd_le _ (501 - -15)); [lia|exact B1]).
    assert (B2' : bnd (fdiv (fmul sv m) sd) 530) by (apply (bnd_le _ (513 - -15)); [lia|exact B2]).
    assert (B3 : bnd proj (530 + 1)) by (apply sub_bnd; auto; lia).
    split; [apply B3|]. split; [eapply Rle_trans; [apply B3|]; apply bpow_le; lia|].
    assert (Zsd : fval sd <> 0) by lra.
    assert (divB : forall x k, Rabs x <= bp k -> Rabs (x / fval sd) <= bp (k + 15)).
    { intros x k Hx. apply over_abs; [exact Ps|]. eapply Rle_trans; [exact Hx|]. rewrite bpow_plus.
      apply Rle_trans with (bp k * bp 15 * bp (-15)); [rewrite Rmult_assoc, <- bpow_plus; change (bp (15 + -15)) with 1; lra|].
      apply Rmult_le_compat_l; [apply Rmult_le_pos; apply bpow_ge_0|exact G2]. }
    destruct (div_err val sd (501 + 15) Nv (proj1 Sd) Zsd ltac:(lia) (divB _ _ (proj2 Bval))) as (_ & E1).
    destruct (mul_err sv m (292 + 221) Ns (proj1 Mm) ltac:(lia)) as (_ & E2).
    { rewrite bpow_plus, Rabs_mult. apply Rmult_le_compat; auto using Rabs_pos. apply Mm. }
    destruct (div_err (fmul sv m) sd (292 + 221 + 15) (proj1 Bm2) (proj1 Sd) Zsd ltac:(lia) (divB _ _ (proj2 Bm2))) as (_ & E3).
    destruct (sub_err (fdiv val sd) (fdiv (fmul sv m) sd) 531 (proj1 B1) (proj1 B2) ltac:(lia)) as (_ & E4).
    { change 531%Z with (530 + 1)%Z. rewrite bp_double. destruct B1' as (_ & Q1), B2' as (_ & Q2). pose proof (Rabs_triang (fval (fdiv val sd)) (- fval (fdiv (fmul sv m) sd))) as Tr. rewrite Rabs_Ropp in Tr. unfold Rminus. lra. }
    fold proj in E4.
    set (r := al / fval sd).
    assert (Er : r * fval sd = al) by (unfold r; field; lra).
    apply abs_between in Cs as Cs'. assert (eps * al <= / 64 * al) by (apply Rmult_le_compat_r; lra).
    assert (Hr : 63 / 64 <= r <= 64 / 63).
    { split; apply Rmult_le_reg_r with (fval sd); auto; rewrite Er; lra. }
    assert (R1 : Rabs (r - 1) <= eps * r).
    { replace (r - 1) with ((al - fval sd) / fval sd) by (unfold r; field; lra). apply over_abs; [exact Ps|]. rewrite Rmult_assoc, Er, Rabs_minus_sym. exact Cs. }
    pose proof pT as PT. pose proof u_pos as UP. pose proof tiny_pos as TP.
    assert (errP : 0 <= err) by (eapply Rle_trans; [apply Rabs_pos|exact Ev]).
    pose proof (proj_core u (err / al) (49 / 16 * (T * eps)) (T * eps) eps tiny (tiny * bp 15) r (inner vv va / al) (total vv * mu / al) (fval val / al) (fval sv * fval m / al)
      (fval (fdiv val sd)) (fval (fmul sv m) / fval sd) (fval (fdiv (fmul sv m) sd)) (fval proj)) as C.
    assert (PTe : 0 <= T * eps) by (apply Rmult_le_pos; lra).
    rewrite inner_znorm by (rewrite ?map_length; congruence || exact Pa).
    assert (Ut : u <= / 1000) by (apply Rle_trans with (bp (-10)); [apply bpow_le; lia|change (bp (-10)) with (/ 1024); lra]).
    assert (xr : forall x, x / al * r = x / fval sd) by (intros; unfold r; field; lra).
    rewrite !xr in C.
    eapply Rle_trans; [apply C|]; clear C; try lra.
    - apply Rmult_le_pos; [lra|apply bpow_ge_0].
    - apply Rmult_le_pos; [exact errP|]. left. apply Rinv_0_lt_compat, Pa.
    - replace (fval val / al - inner vv va / al) with ((fval val - inner vv va) / al) by (field; lra). apply over_abs; [exact Pa|]. eapply Rle_trans; [exact Ev|]. right. field. lra.
    - replace (fval sv * fval m / al - total vv * mu / al) with ((fval sv * fval m - total vv * mu) / al) by (field; lra). apply over_abs; [exact Pa|]. apply product_close.
    - rewrite <- (Rabs_pos_eq u) at 1 by lra. rewrite <- Rabs_mult. replace (u * (inner vv va / al)) with ((u * inner vv va) / al) by (field; lra). apply over_abs; [exact Pa|].
      rewrite Rabs_mult, (Rabs_pos_eq u) by lra. pose proof inner_weight as IW. pose proof uM as UM.
      apply Rle_trans with (T * (u * M)); [pose proof (mul_up _ _ u ltac:(lra) IW); lra|]. apply Rle_trans with (T * (eps / 17 * al)); [apply Rmult_le_compat_l; assumption|]. right. field.
    - rewrite <- (Rabs_pos_eq u) at 1 by lra. rewrite <- Rabs_mult. replace (u * (total vv * mu / al)) with ((u * (total vv * mu)) / al) by (field; lra). apply over_abs; [exact Pa|].
      rewrite Rabs_mult, (Rabs_pos_eq u), (Rabs_mult (total vv)) by lra. pose proof uM as UM. pose proof mu_M as MM. pose proof sum_T as ST. pose proof pM.
      assert (Q : Rabs (total vv) * Rabs mu <= T * M) by (apply Rmult_le_compat; auto using Rabs_pos).
      apply Rle_trans with (T * (u * M)); [pose proof (mul_up _ _ u ltac:(lra) Q); lra|]. apply Rle_trans with (T * (eps / 17 * al)); [apply Rmult_le_compat_l; assumption|]. right. field.
    - replace (fval (fmul sv m) / fval sd - fval sv * fval m / fval sd) with ((fval (fmul sv m) - fval sv * fval m) / fval sd) by (field; lra).
      apply over_abs; [exact Ps|]. eapply Rle_trans; [exact E2|]. rewrite Rmult_plus_distr_r. apply Rplus_le_compat.
      + right. unfold Rdiv. rewrite (Rabs_mult (fval sv * fval m)), Rabs_inv, (Rabs_pos_eq (fval sd)) by lra. field. lra.
      + apply Rle_trans with (tiny * bp 15 * bp (-15)); [rewrite Rmult_assoc, <- bpow_plus; change (bp (15 + -15)) with 1; lra|]. apply Rmult_le_compat_l; [apply Rmult_le_pos; [lra|apply bpow_ge_0]|exact G2].
    - assert (T50 : 4 * (tiny + tiny * bp 15) <= bp (-1050)).
      { assert (tiny * bp 15 = bp (-1060)) by (rewrite <- bpow_plus; reflexivity). assert (tiny <= bp (-1060)) by (apply bpow_le; lia).
        assert (8 * bp (-1060) = bp (-1057)) by (change 8 with (bp 3); rewrite <- bpow_plus; reflexivity). assert (bp (-1057) <= bp (-1050)) by (apply bpow_le; lia). lra. }
      lra.
  Qed.
End Proj.
