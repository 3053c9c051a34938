(** Two windows whose recorded means and deviations are close to the exact ones: the dot
    product of the normalised values. *)
From Coq Require Import Reals Lra Lia Floats.SpecFloat.
From Flocq Require Import Core Relative Plus_error BinarySingleNaN.
From Verif Require Import Base F64 RSpec RealProofs SeriesProofs Iterator FpOps FloatSeries FloatProofs FloatRoll FloatBound FloatDist FloatDist2 FloatThr FloatErr FloatMean FloatSd FloatSum FloatTerm.
Local Open Scope R_scope.

Section Close.
  Variables (z : zeros) (w : nat) (a b : list f64) (ma sa mb sb : f64) (M eps : R).
  Hypothesis La : length a = w.
  Hypothesis Lb : length b = w.
  Hypothesis Lw : (1 <= w)%nat.
  Hypothesis Hw : (Z.of_nat w <= 2 ^ 52)%Z.
  Hypothesis A : forall x, In x a -> bnd x 200.
  Hypothesis B : forall x, In x b -> bnd x 200.
  Hypothesis Ma : bnd ma 221.
  Hypothesis Mb : bnd mb 221.
  Hypothesis Sa : bnd sa 228.
  Hypothesis Sb : bnd sb 228.
  Hypothesis Fa : not_flat sa.
  Hypothesis Fb : not_flat sb.
  Notation va := (vals a).
  Notation vb := (vals b).
  Notation mua := (mean_of va).
  Notation mub := (mean_of vb).
  Notation al := (sd_of va).
  Notation be := (sd_of vb).
  Notation W := (INR w).
  Hypothesis He : 0 < eps <= / 64.
  Hypothesis Cma : Rabs (fval ma - mua) <= eps * al.
  Hypothesis Cmb : Rabs (fval mb - mub) <= eps * be.
  Hypothesis Csa : Rabs (fval sa - al) <= eps * al.
  Hypothesis Csb : Rabs (fval sb - be) <= eps * be.
  Hypothesis HA : forall x, In x a -> Rabs (fval x) <= M.
  Hypothesis HB : forall x, In x b -> Rabs (fval x) <= M.
  Hypothesis Ra : (W + 16) * (u * M) <= eps * al.
  Hypothesis Rb : (W + 16) * (u * M) <= eps * be.

  Lemma W_ge : 1 <= W. Proof. apply (W1 w Lw). Qed.
  Lemma sd_ge sd l : bnd sd 228 -> not_flat sd -> Rabs (fval sd - sd_of l) <= eps * sd_of l -> bp (-15) <= sd_of l /\ bp (-15) <= fval sd.
  Proof.
    intros S F C. pose proof (not_flat_val sd (bnd_number _ _ S) F) as G. apply abs_between in C. pose proof (sd_nonneg l) as P.
    change (-14)%Z with (-15 + 1)%Z in G. rewrite bp_double in G. assert (eps * sd_of l <= / 64 * sd_of l) by (apply Rmult_le_compat_r; lra). pose proof (bpow_gt_0 radix2 (-15)). lra.
  Qed.
  Lemma al_ge : bp (-15) <= al. Proof. apply (sd_ge sa); assumption. Qed.
  Lemma be_ge : bp (-15) <= be. Proof. apply (sd_ge sb); assumption. Qed.
  Lemma al_pos : 0 < al. Proof. pose proof al_ge. pose proof (bpow_gt_0 radix2 (-15)). lra. Qed.
  Lemma be_pos : 0 < be. Proof. pose proof be_ge. pose proof (bpow_gt_0 radix2 (-15)). lra. Qed.
  Lemma sd_le l : length l = w -> (forall x, In x l -> Rabs (fval x) <= M) -> sd_of (vals l) <= M.
  Proof.
    intros L H. pose proof (var_sum_abs (vals l) M) as V. rewrite map_length, L in V. assert (Hv : forall x, In x (vals l) -> Rabs x <= M) by (intros x Hx; apply in_map_iff in Hx as (y & <- & Hy); auto).
    specialize (V Hv). rewrite <- (sd_square (vals l)), map_length, L in V by (rewrite map_length; lia). pose proof W_ge as P. apply Rmult_le_reg_l in V; [|lra]. pose proof (sd_nonneg (vals l)) as N.
    assert (P0 : 0 <= M). { destruct l as [|x l]; [cbn in L; lia|]. eapply Rle_trans; [apply Rabs_pos|]. apply (H x). left; reflexivity. } nra.
  Qed.
  Lemma W_eps : (W + 16) * u <= eps.
  Proof.
    pose proof (sd_le a La HA) as S. pose proof al_pos as P. pose proof u_pos. pose proof W_ge.
    assert (Q : (W + 16) * u * al <= (W + 16) * u * M) by (apply Rmult_le_compat_l; [apply Rmult_le_pos; lra|exact S]). apply Rmult_le_reg_r with al; [exact P|]. lra.
  Qed.
  Lemma u_eps : u <= eps / 17.
  Proof. pose proof W_eps. pose proof W_ge. pose proof u_pos. assert (17 * u <= (W + 16) * u) by (apply Rmult_le_compat_r; lra). lra. Qed.

  (** ** Exact values *)
  Notation ps := (combine a b).
  Definition xi (p : f64 * f64) : R := (fval (fst p) - mua) / al.
  Definition up (p : f64 * f64) : R := (fval (snd p) - mub) / be.
  Definition rho : R := total (map (fun p => xi p * up p) ps).
  Lemma len_ps : length ps = w. Proof. rewrite combine_length. lia. Qed.
  Lemma xi_sq : total (map (fun p => xi p * xi p) ps) = W.
  Proof.
    rewrite (total_fst (fun x => (fval x - mua) / al * ((fval x - mua) / al))) by congruence.
    pose proof (znorm_norm va al_pos) as H. rewrite map_length, La in H. rewrite <- H. symmetry. apply (inner_vals a (fun x => (x - mua) / al)).
  Qed.
  Lemma up_sq : total (map (fun p => up p * up p) ps) = W.
  Proof.
    rewrite (total_snd (fun x => (fval x - mub) / be * ((fval x - mub) / be))) by congruence.
    pose proof (znorm_norm vb be_pos) as H. rewrite map_length, Lb in H. rewrite <- H. symmetry. apply (inner_vals b (fun x => (x - mub) / be)).
  Qed.
  Lemma xi_sum : total (map xi ps) = 0.
  Proof. unfold xi. rewrite (total_fst (fun x => (fval x - mua) / al)) by congruence. apply centered_sum. lia. Qed.
  Lemma up_sum : total (map up ps) = 0.
  Proof. unfold up. rewrite (total_snd (fun x => (fval x - mub) / be)) by congruence. apply centered_sum. lia. Qed.
  Lemma rho_inner : inner (znorm va) (znorm vb) = rho.
  Proof. unfold inner, znorm. rewrite combine_vals, map_map. reflexivity. Qed.
  Lemma rho_le : - W <= rho <= W.
  Proof. rewrite <- rho_inner. pose proof (zinner_le va vb ltac:(rewrite !map_length; congruence) al_pos be_pos) as H. rewrite map_length, La in H. exact H. Qed.
  Lemma zdist_sqrt : zdistance va vb = sqrt (total (map (fun p => (xi p - up p) * (xi p - up p)) ps)).
  Proof. unfold zdistance, euclid, znorm. rewrite combine_vals, map_map. reflexivity. Qed.
  Lemma zdist_rho : total (map (fun p => (xi p - up p) * (xi p - up p)) ps) = 2 * W - 2 * rho.
  Proof.
    rewrite (total_ext _ (fun p => xi p * xi p + (up p * up p - 2 * (xi p * up p)))) by (intros; ring). rewrite total_plus, total_minus, total_scale, xi_sq, up_sq. unfold rho. ring.
  Qed.
  Lemma zdist_sq : zdistance va vb * zdistance va vb = 2 * W - 2 * rho.
  Proof. rewrite zdist_sqrt, sqrt_sqrt; [apply zdist_rho|]. apply RealProofs.total_nonneg. intros; apply Rle_0_sqr. Qed.

  (** ** The dot product *)
  Definition eta := (mua - fval ma) / al.
  Definition theta' := (mub - fval mb) / be.
  Lemma eta_le : Rabs eta <= eps. Proof. apply over_abs; [apply al_pos|]. rewrite Rabs_minus_sym. exact Cma. Qed.
  Lemma theta_le : Rabs theta' <= eps. Proof. apply over_abs; [apply be_pos|]. rewrite Rabs_minus_sym. exact Cmb. Qed.
  Lemma x_xi p : fval (fst p) - fval ma = al * (xi p + eta).
  Proof. unfold xi, eta. field. pose proof al_pos. lra. Qed.
  Lemma y_up p : fval (snd p) - fval mb = be * (up p + theta').
  Proof. unfold up, theta'. field. pose proof be_pos. lra. Qed.
  Definition prod (p : f64 * f64) : R := (fval (fst p) - fval ma) * (fval (snd p) - fval mb).
  Lemma sq_eps x : Rabs x <= eps -> x * x <= eps * eps.
  Proof. intros H. apply abs_between in H. nra. Qed.
  Lemma prod_weight : total (map (fun p => Rabs (prod p)) ps) <= al * be * W * (1 + eps * eps).
  Proof.
    apply Rle_trans with (total (map (fun p => al * be * (/ 2 * (((xi p * xi p + 2 * eta * xi p) + eta * eta) + ((up p * up p + 2 * theta' * up p) + theta' * theta')))) ps)).
    - apply total_le. intros p _. unfold prod. rewrite x_xi, y_up. pose proof al_pos as PA. pose proof be_pos as PB.
      replace (al * (xi p + eta) * (be * (up p + theta'))) with ((al * be) * ((xi p + eta) * (up p + theta'))) by ring. rewrite Rabs_mult, (Rabs_right (al * be)) by (apply Rle_ge, Rlt_le, Rmult_lt_0_compat; assumption).
      apply Rmult_le_compat_l; [apply Rlt_le, Rmult_lt_0_compat; assumption|]. set (s := xi p + eta). set (t := up p + theta').
      replace (xi p * xi p + 2 * eta * xi p + eta * eta) with (s * s) by (unfold s; ring). replace (up p * up p + 2 * theta' * up p + theta' * theta') with (t * t) by (unfold t; ring).
      apply Rabs_le. pose proof (Rle_0_sqr (s + t)) as Q1. pose proof (Rle_0_sqr (s - t)) as Q2. unfold Rsqr in Q1, Q2. lra.
    - rewrite !total_scale. rewrite !total_plus. rewrite !total_scale, !total_const, xi_sq, up_sq, xi_sum, up_sum, len_ps. pose proof al_pos as PA. pose proof be_pos as PB. pose proof W_ge as PW.
      rewrite (Rmult_assoc (al * be) W). apply Rmult_le_compat_l; [apply Rlt_le, Rmult_lt_0_compat; assumption|]. pose proof (sq_eps eta eta_le) as E1. pose proof (sq_eps theta' theta_le) as E2.
      assert (W * (eta * eta) <= W * (eps * eps)) by (apply Rmult_le_compat_l; lra). assert (W * (theta' * theta') <= W * (eps * eps)) by (apply Rmult_le_compat_l; lra). lra.
  Qed.
  Lemma prod_total : Rabs (total (map prod ps) - al * be * rho) <= al * be * W * (eps * eps).
  Proof.
    rewrite (total_ext prod (fun p => al * be * (((xi p * up p + theta' * xi p) + eta * up p) + eta * theta'))) by (intros p _; unfold prod; rewrite x_xi, y_up; ring).
    rewrite total_scale, !total_plus, !total_scale, total_const, xi_sum, up_sum, len_ps. fold rho.
    replace (al * be * (rho + theta' * 0 + eta * 0 + eta * (W * theta')) - al * be * rho) with (al * be * W * (eta * theta')) by ring. rewrite Rabs_mult, (Rabs_mult eta).
    pose proof al_pos as PA. pose proof be_pos as PB. pose proof W_ge as PW. assert (P : 0 <= al * be * W) by (apply Rmult_le_pos; [apply Rlt_le, Rmult_lt_0_compat; assumption|lra]).
    rewrite Rabs_right by lra. apply Rmult_le_compat_l; [exact P|]. apply Rmult_le_compat; auto using Rabs_pos, eta_le, theta_le.
  Qed.

  Definition fprod (x y : f64) : f64 := fmul (fsub x ma) (fsub y mb).
  Lemma fprod_bnd x y : bnd x 200 -> bnd y 200 -> bnd (fprod x y) 444.
  Proof. intros X Y. change 444%Z with (222 + 222)%Z. apply mul_bnd; try lia; apply centered; assumption. Qed.
  Lemma fprod_err x y : bnd x 200 -> bnd y 200 -> Rabs (fval (fprod x y) - prod (x, y)) <= grow 3 * Rabs (prod (x, y)) + tiny.
  Proof.
    intros X Y. destruct (centered x ma X Ma) as (B1 & E1). destruct (centered y mb Y Mb) as (B2 & E2). pose proof u_pos as UP.
    pose proof (mul_rel _ _ _ _ u u E1 E2 ltac:(lra) ltac:(lra)) as E3. fold (prod (x, y)) in E3. unfold prod in *. cbn [fst snd] in *. set (P := (fval x - fval ma) * (fval y - fval mb)) in *.
    destruct (mul_err (fsub x ma) (fsub y mb) 444 (bnd_number _ _ B1) (bnd_number _ _ B2) ltac:(lia)) as (_ & E4).
    { change 444%Z with (222 + 222)%Z. rewrite bpow_plus, Rabs_mult. apply Rmult_le_compat; auto using Rabs_pos; [apply B1|apply B2]. }
    fold (fprod x y) in E4. set (q := fval (fsub x ma) * fval (fsub y mb)) in *.
    assert (E5 : Rabs q <= (1 + u) * (1 + u) * Rabs P) by (replace q with ((q - P) + P) by ring; eapply Rle_trans; [apply Rabs_triang|]; lra).
    replace (fval (fprod x y) - P) with ((fval (fprod x y) - q) + (q - P)) by ring. eapply Rle_trans; [apply Rabs_triang|]. unfold grow. cbn [pow].
    assert (u * Rabs q <= u * ((1 + u) * (1 + u) * Rabs P)) by (apply Rmult_le_compat_l; lra). lra.
  Qed.
  Definition num : f64 := two_sums z 4 (zip_with fprod a b).
  Lemma in_ps p : In p ps -> In (fst p) a /\ In (snd p) b.
  Proof. destruct p as [x y]. intros H. split; [eapply in_combine_l, H|eapply in_combine_r, H]. Qed.
  Lemma albe_ge : bp (-30) <= al * be.
  Proof. change (-30)%Z with (-15 + -15)%Z. rewrite bpow_plus. apply Rmult_le_compat; auto using bpow_ge_0, al_ge, be_ge. Qed.
  Lemma num_err : number num /\ Rabs (fval num - rho * (al * be)) <= W * (21 / 10 * eps) * (al * be).
  Proof.
    assert (Lz : length (zip_with fprod a b) = w) by (rewrite zip_length by congruence; exact La).
    assert (Bz : forall x, In x (zip_with fprod a b) -> bnd x 444) by (intros x Hx; apply in_zip_with in Hx as (p & q & Hp & Hq & ->); apply fprod_bnd; auto).
    destruct (two_sums_err z 4 (zip_with fprod a b) 444 ltac:(lia) ltac:(lia) ltac:(lia) Bz) as (N & E). fold num in N, E. rewrite Lz in E. split; [exact N|].
    set (S := total (map (fun p => Rabs (prod p)) ps)). pose proof prod_weight as HS. fold S in HS. pose proof prod_total as HT. pose proof W_ge as PW. pose proof u_pos as UP. pose proof tiny_pos as TP.
    assert (PS : 0 <= S) by (apply RealProofs.total_nonneg; intros; apply Rabs_pos).
    assert (T1 : Rabs (total (vals (zip_with fprod a b)) - total (map prod ps)) <= grow 3 * S + W * tiny).
    { unfold zip_with. rewrite map_map, <- total_minus. eapply Rle_trans; [apply (total_abs_le _ (fun p => grow 3 * Rabs (prod p) + tiny))|].
      - intros [x y] Hp. apply in_ps in Hp as (Hx & Hy). apply fprod_err; [apply A, Hx|apply B, Hy].
      - rewrite total_plus, total_scale, total_const, len_ps. fold S. lra. }
    assert (T2 : weight (zip_with fprod a b) <= (1 + grow 3) * S + W * tiny).
    { unfold weight, zip_with. rewrite map_map. eapply Rle_trans; [apply (total_le _ (fun p => (1 + grow 3) * Rabs (prod p) + tiny))|].
      - intros [x y] Hp. apply in_ps in Hp as (Hx & Hy). cbn [fst snd]. pose proof (fprod_err x y (A _ Hx) (B _ Hy)) as E'.
        replace (fval (fprod x y)) with ((fval (fprod x y) - prod (x, y)) + prod (x, y)) by ring. eapply Rle_trans; [apply Rabs_triang|]. lra.
      - rewrite total_plus, total_scale, total_const, len_ps. fold S. lra. }
    pose proof (grow_nonneg 3) as G3. pose proof (grow_nonneg (w + 9)) as G9.
    assert (G12 : grow (w + 12) = grow (w + 9) * (1 + grow 3) + grow 3) by (rewrite <- grow_plus; f_equal; lia).
    pose proof W_eps as We. assert (Gs : grow (w + 12) <= 2 * eps - 8 * u).
    { eapply Rle_trans; [apply grow_small|]; rewrite plus_INR; change (INR 12) with (IZR 12) || (replace (INR 12) with 12 by (cbn; lra)); lra. }
    pose proof albe_ge as AB. assert (PAB : 0 < al * be) by (pose proof (bpow_gt_0 radix2 (-30)); lra).
    assert (TU : 2 * tiny <= 8 * u * (al * be)).
    { apply Rle_trans with (8 * u * bp (-30)); [|apply Rmult_le_compat_l; lra]. rewrite Rmult_assoc, <- bpow_plus. change 8 with (bp 3). rewrite <- bpow_plus, <- bp_double. apply bpow_le. lia. }
    set (g9 := grow (w + 9)) in *. set (g3 := grow 3) in *. set (k := al * be) in *. clearbody k. 
    assert (F1 : Rabs (fval num - total (map prod ps)) <= grow (w + 12) * S + (1 + g9) * (W * tiny)).
    { replace (fval num - total (map prod ps)) with ((fval num - total (vals (zip_with fprod a b))) + (total (vals (zip_with fprod a b)) - total (map prod ps))) by ring.
      eapply Rle_trans; [apply Rabs_triang|]. assert (g9 * weight (zip_with fprod a b) <= g9 * ((1 + g3) * S + W * tiny)) by (apply Rmult_le_compat_l; assumption). rewrite G12. lra. }
    assert (g9 <= 1) by (assert (0 <= g9 * g3) by (apply Rmult_le_pos; assumption); lra).
    assert (PT : 0 <= W * tiny) by (apply Rmult_le_pos; lra).
    assert (F2 : (1 + g9) * (W * tiny) <= W * (8 * u * k)).
    { apply Rle_trans with (2 * (W * tiny)); [apply Rmult_le_compat_r; lra|]. replace (2 * (W * tiny)) with (W * (2 * tiny)) by ring. apply Rmult_le_compat_l; lra. }
    assert (PG : 0 <= 2 * eps - 8 * u) by (pose proof (grow_nonneg (w + 12)); lra).
    assert (F3 : grow (w + 12) * S <= (2 * eps - 8 * u) * (k * W * (1 + eps * eps))) by (apply Rmult_le_compat; auto using grow_nonneg).
    replace (fval num - rho * k) with ((fval num - total (map prod ps)) + (total (map prod ps) - k * rho)) by ring.
    eapply Rle_trans; [apply Rabs_triang|]. assert (PKW : 0 <= k * W) by (apply Rmult_le_pos; lra).
    apply Rle_trans with (k * W * (2 * eps * (1 + eps * eps) + eps * eps)).
    - assert (0 <= k * W * (8 * u * (eps * eps))) by (apply Rmult_le_pos; [exact PKW|apply Rmult_le_pos; [lra|apply Rle_0_sqr]]). lra.
    - replace (W * (21 / 10 * eps) * k) with (k * W * (21 / 10 * eps)) by ring. apply Rmult_le_compat_l; [exact PKW|]. nra.
  Qed.
  Lemma den_err : number (fmul sa sb) /\ Rabs (fval (fmul sa sb) - al * be) <= 21 / 10 * eps * (al * be).
  Proof.
    destruct (mul_err sa sb 456 (bnd_number _ _ Sa) (bnd_number _ _ Sb) ltac:(lia)) as (N & E).
    { change 456%Z with (228 + 228)%Z. rewrite bpow_plus, Rabs_mult. apply Rmult_le_compat; auto using Rabs_pos; [apply Sa|apply Sb]. }
    split; [exact N|]. pose proof al_pos as PA. pose proof be_pos as PB.
    pose proof (mul_rel (fval sa) (fval sb) al be eps eps) as R. rewrite !(Rabs_right al), !(Rabs_right be) in R by lra. specialize (R Csa Csb ltac:(lra) ltac:(lra)).
    pose proof albe_ge as AB. set (k := al * be) in *. assert (PK : 0 < k) by (unfold k; apply Rmult_lt_0_compat; assumption). rewrite (Rabs_right k) in R by lra.
    set (q := fval sa * fval sb) in *. assert (Q : Rabs q <= (1 + eps) * (1 + eps) * k) by (replace q with ((q - k) + k) by ring; eapply Rle_trans; [apply Rabs_triang|]; rewrite (Rabs_right k) by lra; lra).
    pose proof u_eps as UE. pose proof u_pos as UP. assert (TU : tiny <= u / 16 * k).
    { apply Rle_trans with (u / 16 * bp (-30)); [|apply Rmult_le_compat_l; lra]. replace (u / 16) with (u * bp (-4)) by (change (bp (-4)) with (/ 16); reflexivity). rewrite <- !bpow_plus. apply bpow_le. lia. }
    replace (fval (fmul sa sb) - k) with ((fval (fmul sa sb) - q) + (q - k)) by ring. eapply Rle_trans; [apply Rabs_triang|].
    assert (u * Rabs q <= eps / 17 * ((1 + eps) * (1 + eps) * k)) by (apply Rmult_le_compat; auto using Rabs_pos; lra).
    assert (u / 16 * k <= eps / 17 / 16 * k) by (apply Rmult_le_compat_r; lra).
    apply Rle_trans with ((eps / 17 * ((1 + eps) * (1 + eps)) + eps / 17 / 16 + ((1 + eps) * (1 + eps) - 1)) * k); [lra|]. apply Rmult_le_compat_r; [lra|]. nra.
  Qed.
  Lemma zdot_eq : fzdot z a ma sa b mb sb = fdiv num (fmul sa sb).
  Proof.
    unfold fzdot. pose proof (not_flat_val sa (bnd_number _ _ Sa) Fa) as Ga. pose proof (not_flat_val sb (bnd_number _ _ Sb) Fb) as Gb. pose proof (bpow_gt_0 radix2 (-14)) as P.
    rewrite (feq_val sa f_zero), (feq_val sb f_zero) by (try apply Sa; try apply Sb; apply zero_number). change (fval f_zero) with 0.
    rewrite (Req_bool_false (fval sa)), (Req_bool_false (fval sb)) by lra. cbn [orb]. fold fprod. rewrite (zip_chunks fprod 4 a b), (zip_rest fprod 4 a b) by congruence. reflexivity.
  Qed.
  Lemma zdot_err : number (fzdot z a ma sa b mb sb) /\ Rabs (fval (fzdot z a ma sa b mb sb) - rho) <= 447 / 100 * (W * eps).
  Proof.
    rewrite zdot_eq. destruct num_err as (Nn & En). destruct den_err as (Nd & Ed). pose proof albe_ge as AB. set (k := al * be) in *. assert (PK : 0 < k) by (pose proof (bpow_gt_0 radix2 (-30)); lra).
    pose proof rho_le as Rl. pose proof W_ge as PW. assert (HR : Rabs rho <= W) by (apply Rabs_le; lra).
    destruct (quotient_close _ _ W k (W * (21 / 10 * eps)) (21 / 10 * eps) rho PK En Ed HR ltac:(lra) ltac:(lra)) as (Pq & Q).
    assert (Q' : Rabs (fval num / fval (fmul sa sb) - rho) <= 4345 / 1000 * (W * eps)).
    { eapply Rle_trans; [exact Q|]. apply Rmult_le_reg_r with (1 - 21 / 10 * eps); [lra|]. unfold Rdiv at 1. rewrite Rmult_assoc, Rinv_l by lra. rewrite Rmult_1_r.
      assert (P : 0 <= W * eps) by (apply Rmult_le_pos; lra). assert (W * eps * eps <= W * eps * / 64) by (apply Rmult_le_compat_l; lra). lra. }
    assert (Qw : Rabs (fval num / fval (fmul sa sb)) <= W + 4345 / 1000 * (W * eps)).
    { replace (fval num / fval (fmul sa sb)) with ((fval num / fval (fmul sa sb) - rho) + rho) by ring. eapply Rle_trans; [apply Rabs_triang|]. lra. }
    assert (We : W * eps <= W * / 64) by (apply Rmult_le_compat_l; lra).
    destruct (div_err num (fmul sa sb) 53 Nn Nd ltac:(lra) ltac:(lia)) as (N & E).
    { change 53%Z with (52 + 1)%Z. rewrite bp_double. pose proof (W52 w Hw). lra. }
    split; [exact N|]. match goal with |- Rabs (?f - rho) <= _ => replace (f - rho) with ((f - fval num / fval (fmul sa sb)) + (fval num / fval (fmul sa sb) - rho)) by ring end.
    eapply Rle_trans; [apply Rabs_triang|]. pose proof u_eps as UE. pose proof u_pos as UP.
    assert (u * Rabs (fval num / fval (fmul sa sb)) <= eps / 17 * (W * 2)) by (apply Rmult_le_compat; auto using Rabs_pos; lra).
    assert (TU : tiny <= u / 16) by (replace (u / 16) with (u * bp (-4)) by (change (bp (-4)) with (/ 16); reflexivity); rewrite <- bpow_plus; apply bpow_le; lia).
    assert (1 * eps <= W * eps) by (apply Rmult_le_compat_r; lra). lra.
  Qed.

  (** ** The fast distance *)
  Lemma u_tiny : tiny <= u / 1024.
  Proof. apply (small_pow (-1075) (-63)); [lia|]. change (-63)%Z with (-53 + -10)%Z. rewrite bpow_plus. reflexivity. Qed.
  Lemma fast_close : let dotp := fzdot z a ma sa b mb sb in let d := fsqrt64 (fsub (fmul f_two (f_of_nat w)) (fmul f_two dotp)) in
    flt (f_of_nat w) dotp = false -> number d /\ 0 <= fval d /\ Rabs (fval d * fval d - zdistance va vb * zdistance va vb) <= 10 * (W * eps).
  Proof.
    cbv zeta. destruct zdot_err as (N & E). set (dotp := fzdot z a ma sa b mb sb) in *. intros Fl. rewrite zdist_sq. pose proof rho_le as Rl. pose proof W_ge as PW. pose proof u_pos as UP. pose proof u_small as US. pose proof u_eps as UE. pose proof u_tiny as TU. pose proof tiny_pos as TP.
    assert (PE : 0 <= W * eps) by (apply Rmult_le_pos; lra). assert (WE : W * eps <= W * / 64) by (apply Rmult_le_compat_l; lra). assert (UW : u * W <= eps / 17 * W) by (apply Rmult_le_compat_r; lra).
    assert (PUW : 0 <= u * W) by (apply Rmult_le_pos; lra). assert (UUW : u * (u * W) <= / 1024 * (u * W)) by (apply Rmult_le_compat_r; lra). assert (UW1 : u * 1 <= u * W) by (apply Rmult_le_compat_l; lra).
    pose proof (W52 w Hw) as H52. assert (B53 : bp 53 = 2 * bp 52) by (rewrite <- bp_double; reflexivity). assert (B54 : bp 54 = 2 * bp 53) by (rewrite <- bp_double; reflexivity). assert (B55 : bp 55 = 2 * bp 54) by (rewrite <- bp_double; reflexivity).
    assert (Ad : Rabs (fval dotp) <= 1071 / 1000 * W) by (replace (fval dotp) with ((fval dotp - rho) + rho) by ring; eapply Rle_trans; [apply Rabs_triang|]; assert (Rabs rho <= W) by (apply Rabs_le; lra); lra).
    assert (BD : bnd dotp 53) by (split; [exact N|lra]).
    destruct (fast_bnd 200 a b A B w dotp 53 Hw BD ltac:(lia) Fl) as (Nd & Pd). split; [exact Nd|]. split; [exact Pd|].
    destruct (of_nat_exact w ltac:(lia)) as (Nw & Vw). destruct two_number as (N2 & V2).
    destruct (mul_err f_two (f_of_nat w) 53 N2 Nw ltac:(lia)) as (M1 & E1); [rewrite V2, Vw, Rabs_right; lra|]. rewrite V2, Vw, (Rabs_right (2 * W)) in E1 by lra.
    destruct (mul_err f_two dotp 54 N2 N ltac:(lia)) as (M2 & E2); [rewrite V2, Rabs_mult, (Rabs_right 2); lra|]. rewrite V2, Rabs_mult, (Rabs_right 2) in E2 by lra.
    set (p := fmul f_two (f_of_nat w)) in *. set (q := fmul f_two dotp) in *.
    assert (Aq : u * (2 * Rabs (fval dotp)) <= u * (2 * (1071 / 1000 * W))) by (apply Rmult_le_compat_l; lra).
    assert (E3 : Rabs (fval p - fval q - (2 * W - 2 * rho)) <= 894 / 100 * (W * eps) + 4143 / 1000 * (u * W) + 2 * tiny).
    { replace (fval p - fval q - (2 * W - 2 * rho)) with ((fval p - 2 * W) - (fval q - 2 * fval dotp) - 2 * (fval dotp - rho)) by ring.
      unfold Rminus at 1. eapply Rle_trans; [apply Rabs_triang|]. rewrite Rabs_Ropp, Rabs_mult, (Rabs_right 2) by lra. unfold Rminus at 1. eapply Rle_trans; [apply Rplus_le_compat_r, Rabs_triang|]. rewrite Rabs_Ropp. lra. }
    assert (A3 : Rabs (fval p - fval q) <= 415 / 100 * W).
    { replace (fval p - fval q) with ((fval p - fval q - (2 * W - 2 * rho)) + (2 * W - 2 * rho)) by ring. eapply Rle_trans; [apply Rabs_triang|]. rewrite (Rabs_right (2 * W - 2 * rho)) by lra. lra. }
    destruct (sub_err p q 55 M1 M2 ltac:(lia) ltac:(lra)) as (N3 & E4).
    assert (U3 : u * Rabs (fval p - fval q) <= u * (415 / 100 * W)) by (apply Rmult_le_compat_l; lra).
    set (v := fsub p q) in *. assert (E5 : Rabs (fval v - (2 * W - 2 * rho)) <= 894 / 100 * (W * eps) + 83 / 10 * (u * W)).
    { replace (fval v - (2 * W - 2 * rho)) with ((fval v - (fval p - fval q)) + (fval p - fval q - (2 * W - 2 * rho))) by ring. eapply Rle_trans; [apply Rabs_triang|]. lra. }
    assert (Pv : 0 <= fval v).
    { destruct (Rle_lt_dec 0 (fval v)) as [P|P]; [exact P|]. exfalso. assert (C : fval dotp <= W) by (rewrite (flt_val _ _ Nw N) in Fl; rewrite Vw in Fl; unfold Rlt_bool in Fl; destruct (Rcompare_spec W (fval dotp)); try discriminate; lra).
      destruct (fmul_le f_two (f_of_nat w) (bp 53) N2 Nw) as (_ & V3 & _); [apply fmt_bpow; lia|apply bp_top; lia|rewrite V2, Vw, Rabs_right; lra|].
      destruct (fmul_le f_two dotp (bp 54) N2 N) as (_ & V4 & _); [apply fmt_bpow; lia|apply bp_top; lia|rewrite V2, Rabs_mult, (Rabs_right 2); lra|].
      destruct (fsub_le p q (bp 55) M1 M2) as (_ & V5 & _); [apply fmt_bpow; lia|apply bp_top; lia|lra|].
      fold p in V3. fold q in V4. fold v in V5. rewrite V2 in V3, V4. rewrite Vw in V3. assert (fval q <= fval p) by (rewrite V3, V4; apply rnd_le; lra). assert (rnd 0 <= fval v) by (rewrite V5; apply rnd_le; lra). rewrite rnd0 in *. lra. }
    destruct (sqrt_err v N3 Pv) as (_ & _ & E6). set (d := fval (fsqrt64 v)) in *. set (s := sqrt (fval v)) in *. assert (Es : s * s = fval v) by (apply sqrt_sqrt, Pv). assert (Ps : 0 <= s) by apply sqrt_pos.
    assert (Av : fval v <= 416 / 100 * W) by (apply abs_between in E5; lra). 
    assert (As : s <= 3 * W). { destruct (Rle_lt_dec s (3 * W)) as [C|C]; [exact C|]. exfalso. assert (3 * W * (3 * W) < s * s) by (apply Rmult_le_0_lt_compat; lra). assert (W * 1 <= W * W) by (apply Rmult_le_compat_l; lra). lra. }
    assert (E7 : Rabs (d * d - fval v) <= 86 / 10 * (u * W)).
    { rewrite <- Es. replace (d * d - s * s) with ((d - s) * ((d - s) + 2 * s)) by ring. rewrite Rabs_mult. assert (H1 : Rabs (d - s + 2 * s) <= u * s + tiny + 2 * s) by (eapply Rle_trans; [apply Rabs_triang|]; rewrite (Rabs_right (2 * s)); lra).
      apply Rle_trans with ((u * s + tiny) * (u * s + tiny + 2 * s)); [apply Rmult_le_compat; auto using Rabs_pos|].
      assert (HS : u * (s * s) <= u * (416 / 100 * W)) by (apply Rmult_le_compat_l; lra). assert (HS1 : 0 <= u * (s * s)) by (apply Rmult_le_pos; [lra|apply Rle_0_sqr]).
      assert (T1 : tiny * s <= u / 1024 * (3 * W)) by (apply Rmult_le_compat; lra). assert (T0 : 0 <= tiny * s) by (apply Rmult_le_pos; lra). assert (T2 : u * (u * (s * s)) <= / 1024 * (u * (s * s))) by (apply Rmult_le_compat_r; lra).
      assert (T3 : tiny * tiny <= tiny * 1) by (apply Rmult_le_compat_l; lra). assert (T4 : u * (tiny * s) <= / 1024 * (tiny * s)) by (apply Rmult_le_compat_r; lra). lra. }
    replace (d * d - (2 * W - 2 * rho)) with ((d * d - fval v) + (fval v - (2 * W - 2 * rho))) by ring. eapply Rle_trans; [apply Rabs_triang|]. lra.
  Qed.

  (** ** Distances term by term *)
  Lemma sqrtW : 1 <= sqrt W /\ sqrt W * sqrt W = W.
  Proof. pose proof W_ge. split; [rewrite <- sqrt_1; apply sqrt_le_1_alt; lra|apply sqrt_sqrt; lra]. Qed.
  Lemma zdist_le : 0 <= zdistance va vb <= 2 * sqrt W.
  Proof. split; [apply euclid_nonneg|]. pose proof (zdistance_bound va vb ltac:(rewrite !map_length; congruence) al_pos be_pos) as H. rewrite map_length, La in H. exact H. Qed.
  Lemma assemble {K} (l : list K) (T : list f64) (e x y : K -> R) :
    total (map (fun k => x k * x k) l) = W -> total (map (fun k => y k * y k) l) = W -> INR (length l) = W ->
    total (map (fun k => (x k - y k) * (x k - y k)) l) = 2 * W - 2 * rho ->
    (forall k, In k l -> Rabs (e k - (x k - y k)) <= 14 / 10 * eps * (2 + Rabs (x k) + Rabs (y k))) ->
    (length T <= w)%nat -> (forall t, In t T -> bnd t 960 /\ is_sign_negative t = false) ->
    Rabs (total (vals T) - total (map (fun k => e k * e k) l)) <= 11 * (u * total (map (fun k => e k * e k) l)) + W * mini ->
    let d := fsqrt64 (fold_left fadd T f_zero) in
    number d /\ 0 <= fval d /\ Rabs (fval d - zdistance va vb) <= 10 * (eps * sqrt W).
  Proof.
    intros HX HY HL HD HE LT BT HT. cbv zeta. set (E := total (map (fun k => e k * e k) l)) in *.
    pose proof W_ge as PW. pose proof u_pos as UP. pose proof u_small as US. pose proof u_eps as UE. pose proof u_tiny as TU. pose proof tiny_pos as TP. destruct sqrtW as (SW & SW2). pose proof zdist_le as ZD. pose proof W_eps as WE.
    assert (PEE : 0 <= E) by (apply RealProofs.total_nonneg; intros; apply Rle_0_sqr).
    assert (R : Rabs (sqrt E - zdistance va vb) <= 56 / 10 * (eps * sqrt W)).
    { pose proof (norm_close e (fun k => x k - y k) (fun k => 14 / 10 * eps * (2 + Rabs (x k) + Rabs (y k))) l HE) as C. cbv beta in C. fold E in C. rewrite HD, <- zdist_rho, <- zdist_sqrt in C.
      eapply Rle_trans; [exact C|]. eapply Rle_trans; [apply (spread_le x y (14 / 10 * eps) W l HX HY HL); lra|]. lra. }
    set (zd := zdistance va vb) in *. clear HX HY HL HD HE.
    destruct (fold_bound 960 T ltac:(lia) 0 f_zero) as (Ns & _); [apply zero_number|cbn; rewrite Rabs_R0; lra|lia|intros t Ht; apply BT, Ht|].
    assert (Sg : is_sign_negative (fold_left fadd T f_zero) = false) by (apply fold_sign; [reflexivity|intros t Ht; apply BT, Ht]).
    pose proof (fold_grow 960 T ltac:(lia) 0 f_zero (zero_number _)) as G. cbn [fval SF2R INR Nat.add] in G. change (fval f_zero) with 0 in G. rewrite Rabs_R0, Rmult_0_l, !Rplus_0_l in G. specialize (G ltac:(lra) ltac:(lia) ltac:(intros t Ht; apply BT, Ht)).
    assert (WT : weight T = total (vals T)).
    { unfold weight. apply total_ext. intros t Ht. destruct (BT t Ht) as ((Nt & _) & St). apply Rabs_right, Rle_ge, sign_val; [apply Nt|exact St]. }
    set (s := fold_left fadd T f_zero) in *. assert (Ps : 0 <= fval s) by (apply sign_val; [apply Ns|exact Sg]).
    assert (GW : grow (length T) <= 2 * (W * u)) by (eapply Rle_trans; [apply grow_le, LT|]; apply grow_small; lra).
    set (S := total (vals T)) in *. rewrite WT in G. assert (PS : 0 <= S) by (rewrite <- WT; apply weight_nonneg).
    assert (PM : 0 < mini) by apply bpow_gt_0. assert (PUE : 0 <= u * E) by (apply Rmult_le_pos; lra). assert (PWM : 0 <= W * mini) by (apply Rmult_le_pos; lra).
    assert (WU1 : 0 <= W * u <= / 64) by (split; [apply Rmult_le_pos; lra|lra]).
    assert (G2 : Rabs (fval s - E) <= (2 * eps - 20 * u) * E + 2 * sqrt W * bp (-500) * (2 * sqrt W * bp (-500))).
    { replace (fval s - E) with ((fval s - S) + (S - E)) by ring. eapply Rle_trans; [apply Rabs_triang|].
      assert (grow (length T) * S <= 2 * (W * u) * (E + 11 * (u * E) + W * mini)) by (apply Rmult_le_compat; auto using grow_nonneg; apply abs_between in HT; lra).
      assert (W * u * (u * E) <= / 64 * (u * E)) by (apply Rmult_le_compat_r; lra). assert (W * u * (W * mini) <= / 64 * (W * mini)) by (apply Rmult_le_compat_r; lra).
      assert (W * u * E <= (eps - 16 * u) * E) by (apply Rmult_le_compat_r; lra).
      replace (2 * sqrt W * bp (-500) * (2 * sqrt W * bp (-500))) with (4 * (W * mini)) by (rewrite <- SW2 at 1; change (-1000)%Z with (-500 + -500)%Z; rewrite bpow_plus; ring). lra. }
    assert (P500 : 0 < bp (-500)) by apply bpow_gt_0. assert (PT : 0 <= 2 * sqrt W * bp (-500)) by (repeat apply Rmult_le_pos; lra).
    pose proof (sqrt_close (fval s) E (2 * eps - 20 * u) (2 * sqrt W * bp (-500)) Ps PEE ltac:(lra) PT G2) as C.
    destruct (sqrt_err s Ns Ps) as (Nd & Pd & Ed). split; [exact Nd|]. split; [exact Pd|]. set (d := fval (fsqrt64 s)) in *. set (r := sqrt (fval s)) in *. set (q := sqrt E) in *. set (v := sqrt W) in *.
    assert (TT : 2 * v * bp (-500) <= u / 1024 * v).
    { replace (2 * v * bp (-500)) with (bp (-500) * 2 * v) by ring. apply Rmult_le_compat_r; [lra|]. rewrite Rmult_comm, <- bp_double. apply (small_pow (-500 + 1) (-63)); [lia|]. change (-63)%Z with (-53 + -10)%Z. rewrite bpow_plus. reflexivity. }
    assert (PEV : 0 <= eps * v) by (apply Rmult_le_pos; lra). assert (EV : eps * v <= / 64 * v) by (apply Rmult_le_compat_r; lra). assert (PUV : 0 <= u * v) by (apply Rmult_le_pos; lra). assert (UV1 : u * 1 <= u * v) by (apply Rmult_le_compat_l; lra).
    assert (Q1 : q <= 21 / 10 * v) by (apply abs_between in R; lra). assert (Pq : 0 <= q) by apply sqrt_pos.
    assert (Q2 : (2 * eps - 20 * u) * q <= (2 * eps - 20 * u) * (208750 / 100000 * v)) by (apply Rmult_le_compat_l; [lra|]; apply abs_between in R; lra).
    assert (R1 : r <= 3 * v). { apply abs_between in C. assert (u * v <= / 1024 * v) by (apply Rmult_le_compat_r; lra). assert ((2 * eps - 20 * u) * q <= / 32 * q) by (apply Rmult_le_compat_r; lra). lra. }
    assert (R2 : u * r <= u * (3 * v)) by (apply Rmult_le_compat_l; lra).
    replace (d - zd) with ((d - r) + ((r - q) + (q - zd))) by ring. eapply Rle_trans; [apply Rabs_triang|]. eapply Rle_trans; [apply Rplus_le_compat_l, Rabs_triang|]. lra.
  Qed.

  Definition slow_diff (p : f64 * f64) : f64 := fsub (fdiv (fsub (fst p) ma) sa) (fdiv (fsub (snd p) mb) sb).
  Lemma sa_ge : bp (-15) <= fval sa. Proof. apply (sd_ge sa va); assumption. Qed.
  Lemma sb_ge : bp (-15) <= fval sb. Proof. apply (sd_ge sb vb); assumption. Qed.
  Lemma slow_diff_err p : In p ps -> bnd (slow_diff p) 238 /\ Rabs (fval (slow_diff p) - (xi p - up p)) <= 14 / 10 * eps * (2 + Rabs (xi p) + Rabs (up p)).
  Proof.
    intros Hp. apply in_ps in Hp as (Hx & Hy). destruct (normal_err (fst p) ma sa mua al eps (A _ Hx) Ma Sa sa_ge al_pos He u_eps Cma Csa) as (B1 & E1).
    destruct (normal_err (snd p) mb sb mub be eps (B _ Hy) Mb Sb sb_ge be_pos He u_eps Cmb Csb) as (B2 & E2). apply diff_err; auto. exact u_eps.
  Qed.
  Lemma fterm_sq p : fterm ma sa mb sb (fst p) (snd p) = fmul (slow_diff p) (slow_diff p). Proof. reflexivity. Qed.
  Lemma fterm_err p : In p ps ->
    Rabs (fval (fterm ma sa mb sb (fst p) (snd p)) - fval (slow_diff p) * fval (slow_diff p)) <= 11 * (u * (fval (slow_diff p) * fval (slow_diff p))) + mini.
  Proof.
    intros Hp. destruct (slow_diff_err p Hp) as (B1 & _). rewrite fterm_sq. destruct (square_err (slow_diff p)) as (_ & E); [apply bnd_le with 238%Z; [lia|exact B1]|].
    eapply Rle_trans; [exact E|]. assert (0 <= u * (fval (slow_diff p) * fval (slow_diff p))) by (apply Rmult_le_pos; [apply bpow_ge_0|apply Rle_0_sqr]). assert (tiny <= mini) by (apply bpow_le; lia). lra.
  Qed.
  Lemma slow_close : let d := fsqrt64 (fold_left fadd (zip_with (fterm ma sa mb sb) a b) f_zero) in
    number d /\ 0 <= fval d /\ Rabs (fval d - zdistance va vb) <= 10 * (eps * sqrt W).
  Proof.
    apply (assemble ps (zip_with (fterm ma sa mb sb) a b) (fun p => fval (slow_diff p)) xi up xi_sq up_sq ltac:(rewrite len_ps; reflexivity) zdist_rho).
    - intros p Hp. apply slow_diff_err, Hp.
    - rewrite zip_length by congruence. lia.
    - intros t Ht. apply in_zip_with in Ht as (x & y & Hx & Hy & ->). split; [|apply fterm_sign]. apply bnd_le with (2 * 200 + 74)%Z; [lia|]. eapply (fterm_bnd 200 ma sa mb sb a b); auto; lia.
    - unfold zip_with. rewrite map_map, <- total_minus. eapply Rle_trans; [apply (total_abs_le _ (fun p => 11 * (u * (fval (slow_diff p) * fval (slow_diff p))) + mini)); intros p Hp; apply fterm_err, Hp|].
      rewrite total_plus, !total_scale, total_const, len_ps. apply Rle_refl.
  Qed.

  (** with chunks *)
  Definition chunk_diff (p : f64 * f64) : R := fval (cross ma sa mb sb (fst p) (snd p)) / (fval sa * fval sb).
  Lemma M_ge : bp (-15) <= M. Proof. pose proof al_ge. pose proof (sd_le a La HA). lra. Qed.
  Lemma mean_le m l : length l = w -> (forall x, In x l -> Rabs (fval x) <= M) -> Rabs (fval m - mean_of (vals l)) <= eps * sd_of (vals l) -> Rabs (fval m) <= 102 / 100 * M.
  Proof.
    intros L H C. pose proof (sd_le l L H) as S. pose proof (sd_nonneg (vals l)) as P. assert (Q : Rabs (mean_of (vals l)) <= M).
    { apply mean_abs; [destruct l; [cbn in L; lia|discriminate]|]. intros x Hx. apply in_map_iff in Hx as (y & <- & Hy). auto. }
    replace (fval m) with ((fval m - mean_of (vals l)) + mean_of (vals l)) by ring. eapply Rle_trans; [apply Rabs_triang|]. assert (eps * sd_of (vals l) <= / 64 * M) by (apply Rmult_le_compat; lra). lra.
  Qed.
  Lemma seventeen s : (W + 16) * (u * M) <= eps * s -> 17 * (u * M) <= eps * s.
  Proof. intros H. eapply Rle_trans; [|exact H]. apply Rmult_le_compat_r; [|pose proof W_ge; lra]. apply Rmult_le_pos; [apply bpow_ge_0|]. pose proof M_ge. pose proof (bpow_gt_0 radix2 (-15)). lra. Qed.
  Lemma cross_bnd_in x y : In x a -> In y b -> bnd (cross ma sa mb sb x y) 451.
  Proof.
    intros Hx Hy. apply (cross_close x y ma sa mb sb mua al mub be M eps); auto using sa_ge, sb_ge, M_ge, al_pos, be_pos, seventeen; [apply (mean_le ma a)|apply (mean_le mb b)]; auto.
  Qed.
  Lemma chunk_diff_err p : In p ps -> bnd (cross ma sa mb sb (fst p) (snd p)) 451 /\ Rabs (chunk_diff p - (xi p - up p)) <= 14 / 10 * eps * (2 + Rabs (xi p) + Rabs (up p)).
  Proof.
    intros Hp. apply in_ps in Hp as (Hx & Hy). unfold chunk_diff, xi, up.
    apply (cross_close (fst p) (snd p) ma sa mb sb mua al mub be M eps); auto using sa_ge, sb_ge, M_ge, al_pos, be_pos, seventeen; [apply (mean_le ma a)|apply (mean_le mb b)]; auto.
  Qed.
  Lemma zip_pair {X} (c d : list X) : zip_with pair c d = combine c d.
  Proof. unfold zip_with. rewrite <- (map_id (combine c d)) at 2. apply map_ext. intros []; reflexivity. Qed.
  Definition pieces : list (f64 * f64 + f64 * f64) := map inl (rest 4 ps) ++ map inr (concat (whole_chunks 4 ps)).
  Definition unpiece (k : f64 * f64 + f64 * f64) : f64 * f64 := match k with inl p => p | inr p => p end.
  Lemma pieces_total (h : f64 * f64 -> R) : total (map (fun k => h (unpiece k)) pieces) = total (map h ps).
  Proof.
    unfold pieces. rewrite map_app, !map_map, total_app. cbn [unpiece]. transitivity (total (map h (concat (whole_chunks 4 ps) ++ rest 4 ps))); [rewrite map_app, total_app; apply Rplus_comm|rewrite chunks_concat by lia; reflexivity].
  Qed.
  Lemma in_pieces k : In k pieces -> In (unpiece k) ps.
  Proof.
    unfold pieces. intros H. rewrite <- (chunks_concat 4 ps ltac:(lia)). apply in_or_app. apply in_app_or in H as [H|H]; apply in_map_iff in H as (p & <- & Hp); [right|left]; exact Hp.
  Qed.
  Definition piece_diff (k : f64 * f64 + f64 * f64) : R := match k with inl p => fval (slow_diff p) | inr p => chunk_diff p end.
  Lemma chunks_sum (cs : list (list f64 * list f64)) : (forall c, In c cs -> length (fst c) = 4%nat /\ length (snd c) = 4%nat /\ incl (fst c) a /\ incl (snd c) b) ->
    let E := total (map (fun p => chunk_diff p * chunk_diff p) (concat (map (fun c => combine (fst c) (snd c)) cs))) in
    Rabs (total (vals (map (fun c => fchunk_term z ma sa mb sb (fst c) (snd c)) cs)) - E) <= 11 * (u * E) + INR (length cs) * mini.
  Proof.
    cbv zeta. induction cs as [|c cs IH]; intros H.
    - cbn. rewrite Rminus_0_r, Rabs_R0. lra.
    - specialize (IH ltac:(intros; apply H; right; assumption)). destruct (H c (or_introl eq_refl)) as (L1 & L2 & I1 & I2).
      destruct (chunk_err z ma sa mb sb (fst c) (snd c) Sa Sb sa_ge sb_ge L1 L2) as (PE & _ & E).
      { intros p q Hp Hq. apply cross_bnd_in; [apply I1, Hp|apply I2, Hq]. }
      cbv zeta in E, PE. cbn [map concat length]. rewrite map_app, total_app, total_cons, S_INR. unfold chunk_diff in *.
      match goal with |- Rabs (?p + ?q - (?r + ?s)) <= _ => replace (p + q - (r + s)) with ((p - r) + (q - s)) by ring end. eapply Rle_trans; [apply Rabs_triang|]. lra.
  Qed.
  Lemma threshold_close' : let d := fsqrt64 (fold_left fadd (fterms z ma sa mb sb a b) f_zero) in
    number d /\ 0 <= fval d /\ Rabs (fval d - zdistance va vb) <= 10 * (eps * sqrt W).
  Proof.
    apply (assemble pieces (fterms z ma sa mb sb a b) piece_diff (fun k => xi (unpiece k)) (fun k => up (unpiece k))).
    - rewrite (pieces_total (fun p => xi p * xi p)). apply xi_sq.
    - rewrite (pieces_total (fun p => up p * up p)). apply up_sq.
    - unfold pieces. rewrite app_length, !map_length, Nat.add_comm, <- app_length, chunks_concat, len_ps by lia. reflexivity.
    - rewrite (pieces_total (fun p => (xi p - up p) * (xi p - up p))). apply zdist_rho.
    - intros k Hk. apply in_pieces in Hk. destruct k as [p|p]; cbn [piece_diff unpiece] in *; [apply slow_diff_err, Hk|apply chunk_diff_err, Hk].
    - rewrite <- La. apply (terms_length z 200 ma sa mb sb a b A B).
    - intros t Ht. split; [|apply (fterms_sign z ma sa mb sb a b), Ht]. apply (terms_bnd z 200 ma sa mb sb a b); auto; lia.
    - unfold fterms. rewrite zip_rest by congruence. 
      assert (EC : concat (map (fun c => combine (fst c) (snd c)) (combine (whole_chunks 4 a) (whole_chunks 4 b))) = concat (whole_chunks 4 ps)).
      { rewrite <- (zip_pair a b), <- zip_chunks by congruence. unfold zip_with at 1. f_equal. apply map_ext. intros c. symmetry. apply zip_pair. }
      rewrite map_app, total_app. unfold pieces. rewrite map_app, !map_map, total_app. cbn [piece_diff].
      set (E1 := total (map (fun x => fval (slow_diff x) * fval (slow_diff x)) (rest 4 ps))). rewrite <- EC. set (E2 := total (map (fun x => chunk_diff x * chunk_diff x) _)).
      assert (R1 : Rabs (total (vals (rest 4 (zip_with (fterm ma sa mb sb) a b))) - E1) <= 11 * (u * E1) + INR (length (rest 4 ps)) * mini).
      { rewrite <- zip_rest by congruence. unfold zip_with. rewrite <- (zip_pair (rest 4 a)), zip_rest, zip_pair, map_map by congruence. unfold E1. rewrite <- total_minus.
        eapply Rle_trans; [apply (total_abs_le _ (fun p => 11 * (u * (fval (slow_diff p) * fval (slow_diff p))) + mini)); intros p Hp; apply fterm_err; eapply in_rest, Hp|].
        rewrite total_plus, !total_scale, total_const. apply Rle_refl. }
      assert (R2 : Rabs (total (vals (zip_with (fchunk_term z ma sa mb sb) (whole_chunks 4 a) (whole_chunks 4 b))) - E2) <= 11 * (u * E2) + INR (length (combine (whole_chunks 4 a) (whole_chunks 4 b))) * mini).
      { apply chunks_sum. intros [c d] Hc. pose proof (in_combine_l _ _ _ _ Hc) as H1. pose proof (in_combine_r _ _ _ _ Hc) as H2. apply in_chunk in H1 as (? & ?), H2 as (? & ?); try lia. cbn [fst snd]. auto. }
      match goal with |- Rabs (?p + ?q - (?r + ?s)) <= _ => replace (p + q - (r + s)) with ((p - r) + (q - s)) by ring end. eapply Rle_trans; [apply Rabs_triang|].
      assert (LN : INR (length (rest 4 ps)) + INR (length (combine (whole_chunks 4 a) (whole_chunks 4 b))) <= W).
      { rewrite <- plus_INR. apply le_INR. rewrite rest_length, len_ps, combine_length, !chunks_length, La, Lb by lia. pose proof (Nat.div_mod w 4 ltac:(lia)). lia. }
      assert (PM : 0 < mini) by apply bpow_gt_0. assert ((INR (length (rest 4 ps)) + INR (length (combine (whole_chunks 4 a) (whole_chunks 4 b)))) * mini <= W * mini) by (apply Rmult_le_compat_r; lra). lra.
  Qed.

  (** ** The distance *)
  Lemma fzeucl_close : let dotp := fzdot z a ma sa b mb sb in
    let d := if flt (f_of_nat w) dotp then fsqrt64 (fold_left fadd (zip_with (fterm ma sa mb sb) a b) f_zero) else fsqrt64 (fsub (fmul f_two (f_of_nat w)) (fmul f_two dotp)) in
    number d /\ 0 <= fval d /\ Rabs (fval d * fval d - zdistance va vb * zdistance va vb) <= 10 * (W * eps).
  Proof.
    cbv zeta. pose proof fast_close as Fc. cbv zeta in Fc. destruct (flt (f_of_nat w) (fzdot z a ma sa b mb sb)) eqn:Fl; [|apply Fc; reflexivity]. clear Fc.
    destruct slow_close as (Nd & Pd & E). set (d := fval (fsqrt64 (fold_left fadd (zip_with (fterm ma sa mb sb) a b) f_zero))) in *. split; [exact Nd|]. split; [exact Pd|].
    destruct zdot_err as (N & Ez). destruct (of_nat_exact w ltac:(lia)) as (Nw & Vw). rewrite (flt_val _ _ Nw N), Vw in Fl. unfold Rlt_bool in Fl. destruct (Rcompare_spec W (fval (fzdot z a ma sa b mb sb))) as [C|C|C]; try discriminate Fl.
    pose proof zdist_sq as Z2. pose proof zdist_le as (Z0 & _). destruct sqrtW as (V1 & V2). set (zd := zdistance va vb) in *. set (v := sqrt W) in *. apply abs_between in Ez. pose proof W_ge as PW.
    assert (WE : W * eps <= W * / 64) by (apply Rmult_le_compat_l; lra).
    assert (Zs : zd <= 4 / 10 * v).
    { destruct (Rle_lt_dec zd (4 / 10 * v)) as [L|L]; [exact L|]. exfalso. assert (4 / 10 * v * (4 / 10 * v) < zd * zd) by (apply Rmult_le_0_lt_compat; lra). lra. }
    assert (EV : eps * v <= / 64 * v) by (apply Rmult_le_compat_r; lra). assert (PEV : 0 <= eps * v) by (apply Rmult_le_pos; lra).
    replace (d * d - zd * zd) with ((d - zd) * ((d - zd) + 2 * zd)) by ring. rewrite Rabs_mult.
    assert (H : Rabs (d - zd + 2 * zd) <= v) by (eapply Rle_trans; [apply Rabs_triang|]; rewrite (Rabs_right (2 * zd)) by lra; lra).
    apply Rle_trans with (10 * (eps * v) * v); [apply Rmult_le_compat; auto using Rabs_pos|]. rewrite <- V2. lra.
  Qed.
End Close.
