(** Distances from the dot product of a computed z-normalised window with another window. *)
From Coq Require Import Reals Lra Lia Floats.SpecFloat.
From Flocq Require Import Core Relative Plus_error BinarySingleNaN.
From Verif Require Import Base F64 RSpec RealProofs SeriesProofs FFTProofs Iterator FpOps FloatSeries FloatProofs FloatRoll FloatBound FloatDist FloatDist2 FloatThr FloatErr FloatMean FloatSd FloatSum FloatTerm FloatPair FloatProj.
Local Open Scope R_scope.

(** ** From a dot product to a distance *)
Definition profile_distance (w : nat) (y : f64) : f64 := fsqrt64 (fsub (fmul f_two (f_of_nat w)) (fmul f_two y)).
Lemma profile_core (W u t E r y p q v : R) : 0 < u <= / 1024 -> 0 < t <= u / 1024 -> 1 <= W -> 0 <= E -> - W <= r <= W ->
  Rabs (y - r) <= E -> Rabs (p - 2 * W) <= u * (2 * W) + t -> Rabs (q - 2 * y) <= u * (2 * Rabs y) + t -> Rabs (v - (p - q)) <= u * Rabs (p - q) ->
  Rabs (v - (2 * W - 2 * r)) <= 201 / 100 * E + 9 * (u * W).
Proof.
  intros U T PW PE R Ey Ep Eq Ev. pose proof (near_abs _ _ _ Ey) as Ny. assert (Ar : Rabs r <= W) by (apply Rabs_le; lra).
  assert (Uy : u * Rabs y <= u * W + / 1024 * E).
  { apply Rle_trans with (u * (W + E)); [apply Rmult_le_compat_l; lra|]. assert (u * E <= / 1024 * E) by (apply Rmult_le_compat_r; lra). lra. }
  assert (UW : u * 1 <= u * W) by (apply Rmult_le_compat_l; lra).
  assert (E3 : Rabs (p - q - (2 * W - 2 * r)) <= 2 * E + 4 * (u * W) + 2 / 1024 * E + 2 * t).
  { replace (p - q - (2 * W - 2 * r)) with ((p - 2 * W) + - (q - 2 * y) + - (2 * (y - r))) by ring.
    eapply Rle_trans; [apply tri3|]. rewrite !Rabs_Ropp, Rabs_mult, (Rabs_right 2) by lra. lra. }
  assert (Ad : Rabs (2 * W - 2 * r) <= 4 * W) by (apply Rabs_le; lra).
  pose proof (near_abs _ _ _ E3) as N3.
  assert (U3 : u * Rabs (p - q) <= 4 * (u * W) + / 1024 * (2 * E + 4 * (u * W) + 2 / 1024 * E + 2 * t)).
  { apply Rle_trans with (u * (4 * W + (2 * E + 4 * (u * W) + 2 / 1024 * E + 2 * t))); [apply Rmult_le_compat_l; lra|].
    assert (0 <= u * W) by (apply Rmult_le_pos; lra).
    assert (u * (2 * E + 4 * (u * W) + 2 / 1024 * E + 2 * t) <= / 1024 * (2 * E + 4 * (u * W) + 2 / 1024 * E + 2 * t)) by (apply Rmult_le_compat_r; lra). lra. }
  replace (v - (2 * W - 2 * r)) with ((v - (p - q)) + (p - q - (2 * W - 2 * r))) by ring. eapply Rle_trans; [apply Rabs_triang|]. lra.
Qed.
Lemma square_core (u t v s d : R) : 0 < u <= / 1024 -> 0 < t <= u / 1024 -> 0 <= s -> s * s = v -> Rabs (d - s) <= u * s + t -> Rabs (d * d - v) <= 3 * (u * v) + u / 64.
Proof.
  intros U T Ps Es E. subst v. replace (d * d - s * s) with ((d - s) * ((d - s) + 2 * s)) by ring. rewrite Rabs_mult.
  assert (H1 : Rabs (d - s + 2 * s) <= u * s + t + 2 * s) by (eapply Rle_trans; [apply Rabs_triang|]; rewrite (Rabs_right (2 * s)); lra).
  apply Rle_trans with ((u * s + t) * (u * s + t + 2 * s)); [apply Rmult_le_compat; auto using Rabs_pos|].
  assert (HS1 : 0 <= u * (s * s)) by (apply Rmult_le_pos; [lra|apply Rle_0_sqr]).
  assert (S1 : s <= 1 + s * s) by (pose proof (Rle_0_sqr (s - 1)) as Q; unfold Rsqr in Q; pose proof (Rle_0_sqr s) as Q2; unfold Rsqr in Q2; lra).
  assert (T1 : t * s <= u / 1024 * (1 + s * s)) by (apply Rmult_le_compat; lra). assert (T0 : 0 <= t * s) by (apply Rmult_le_pos; lra).
  assert (T2 : u * (u * (s * s)) <= / 1024 * (u * (s * s))) by (apply Rmult_le_compat_r; lra).
  assert (T3 : t * t <= t * 1) by (apply Rmult_le_compat_l; lra). assert (T4 : u * (t * s) <= / 1024 * (t * s)) by (apply Rmult_le_compat_r; lra). lra.
Qed.
Lemma root_pos v : number v -> is_nan (fsqrt64 v) = false -> 0 <= fval v.
Proof.
  intros (_ & F) H. destruct v as [sg|sg| |[|] m e]; try discriminate F; try discriminate H; unfold fval; cbn [SF2R]; [lra|]. apply F2R_ge_0. cbn. lia.
Qed.
Lemma profile_close w y E r : (1 <= w)%nat -> (Z.of_nat w <= 2 ^ 52)%Z -> number y -> Rabs (fval y) <= bp 900 -> 0 <= E -> - INR w <= r <= INR w -> Rabs (fval y - r) <= E ->
  202 / 100 * E + 22 * (u * INR w) < 2 * INR w - 2 * r \/ is_nan (profile_distance w y) = false ->
  number (profile_distance w y) /\ 0 <= fval (profile_distance w y) /\
  Rabs (fval (profile_distance w y) * fval (profile_distance w y) - (2 * INR w - 2 * r)) <= 202 / 100 * E + 22 * (u * INR w).
Proof.
  intros Lw Hw Ny By PE R Ey D. pose proof (W1 w Lw) as PW. pose proof (W52 w Hw) as H52. pose proof u_pos as UP. pose proof u_small as US. pose proof tiny_pos as TP.
  assert (TU : tiny <= u / 1024) by (apply (small_pow (-1075) (-63)); [lia|]; change (-63)%Z with (-53 + -10)%Z; rewrite bpow_plus; reflexivity).
  destruct (of_nat_exact w ltac:(lia)) as (Nw & Vw). destruct two_number as (N2 & V2).
  assert (B53 : bp 53 = 2 * bp 52) by (rewrite <- bp_double; reflexivity). assert (B901 : bp 901 = 2 * bp 900) by (rewrite <- bp_double; reflexivity).
  destruct (mul_err f_two (f_of_nat w) 53 N2 Nw ltac:(lia)) as (M1 & E1); [rewrite V2, Vw, Rabs_right; lra|]. rewrite V2, Vw, (Rabs_right (2 * INR w)) in E1 by lra.
  destruct (mul_err f_two y 901 N2 Ny ltac:(lia)) as (M2 & E2); [rewrite V2, Rabs_mult, (Rabs_right 2); lra|]. rewrite V2, Rabs_mult, (Rabs_right 2) in E2 by lra.
  unfold profile_distance. set (p := fmul f_two (f_of_nat w)) in *. set (q := fmul f_two y) in *.
  assert (Bd : bnd p 902 /\ bnd q 902).
  { assert (H1 : bp 53 <= bp 900) by (apply bpow_le; lia). assert (B902 : bp 902 = 2 * bp 901) by (rewrite <- bp_double; reflexivity).
    assert (B1 : 1 <= bp 900) by (change 1 with (bp 0); apply bpow_le; lia).
    split; (split; [assumption|]).
    - pose proof (near_abs _ _ _ E1) as N. rewrite (Rabs_right (2 * INR w)) in N by lra. assert (u * (2 * INR w) <= / 1024 * (2 * INR w)) by (apply Rmult_le_compat_r; lra). lra.
    - pose proof (near_abs _ _ _ E2) as N. rewrite Rabs_mult, (Rabs_right 2) in N by lra. assert (u * (2 * Rabs (fval y)) <= / 1024 * (2 * Rabs (fval y))) by (apply Rmult_le_compat_r; [pose proof (Rabs_pos (fval y)); lra|lra]). lra. }
  destruct Bd as (Bp & Bq).
  destruct (sub_err p q 903 M1 M2 ltac:(lia)) as (N3 & E4).
  { change 903%Z with (902 + 1)%Z. rewrite bp_double. destruct Bp as (_ & Q1), Bq as (_ & Q2). unfold Rminus. eapply Rle_trans; [apply Rabs_triang|]. rewrite Rabs_Ropp. lra. }
  set (v := fsub p q) in *.
  pose proof (profile_core (INR w) u tiny E r (fval y) (fval p) (fval q) (fval v) ltac:(lra) ltac:(lra) PW PE R Ey E1 E2 E4) as C.
  assert (PUW : 0 <= u * INR w) by (apply Rmult_le_pos; lra). assert (UW1 : u * 1 <= u * INR w) by (apply Rmult_le_compat_l; lra).
  assert (Pv : 0 <= fval v).
  { destruct D as [D|D]; [apply abs_between in C; lra|]. apply root_pos; [exact N3|exact D]. }
  destruct (sqrt_err v N3 Pv) as (Nd & Pd & E6). split; [exact Nd|]. split; [exact Pd|].
  pose proof (square_core u tiny (fval v) (sqrt (fval v)) _ ltac:(lra) ltac:(lra) (sqrt_pos _) (sqrt_sqrt _ Pv) E6) as Sq.
  assert (Uv : u * fval v <= 4 * (u * INR w) + / 1024 * (201 / 100 * E + 9 * (u * INR w))).
  { apply abs_between in C. apply Rle_trans with (u * (4 * INR w + (201 / 100 * E + 9 * (u * INR w)))); [apply Rmult_le_compat_l; lra|].
    assert (u * (201 / 100 * E + 9 * (u * INR w)) <= / 1024 * (201 / 100 * E + 9 * (u * INR w))) by (apply Rmult_le_compat_r; lra). lra. }
  set (dd := fval (fsqrt64 v) * fval (fsqrt64 v)) in *.
  replace (dd - (2 * INR w - 2 * r)) with ((dd - fval v) + (fval v - (2 * INR w - 2 * r))) by ring. eapply Rle_trans; [apply Rabs_triang|]. lra.
Qed.

(** ** The dot product of the computed window with the other one *)
Section Prof.
  Variables (z : zeros) (w : nat) (a b : list f64) (ma sa mb sb val : f64) (M eps err : R).
  Hypothesis La : length a = w.
  Hypothesis Lb : length b = w.
  Hypothesis Lw : (1 <= w)%nat.
  Hypothesis Hw : (Z.of_nat w <= 2 ^ 52)%Z.
  Hypothesis A : forall x, In x a -> bnd x 200.
  Hypothesis B : forall x, In x b -> bnd x 200.
  Hypothesis Ma : bnd ma 221.
  Hypothesis Mb : bnd mb 221.
  Hypothesis Sa : bnd sa 228.
  Hypothesis Sb : bnd sb 228.
  Hypothesis Fa : not_flat sa.
  Hypothesis Fb : not_flat sb.
  Notation va := (vals a).
  Notation vb := (vals b).
  Notation al := (sd_of va).
  Notation be := (sd_of vb).
  Notation W := (INR w).
  Hypothesis He : 0 < eps <= / 64.
  Hypothesis Cma : Rabs (fval ma - mean_of va) <= eps * al.
  Hypothesis Cmb : Rabs (fval mb - mean_of vb) <= eps * be.
  Hypothesis Csa : Rabs (fval sa - al) <= eps * al.
  Hypothesis Csb : Rabs (fval sb - be) <= eps * be.
  Hypothesis HA : forall x, In x a -> Rabs (fval x) <= M.
  Hypothesis HB : forall x, In x b -> Rabs (fval x) <= M.
  Hypothesis Ra : (W + 16) * (u * M) <= eps * al.
  Hypothesis Rb : (W + 16) * (u * M) <= eps * be.
  Definition buf : list f64 := map (fun x => fdiv (fsub x ma) sa) a.
  Hypothesis Nv : number val.
  Hypothesis Ev : Rabs (fval val - inner (vals buf) vb) <= err.
  Hypothesis Err : err <= bp 500.
  Notation ps := (combine a b).
  Notation ps' := (combine a b).
  Definition xx (p : f64 * f64) : R := (fval (fst p) - mean_of va) / al.
  Definition yy (p : f64 * f64) : R := (fval (snd p) - mean_of vb) / be.
  Definition bb (p : f64 * f64) : R := fval (fdiv (fsub (fst p) ma) sa).
  Definition rr : R := inner (znorm va) (znorm vb).

  Lemma qa : bp (-15) <= al /\ bp (-15) <= fval sa. Proof. apply (sd_ge eps He sa va); assumption. Qed.
  Lemma qb : bp (-15) <= be /\ bp (-15) <= fval sb. Proof. apply (sd_ge eps He sb vb); assumption. Qed.
  Lemma qap : 0 < al. Proof. pose proof qa. pose proof (bpow_gt_0 radix2 (-15)). lra. Qed.
  Lemma qbp : 0 < be. Proof. pose proof qb. pose proof (bpow_gt_0 radix2 (-15)). lra. Qed.
  Lemma qM : al <= M. Proof. apply (sd_le w a a ma M 0 La La Lw A A HA HA a La HA). Qed.
  Lemma qW : 1 <= W. Proof. apply (W1 w Lw). Qed.
  Lemma qu : u <= eps / 17.
  Proof.
    pose proof qM as S. pose proof qap as P. pose proof u_pos. pose proof qW.
    assert (Q : (W + 16) * u * al <= (W + 16) * u * M) by (apply Rmult_le_compat_l; [apply Rmult_le_pos; lra|exact S]).
    assert ((W + 16) * u <= eps) by (apply Rmult_le_reg_r with al; [exact P|lra]). assert (17 * u <= (W + 16) * u) by (apply Rmult_le_compat_r; lra). lra.
  Qed.
  Lemma bb_close p : In p ps -> bnd (fdiv (fsub (fst p) ma) sa) 237 /\ Rabs (bb p - xx p) <= 115 / 100 * eps * (1 + Rabs (xx p)).
  Proof.
    intros Hp. destruct p as (x & y). pose proof (in_combine_l _ _ _ _ Hp) as Hx. cbn [fst]. unfold bb, xx. cbn [fst].
    apply normal_err; auto; [apply qa|apply qap|apply qu].
  Qed.
  Lemma xx_sq : total (map (fun p => xx p * xx p) ps) = W.
  Proof.
    unfold xx. rewrite (total_fst (fun x => (fval x - mean_of va) / al * ((fval x - mean_of va) / al))) by congruence.
    pose proof (znorm_norm va qap) as H. rewrite map_length, La in H. rewrite <- H. symmetry. apply (inner_vals a (fun x => (x - mean_of va) / al)).
  Qed.
  Lemma yy_sq : total (map (fun p => yy p * yy p) ps) = W.
  Proof.
    unfold yy. rewrite (total_snd (fun x => (fval x - mean_of vb) / be * ((fval x - mean_of vb) / be))) by congruence.
    pose proof (znorm_norm vb qbp) as H. rewrite map_length, Lb in H. rewrite <- H. symmetry. apply (inner_vals b (fun x => (x - mean_of vb) / be)).
  Qed.
  Lemma rr_total : rr = total (map (fun p => xx p * yy p) ps).
  Proof. unfold rr, inner, znorm. rewrite combine_vals, map_map. reflexivity. Qed.
  Lemma rr_le : - W <= rr <= W.
  Proof. pose proof (zinner_le va vb ltac:(rewrite !map_length; congruence) qap qbp) as H. rewrite map_length, La in H. exact H. Qed.
  Lemma len_ab : length ps = w. Proof. rewrite combine_length. lia. Qed.
  Lemma buf_inner : inner (vals buf) (znorm vb) = total (map (fun p => bb p * yy p) ps).
  Proof.
    unfold inner, znorm, buf. rewrite map_map. f_equal. unfold bb, yy. set (m := mean_of vb). set (s := sd_of vb). clearbody m s. clear. revert b. induction a as [|x l IH]; intros [|y b']; try reflexivity. cbn [map combine fst snd]. f_equal. apply IH.
  Qed.
  Lemma sq_half x : Rabs x <= / 2 * (1 + x * x).
  Proof. pose proof (Rle_0_sqr (Rabs x - 1)) as Q. unfold Rsqr in Q. assert (Rabs x * Rabs x = x * x) by (rewrite <- Rabs_mult; apply Rabs_pos_eq, Rle_0_sqr). lra. Qed.
  Lemma dot_close : Rabs (inner (vals buf) (znorm vb) - rr) <= 23 / 10 * (W * eps).
  Proof.
    rewrite buf_inner, rr_total, <- total_minus.
    eapply Rle_trans; [apply (total_abs_le _ (fun p => 115 / 100 * eps * ((/ 2 + yy p * yy p) + / 2 * (xx p * xx p))))|].
    - intros p Hp. destruct (bb_close p Hp) as (_ & C). replace (bb p * yy p - xx p * yy p) with ((bb p - xx p) * yy p) by ring. rewrite Rabs_mult.
      apply Rle_trans with (115 / 100 * eps * (1 + Rabs (xx p)) * Rabs (yy p)); [apply Rmult_le_compat_r; [apply Rabs_pos|exact C]|].
      rewrite Rmult_assoc. apply Rmult_le_compat_l; [lra|]. pose proof (sq_half (yy p)) as H1.
      assert (H2 : Rabs (xx p) * Rabs (yy p) <= / 2 * (xx p * xx p) + / 2 * (yy p * yy p)).
      { pose proof (Rle_0_sqr (Rabs (xx p) - Rabs (yy p))) as Q. unfold Rsqr in Q.
        assert (Rabs (xx p) * Rabs (xx p) = xx p * xx p) by (rewrite <- Rabs_mult; apply Rabs_pos_eq, Rle_0_sqr).
        assert (Rabs (yy p) * Rabs (yy p) = yy p * yy p) by (rewrite <- Rabs_mult; apply Rabs_pos_eq, Rle_0_sqr). lra. }
      lra.
    - rewrite total_scale, !total_plus, total_scale, total_const, xx_sq, yy_sq, len_ab. right. field.
  Qed.
  Lemma buf_weight : weight buf <= 104 / 100 * W.
  Proof.
    unfold weight, buf. rewrite map_map. rewrite <- (total_fst (fun x => Rabs (fval (fdiv (fsub x ma) sa))) a b) by congruence.
    apply Rle_trans with (total (map (fun p => 1018 / 1000 * (/ 2 + / 2 * (xx p * xx p)) + 18 / 1000) ps)).
    - apply total_le. intros p Hp. destruct (bb_close p Hp) as (_ & C). fold (bb p). pose proof (near_abs _ _ _ C) as N. pose proof (sq_half (xx p)). pose proof (Rabs_pos (xx p)).
      assert (115 / 100 * eps * (1 + Rabs (xx p)) <= 18 / 1000 * (1 + Rabs (xx p))) by (apply Rmult_le_compat_r; lra). lra.
    - rewrite total_plus, total_scale, total_plus, total_scale, !total_const, xx_sq, len_ab. pose proof qW. lra.
  Qed.
  Lemma buf_bnd x : In x buf -> bnd x 240.
  Proof.
    intros H. unfold buf in H. apply in_map_iff in H as (y & <- & Hy).
    assert (exists q, In (y, q) ps) as (q & Hq).
    { apply In_nth_error in Hy as (k & Hk). destruct (nth_error b k) as [q|] eqn:Eq.
      - exists q. clear - Hk Eq. revert b k Hk Eq. induction a as [|x0 l IH]; intros [|y0 b'] [|k] Hk Eq; try discriminate; cbn in *.
        + left. congruence.
        + right. eapply IH; eauto.
      - apply nth_error_None in Eq. assert (k < length a)%nat by (apply nth_error_Some; congruence). lia. }
    destruct (bb_close _ Hq) as (Bd & _). cbn [fst] in Bd. apply (bnd_le _ 237); [lia|exact Bd].
  Qed.
  Lemma buf_length : length buf = w. Proof. unfold buf. rewrite map_length. exact La. Qed.
  Notation y := (proj z buf mb sb val).
  Notation E := (2 * (err / be) + 87 / 10 * (W * eps)).
  Lemma prof_dot : number y /\ Rabs (fval y) <= bp 900 /\ 0 <= E /\ Rabs (fval y - rr) <= E.
  Proof.
    destruct (proj_close z w b buf mb sb val M eps err Lb buf_length Lw Hw B buf_bnd Mb Sb Fb He Cmb Csb HB Rb Nv Ev Err) as (N & By & C).
    assert (errP : 0 <= err) by (eapply Rle_trans; [apply Rabs_pos|exact Ev]). pose proof qbp as Pb. pose proof qW as PW.
    assert (PE : 0 <= W * eps) by (apply Rmult_le_pos; lra). assert (Pq : 0 <= err / be) by (apply Rmult_le_pos; [exact errP|left; apply Rinv_0_lt_compat, Pb]).
    split; [exact N|]. split; [exact By|]. split; [lra|].
    pose proof dot_close as D. pose proof (near_abs _ _ _ D) as ND. pose proof rr_le as Rl. assert (Rabs rr <= W) by (apply Rabs_le; lra).
    pose proof buf_weight as BW. set (P := inner (vals buf) (znorm vb)) in *.
    assert (WE : W * eps <= / 64 * W) by (rewrite (Rmult_comm W); apply Rmult_le_compat_r; lra).
    assert (S : eps * (4 * weight buf + 2 * Rabs P) <= eps * (6232 / 1000 * W)) by (apply Rmult_le_compat_l; lra).
    assert (T : bp (-1050) <= / 100 * (W * eps)).
    { pose proof qu as Q. pose proof u_pos. assert (bp (-1050) <= bp (-63)) by (apply bpow_le; lia). assert (bp (-63) = u / 1024) by (change (-63)%Z with (-53 + -10)%Z; rewrite bpow_plus; reflexivity).
      assert (1 * eps <= W * eps) by (apply Rmult_le_compat_r; lra). lra. }
    replace (fval y - rr) with ((fval y - P) + (P - rr)) by ring. eapply Rle_trans; [apply Rabs_triang|]. lra.
  Qed.
  Lemma prof_distance : 5 * (err / be) + 20 * (W * eps) < zdistance va vb * zdistance va vb \/ is_nan (profile_distance w y) = false ->
    let d := profile_distance w y in
    number d /\ 0 <= fval d /\ Rabs (fval d * fval d - zdistance va vb * zdistance va vb) <= 5 * (err / be) + 20 * (W * eps).
  Proof.
    intros Far. destruct prof_dot as (N & By & PE & C). pose proof qu as UE. pose proof qW as PW. pose proof u_pos as UP.
    assert (UW : u * W <= eps / 17 * W) by (apply Rmult_le_compat_r; lra).
    assert (Z : zdistance va vb * zdistance va vb = 2 * W - 2 * rr).
    { rewrite (zdist_sq w a b sa sb eps La Lb Sa Sb Fa Fb He Csa Csb). rewrite <- (rho_inner a b). reflexivity. }
    assert (errP : 0 <= err) by (eapply Rle_trans; [apply Rabs_pos|exact Ev]). assert (Pq : 0 <= err / be) by (apply Rmult_le_pos; [exact errP|left; apply Rinv_0_lt_compat, qbp]).
    assert (PWe : 0 <= W * eps) by (apply Rmult_le_pos; lra).
    rewrite Z in *. cbv zeta. destruct (profile_close w y E rr Lw Hw N By PE rr_le C) as (N1 & P1 & C1); [destruct Far as [Far|Far]; [left; lra|right; exact Far]|]. split; [exact N1|]. split; [exact P1|]. lra.
  Qed.
End Prof.
