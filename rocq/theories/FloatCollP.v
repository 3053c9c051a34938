(** The collision probability in floating point: the error of the whole formula. *)
From Coq Require Import Reals Lra Lia QArith Qreals Qabs Floats.SpecFloat.
From Coquelicot Require Import Coquelicot.
From Flocq Require Import Core Relative Sterbenz BinarySingleNaN.
From Verif Require Import Base F64 Series Iterator Collision CollisionProofs FpOps FloatProofs FloatBound FloatErr FloatTerm FloatProj PolyZ Gauss Erf ErfSpec ErfProofs ErfBound ErfLow ErfAll FloatErf FloatErfSpec FloatErfP FloatErfR FloatErfI FloatColl.
Local Open Scope R_scope.

Lemma G_lip a b : a <= b -> 0 <= G b - G a <= b - a.
Proof.
  intros L. split; [pose proof (G_incr a b L); lra|]. destruct (MVT_gen G a b (fun t => exp (- (t * t)))) as (t & _ & E).
  - intros t _. apply G_derive.
  - intros t _. apply continuity_pt_filterlim. apply (ex_derive_continuous G). exists (exp (- (t * t))). apply G_derive.
  - rewrite E. assert (exp (- (t * t)) <= 1) by (apply exp_le_1; pose proof (Rle_0_sqr t); unfold Rsqr in *; lra). rewrite <- (Rmult_1_l (b - a)) at 2. apply Rmult_le_compat_r; lra.
Qed.
Lemma erfc_lip a b : Rabs (erfc a - erfc b) <= 1.129 * Rabs (a - b).
Proof.
  rewrite !erfc_G. replace (1 - K2 * G a - (1 - K2 * G b)) with (K2 * (G b - G a)) by ring. pose proof K2_bounds as K. rewrite Rabs_mult, (Rabs_pos_eq K2) by lra.
  apply Rmult_le_compat; [lra|apply Rabs_pos|lra|]. destruct (Rle_lt_dec a b) as [L|L].
  - pose proof (G_lip a b L). rewrite Rabs_pos_eq by lra. rewrite Rabs_left1; lra.
  - pose proof (G_lip b a ltac:(lra)). rewrite Rabs_left1 by lra. rewrite Rabs_pos_eq; lra.
Qed.
Lemma erfc_rel k x X : 0 <= k <= 10 -> rel k x X -> Rabs (erfc x - erfc X) <= 127 * k * u + u.
Proof.
  intros K R. assert (R' := R). destruct R' as (P & E). pose proof u_pos as UP. pose proof u_small as US. destruct (Rle_lt_dec X 111) as [L|L].
  - eapply Rle_trans; [apply erfc_lip|]. assert (KU : 0 <= k * u) by (apply Rmult_le_pos; lra). assert (k * u * X <= k * u * 111) by (apply Rmult_le_compat_l; lra). lra.
  - destruct (rel_pos k x X ltac:(lra) R) as ((B & _) & Px). assert (k * u <= 10 * / 1000000000) by (apply Rmult_le_compat; lra).
    assert (110 <= x). { eapply Rle_trans; [|exact B]. apply Rle_trans with (111 * (999 / 1000)); [lra|]. apply Rmult_le_compat; lra. }
    pose proof (erfc_tail x Px) as T1. pose proof (erfc_tail X P) as T2. pose proof (exp_far x ltac:(lra)). pose proof (exp_far X ltac:(lra)). assert (0 <= k * u) by (apply Rmult_le_pos; lra).
    assert (/ 10 ^ 18 <= u) by (rewrite u53; lra). apply Rabs_le. lra.
Qed.
Lemma lit1 : number (lit 1) /\ fval (lit 1) = 1. Proof. destruct (lit_exact 1 1 eq_refl) as (N & V). split; [exact N|]. rewrite V. qval. Qed.
Lemma lit2 : number (lit 2) /\ fval (lit 2) = 2. Proof. destruct (lit_exact 1 2 eq_refl) as (N & V). split; [exact N|]. rewrite V. qval. Qed.
Lemma lith : number (lit 0.5) /\ fval (lit 0.5) = / 2. Proof. destruct (lit_exact 1 0.5 eq_refl) as (N & V). split; [exact N|]. rewrite V. qval. Qed.
Lemma ferfc_number fexp x : number x -> ferfc fexp x = ferf_impl fexp x true.
Proof. intros (_ & F). destruct x; try discriminate F; reflexivity. Qed.

Lemma rel_both k x X : rel k x X -> 0 <= k <= 1000 -> X * (1 - k * u) <= x <= X * (1 + k * u) /\ 0 < x.
Proof. intros R K. apply rel_pos; assumption. Qed.

Section WithWidth.
Variables (fexp : f64 -> f64) (r d : f64).
Hypothesis X : exp_within fexp.
Hypothesis Nr : number r.
Hypothesis Nd : number d.
Hypothesis Br : bp (-200) <= fval r <= bp 200.
Hypothesis Bd : bp (-200) <= fval d <= bp 200.
Let w := fval r.
Let x := fval d.
Let t := w / x.
Let z := t / sqrt 2.

Lemma wx_pos : 0 < w /\ 0 < x. Proof using Br Bd. pose proof (bpow_gt_0 radix2 (-200)). unfold w, x. lra. Qed.
Lemma quot_bp a b i j : 0 < b -> bp (- i) <= a <= bp i -> bp (- j) <= b <= bp j -> bp (- (i + j)) <= a / b <= bp (i + j).
Proof using.
  intros P A B. assert (I : bp (- j) <= / b <= bp j).
  { split; [rewrite bpow_opp; apply Rinv_le_contravar; lra|]. replace (bp j) with (/ bp (- j)) by (rewrite <- bpow_opp; f_equal; lia). apply Rinv_le_contravar; [apply bpow_gt_0|lra]. }
  pose proof (bpow_gt_0 radix2 (- i)). pose proof (bpow_gt_0 radix2 (- j)). unfold Rdiv. rewrite Z.opp_add_distr, !bpow_plus. split; apply Rmult_le_compat; lra.
Qed.
Lemma prod_bp a b i j : bp (- i) <= a <= bp i -> bp (- j) <= b <= bp j -> bp (- (i + j)) <= a * b <= bp (i + j).
Proof using.
  intros A B. pose proof (bpow_gt_0 radix2 (- i)). pose proof (bpow_gt_0 radix2 (- j)). rewrite Z.opp_add_distr, !bpow_plus. split; apply Rmult_le_compat; lra.
Qed.
Lemma wide a i j : (i <= j)%Z -> bp (- i) <= a <= bp i -> bp (- j) <= a <= bp j.
Proof using. intros L B. pose proof (bpow_le radix2 i j L). pose proof (bpow_le radix2 (- j) (- i) ltac:(lia)). lra. Qed.
Lemma near1 a j : (1 <= j)%Z -> / 2 <= a <= 2 -> bp (- j) <= a <= bp j.
Proof using. intros J B. apply (wide a 1); [exact J|]. change (bp (-(1))) with (/ 2). change (bp 1) with 2. exact B. Qed.
Lemma t_range : bp (- 400) <= t <= bp 400. Proof using Br Bd. apply (quot_bp w x 200 200); [apply wx_pos|exact Br|exact Bd]. Qed.
Lemma t_pos : 0 < t. Proof using Br Bd. apply Rdiv_lt_0_compat; apply wx_pos. Qed.
Lemma sqrt2_range : 7 / 5 <= sqrt 2 <= 3 / 2.
Proof using. split; [rewrite <- (sqrt_Rsqr (7 / 5)) by lra|rewrite <- (sqrt_Rsqr (3 / 2)) by lra]; apply sqrt_le_1_alt; unfold Rsqr; lra. Qed.
Lemma z_range : bp (- 401) <= z <= bp 401.
Proof using Br Bd. pose proof sqrt2_range. apply (quot_bp t (sqrt 2) 400 1); [lra|apply t_range|apply near1; [lia|lra]]. Qed.
Lemma z_pos : 0 < z. Proof using Br Bd. apply Rdiv_lt_0_compat; [apply t_pos|apply sqrt_lt_R0; lra]. Qed.

Lemma t_hat : number (fdiv r d) /\ rel (12 / 10) (fval (fdiv r d)) t.
Proof using Nr Nd Br Bd.
  destruct wx_pos. destruct (fdiv_rel r d 0 0 w x Nr Nd) as (N & R); [lra|lra|apply rel_refl; assumption|apply rel_refl; assumption|apply (wide _ 400 1000); [lia|apply t_range]|].
  split; [exact N|]. apply (rel_weak (0 + 0 + 12 / 10)); [lra|exact R].
Qed.
Lemma z_hat : let y := fdiv (fsub (S754_zero false) (fdiv (SFopp r) d)) (fmul (lit 1) (lit 1.41421356237309504880168872420969807856967187537694)) in
  number y /\ rel (4) (fval y) z.
Proof using Nr Nd Br Bd.
  cbv zeta. destruct wx_pos as (Pw & Px). destruct t_hat as (Nt & Rt). destruct (opp_val r Nr) as (No & Vo). destruct root2 as (N2 & R2). destruct lit1 as (N1 & V1).
  set (s := lit 1.41421356237309504880168872420969807856967187537694) in *. clearbody s. pose proof sqrt2_range as S2.
  destruct (rel_both _ _ _ Rt ltac:(lra)) as (Bt & Pt). pose proof t_range as TR. pose proof t_pos as TP.
  assert (Bq : Rabs (w / x) <= bp 401). { fold t. rewrite Rabs_pos_eq by lra. apply (wide t 400 401); [lia|exact TR]. }
  destruct (fdiv_le r d (bp 401) Nr Nd ltac:(fold x; lra)) as (_ & Vt & _); [apply fmt_bpow; lia|apply bp_top; lia|exact Bq|].
  destruct (fdiv_le (SFopp r) d (bp 401) No Nd ltac:(fold x; lra)) as (Nm & Vm & Bm); [apply fmt_bpow; lia|apply bp_top; lia|rewrite Vo, Ropp_div, Rabs_Ropp; exact Bq|].
  assert (Em : fval (fdiv (SFopp r) d) = - fval (fdiv r d)) by (rewrite Vm, Vt, Vo, Ropp_div; apply rnd_opp).
  assert (Nz : number (S754_zero false)) by (split; reflexivity).
  destruct (fsub_le (S754_zero false) (fdiv (SFopp r) d) (bp 401) Nz Nm) as (Ns & Vs & _); [apply fmt_bpow; lia|apply bp_top; lia|rewrite Rminus_0_l, Rabs_Ropp; exact Bm|].
  assert (Es : fval (fsub (S754_zero false) (fdiv (SFopp r) d)) = fval (fdiv r d)).
  { rewrite Vs. cbn [fval SF2R]. fold (fval (fdiv (SFopp r) d)). rewrite Rminus_0_l, Em, Ropp_involutive. apply rnd_id, fmt_val, Nt. }
  destruct (rel_both _ _ _ R2 ltac:(lra)) as (B2 & P2). pose proof u_pos as UP. pose proof u_small as US.
  assert (M2 : fval s <= 2). { destruct B2 as (_ & B2). eapply Rle_trans; [exact B2|]. apply Rle_trans with (3 / 2 * (1 + / 100)); [apply Rmult_le_compat; lra|lra]. }
  destruct (fmul_le (lit 1) s (bp 1) N1 N2) as (Nq & Vq & _); [apply fmt_bpow; lia|apply bp_top; lia|rewrite V1, Rmult_1_l, Rabs_pos_eq by lra; exact M2|].
  assert (Eq : fval (fmul (lit 1) s) = fval s). { rewrite Vq, V1, Rmult_1_l. apply rnd_id, fmt_val, N2. }
  destruct (fdiv_rel (fsub (S754_zero false) (fdiv (SFopp r) d)) (fmul (lit 1) s) (12 / 10) (12 / 10) t (sqrt 2) Ns Nq) as (N & R); [lra|lra|rewrite Es; exact Rt|rewrite Eq; exact R2|apply (wide _ 401 1000); [lia|apply z_range]|].
  split; [exact N|]. apply (rel_weak (12 / 10 + 12 / 10 + 12 / 10)); [lra|exact R].
Qed.
(** the first part, [1 - 2 cdf(- r / d)] *)
Lemma first_part : let a := fsub (lit 1) (fmul (lit 2) (fnormal_cdf fexp (fdiv (SFopp r) d))) in
  number a /\ fval a <= 1 /\ Rabs (fval a - (1 - erfc z)) <= 3.3 / 10 ^ 10 + 800 * u /\ (z <= 49 / 100 -> Rabs (fval a - (1 - erfc z)) <= 3 / 10 ^ 13 + 800 * u) /\ Rabs (fval a) <= 2.
Proof using X Nr Nd Br Bd.
  cbv zeta. unfold fnormal_cdf, fcdf_unchecked. destruct z_hat as (Ny & Ry). cbv zeta in Ny, Ry. destruct (rel_pos 4 _ _ ltac:(lra) Ry) as (By & Py).
  rewrite ferfc_number by exact Ny. destruct (impl_near fexp _ true X Ny) as (Ne & Pe & Ee). specialize (Pe eq_refl).
  set (y := fdiv (fsub (S754_zero false) (fdiv (SFopp r) d)) (fmul (lit 1) (lit 1.41421356237309504880168872420969807856967187537694))) in *. clearbody y.
  set (e := ferf_impl fexp y true) in *. clearbody e. pose proof u_pos as UP. pose proof u_small as US. pose proof tiny_pos as TP. pose proof tiny_le as TL.
  pose proof (erfc_rel 4 _ _ ltac:(lra) Ry) as El. destruct (impl_error (fval y)) as (I1 & I2 & I3). pose proof z_pos as ZP.
  assert (Be : fval e <= 3) by (apply Rabs_le_inv in Ee; lra).
  destruct lit1 as (N1 & V1). destruct lit2 as (N2 & V2). destruct lith as (Nh & Vh).
  destruct (fmul_le (lit 0.5) e (bp 1) Nh Ne) as (Nc & Vc & _); [apply fmt_bpow; lia|apply bp_top; lia|rewrite Vh; change (bp 1) with 2; rewrite Rabs_pos_eq; lra|].
  assert (Pc : 0 <= fval (fmul (lit 0.5) e)) by (rewrite Vc, Vh; apply rnd_pos; lra).
  pose proof (err_any (/ 2 * fval e)) as Ec. rewrite Vh in Vc. rewrite <- Vc, (Rabs_pos_eq (/ 2 * fval e)) in Ec by lra. assert (u * (/ 2 * fval e) <= u * 2) by (apply Rmult_le_compat_l; lra).
  set (c := fmul (lit 0.5) e) in *. clearbody c. assert (Bc : fval c <= 3) by (apply Rabs_le_inv in Ec; lra).
  destruct (fmul_le (lit 2) c (bp 3) N2 Nc) as (Nb & Vb & _); [apply fmt_bpow; lia|apply bp_top; lia|rewrite V2; change (bp 3) with 8; rewrite Rabs_pos_eq; lra|].
  assert (Pb : 0 <= fval (fmul (lit 2) c)) by (rewrite Vb, V2; apply rnd_pos; lra).
  pose proof (err_any (2 * fval c)) as Eb. rewrite V2 in Vb. rewrite <- Vb, (Rabs_pos_eq (2 * fval c)) in Eb by lra. assert (u * (2 * fval c) <= u * 6) by (apply Rmult_le_compat_l; lra).
  set (b := fmul (lit 2) c) in *. clearbody b. assert (Bb : Rabs (1 - fval b) <= 3) by (apply Rabs_le; apply Rabs_le_inv in Eb, Ec; lra).
  destruct (fsub_le (lit 1) b (bp 2) N1 Nb) as (Na & Va & _); [apply fmt_bpow; lia|apply bp_top; lia|rewrite V1; change (bp 2) with 4; lra|].
  rewrite V1 in Va. pose proof (err_any (1 - fval b)) as Ea. rewrite <- Va in Ea. assert (u * Rabs (1 - fval b) <= u * 3) by (apply Rmult_le_compat_l; lra).
  split; [exact Na|]. split.
  - rewrite Va. replace 1 with (rnd 1) by (apply rnd_id; change 1 with (bp 0); apply fmt_bpow; lia). rewrite (rnd_id 1) at 1 by (change 1 with (bp 0); apply fmt_bpow; lia). apply rnd_le. lra.
  - apply Rabs_le_inv in Ea, Eb, Ec, Ee, El, I1. split; [apply Rabs_le; lra|]. split; [|apply Rabs_le; lra]. intros Z.
    assert (Y : fval y < / 2). { eapply Rle_lt_trans; [apply By|]. apply Rle_lt_trans with (49 / 100 * (1 + / 1000)); [apply Rmult_le_compat; lra|lra]. }
    rewrite (Rabs_pos_eq (fval y)) in I3 by lra. specialize (I3 Y). apply Rabs_le_inv in I3. assert (3 / 10 ^ 13 * fval y <= 3 / 10 ^ 13 * 1) by (apply Rmult_le_compat_l; lra). apply Rabs_le. lra.
Qed.
(** the second part *)
Lemma second_part : let b := fmul (fdiv (lit 2) (fmul (fsqrt64 (fmul (lit 3.14159265358979323846264338327950288419716939937510) (lit 2))) (fdiv r d)))
       (fsub (lit 1) (fexp (fdiv (fmul (SFopp r) r) (fmul (fmul (lit 2) d) d)))) in
  number b /\ 0 <= fval b /\ Rabs (fval b - rest z) <= 30 * u * (x / w) + 30 * u.
Proof using X Nr Nd Br Bd.
  cbv zeta. destruct wx_pos as (Pw & Px). destruct t_hat as (Nt & Rt). destruct (opp_val r Nr) as (No & Vo). destruct lit1 as (N1 & V1). destruct lit2 as (N2 & V2). destruct pi_lit as (Np & Rp).
  set (pl := lit 3.14159265358979323846264338327950288419716939937510) in *. clearbody pl. pose proof PI_18 as PI18. pose proof u_pos as UP. pose proof u_small as US. pose proof tiny_pos as TP. pose proof tiny_le as TL.
  pose proof t_pos as TT. pose proof t_range as TR.
  assert (R2 : rel 0 (fval (lit 2)) 2) by (rewrite V2; apply rel_refl; lra).
  (* the factor in front *)
  assert (S5 : bp (-1) <= sqrt (PI * 2) <= bp 2).
  { change (bp (-1)) with (/ 2). change (bp 2) with 4. split; [rewrite <- (sqrt_Rsqr (/ 2)) by lra|rewrite <- (sqrt_Rsqr 4) by lra]; apply sqrt_le_1_alt; unfold Rsqr; lra. }
  destruct (fmul_rel pl (lit 2) (12 / 10) 0 PI 2 Np N2) as (Nm & Rm); [lra|lra|exact Rp|exact R2|apply (wide _ 3 1000); [lia|change (bp (-(3))) with (/ 8); change (bp 3) with 8; lra]|].
  destruct (fsqrt_rel (fmul pl (lit 2)) (12 / 10 + 0 + 12 / 10) (PI * 2) Nm) as (Ns & Rs); [lra|exact Rm|apply Rle_trans with (bp (-1)); [apply bpow_le; lia|lra]|].
  set (s := fsqrt64 (fmul pl (lit 2))) in *. clearbody s.
  assert (ST : bp (- 402) <= sqrt (PI * 2) * t <= bp 402). { apply (prod_bp _ _ 2 400); [|exact TR]. pose proof (bpow_le radix2 (-2) (-1) ltac:(lia)). split; [change (- (2))%Z with (-2)%Z; lra|lra]. }
  destruct (fmul_rel s (fdiv r d) (12 / 10 + 0 + 12 / 10 + 11 / 10) (12 / 10) (sqrt (PI * 2)) t Ns Nt) as (Nq & Rq); [lra|lra|exact Rs|exact Rt|apply (wide _ 402 1000); [lia|exact ST]|].
  set (q := fmul s (fdiv r d)) in *. clearbody q.
  assert (STP : 0 < sqrt (PI * 2) * t) by (pose proof (bpow_gt_0 radix2 (- 402)); lra).
  destruct (fdiv_rel (lit 2) q 0 (12 / 10 + 0 + 12 / 10 + 11 / 10 + 12 / 10 + 12 / 10) 2 (sqrt (PI * 2) * t) N2 Nq) as (Nh & Rh); [lra|lra|exact R2|exact Rq|apply (wide _ (2 + 402) 1000); [lia|apply quot_bp; [exact STP|change (bp (-(2))) with (/ 4); change (bp 2) with 4; lra|exact ST]]|].
  apply (rel_weak _ 9) in Rh; [|lra].
  (* the exponent *)
  assert (Vrr : fval (SFopp r) * fval r = - (w * w)) by (rewrite Vo; fold w; ring).
  pose proof (prod_bp w w 200 200 Br Br) as BW. change (200 + 200)%Z with 400%Z in BW.
  destruct (fmul_rel r r 0 0 w w Nr Nr) as (Nww & Rww); [lra|lra|apply rel_refl; exact Pw|apply rel_refl; exact Pw|apply (wide _ 400 1000); [lia|exact BW]|].
  destruct (fmul_rel (lit 2) d 0 0 2 x N2 Nd) as (N2d & R2d); [lra|lra|exact R2|apply rel_refl; exact Px|apply (wide _ (1 + 200) 1000); [lia|apply prod_bp; [apply near1; [lia|lra]|exact Bd]]|].
  pose proof (prod_bp (2 * x) x (1 + 200) 200 ltac:(apply prod_bp; [apply near1; [lia|lra]|exact Bd]) Bd) as BX. change (1 + 200 + 200)%Z with 401%Z in BX.
  destruct (fmul_rel (fmul (lit 2) d) d (0 + 0 + 12 / 10) 0 (2 * x) x N2d Nd) as (Nxx & Rxx); [lra|lra|exact R2d|apply rel_refl; exact Px|apply (wide _ 401 1000); [lia|exact BX]|].
  set (dd := fmul (fmul (lit 2) d) d) in *. clearbody dd.
  destruct (rel_both _ _ _ Rxx ltac:(lra)) as (_ & Pdd). assert (PX : 0 < 2 * x * x) by (repeat apply Rmult_lt_0_compat; lra).
  pose proof (quot_bp (w * w) (2 * x * x) 400 401 PX BW BX) as BQ. change (400 + 401)%Z with 801%Z in BQ.
  destruct (fdiv_rel (fmul r r) dd (0 + 0 + 12 / 10) (0 + 0 + 12 / 10 + 0 + 12 / 10) (w * w) (2 * x * x) Nww Nxx) as (Nv & Rv); [lra|lra|exact Rww|exact Rxx|apply (wide _ 801 1000); [lia|exact BQ]|].
  apply (rel_weak _ 5) in Rv; [|lra].
  (* the same with the sign *)
  destruct (rel_both _ _ _ Rww ltac:(lra)) as ((_ & Mww) & Pww).
  assert (BWW : Rabs (w * w) <= bp 500). { rewrite Rabs_pos_eq by (apply Rmult_le_pos; lra). apply (wide _ 400 500); [lia|exact BW]. }
  destruct (fmul_le r r (bp 500) Nr Nr) as (_ & Vww & Bww'); [apply fmt_bpow; lia|apply bp_top; lia|exact BWW|].
  destruct (fmul_le (SFopp r) r (bp 500) No Nr) as (Nmw & Vmw & _); [apply fmt_bpow; lia|apply bp_top; lia|rewrite Vrr, Rabs_Ropp; exact BWW|].
  assert (Emw : fval (fmul (SFopp r) r) = - fval (fmul r r)) by (rewrite Vmw, Vww, Vrr; apply rnd_opp).
  assert (BV : Rabs (fval (fmul r r) / fval dd) <= bp 1010).
  { destruct (rel_mul (0 + 0 + 12 / 10) (0 + 0 + 12 / 10 + 0 + 12 / 10 + / 100) _ _ _ _ ltac:(lra) ltac:(lra) Rww (rel_inv (0 + 0 + 12 / 10 + 0 + 12 / 10) _ _ ltac:(lra) Rxx)) as (_ & K).
    fold (fval (fmul r r) / fval dd) in K. fold (w * w / (2 * x * x)) in K. apply Rabs_le_inv in K. assert (PQ : 0 < w * w / (2 * x * x)) by (apply Rdiv_lt_0_compat; [apply Rmult_lt_0_compat; exact Pw|exact PX]).
    match type of K with _ <= _ <= ?k * u * ?v => assert (k * u * v <= 1 * v) by (apply Rmult_le_compat_r; [lra|]; apply Rle_trans with (30 * / 1000000000); [apply Rmult_le_compat; lra|lra]) end.
    assert (0 <= fval (fmul r r) / fval dd) by (apply Rlt_le, Rdiv_lt_0_compat; lra). rewrite Rabs_pos_eq by lra.
    apply Rle_trans with (2 * bp 801); [lra|]. change 2 with (bp 1). rewrite <- bpow_plus. apply bpow_le. lia. }
  destruct (fdiv_le (fmul r r) dd (bp 1010) Nww Nxx ltac:(lra)) as (_ & Vv & _); [apply fmt_bpow; lia|apply bp_top; lia|exact BV|].
  destruct (fdiv_le (fmul (SFopp r) r) dd (bp 1010) Nmw Nxx ltac:(lra)) as (Ny & Vy & _); [apply fmt_bpow; lia|apply bp_top; lia|rewrite Emw, Ropp_div, Rabs_Ropp; exact BV|].
  assert (Ey : fval (fdiv (fmul (SFopp r) r) dd) = - fval (fdiv (fmul r r) dd)) by (rewrite Vy, Vv, Emw, Ropp_div; apply rnd_opp).
  assert (XZ : w * w / (2 * x * x) = z * z). { unfold z, t. pose proof (sqrt_sqrt 2 ltac:(lra)) as S2. pose proof sqrt2_range. replace (w / x / sqrt 2 * (w / x / sqrt 2)) with (w * w / (x * x * (sqrt 2 * sqrt 2))) by (field; lra). rewrite S2. field. lra. }
  rewrite XZ in Rv. destruct (rel_pos 5 _ _ ltac:(lra) Rv) as (_ & Pv). destruct Rv as (ZZ & Ev).
  destruct X as (XE & _). destruct (XE _ Ny ltac:(rewrite Ey; lra)) as (Ne & Be & Ee). rewrite Ey in Ee.
  set (e := fexp (fdiv (fmul (SFopp r) r) dd)) in *. clearbody e.
  assert (E50 : powerRZ 2 (-50) = 8 * u).
  { transitivity (bp (-50)); [symmetry; apply (bpow_powerRZ radix2)|]. change 8 with (bp 3). change u with (bp (-53)). rewrite <- bpow_plus. reflexivity. }
  rewrite E50 in Ee.
  pose proof (exp_near (- fval (fdiv (fmul r r) dd)) (z * z) ltac:(lra) ltac:(lra)) as EN.
  replace (- fval (fdiv (fmul r r) dd) + z * z) with (- (fval (fdiv (fmul r r) dd) - z * z)) in EN by ring. rewrite Rabs_Ropp in EN.
  assert (5 * u * (z * z) <= 8 * u * (z * z)) by (apply Rmult_le_compat_r; lra). specialize (EN ltac:(lra)).
  set (v := fval (fdiv (fmul r r) dd)) in *. clearbody v.
  (* 1 - exp *)
  pose proof (exp_pos (- (z * z))) as XP. pose proof (exp_le_1 (- (z * z)) ltac:(lra)) as XL.
  destruct (fsub_le (lit 1) e (bp 0) N1 Ne) as (Nf & Vf & _); [apply fmt_bpow; lia|apply bp_top; lia|rewrite V1; change (bp 0) with 1; rewrite Rabs_pos_eq; lra|].
  rewrite V1 in Vf. assert (Pf : 0 <= fval (fsub (lit 1) e)) by (rewrite Vf; apply rnd_pos; lra).
  pose proof (err_any (1 - fval e)) as Ef. rewrite <- Vf in Ef. rewrite (Rabs_pos_eq (1 - fval e)) in Ef by lra. assert (u * (1 - fval e) <= u * 1) by (apply Rmult_le_compat_l; lra).
  set (f := fsub (lit 1) e) in *. clearbody f.
  assert (EF : Rabs (fval f - (1 - exp (- (z * z)))) <= 27 * u) by (apply Rabs_le; apply Rabs_le_inv in Ef, Ee, EN; lra).
  (* the product *)
  set (h := fdiv (lit 2) q) in *. clearbody h. destruct (rel_pos 9 _ _ ltac:(lra) Rh) as (Bh & Ph).
  assert (HT : 2 / (sqrt (PI * 2) * t) <= 4 / 5 * (x / w)).
  { assert (5 / 2 <= sqrt (PI * 2)) by (rewrite <- (sqrt_Rsqr (5 / 2)) by lra; apply sqrt_le_1_alt; unfold Rsqr; lra).
    replace (2 / (sqrt (PI * 2) * t)) with (2 / sqrt (PI * 2) * (x / w)) by (unfold t; field; repeat split; lra). apply Rmult_le_compat_r; [apply Rlt_le, Rdiv_lt_0_compat; lra|].
    apply (Rmult_le_reg_r (sqrt (PI * 2))); [lra|]. unfold Rdiv. rewrite Rmult_assoc, Rinv_l by lra. lra. }
  assert (HR : rest z = 2 / (sqrt (PI * 2) * t) * (1 - exp (- (z * z)))).
  { transitivity (2 / (sqrt (PI * 2) * (w / x)) * (1 - exp (- w * w / (2 * x * x)))); [symmetry; apply rest_eq; assumption|]. fold t. f_equal. f_equal. f_equal. rewrite <- XZ. field. lra. }
  pose proof (rest_bounds z z_pos) as RB.
  assert (RU : rest z <= 3 / 5).
  { destruct (Rle_lt_dec z 1) as [L|L]; [lra|]. unfold rest. pose proof K2_bounds as K. assert (K2 / (2 * z) <= 3 / 5). { apply (Rmult_le_reg_r (2 * z)); [lra|]. unfold Rdiv at 1. rewrite Rmult_assoc, Rinv_l by lra. lra. }
    assert (0 <= K2 / (2 * z)) by (apply Rlt_le, Rdiv_lt_0_compat; lra). apply Rle_trans with (3 / 5 * 1); [apply Rmult_le_compat; lra|lra]. }
  set (HH := 2 / (sqrt (PI * 2) * t)) in *. set (W := 1 - exp (- (z * z))) in *. destruct Rh as (PH & Eh).
  assert (PW : 0 <= W) by (unfold W; lra). assert (PW1 : W <= 1) by (unfold W; lra).
  assert (KT : x / w = / t) by (unfold t; field; lra). set (k := x / w) in *. assert (Pk : 0 < k) by (apply Rdiv_lt_0_compat; assumption). clearbody k W HH.
  assert (UK : 0 <= u * k) by (apply Rmult_le_pos; lra).
  pose proof (mult_near (fval f) (fval h) W HH _ _ EF Eh) as MN. rewrite (Rabs_pos_eq (fval h)), (Rabs_pos_eq W) in MN by lra.
  assert (A1 : 27 * u * fval h <= 27 * u * (81 / 100 * k)). { apply Rmult_le_compat_l; [lra|]. destruct Bh as (_ & Bh). eapply Rle_trans; [exact Bh|]. apply Rle_trans with (4 / 5 * k * (1 + / 100)); [apply Rmult_le_compat; lra|lra]. }
  assert (A2 : W * (9 * u * HH) <= 6 * u). { replace (W * (9 * u * HH)) with (9 * u * rest z) by (rewrite HR; ring). apply Rle_trans with (9 * u * (3 / 5)); [apply Rmult_le_compat_l; lra|lra]. }
  assert (BB : 0 <= fval h * fval f) by (apply Rmult_le_pos; lra).
  rewrite (Rmult_comm (fval f)), (Rmult_comm W HH), <- HR in MN.
  assert (MB : fval h * fval f <= 1 + u * k * 30) by (apply Rabs_le_inv in MN; lra).
  assert (KB : k <= bp 400). { rewrite KT. replace (bp 400) with (/ bp (- 400)) by (rewrite <- bpow_opp; reflexivity). apply Rinv_le_contravar; [apply bpow_gt_0|apply TR]. }
  destruct (fmul_le h f (bp 500) Nh Nf) as (Nb & Vb & _); [apply fmt_bpow; lia|apply bp_top; lia| |].
  { rewrite Rabs_pos_eq by exact BB. eapply Rle_trans; [exact MB|]. assert (u * k * 30 <= 1 * k) by (rewrite Rmult_assoc, (Rmult_comm k), <- Rmult_assoc; apply Rmult_le_compat_r; lra).
    assert (1 <= bp 400) by (change 1 with (bp 0); apply bpow_le; lia). apply Rle_trans with (2 * bp 400); [lra|]. change 2 with (bp 1). rewrite <- bpow_plus. apply bpow_le. lia. }
  split; [exact Nb|]. split; [rewrite Vb; apply rnd_pos, BB|].
  pose proof (err_any (fval h * fval f)) as Eb. rewrite <- Vb, (Rabs_pos_eq (fval h * fval f)) in Eb by exact BB.
  assert (u * (fval h * fval f) <= u * (1 + u * k * 30)) by (apply Rmult_le_compat_l; lra). assert (u * (u * k * 30) <= / 1000000000 * (u * k * 30)) by (apply Rmult_le_compat_r; lra).
  apply Rabs_le. apply Rabs_le_inv in Eb, MN. lra.
Qed.

Lemma collision_near : number (fcollision_probability fexp r d) /\ fval (fcollision_probability fexp r d) <= 1 /\
  Rabs (fval (fcollision_probability fexp r d) - collision_probability_at w x) <= 3.3 / 10 ^ 10 + 900 * u + 32 * u * (x / w) /\
  (z <= 49 / 100 -> Rabs (fval (fcollision_probability fexp r d) - collision_probability_at w x) <= 3 / 10 ^ 13 + 900 * u + 32 * u * (x / w)).
Proof using X Nr Nd Br Bd.
  destruct wx_pos as (Pw & Px). destruct first_part as (Na & La & Ea & Ea' & Ba). destruct second_part as (Nb & Pb & Eb). cbv zeta in Na, La, Ea, Ea', Ba, Nb, Pb, Eb.
  unfold fcollision_probability. set (a := fsub (lit 1) (fmul (lit 2) (fnormal_cdf fexp (fdiv (SFopp r) d)))) in *. clearbody a.
  match type of Nb with number ?y => set (b := y) in * end. clearbody b.
  pose proof u_pos as UP. pose proof u_small as US. rewrite (exact_rest w x Pw Px). fold t. fold z.
  assert (RB : 0 < rest z <= 1).
  { pose proof z_pos as ZP. pose proof (rest_bounds z ZP). split; [lra|]. destruct (Rle_lt_dec z 1) as [L|L]; [lra|]. unfold rest. pose proof K2_bounds as K. assert (K2 / (2 * z) <= 1). { apply (Rmult_le_reg_r (2 * z)); [lra|]. unfold Rdiv at 1. rewrite Rmult_assoc, Rinv_l by lra. lra. }
    assert (0 <= K2 / (2 * z)) by (apply Rlt_le, Rdiv_lt_0_compat; lra). pose proof (exp_pos (- (z * z))). pose proof (exp_le_1 (- (z * z)) ltac:(assert (0 < z * z) by (apply Rmult_lt_0_compat; lra); lra)). apply Rle_trans with (1 * 1); [apply Rmult_le_compat; lra|lra]. }
  assert (KT : x / w = / t) by (unfold t; field; lra). assert (KB : 0 < x / w <= bp 400).
  { split; [apply Rdiv_lt_0_compat; assumption|]. rewrite KT. replace (bp 400) with (/ bp (- 400)) by (rewrite <- bpow_opp; reflexivity). apply Rinv_le_contravar; [apply bpow_gt_0|apply t_range]. }
  set (k := x / w) in *. clearbody k. assert (UK : 0 <= u * k) by (apply Rmult_le_pos; lra).
  assert (UK1 : u * k <= / 1000000000 * k) by (apply Rmult_le_compat_r; lra).
  assert (M : Rabs (fval a - fval b) <= 4 + 30 * (u * k)) by (apply Rabs_le; apply Rabs_le_inv in Eb, Ba; lra).
  destruct (fsub_le a b (bp 500) Na Nb) as (Np & Vp & _); [apply fmt_bpow; lia|apply bp_top; lia| |].
  { eapply Rle_trans; [exact M|]. assert (1 <= bp 400) by (change 1 with (bp 0); apply bpow_le; lia). apply Rle_trans with (8 * bp 400); [lra|]. change 8 with (bp 3). rewrite <- bpow_plus. apply bpow_le. lia. }
  pose proof (err_minus (fval a) (fval b) (fmt_val _ (proj1 Na)) (fmt_val _ (proj1 Nb))) as Ep. rewrite <- Vp in Ep.
  assert (u * Rabs (fval a - fval b) <= u * (4 + 30 * (u * k))) by (apply Rmult_le_compat_l; lra). assert (u * (u * k) <= / 1000000000 * (u * k)) by (apply Rmult_le_compat_r; lra).
  split; [exact Np|]. split.
  - rewrite Vp. rewrite <- (rnd_id 1) by (change 1 with (bp 0); apply fmt_bpow; lia). apply rnd_le. lra.
  - split; [|intros Z; specialize (Ea' Z)]; apply Rabs_le; apply Rabs_le_inv in Ep, Eb; [apply Rabs_le_inv in Ea|apply Rabs_le_inv in Ea']; lra.
Qed.
End WithWidth.
