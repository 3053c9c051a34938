(** The first branch of src/stats/erf.rs, below 0.5. *)
From Coq Require Import Reals Lra QArith Qreals Qabs ZArith.
From Coquelicot Require Import Coquelicot.
From Verif Require Import Base Series SeriesProofs Collision Gauss CollisionProofs PolyZ Erf ErfProofs ErfBound.
Local Open Scope R_scope.

(** ** The exponential near 0 *)
Lemma exp_neg_derive n x : is_derive_n (fun t => exp (- t)) n x ((-1) ^ n * exp (- x)).
Proof.
  revert x. induction n as [|n IH]; intros x; [cbn; ring|]. cbn [is_derive_n].
  apply (is_derive_ext (fun t => (-1) ^ n * exp (- t))); [intros t; symmetry; apply is_derive_n_unique, IH|].
  auto_derive; [exact I|]. cbn [pow]. ring.
Qed.
Fixpoint zfact (n : nat) : Z := match n with O => 1 | S m => Z.of_nat (S m) * zfact m end.
Lemma fact_zfact n : INR (fact n) = IZR (zfact n).
Proof. induction n as [|n IH]; [reflexivity|]. rewrite fact_simpl, mult_INR, IH, INR_IZR_INZ, <- mult_IZR. reflexivity. Qed.
(** 10! times the Taylor polynomial of exp (- z^2) *)
Definition bellz : list Z := [3628800; 0; -3628800; 0; 1814400; 0; -604800; 0; 151200; 0; -30240; 0; 5040; 0; -720; 0; 90; 0; -10; 0; 1]%Z.
Lemma bell_taylor z : 0 <= z <= / 2 -> Rabs (exp (- (z * z)) - zev bellz z / 3628800) <= / 10 ^ 14.
Proof.
  intros [Hz0 Hz]. destruct Hz0 as [Hz0|<-].
  - assert (Hx : 0 < z * z <= / 4) by nra.
    destruct (Taylor_Lagrange (fun t => exp (- t)) 10 0 (z * z) (proj1 Hx)) as (y & Hy & E).
    + intros t _ [|k] _; [exact I|]. exact (ex_intro _ _ (exp_neg_derive (S k) t)).
    + assert (P : sum_f_R0 (fun m => (z * z - 0) ^ m / INR (fact m) * Derive_n (fun t => exp (- t)) m 0) 10 = zev bellz z / 3628800).
      { assert (D0 : forall m, Derive_n (fun t => exp (- t)) m 0 = (-1) ^ m) by (intros m; rewrite (is_derive_n_unique _ _ _ _ (exp_neg_derive m 0)), Ropp_0, exp_0; ring).
        cbn [sum_f_R0]. rewrite !D0. rewrite !fact_zfact. repeat match goal with |- context [zfact ?n] => let v := eval vm_compute in (zfact n) in change (zfact n) with v end. cbn [bellz zev pow]. field. }
      rewrite E, P. rewrite (is_derive_n_unique _ _ _ _ (exp_neg_derive 11 y)).
      match goal with |- Rabs ?a <= _ => replace a with ((z * z - 0) ^ 11 / INR (fact 11) * ((-1) ^ 11 * exp (- y))) by ring end.
      rewrite Rabs_mult. assert (B1 : Rabs ((-1) ^ 11 * exp (- y)) <= 1).
      { replace ((-1) ^ 11 * exp (- y)) with (- exp (- y)) by ring. rewrite Rabs_Ropp, Rabs_pos_eq by (left; apply exp_pos). apply exp_le_1. lra. }
      assert (F : INR (fact 11) = 39916800) by (rewrite fact_zfact; reflexivity). rewrite F.
      assert (B2 : Rabs ((z * z - 0) ^ 11 / 39916800) <= (/ 4) ^ 11 / 39916800).
      { rewrite Rminus_0_r, Rabs_pos_eq by (apply Rmult_le_pos; [apply pow_le; lra|lra]). apply Rmult_le_compat_r; [lra|]. apply pow_incr. lra. }
      pose proof (Rabs_pos ((-1) ^ 11 * exp (- y))). pose proof (Rabs_pos ((z * z - 0) ^ 11 / 39916800)).
      assert ((/ 4) ^ 11 / 39916800 <= / 10 ^ 14) by lra. nra.
  - rewrite Rmult_0_l, Ropp_0, exp_0. cbn [bellz zev]. apply Rabs_le. lra.
Qed.

(** ** The branch from 1e-10 to 0.5 *)
Definition Dl : list Z := map scaled ERF_IMPL_AD.
Definition Ml : list Z := zadd (zscale (scaled 1.125) Dl) (zscale SCALE (map scaled ERF_IMPL_AN)).
Definition Xl : list Z := 0%Z :: Ml.
Definition eta1 : Q := 1e-13.
Definition Pl : list Z :=
  zadd (zscale 3628800 (zadd (zmul (zder Xl) Dl) (zopp (zmul Xl (zder Dl))))) (zscale (- scaled k2) (zmul bellz (zmul Dl Dl))).
Definition Bl : list Z := zscale (scaled eta1 * 3628800) (zmul Dl Dl).
Lemma low_exact_n : forallb exact ERF_IMPL_AN = true. Proof. vm_compute. reflexivity. Qed.
Lemma low_exact_d : forallb exact ERF_IMPL_AD = true. Proof. vm_compute. reflexivity. Qed.
Lemma low_den : nonneg_on 1 2 1 (zadd Dl [(-1)%Z]) = true. Proof. vm_compute. reflexivity. Qed.
Lemma low_above : nonneg_on 1 2 1 (zadd Bl Pl) = true. Proof. vm_compute. reflexivity. Qed.
Lemma low_below : nonneg_on 1 2 1 (zadd Bl (zopp Pl)) = true. Proof. vm_compute. reflexivity. Qed.

Lemma low_facts z : 0 <= z <= / 2 ->
  0 < zev Dl z /\ poly z ERF_IMPL_AD <> 0 /\
  z * Q2R 1.125 + z * poly z ERF_IMPL_AN / poly z ERF_IMPL_AD = zev Xl z / (IZR SCALE * zev Dl z) /\
  Rabs ((zev (zder Xl) z * zev Dl z - zev Xl z * zev (zder Dl) z) / (IZR SCALE * (zev Dl z * zev Dl z)) - Q2R k2 * (zev bellz z / 3628800)) <= Q2R eta1.
Proof.
  intros Hz. pose proof low_exact_n as C1. pose proof low_exact_d as C2. pose proof Nat.lt_0_1 as C7. assert (Hz' : 0 <= z <= 1 / 2) by lra.
  pose proof (nonneg_on_ok 1 2 1 _ z (Pos2Z.is_pos 1) (Pos2Z.is_pos 2) C7 low_den Hz') as N1. rewrite zev_add in N1. cbn [zev] in N1.
  pose proof (nonneg_on_ok 1 2 1 _ z (Pos2Z.is_pos 1) (Pos2Z.is_pos 2) C7 low_above Hz') as N2.
  pose proof (nonneg_on_ok 1 2 1 _ z (Pos2Z.is_pos 1) (Pos2Z.is_pos 2) C7 low_below Hz') as N3.
  clear C7. unfold Bl, Pl in N2, N3. rewrite zev_add, !zev_scale, !zev_mul in N2. rewrite zev_add, !zev_scale, zev_opp, !zev_mul in N3.
  rewrite zev_add, !zev_scale, zev_add, zev_opp, !zev_mul in N2. rewrite zev_add, !zev_scale, zev_add, zev_opp, !zev_mul in N3.
  rewrite mult_IZR, (scaled_ok eta1 eq_refl), opp_IZR, (scaled_ok k2 eq_refl) in N2, N3.
  pose proof SCALE_pos as HS.
  assert (ED : zev Dl z = IZR SCALE * poly z ERF_IMPL_AD) by (apply scaled_poly, C2).
  assert (EN : zev (map scaled ERF_IMPL_AN) z = IZR SCALE * poly z ERF_IMPL_AN) by (apply scaled_poly, C1).
  assert (EX : zev Xl z = z * (IZR SCALE * Q2R 1.125 * zev Dl z + IZR SCALE * (IZR SCALE * poly z ERF_IMPL_AN))).
  { unfold Xl. cbn [zev]. unfold Ml. rewrite zev_add, !zev_scale, EN, (scaled_ok 1.125 eq_refl). apply Rplus_0_l. }
  set (S := IZR SCALE) in *. clearbody S.
  assert (HD : 0 < zev Dl z) by lra.
  assert (HP : poly z ERF_IMPL_AD <> 0) by (intros Z0; rewrite Z0, Rmult_0_r in ED; lra).
  split; [exact HD|]. split; [exact HP|]. split.
  { rewrite EX, ED. set (p := poly z ERF_IMPL_AD) in *. set (q := poly z ERF_IMPL_AN). clearbody p q. generalize (Q2R 1.125). intros k. field. split; lra. }
  set (x := zev Xl z) in *. set (w := zev Dl z) in *. set (a := zev (zder Xl) z) in *. set (b := zev (zder Dl) z) in *. set (t := zev bellz z) in *.
  set (k := Q2R k2) in *. set (e := Q2R eta1) in *. clearbody x w a b t k e. clear EX ED EN C1 C2 N1 HP.
  assert (Hw : 0 < 3628800 * (S * (w * w))) by (apply Rmult_lt_0_compat; [lra|apply Rmult_lt_0_compat; [lra|apply Rmult_lt_0_compat; lra]]).
  assert (Eq : ((a * w - x * b) / (S * (w * w)) - k * (t / 3628800)) * (3628800 * (S * (w * w))) = 3628800 * (a * w + - (x * b)) + - (S * k) * (t * (w * w))) by (field; lra).
  apply Rabs_le. split; apply (Rmult_le_reg_r (3628800 * (S * (w * w)))); try exact Hw; rewrite Eq; lra.
Qed.

Definition low_error (z : R) : R := zev Xl z / (IZR SCALE * zev Dl z) - K2 * G z.
Lemma low_derive z : 0 <= z <= / 2 -> exists r, is_derive low_error z r /\ Rabs r <= 3 / 10 ^ 13.
Proof.
  intros Hz. destruct (low_facts z Hz) as (HD & _ & _ & B). pose proof SCALE_pos as HS.
  exists ((zev (zder Xl) z * zev Dl z - zev Xl z * zev (zder Dl) z) / (IZR SCALE * (zev Dl z * zev Dl z)) - K2 * exp (- (z * z))).
  pose proof (zev_derive Xl z) as DX. pose proof (zev_derive Dl z) as DD. pose proof (bell_taylor z Hz) as T.
  unfold low_error. revert B DX DD HD HS. generalize (IZR SCALE) (zev Xl) (zev (zder Xl) z) (zev Dl) (zev (zder Dl) z). intros S X a D b B DX DD HD HS. split.
  - apply (is_derive_minus (fun z => X z / (S * D z)) (fun z => K2 * G z)); [|apply (is_derive_scal G z K2), G_derive].
    assert (Ex : forall t : R, / S * (X t / D t) = X t / (S * D t)) by (intros t; unfold Rdiv; rewrite Rinv_mult; ring).
    apply (is_derive_ext (fun z => / S * (X z / D z)) _ _ _ Ex).
    replace ((a * D z - X z * b) / (S * (D z * D z))) with (/ S * ((a * D z - X z * b) / D z ^ 2)) by (field; lra).
    apply (is_derive_scal (fun z => X z / D z) z (/ S)). apply (is_derive_div X D); [exact DX|exact DD|lra].
  - revert B. generalize ((a * D z - X z * b) / (S * (D z * D z))). intros q B. clear - B T.
    pose proof K2_close as C. pose proof K2_bounds as KB. assert (EE : Q2R eta1 = / 10 ^ 13) by (unfold eta1; qval). rewrite EE in B.
    pose proof (exp_le_1 (- (z * z)) ltac:(nra)) as X1. pose proof (exp_pos (- (z * z))) as X0.
    set (e := exp (- (z * z))) in *. set (t := zev bellz z / 3628800) in *. set (k := Q2R k2) in *. clearbody e t k.
    replace (q - K2 * e) with ((q - k * t) - k * (e - t) - (K2 - k) * e) by ring.
    assert (A1 : Rabs (k * (e - t)) <= 2 * / 10 ^ 14).
    { rewrite Rabs_mult. apply both in C. apply Rmult_le_compat; [apply Rabs_pos|apply Rabs_pos|rewrite Rabs_pos_eq; lra|exact T]. }
    assert (A2 : Rabs ((K2 - k) * e) <= / 10 ^ 13 * 1).
    { rewrite Rabs_mult. apply Rmult_le_compat; [apply Rabs_pos|apply Rabs_pos|exact C|rewrite Rabs_pos_eq; lra]. }
    apply both in A1. apply both in A2. apply both in B. apply Rabs_le. lra.
Qed.

(** ** Below 0.5 *)
Lemma G_small z : 0 <= z -> z - z * z * z <= G z <= z.
Proof.
  intros Hz. assert (D1 : forall t, is_derive (fun t => t - t * t * t) t (1 - 3 * (t * t))) by (intros t; auto_derive; [exact I|ring]).
  split.
  - destruct (MVT_gen (fun t => G t - (t - t * t * t)) 0 z (fun t => exp (- (t * t)) - (1 - 3 * (t * t)))) as (t & Ht & E).
    + intros t _. apply (is_derive_minus G (fun t => t - t * t * t)); [apply G_derive|apply D1].
    + intros t _. apply continuity_pt_filterlim. apply (ex_derive_continuous (fun t => G t - (t - t * t * t))). eexists. apply (is_derive_minus G (fun t => t - t * t * t)); [apply G_derive|apply D1].
    + rewrite G_0 in E. assert (1 - t * t <= exp (- (t * t))).
      { destruct (Req_dec (- (t * t)) 0) as [Z|Z]; [rewrite Z, exp_0; lra|]. left. pose proof (exp_ineq1 (- (t * t)) Z). lra. }
      assert (0 <= (exp (- (t * t)) - (1 - 3 * (t * t))) * (z - 0)) by (apply Rmult_le_pos; nra). lra.
  - destruct (MVT_gen (fun t => t - G t) 0 z (fun t => 1 - exp (- (t * t)))) as (t & Ht & E).
    + intros t _. apply (is_derive_minus (fun t => t) G); [apply (is_derive_id t)|apply G_derive].
    + intros t _. apply continuity_pt_filterlim. apply (ex_derive_continuous (fun t => t - G t)). eexists. apply (is_derive_minus (fun t => t) G); [apply (is_derive_id t)|apply G_derive].
    + rewrite G_0 in E. pose proof (exp_le_1 (- (t * t)) ltac:(nra)). assert (0 <= (1 - exp (- (t * t))) * (z - 0)) by (apply Rmult_le_pos; lra). lra.
Qed.
Lemma lower_error z : 0 <= z < Q2R 0.5 -> Rabs (erf_result z - K2 * G z) <= 3 / 10 ^ 13 * z.
Proof.
  intros Hz. assert (Q : Q2R 0.5 = / 2) by qval. unfold erf_result. destruct (Rlt_dec z (Q2R 0.5)) as [_|L]; [|lra].
  destruct (Rlt_dec z (Q2R 1e-10)) as [L|L].
  - assert (Q1 : Q2R 1e-10 = / 10 ^ 10) by qval. rewrite Q1 in L. pose proof (G_small z (proj1 Hz)) as G1. pose proof K2_close as C. pose proof K2_bounds as KB.
    rewrite k2_val in C. change (Q2R 1.125) with 1.125.
    assert (Q3 : Rabs (Q2R 0.003379167095512573896158903121545171688 - 0.0033791670955125739) <= / 10 ^ 15) by (apply Rabs_le; split; qval).
    set (s := Q2R 0.003379167095512573896158903121545171688) in *. clearbody s. apply both in Q3. apply both in C.
    replace (z * 1.125 + z * s - K2 * G z) with (z * (1.125 + s - K2) + K2 * (z - G z)) by ring.
    assert (A : 0 <= K2 * (z - G z) <= 1.129 * (z * z * z)) by (split; [apply Rmult_le_pos; lra|apply Rmult_le_compat; lra]).
    assert (B : z * z * z <= / 10 ^ 20 * z).
    { apply Rmult_le_compat_r; [lra|]. replace (/ 10 ^ 20) with (/ 10 ^ 10 * / 10 ^ 10) by lra. apply Rmult_le_compat; lra. }
    assert (D : - (1.1 / 10 ^ 13) * z <= z * (1.125 + s - K2) <= 1.1 / 10 ^ 13 * z).
    { rewrite (Rmult_comm z). split; apply Rmult_le_compat_r; lra. }
    apply Rabs_le. lra.
  - destruct (low_facts z ltac:(lra)) as (_ & _ & E & _). rewrite E. fold (low_error z).
    assert (Z0 : low_error 0 = 0).
    { unfold low_error, Xl. cbn [zev]. rewrite G_0, Rmult_0_r, Rmult_0_l, Rplus_0_l. unfold Rdiv. rewrite Rmult_0_l. ring. }
    assert (V : Rabs (low_error z - low_error 0) <= 3 / 10 ^ 13 * (z - 0)).
    { apply (variation low_error (fun _ => 1) (Derive low_error) (fun t => t) (3 / 10 ^ 13) 0 z); [lra| | |].
      - intros t Ht. destruct (low_derive t ltac:(lra)) as (r & D & _). apply Derive_correct. eexists. exact D.
      - intros t _. apply (is_derive_id t).
      - intros t Ht. destruct (low_derive t ltac:(lra)) as (r & D & B). rewrite (is_derive_unique _ _ _ D). lra. }
    rewrite Z0, !Rminus_0_r in V. exact V.
Qed.
