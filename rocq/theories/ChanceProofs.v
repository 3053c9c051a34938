(** How likely it is that two projections get the same byte. *)
From Coq Require Import Reals Lra.
From Coquelicot Require Import Coquelicot.
From Verif Require Import Base RSpec Gauss Collision CollisionProofs Hashing HashingProofs.
Local Open Scope R_scope.

(** ** The shift *)
(** the byte as a function of the number of widths *)
Definition cell (h : R) : N := Z.to_N (Z.land (trunc (if Rlt_dec 128 (Rabs h) then signum h * 127 else h)) 255).
Lemma quantise_cell width x u : 0 < width -> quantise (u * width) width x = cell (x / width + u).
Proof. intros H. unfold quantise, cell. replace ((x + u * width) / width) with (x / width + u) by (field; lra). reflexivity. Qed.
Lemma cell_inside n h : IZR n < h < IZR n + 1 -> cell h = cell (IZR n + / 2).
Proof.
  intros H. unfold cell. f_equal. f_equal.
  assert (C : (128 <= n \/ n <= -129 \/ 0 <= n < 128 \/ -128 <= n < 0)%Z) by lia.
  destruct C as [C|[C|[C|C]]].
  - apply IZR_le in C. rewrite !Rabs_pos_eq by lra. destruct (Rlt_dec 128 h); [|lra]. destruct (Rlt_dec 128 (IZR n + / 2)); [|lra].
    unfold signum. destruct (Rlt_dec h 0); [lra|]. destruct (Rlt_dec (IZR n + / 2) 0); [lra|]. reflexivity.
  - apply IZR_le in C. rewrite !Rabs_left by lra. destruct (Rlt_dec 128 (- h)); [|lra]. destruct (Rlt_dec 128 (- (IZR n + / 2))); [|lra].
    unfold signum. destruct (Rlt_dec h 0); [|lra]. destruct (Rlt_dec (IZR n + / 2) 0); [|lra]. reflexivity.
  - destruct C as (C1 & C2). assert (C3 : (n <= 127)%Z) by lia. apply IZR_le in C1, C3. rewrite !Rabs_pos_eq by lra.
    destruct (Rlt_dec 128 h); [lra|]. destruct (Rlt_dec 128 (IZR n + / 2)); [lra|].
    rewrite (trunc_pos h n), (trunc_pos (IZR n + / 2) n) by lra. reflexivity.
  - destruct C as (C1 & C2). assert (C3 : (n <= -1)%Z) by lia. apply IZR_le in C1, C3. rewrite !Rabs_left by lra.
    destruct (Rlt_dec 128 (- h)); [lra|]. destruct (Rlt_dec 128 (- (IZR n + / 2))); [lra|].
    rewrite (trunc_neg h (n + 1)), (trunc_neg (IZR n + / 2) (n + 1)) by (rewrite ?plus_IZR; lra). reflexivity.
Qed.

Definition same (a b u : R) : R := if (cell (a + u) =? cell (b + u))%N then 1 else 0.
Lemma same_comm a b u : same a b u = same b a u.
Proof. unfold same. rewrite N.eqb_sym. reflexivity. Qed.
Definition both (n m : Z) : R := if (cell (IZR n + / 2) =? cell (IZR m + / 2))%N then 1 else 0.
Lemma both_unit n m : 0 <= both n m <= 1.
Proof. unfold both. destruct (_ =? _)%N; lra. Qed.
Lemma both_refl n : both n n = 1.
Proof. unfold both. rewrite N.eqb_refl. reflexivity. Qed.
Lemma same_both a b n m u : IZR n < a + u < IZR n + 1 -> IZR m < b + u < IZR m + 1 -> same a b u = both n m.
Proof. intros Ha Hb. unfold same, both. rewrite (cell_inside n (a + u) Ha), (cell_inside m (b + u) Hb). reflexivity. Qed.
Lemma same_piece a b n m l r : l <= r ->
  (forall u, l < u < r -> IZR n < a + u < IZR n + 1 /\ IZR m < b + u < IZR m + 1) ->
  is_RInt (same a b) l r ((r - l) * both n m).
Proof.
  intros L H. apply (is_RInt_ext (fun _ => both n m)).
  - intros u Hu. rewrite Rmin_left, Rmax_right in Hu by exact L. symmetry. destruct (H u Hu). apply same_both; assumption.
  - apply (is_RInt_const l r (both n m)).
Qed.
(** [a] and [b] cross their next integers after [up a - a] and [up b - b] *)
Lemma same_int a b : IZR (up a) - a <= IZR (up b) - b ->
  is_RInt (same a b) 0 1
    ((IZR (up a) - a) * both (up a - 1) (up b - 1) + ((IZR (up b) - b) - (IZR (up a) - a)) * both (up a) (up b - 1) + (1 - (IZR (up b) - b)) * both (up a) (up b)).
Proof.
  intros L. destruct (archimed a) as (A1 & A2), (archimed b) as (B1 & B2).
  apply (is_RInt_Chasles (same a b) 0 (IZR (up b) - b) 1).
  - apply (is_RInt_Chasles (same a b) 0 (IZR (up a) - a) (IZR (up b) - b)).
    + rewrite <- (Rminus_0_r (IZR (up a) - a)) at 2. apply same_piece; [lra|]. intros u Hu. rewrite !minus_IZR. lra.
    + apply same_piece; [lra|]. intros u Hu. rewrite minus_IZR. lra.
  - apply same_piece; [lra|]. intros u Hu. lra.
Qed.
Lemma IZR_apart (n m : Z) : (n < m)%Z -> IZR n + 1 <= IZR m.
Proof. intros H. rewrite <- plus_IZR. apply IZR_le. lia. Qed.
Lemma same_low a b : IZR (up a) - a <= IZR (up b) - b -> exists p, is_RInt (same a b) 0 1 p /\ 1 - Rabs (a - b) <= p /\ 0 <= p <= 1.
Proof.
  intros L. destruct (archimed a) as (A1 & A2), (archimed b) as (B1 & B2). eexists. split; [apply same_int; exact L|].
  pose proof (both_unit (up a - 1) (up b - 1)) as U1. pose proof (both_unit (up a) (up b - 1)) as U2. pose proof (both_unit (up a) (up b)) as U3.
  split; [|nra].
  destruct (Z.lt_trichotomy (up a) (up b)) as [C|[C|C]].
  - destruct (Z.eq_dec (up b) (up a + 1)) as [E|E].
    + assert (E2 : both (up a) (up b - 1) = 1) by (replace (up b - 1)%Z with (up a) by lia; apply both_refl). rewrite E2.
      assert (IZR (up b) = IZR (up a) + 1) by (rewrite E, plus_IZR; reflexivity). unfold Rabs. destruct (Rcase_abs (a - b)); nra.
    + assert (IZR (up a) + 1 + 1 <= IZR (up b)) by (rewrite <- !plus_IZR; apply IZR_le; lia). assert (1 <= Rabs (a - b)) by (unfold Rabs; destruct (Rcase_abs (a - b)); lra). nra.
  - assert (E1 : both (up a - 1) (up b - 1) = 1) by (rewrite C; apply both_refl). assert (E3 : both (up a) (up b) = 1) by (rewrite C; apply both_refl). rewrite E1, E3.
    rewrite C in *. unfold Rabs. destruct (Rcase_abs (a - b)); nra.
  - apply IZR_apart in C. assert (1 <= Rabs (a - b)) by (unfold Rabs; destruct (Rcase_abs (a - b)); lra). nra.
Qed.
Lemma same_bound a b : exists p, is_RInt (same a b) 0 1 p /\ 1 - Rabs (a - b) <= p /\ 0 <= p <= 1.
Proof.
  destruct (Rle_dec (IZR (up a) - a) (IZR (up b) - b)) as [L|L]; [apply same_low, L|].
  destruct (same_low b a) as (p & H1 & H2); [lra|]. exists p. rewrite Rabs_minus_sym. split; [|exact H2].
  apply (is_RInt_ext (same b a)); [intros; apply same_comm|exact H1].
Qed.

(** exactly the overlap, if no bucket is involved that truncation or clipping joins to another *)
Lemma cell_plain n : (0 <= n <= 127)%Z -> cell (IZR n + / 2) = Z.to_N n.
Proof.
  intros (C1 & C2). assert (D1 := IZR_le _ _ C1). assert (D2 := IZR_le _ _ C2). unfold cell. rewrite Rabs_pos_eq by lra. destruct (Rlt_dec 128 (IZR n + / 2)); [lra|].
  rewrite (trunc_pos _ n) by lra. rewrite land255, Z.mod_small by lia. reflexivity.
Qed.
Lemma both_plain n m : (0 <= n <= 127)%Z -> (0 <= m <= 127)%Z -> n <> m -> both n m = 0.
Proof. intros Hn Hm Hd. unfold both. rewrite (cell_plain n Hn), (cell_plain m Hm). destruct (N.eqb_spec (Z.to_N n) (Z.to_N m)); [lia|reflexivity]. Qed.
Lemma up_plain a : 0 <= a <= 126 -> (1 <= up a <= 127)%Z.
Proof.
  intros H. destruct (archimed a) as (A1 & A2). split.
  - apply (Zlt_le_succ 0). apply lt_IZR. lra.
  - apply Zlt_succ_le. unfold Z.succ. apply lt_IZR. rewrite plus_IZR. lra.
Qed.
Lemma same_exact_low a b : 0 <= a <= 126 -> 0 <= b <= 126 -> IZR (up a) - a <= IZR (up b) - b -> is_RInt (same a b) 0 1 (Rmax 0 (1 - Rabs (a - b))).
Proof.
  intros Ha Hb L. pose proof (same_int a b L) as I. destruct (archimed a) as (A1 & A2), (archimed b) as (B1 & B2).
  pose proof (up_plain a Ha) as Ua. pose proof (up_plain b Hb) as Ub.
  match type of I with is_RInt _ _ _ ?v => replace (Rmax 0 (1 - Rabs (a - b))) with v; [exact I|] end.
  destruct (Z.lt_trichotomy (up a) (up b)) as [C|[C|C]].
  - rewrite (both_plain (up a - 1) (up b - 1)), (both_plain (up a) (up b)) by lia. destruct (Z.eq_dec (up b) (up a + 1)) as [E|E].
    + assert (E2 : both (up a) (up b - 1) = 1) by (replace (up b - 1)%Z with (up a) by lia; apply both_refl). rewrite E2.
      assert (IZR (up b) = IZR (up a) + 1) by (rewrite E, plus_IZR; reflexivity). unfold Rmax, Rabs. destruct (Rcase_abs (a - b)); destruct (Rle_dec _ _); lra.
    + rewrite (both_plain (up a) (up b - 1)) by lia.
      assert (IZR (up a) + 1 + 1 <= IZR (up b)) by (rewrite <- !plus_IZR; apply IZR_le; lia). unfold Rmax, Rabs. destruct (Rcase_abs (a - b)); destruct (Rle_dec _ _); lra.
  - assert (E1 : both (up a - 1) (up b - 1) = 1) by (rewrite C; apply both_refl). assert (E3 : both (up a) (up b) = 1) by (rewrite C; apply both_refl).
    rewrite (both_plain (up a) (up b - 1)) by lia. rewrite E1, E3. rewrite C in *. unfold Rmax, Rabs. destruct (Rcase_abs (a - b)); destruct (Rle_dec _ _); lra.
  - rewrite (both_plain (up a - 1) (up b - 1)), (both_plain (up a) (up b)), (both_plain (up a) (up b - 1)) by lia.
    apply IZR_apart in C. unfold Rmax, Rabs. destruct (Rcase_abs (a - b)); destruct (Rle_dec _ _); lra.
Qed.
Lemma same_exact a b : 0 <= a <= 126 -> 0 <= b <= 126 -> is_RInt (same a b) 0 1 (Rmax 0 (1 - Rabs (a - b))).
Proof.
  intros Ha Hb. destruct (Rle_dec (IZR (up a) - a) (IZR (up b) - b)) as [L|L]; [apply same_exact_low; assumption|].
  rewrite Rabs_minus_sym. apply (is_RInt_ext (same b a)); [intros; apply same_comm|]. apply same_exact_low; [assumption|assumption|lra].
Qed.

(** ** How the chance varies *)
Definition chance (a b : R) : R := RInt (same a b) 0 1.
Lemma chance_int a b : is_RInt (same a b) 0 1 (chance a b).
Proof. destruct (same_bound a b) as (p & H & _). apply (RInt_correct (same a b)). exists p. exact H. Qed.
Lemma chance_bound a b : 1 - Rabs (a - b) <= chance a b /\ 0 <= chance a b <= 1.
Proof. destruct (same_bound a b) as (p & H & B). unfold chance. rewrite (is_RInt_unique _ _ _ _ H). exact B. Qed.
Lemma chance_near a b a' b' : chance a' b' - Rabs (a - a') - Rabs (b - b') <= chance a b.
Proof.
  pose proof (proj1 (chance_bound a a')) as B1. pose proof (proj1 (chance_bound b b')) as B2.
  assert (I : is_RInt (fun u => (same a' b' u + same a a' u) + (same b b' u + - 2)) 0 1 ((chance a' b' + chance a a') + (chance b b' + - 2))).
  { apply (is_RInt_plus (fun u => same a' b' u + same a a' u) (fun u => same b b' u + - 2)).
    - apply (is_RInt_plus (same a' b') (same a a')); apply chance_int.
    - apply (is_RInt_plus (same b b') (fun _ => -2)); [apply chance_int|].
      pose proof (is_RInt_const (V := R_NormedModule) 0 1 (-2)) as C. unfold scal in C. cbn in C. unfold mult in C. cbn in C.
      replace ((1 - 0) * -2) with (-2) in C by ring. exact C. }
  assert (L : (chance a' b' + chance a a') + (chance b b' + - 2) <= chance a b).
  { apply (is_RInt_le _ _ 0 1 _ _ Rle_0_1 I (chance_int a b)). intros u _. unfold same.
    destruct (N.eqb_spec (cell (a' + u)) (cell (b' + u))) as [E1|E1], (N.eqb_spec (cell (a + u)) (cell (a' + u))) as [E2|E2],
      (N.eqb_spec (cell (b + u)) (cell (b' + u))) as [E3|E3], (N.eqb_spec (cell (a + u)) (cell (b + u))) as [E4|E4]; try lra. congruence. }
  lra.
Qed.
Lemma chance_lipschitz a b a' b' : Rabs (chance a b - chance a' b') <= Rabs (a - a') + Rabs (b - b').
Proof.
  pose proof (chance_near a b a' b'). pose proof (chance_near a' b' a b). rewrite (Rabs_minus_sym a' a), (Rabs_minus_sym b' b) in *.
  apply Rabs_le. lra.
Qed.
Lemma chance_continuous (f g : R -> R) (z : R) : continuous f z -> continuous g z -> continuous (fun z => chance (f z) (g z)) z.
Proof.
  intros Hf Hg. apply filterlim_locally. intros eps.
  assert (He : 0 < eps / 2) by (destruct eps as (e & He); cbn; lra).
  generalize (filter_and _ _ (proj1 (filterlim_locally f (f z)) Hf (mkposreal _ He)) (proj1 (filterlim_locally g (g z)) Hg (mkposreal _ He))).
  apply filter_imp. intros t (Bf & Bg). change (Rabs (f t + - f z) < eps / 2) in Bf. change (Rabs (g t + - g z) < eps / 2) in Bg.
  change (Rabs (chance (f t) (g t) + - chance (f z) (g z)) < eps). pose proof (chance_lipschitz (f t) (g t) (f z) (g z)). unfold Rminus in *. lra.
Qed.

(** ** Integrals over the line *)
Lemma gen_bounded (f : R -> R) M : (forall z, continuous f z) -> (forall z, 0 <= f z) -> (forall a b, a <= b -> RInt f a b <= M) ->
  exists P, is_RInt_gen f (Rbar_locally m_infty) (Rbar_locally p_infty) P /\ P <= M /\ forall a b, a <= b -> RInt f a b <= P.
Proof.
  intros C N B.
  assert (Ex : forall a b, ex_RInt f a b) by (intros a b; apply (ex_RInt_continuous f); intros; apply C).
  destruct (completeness (fun y => exists a b, a <= b /\ y = RInt f a b)) as (P & U & L).
  - exists M. intros y (a & b & H & ->). apply B, H.
  - exists (RInt f 0 0), 0, 0. split; [lra|reflexivity].
  - exists P. assert (UP : forall a b, a <= b -> RInt f a b <= P) by (intros a b H; apply U; exists a, b; split; [exact H|reflexivity]).
    split; [|split; [apply L; intros y (a & b & H & ->); apply B, H|exact UP]].
    intros Q (eps & HQ).
    assert (N0 : ~ (forall a b, a <= b -> RInt f a b <= P - eps)).
    { intros H. assert (P <= P - eps) by (apply L; intros y (a & b & H1 & ->); apply H, H1). destruct eps as (e & He). cbn in *. lra. }
    assert (X : exists a b, a <= b /\ P - eps < RInt f a b).
    { apply Classical_Prop.NNPP. intros H. apply N0. intros a b H1. destruct (Rle_lt_dec (RInt f a b) (P - eps)) as [Y|Y]; [exact Y|]. exfalso. apply H. exists a, b. split; assumption. }
    destruct X as (a0 & b0 & H0 & HX). unfold filtermapi.
    apply (Filter_prod _ _ _ (fun a => a < a0) (fun b => b0 < b)); [exists a0; intros x Hx; exact Hx|exists b0; intros x Hx; exact Hx|].
    intros a b Ha Hb. exists (RInt f a b). split; [apply (RInt_correct f), Ex|]. apply HQ.
    assert (S : RInt f a b = RInt f a a0 + RInt f a0 b0 + RInt f b0 b).
    { rewrite <- (RInt_Chasles f a a0 b) by apply Ex. rewrite <- (RInt_Chasles f a0 b0 b) by apply Ex. unfold plus. cbn. ring. }
    assert (P1 : 0 <= RInt f a a0) by (apply RInt_ge_0; [lra|apply Ex|intros; apply N]).
    assert (P2 : 0 <= RInt f b0 b) by (apply RInt_ge_0; [lra|apply Ex|intros; apply N]).
    pose proof (UP a b ltac:(lra)). change (Rabs (RInt f a b + - P) < eps). apply Rabs_def1; lra.
Qed.
(** a function that is 0 outside of an interval *)
Lemma gen_support (f : R -> R) l r I : l <= r -> (forall z, z <= l \/ r <= z -> f z = 0) -> is_RInt f l r I ->
  is_RInt_gen f (Rbar_locally m_infty) (Rbar_locally p_infty) I.
Proof.
  intros L Z H Q HQ. unfold filtermapi.
  apply (Filter_prod _ _ _ (fun a => a < l) (fun b => r < b)); [exists l; intros x Hx; exact Hx|exists r; intros x Hx; exact Hx|].
  intros a b Ha Hb. exists I. split; [|apply locally_singleton in HQ; exact HQ].
  assert (O : forall x y, x <= y -> (y <= l \/ r <= x) -> is_RInt f x y 0).
  { intros x y Hx Hy. apply (is_RInt_ext (fun _ => 0)).
    - intros t Ht. rewrite Rmin_left, Rmax_right in Ht by exact Hx. symmetry. apply Z. lra.
    - pose proof (is_RInt_const (V := R_NormedModule) x y 0) as C. unfold scal in C. cbn in C. unfold mult in C. cbn in C. rewrite Rmult_0_r in C. exact C. }
  replace I with (0 + (I + 0)) by ring. apply (is_RInt_Chasles f a l b); [apply O; lra|]. apply (is_RInt_Chasles f l r b); [exact H|apply O; lra].
Qed.

(** ** The normal distribution *)
Definition density (z : R) : R := gauss z / sqrt (2 * PI).
Lemma root_pos : 0 < sqrt (2 * PI).
Proof. apply sqrt_lt_R0. pose proof PI_RGT_0. lra. Qed.
Lemma density_pos z : 0 < density z.
Proof. apply Rdiv_lt_0_compat; [apply gauss_pos|apply root_pos]. Qed.
Lemma density_continuous z : continuous density z.
Proof. apply (continuous_mult gauss (fun _ => / sqrt (2 * PI))); [apply gauss_continuous|apply continuous_const]. Qed.
Lemma density_int a b : is_RInt density a b ((Gint b - Gint a) / sqrt (2 * PI)).
Proof.
  unfold Gint. assert (E : RInt gauss 0 b - RInt gauss 0 a = RInt gauss a b).
  { rewrite <- (RInt_Chasles gauss 0 a b) by apply gauss_int. unfold plus. cbn. ring. }
  rewrite E. apply (is_RInt_ext (fun z => scal (/ sqrt (2 * PI)) (gauss z))).
  - intros z _. unfold density, scal. cbn. unfold mult. cbn. unfold Rdiv. ring.
  - replace (RInt gauss a b / sqrt (2 * PI)) with (scal (/ sqrt (2 * PI)) (RInt gauss a b)) by (unfold scal; cbn; unfold mult; cbn; unfold Rdiv; ring).
    apply (is_RInt_scal gauss). apply (RInt_correct gauss), gauss_int.
Qed.
Lemma Gint_opp x : Gint (- x) = - Gint x.
Proof.
  unfold Gint. pose proof (RInt_comp_lin gauss (-1) 0 0 x) as E. rewrite Rmult_0_r, !Rplus_0_r in E. replace (-1 * x) with (- x) in E by ring.
  rewrite <- E by apply gauss_int. rewrite <- (RInt_opp gauss) by apply gauss_int. apply RInt_ext. intros t _. unfold scal, opp. cbn. unfold mult. cbn.
  rewrite Rplus_0_r. unfold gauss. replace (-1 * t * (-1 * t)) with (t * t) by ring. ring.
Qed.
Lemma Gint_abs x : - sqrt (PI / 2) < Gint x < sqrt (PI / 2).
Proof.
  destruct (Rtotal_order x 0) as [H|[->|H]].
  - destruct (gauss_bound (- x) ltac:(lra)) as (B1 & B2). rewrite Gint_opp in *. lra.
  - rewrite Gint_0. assert (0 < sqrt (PI / 2)) by (apply sqrt_lt_R0; pose proof PI_RGT_0; lra). lra.
  - destruct (gauss_bound x H). lra.
Qed.
Lemma density_total a b : RInt density a b <= 1.
Proof.
  rewrite (is_RInt_unique _ _ _ _ (density_int a b)). pose proof (Gint_abs a). pose proof (Gint_abs b). destruct scale_pos as (S1 & S2). pose proof root_pos.
  assert (0 < / sqrt (2 * PI)) by (apply Rinv_0_lt_compat; assumption).
  replace 1 with (2 * sqrt (PI / 2) * / sqrt (2 * PI)) by (unfold Rdiv in *; lra). unfold Rdiv. apply Rmult_le_compat_r; lra.
Qed.

(** ** The formula *)
Definition tent (c z : R) : R := Rmax 0 (1 - Rabs z / c).
Lemma tent_int c : 0 < c -> is_RInt (fun z => density z * tent c z) (- c) c (2 / sqrt (2 * PI) * shape c).
Proof.
  intros Hc. pose proof root_pos as Hr.
  assert (E0 : gauss 0 = 1) by (unfold gauss; replace (- (0 * 0) / 2) with 0 by lra; apply exp_0).
  assert (Eo : gauss (- c) = gauss c) by (unfold gauss; f_equal; field).
  replace (2 / sqrt (2 * PI) * shape c) with (plus ((shape c) / sqrt (2 * PI)) ((shape c) / sqrt (2 * PI))) by (unfold plus; cbn; field; lra).
  apply (is_RInt_Chasles (fun z => density z * tent c z) (- c) 0 c).
  - apply (is_RInt_ext (fun z => (gauss z - / c * (- z * gauss z)) / sqrt (2 * PI))).
    + intros z Hz. rewrite Rmin_left, Rmax_right in Hz by lra. unfold density, tent. rewrite Rabs_left by lra.
      assert (- z / c <= 1) by (apply (Rmult_le_reg_r c); [exact Hc|]; replace (- z / c * c) with (- z) by (field; lra); lra).
      rewrite Rmax_right by lra. match goal with |- ?a = ?b => change ((a : R) = b) end. field. lra.
    + replace (shape c / sqrt (2 * PI)) with (minus ((Gint 0 - / c * gauss 0) / sqrt (2 * PI)) ((Gint (- c) - / c * gauss (- c)) / sqrt (2 * PI))).
      * apply (is_RInt_derive (fun z => (Gint z - / c * gauss z) / sqrt (2 * PI))).
        -- intros z _. apply (is_derive_ext (fun z => / sqrt (2 * PI) * (Gint z - / c * gauss z))); [intros t; unfold Rdiv; apply Rmult_comm|].
           replace ((gauss z - / c * (- z * gauss z)) / sqrt (2 * PI)) with (/ sqrt (2 * PI) * (gauss z - / c * (- z * gauss z))) by (unfold Rdiv; apply Rmult_comm).
           apply (is_derive_scal (fun z => Gint z - / c * gauss z) z (/ sqrt (2 * PI))).
           apply (is_derive_minus Gint (fun z => / c * gauss z) z); [apply Gint_derive|]. apply (is_derive_scal gauss z (/ c)), gauss_derive.
        -- intros z _. apply (ex_derive_continuous (fun z => (gauss z - / c * (- z * gauss z)) / sqrt (2 * PI))). unfold gauss. auto_derive. repeat split; lra.
      * rewrite Gint_0, Gint_opp, E0, Eo. unfold shape, minus, plus, opp. cbn. field. lra.
  - apply (is_RInt_ext (fun z => (gauss z + / c * (- z * gauss z)) / sqrt (2 * PI))).
    + intros z Hz. rewrite Rmin_left, Rmax_right in Hz by lra. unfold density, tent. rewrite Rabs_pos_eq by lra.
      assert (z / c <= 1) by (apply (Rmult_le_reg_r c); [exact Hc|]; replace (z / c * c) with z by (field; lra); lra).
      rewrite Rmax_right by lra. match goal with |- ?a = ?b => change ((a : R) = b) end. field. lra.
    + replace (shape c / sqrt (2 * PI)) with (minus ((Gint c + / c * gauss c) / sqrt (2 * PI)) ((Gint 0 + / c * gauss 0) / sqrt (2 * PI))).
      * apply (is_RInt_derive (fun z => (Gint z + / c * gauss z) / sqrt (2 * PI))).
        -- intros z _. apply (is_derive_ext (fun z => / sqrt (2 * PI) * (Gint z + / c * gauss z))); [intros t; unfold Rdiv; apply Rmult_comm|].
           replace ((gauss z + / c * (- z * gauss z)) / sqrt (2 * PI)) with (/ sqrt (2 * PI) * (gauss z + / c * (- z * gauss z))) by (unfold Rdiv; apply Rmult_comm).
           apply (is_derive_scal (fun z => Gint z + / c * gauss z) z (/ sqrt (2 * PI))).
           apply (is_derive_plus Gint (fun z => / c * gauss z) z); [apply Gint_derive|]. apply (is_derive_scal gauss z (/ c)), gauss_derive.
        -- intros z _. apply (ex_derive_continuous (fun z => (gauss z + / c * (- z * gauss z)) / sqrt (2 * PI))). unfold gauss. auto_derive. repeat split; lra.
      * rewrite Gint_0, E0. unfold shape, minus, plus, opp. cbn. field. lra.
Qed.
Lemma tent_outside c z : 0 < c -> z <= - c \/ c <= z -> tent c z = 0.
Proof.
  intros Hc H. unfold tent. apply Rmax_left. assert (c <= Rabs z) by (unfold Rabs; destruct (Rcase_abs z); lra).
  assert (1 <= Rabs z / c) by (apply (Rmult_le_reg_r c); [exact Hc|]; replace (Rabs z / c * c) with (Rabs z) by (field; lra); lra). lra.
Qed.
Lemma formula width d : 0 < width -> 0 < d ->
  is_RInt_gen (fun z => density z * tent (width / d) z) (Rbar_locally m_infty) (Rbar_locally p_infty) (collision_probability_at width d).
Proof.
  intros Hw Hd. assert (Hc : 0 < width / d) by (apply Rdiv_lt_0_compat; assumption).
  apply (gen_support _ (- (width / d)) (width / d)); [lra| |].
  - intros z Hz. rewrite tent_outside by assumption. apply Rmult_0_r.
  - rewrite collision_shape by assumption. apply tent_int, Hc.
Qed.

Lemma same_byte width d (X : R -> R) : 0 < width -> 0 < d -> (forall z, continuous X z) ->
  exists P, is_RInt_gen (fun z => density z * chance (X z / width) ((X z + d * z) / width)) (Rbar_locally m_infty) (Rbar_locally p_infty) P /\
    collision_probability_at width d <= P <= 1.
Proof.
  intros Hw Hd HX. set (f := fun z => density z * chance (X z / width) ((X z + d * z) / width)).
  assert (C : forall z, continuous f z).
  { intros z. apply (continuous_mult density (fun z => chance (X z / width) ((X z + d * z) / width))); [apply density_continuous|].
    apply chance_continuous.
    - apply (continuous_mult X (fun _ => / width)); [apply HX|apply continuous_const].
    - apply (continuous_mult (fun z => X z + d * z) (fun _ => / width)); [|apply continuous_const].
      apply (continuous_plus X (fun z => d * z)); [apply HX|]. apply (continuous_mult (fun _ => d) (fun z => z)); [apply continuous_const|apply continuous_id]. }
  assert (Ex : forall a b, ex_RInt f a b) by (intros a b; apply (ex_RInt_continuous f); intros; apply C).
  destruct (gen_bounded f 1 C) as (P & H1 & H2 & H3).
  - intros z. pose proof (density_pos z). destruct (chance_bound (X z / width) ((X z + d * z) / width)) as (_ & B). unfold f. nra.
  - intros a b Hab. eapply Rle_trans; [|apply (density_total a b)].
    apply (is_RInt_le f density a b _ _ Hab (RInt_correct f a b (Ex a b)) (RInt_correct density a b ltac:(eexists; apply density_int))).
    intros z _. pose proof (density_pos z). destruct (chance_bound (X z / width) ((X z + d * z) / width)) as (_ & B). unfold f. nra.
  - exists P. split; [exact H1|]. split; [|exact H2].
    assert (Hc : 0 < width / d) by (apply Rdiv_lt_0_compat; assumption).
    eapply Rle_trans; [|apply (H3 (- (width / d)) (width / d)); lra]. rewrite collision_shape by assumption.
    apply (is_RInt_le (fun z => density z * tent (width / d) z) f (- (width / d)) (width / d)); [lra|apply tent_int, Hc|apply (RInt_correct f), Ex|].
    intros z _. unfold f. apply Rmult_le_compat_l; [left; apply density_pos|]. unfold tent.
    destruct (chance_bound (X z / width) ((X z + d * z) / width)) as (B1 & B2 & _). apply Rmax_lub; [exact B2|].
    replace (X z / width - (X z + d * z) / width) with (- (z / (width / d))) in B1 by (field; lra).
    rewrite Rabs_Ropp in B1. unfold Rdiv in *. rewrite Rabs_mult, (Rabs_pos_eq (/ (width * / d))) in B1 by (left; apply Rinv_0_lt_compat; exact Hc). exact B1.
Qed.
