(** Sums of normal numbers. *)
From Coq Require Import Reals Lra.
From Coquelicot Require Import Coquelicot.
From Verif Require Import Base RSpec RealProofs Gauss CollisionProofs ChanceSpec ChanceProofs.
Local Open Scope R_scope.

Lemma J_le x : J x <= gauss x.
Proof.
  assert (H : is_RInt (fun _ => gauss x) 0 1 (gauss x)).
  { pose proof (is_RInt_const (V := R_NormedModule) 0 1 (gauss x)) as C. unfold scal in C. cbn in C. unfold mult in C. cbn in C. rewrite Rminus_0_r, Rmult_1_l in C. exact C. }
  apply (is_RInt_le (kern x) (fun _ => gauss x) 0 1 _ _ Rle_0_1 (RInt_correct _ _ _ (kern_int x)) H).
  intros s Hs. unfold kern, gauss. pose proof (one_sq s). rewrite <- (Rmult_1_r (exp (- (x * x) / 2))). apply Rmult_le_compat.
  - left. apply exp_pos.
  - left. apply Rinv_0_lt_compat. assumption.
  - destruct (Rle_lt_or_eq_dec (- (x * x * (1 + s * s)) / 2) (- (x * x) / 2)) as [L|L]; [nra|left; apply exp_increasing, L|rewrite L; apply Rle_refl].
  - replace 1 with (/ 1) at 2 by apply Rinv_1. apply Rinv_le_contravar; nra.
Qed.
Lemma gauss_le x : 0 < x -> gauss x <= 2 / x.
Proof.
  intros H. unfold gauss. replace (- (x * x) / 2) with (- (x * x / 2)) by field. rewrite exp_Ropp.
  assert (E : 1 + x * x / 2 <= exp (x * x / 2)) by (apply exp_ineq1_le).
  assert (x / 2 <= exp (x * x / 2)) by nra. replace (2 / x) with (/ (x / 2)) by (field; lra). apply Rinv_le_contravar; lra.
Qed.
Lemma half_root_pos : 1 < sqrt (PI / 2).
Proof. rewrite <- sqrt_1 at 1. apply sqrt_lt_1_alt. pose proof PI2_1. lra. Qed.
Lemma Gint_near x : 0 < x -> sqrt (PI / 2) - 4 / x <= Gint x.
Proof.
  intros H. pose proof (gauss_balance x H) as B. pose proof (J_le x). pose proof (gauss_le x H). pose proof half_root_pos. destruct (gauss_bound x H) as (G1 & G2).
  assert (S : sqrt (PI / 2) * sqrt (PI / 2) = PI / 2) by (apply sqrt_sqrt; pose proof PI_RGT_0; lra).
  replace (4 / x) with (2 * (2 / x)) by (field; lra). set (r := sqrt (PI / 2)) in *. assert ((r - Gint x) * (r + Gint x) = 2 * J x) by lra. nra.
Qed.

(** the integral of a shifted and scaled normal density *)
Lemma normal_int s m a b : 0 < s -> is_RInt (fun t => normal_density s (t - m)) a b ((Gint ((b - m) / s) - Gint ((a - m) / s)) / sqrt (2 * PI)).
Proof.
  intros Hs. pose proof root_pos.
  apply (is_RInt_ext (fun t => scal (/ s) (density (/ s * t + - m / s)))).
  - intros t _. unfold normal_density, density, gauss, scal. cbn. unfold mult. cbn.
    replace (- ((/ s * t + - m / s) * (/ s * t + - m / s)) / 2) with (- ((t - m) * (t - m)) / (2 * (s * s))) by (field; lra). match goal with |- ?a = ?b => change ((a : R) = b) end. field. lra.
  - apply (is_RInt_comp_lin density (/ s) (- m / s) a b).
    replace (/ s * a + - m / s) with ((a - m) / s) by (field; lra). replace (/ s * b + - m / s) with ((b - m) / s) by (field; lra). apply density_int.
Qed.
Lemma normal_whole s m : 0 < s -> over_line (fun t => normal_density s (t - m)) 1.
Proof.
  intros Hs Q (eps & HQ). pose proof root_pos as Hr. destruct scale_pos as (S1 & S2). pose proof half_root_pos as Hh. destruct eps as (e & He). cbn in HQ.
  assert (H1 : 1 < sqrt (2 * PI)). { rewrite <- sqrt_1 at 1. apply sqrt_lt_1_alt. pose proof PI2_1. lra. }
  set (T := 16 / e). assert (HT : 0 < T) by (apply Rdiv_lt_0_compat; lra).
  unfold filtermapi. apply (Filter_prod _ _ _ (fun a => a < m - s * T) (fun b => m + s * T < b)); [eexists; intros x Hx; exact Hx|eexists; intros x Hx; exact Hx|].
  intros a b Ha Hb. exists ((Gint ((b - m) / s) - Gint ((a - m) / s)) / sqrt (2 * PI)). split; [apply (normal_int s m a b Hs)|]. apply HQ.
  assert (A : T <= (m - a) / s) by (apply (Rmult_le_reg_r s); [exact Hs|]; replace ((m - a) / s * s) with (m - a) by (field; lra); nra).
  assert (B : T <= (b - m) / s) by (apply (Rmult_le_reg_r s); [exact Hs|]; replace ((b - m) / s * s) with (b - m) by (field; lra); nra).
  replace ((a - m) / s) with (- ((m - a) / s)) by (field; lra). rewrite Gint_opp.
  assert (N : forall x, T <= x -> sqrt (PI / 2) - e / 4 <= Gint x < sqrt (PI / 2)).
  { intros x Hx. split; [|apply Gint_abs]. assert (4 / x <= e / 4).
    { replace (e / 4) with (4 / T) by (unfold T; field; lra). apply Rmult_le_compat_l; [lra|]. apply Rinv_le_contravar; lra. }
    pose proof (Gint_near x ltac:(lra)). lra. }
  pose proof (N _ A) as NA. pose proof (N _ B) as NB.
  change (Rabs ((Gint ((b - m) / s) - - Gint ((m - a) / s)) / sqrt (2 * PI) + Ropp 1) < e).
  set (g := Gint ((b - m) / s)) in *. set (h := Gint ((m - a) / s)) in *.
  assert (E : 1 = (2 * sqrt (PI / 2)) / sqrt (2 * PI)) by (unfold Rdiv in *; lra).
  assert (Hi : 0 < / sqrt (2 * PI) < 1) by (split; [apply Rinv_0_lt_compat; lra|rewrite <- Rinv_1; apply Rinv_lt_contravar; lra]).
  replace ((g - - h) / sqrt (2 * PI) + Ropp 1) with (((g + h) - 2 * sqrt (PI / 2)) * / sqrt (2 * PI)) by (rewrite E at 1; unfold Rdiv; ring).
  apply Rabs_def1; nra.
Qed.

Lemma convolution s s' x : 0 < s -> 0 < s' ->
  over_line (fun t => normal_density s t * normal_density s' (x - t)) (normal_density (sqrt (s * s + s' * s')) x).
Proof.
  intros Hs Hs'. set (S := s * s + s' * s'). assert (HS : 0 < S) by (unfold S; nra). assert (HR : 0 < sqrt S) by (apply sqrt_lt_R0, HS).
  assert (SS : sqrt S * sqrt S = S) by (apply sqrt_sqrt; lra). pose proof root_pos as Hr.
  assert (RR : sqrt (2 * PI) * sqrt (2 * PI) = 2 * PI) by (apply sqrt_sqrt; pose proof PI_RGT_0; lra).
  set (tau := s * s' / sqrt S). assert (Ht : 0 < tau) by (apply Rdiv_lt_0_compat; [nra|exact HR]).
  set (m := x * (s * s) / S). pose proof (normal_whole tau m Ht) as W.
  assert (E : forall t, normal_density s t * normal_density s' (x - t) = normal_density (sqrt S) x * normal_density tau (t - m)).
  { intros t. unfold normal_density. assert (TT : tau * tau = s * s * (s' * s') / S) by (transitivity (s * s * (s' * s') / (sqrt S * sqrt S)); [unfold tau; field; lra|rewrite SS; reflexivity]). rewrite SS, TT.
    assert (Ex : exp (- (t * t) / (2 * (s * s))) * exp (- ((x - t) * (x - t)) / (2 * (s' * s'))) = exp (- (x * x) / (2 * S)) * exp (- ((t - m) * (t - m)) / (2 * (s * s * (s' * s') / S)))).
    { rewrite <- !exp_plus. f_equal. unfold m, S. field. split; [|split; lra]. fold S. lra. }
    replace (exp (- (t * t) / (2 * (s * s))) / (s * sqrt (2 * PI)) * (exp (- ((x - t) * (x - t)) / (2 * (s' * s'))) / (s' * sqrt (2 * PI))))
      with (exp (- (t * t) / (2 * (s * s))) * exp (- ((x - t) * (x - t)) / (2 * (s' * s'))) * / (s * s' * (sqrt (2 * PI) * sqrt (2 * PI)))) by (field; lra).
    rewrite Ex. unfold tau. field. repeat split; lra. }
  intros Q HQ. specialize (W (fun y => Q (normal_density (sqrt S) x * y))).
  assert (L : locally 1 (fun y => Q (normal_density (sqrt S) x * y))).
  { assert (C : continuous (fun y => normal_density (sqrt S) x * y) 1).
    { apply (continuous_mult (fun _ => normal_density (sqrt S) x) (fun y => y)); [apply continuous_const|apply continuous_id]. }
    apply C. rewrite Rmult_1_r. exact HQ. }
  specialize (W L). revert W. unfold filtermapi. apply filter_imp. intros (a, b) (y & Hy & Qy). exists (normal_density (sqrt S) x * y). split; [|exact Qy].
  apply (is_RInt_ext (fun t => scal (normal_density (sqrt S) x) (normal_density tau (t - m)))); [intros t _; symmetry; apply E|].
  apply (is_RInt_scal (fun t => normal_density tau (t - m))). exact Hy.
Qed.

Lemma sum_density_pos l f : sum_density l f -> forall s, In s l -> 0 < s.
Proof. induction 1 as [s f Hs E|s l f g Hs H IH E]; intros x [->|Hx]; try assumption; [destruct Hx|apply IH, Hx]. Qed.
Lemma sum_density_normal l f : sum_density l f -> 0 < total (map (fun s => s * s) l) /\ forall x, f x = normal_density (sqrt (total (map (fun s => s * s) l))) x.
Proof.
  induction 1 as [s f Hs E|s l f g Hs H (IH1 & IH2) E]; cbn [map total fold_right].
  - split; [nra|]. intros x. rewrite E, Rplus_0_r, sqrt_square by lra. reflexivity.
  - fold (total (map (fun s => s * s) l)). split; [nra|]. intros x. set (q := total _) in *. assert (Hq : 0 < sqrt q) by (apply sqrt_lt_R0, IH1).
    pose proof (convolution s (sqrt q) x Hs Hq) as C. rewrite sqrt_sqrt in C by lra.
    assert (C' : over_line (fun t => normal_density s t * normal_density (sqrt q) (x - t)) (g x)).
    { specialize (E x). intros Q HQ. specialize (E Q HQ). revert E. unfold filtermapi. apply filter_imp. intros (a, b) (y & Hy & Qy). exists y. split; [|exact Qy].
      apply (is_RInt_ext (fun t => normal_density s t * f (x - t))); [intros t _; rewrite IH2; reflexivity|exact Hy]. }
    rewrite <- (is_RInt_gen_unique _ _ C). symmetry. apply (is_RInt_gen_unique _ _ C').
Qed.
Lemma sum_density_ext l f g : sum_density l f -> (forall x, g x = f x) -> sum_density l g.
Proof.
  intros H. revert g. destruct H as [s f Hs E|s l f0 f Hs H E]; intros g Hg.
  - apply one_number; [exact Hs|]. intros x. rewrite Hg. apply E.
  - apply (one_more s l f0); [exact Hs|exact H|]. intros x. rewrite Hg. apply E.
Qed.
Lemma sum_density_exists l : l <> [] -> (forall s, In s l -> 0 < s) -> sum_density l (normal_density (sqrt (total (map (fun s => s * s) l)))).
Proof.
  induction l as [|s l IH]; intros Hn Hp; [congruence|]. destruct l as [|s' l].
  - apply one_number; [apply Hp; left; reflexivity|]. intros x. cbn [map total fold_right]. rewrite Rplus_0_r, sqrt_square; [reflexivity|]. left. apply Hp. left. reflexivity.
  - assert (Hs : 0 < s) by (apply Hp; left; reflexivity).
    assert (IH' := IH ltac:(discriminate) ltac:(intros; apply Hp; right; assumption)). destruct (sum_density_normal _ _ IH') as (Q & _).
    apply (one_more s (s' :: l) _ _ Hs IH'). intros x. change (total (map (fun s => s * s) (s :: s' :: l))) with (s * s + total (map (fun s => s * s) (s' :: l))).
    set (q := total (map (fun s => s * s) (s' :: l))) in *. assert (Hq : 0 < sqrt q) by (apply sqrt_lt_R0, Q).
    pose proof (convolution s (sqrt q) x Hs Hq) as C. rewrite sqrt_sqrt in C by lra. exact C.
Qed.

Lemma deviations_total a b : total (map (fun s => s * s) (deviations a b)) = total (map (fun ab => (fst ab - snd ab) * (fst ab - snd ab)) (combine a b)).
Proof.
  unfold deviations. induction (combine a b) as [|(x, y) l IH]; [reflexivity|]. cbn [map filter fst snd]. destruct (Rlt_dec 0 (Rabs (x - y))) as [H|H].
  - cbn [map total fold_right]. fold (total (map (fun s => s * s) (filter (fun s => if Rlt_dec 0 s then true else false) (map (fun ab => Rabs (fst ab - snd ab)) l)))).
    rewrite IH. unfold total. f_equal. rewrite <- Rabs_mult. apply Rabs_pos_eq. apply (Rle_0_sqr (x - y)).
  - rewrite IH. cbn [map total fold_right fst snd]. assert (x - y = 0) as -> by (destruct (Req_dec (x - y) 0) as [E|E]; [exact E|]; apply Rabs_pos_lt in E; contradiction). unfold total. ring.
Qed.
Lemma deviations_pos a b s : In s (deviations a b) -> 0 < s.
Proof. intros H. apply filter_In in H as (_ & H). destruct (Rlt_dec 0 s); [assumption|discriminate]. Qed.
Lemma projection_density a b f : 0 < euclid a b -> sum_density (deviations a b) f <-> (forall x, f x = normal_density (euclid a b) x).
Proof.
  intros H. assert (E : sqrt (total (map (fun s => s * s) (deviations a b))) = euclid a b) by (rewrite deviations_total; reflexivity). split.
  - intros D. rewrite <- E. apply sum_density_normal, D.
  - intros D. apply (sum_density_ext _ (normal_density (euclid a b))); [|exact D]. rewrite <- E. apply sum_density_exists; [|apply deviations_pos].
    intros D0. rewrite D0 in E. cbn [map total fold_right] in E. rewrite sqrt_0 in E. lra.
Qed.
