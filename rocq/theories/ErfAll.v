(** The computed error function and collision probability, over all numbers. *)
From Coq Require Import Reals Lra QArith Qreals Qabs ZArith.
From Coquelicot Require Import Coquelicot.
From Verif Require Import Base Series SeriesProofs Collision Gauss CollisionProofs PolyZ Erf ErfProofs ErfBound ErfLow.
Local Open Scope R_scope.

Lemma half : Q2R 0.5 = / 2. Proof. qval. Qed.

(** ** Signs *)
Lemma pieces_positive : forallb (fun c => nonneg_on (Qnum (pstop c - pstart c)) (Zpos (Qden (pstop c - pstart c))) 4 (Mz c)) pieces = true.
Proof. vm_compute. reflexivity. Qed.
Lemma chain_ok n l c : chain n l = true -> In c l -> piece_ok n c = true.
Proof. induction l as [|a l IH]; intros C []; cbn [chain] in C; rewrite !andb_true_iff in C; [subst; apply C|apply IH; [apply C|assumption]]. Qed.
Lemma upper_pos z : Q2R 0.5 <= z -> 0 <= erf_result z.
Proof.
  intros Hz. destruct (Rlt_dec z 110) as [L|L].
  - destruct (branches_formula z Hz L) as (c & Hc & Hr & ->). pose proof (chain_ok 4 pieces c pieces_chain Hc) as K.
    pose proof (formula_error 4 c z K Hr) as E. unfold error_of in E.
    destruct (piece_facts 4 c (z - Q2R (pstart c)) K ltac:(lra)) as (_ & _ & Hw & _).
    pose proof pieces_positive as P. rewrite forallb_forall in P. specialize (P c Hc).
    assert (Hm : 0 <= zev (Mz c) (z - Q2R (pstart c))).
    { unfold piece_ok in K. cbv zeta in K. rewrite !andb_true_iff in K. destruct K as (((((((((_ & _) & _) & _) & C5) & _) & _) & _) & _) & _). apply Z.ltb_lt in C5.
      apply (nonneg_on_ok _ _ 4 _ _ C5 (Pos2Z.is_pos _) ltac:(lia) P). pose proof (Q2R_minus (pstop c) (pstart c)) as Em. unfold Q2R at 1 in Em. unfold Rdiv. lra. }
    assert (0 <= exp (- (z * z)) * (zev (Mz c) (z - Q2R (pstart c)) / zev (DWz c) (z - Q2R (pstart c)))).
    { apply Rmult_le_pos; [left; apply exp_pos|]. apply Rmult_le_pos; [exact Hm|left; apply Rinv_0_lt_compat, Hw]. }
    lra.
  - unfold erf_result. destruct (Rlt_dec z (Q2R 0.5)); [lra|]. destruct (Rlt_dec z 110); [lra|]. lra.
Qed.
Lemma K2G z : 0 <= z -> 1.128 * (z - z * z * z) <= K2 * G z <= 1.129 * z.
Proof.
  intros Hz. pose proof (G_small z Hz) as [A B]. pose proof K2_bounds as [C D].
  assert (G0 : 0 <= G z) by (rewrite <- G_0; apply G_incr; lra). split; [|apply Rmult_le_compat; lra].
  apply (Rle_trans _ (1.128 * G z)); [apply Rmult_le_compat_l; lra|apply Rmult_le_compat_r; lra].
Qed.
Lemma upper_le z : Q2R 0.5 <= z -> erf_result z <= 1.
Proof.
  intros Hz. pose proof (upper_error z Hz) as E. apply both in E. rewrite erfc_G in E. rewrite half in Hz.
  pose proof (K2G (/ 2) ltac:(lra)) as K. pose proof (G_incr (/ 2) z Hz) as I. pose proof K2_bounds.
  assert (K2 * G (/ 2) <= K2 * G z) by (apply Rmult_le_compat_l; lra). lra.
Qed.
Lemma lower_range z : 0 <= z < Q2R 0.5 -> 0.8 * z <= erf_result z <= 1.2 * z.
Proof.
  intros Hz. pose proof (lower_error z Hz) as E. apply both in E. pose proof (K2G z (proj1 Hz)) as K. rewrite half in Hz.
  assert (A : z * z * z <= / 4 * z) by (apply Rmult_le_compat_r; nra).
  assert (B : 3 / 10 ^ 13 * z <= 0.01 * z) by (apply Rmult_le_compat_r; lra). lra.
Qed.

(** ** [erf_impl] for arguments of either sign *)
Lemma nonneg_erf z : 0 <= z -> erf_impl_nonneg z false + erf_impl_nonneg z true = 1.
Proof.
  intros Hz. unfold erf_impl_nonneg. destruct (Rle_dec (Q2R 0.5) z); cbn [andb orb]; ring.
Qed.
Lemma nonneg_error z : 0 <= z -> Rabs (erf_impl_nonneg z true - erfc z) <= 3.3 / 10 ^ 10 /\ 0 <= erf_impl_nonneg z true <= 1 /\
  (z < / 2 -> Rabs (erf_impl_nonneg z true - erfc z) <= 3 / 10 ^ 13 * z).
Proof.
  intros Hz. unfold erf_impl_nonneg. pose proof half as Hh. destruct (Rle_dec (Q2R 0.5) z) as [L|L]; cbn [andb orb].
  - split; [apply upper_error, L|]. split; [split; [apply upper_pos, L|apply upper_le, L]|lra].
  - assert (H : 0 <= z < Q2R 0.5) by lra. pose proof (lower_error z H) as E. pose proof (lower_range z H) as B. rewrite erfc_G.
    replace (1 - erf_result z - (1 - K2 * G z)) with (- (erf_result z - K2 * G z)) by ring. rewrite Rabs_Ropp.
    split; [|split; [lra|intros _; exact E]]. assert (3 / 10 ^ 13 * z <= 3 / 10 ^ 13 * 1) by (apply Rmult_le_compat_l; lra). lra.
Qed.
Lemma G_odd z : G (- z) = - G z.
Proof.
  assert (D : forall t, is_derive (fun t => G (- t) + G t) t 0).
  { intros t. replace 0 with (-1 * exp (- (- t * - t)) + exp (- (t * t))) by (replace (- t * - t) with (t * t) by ring; ring).
    apply (is_derive_plus (fun t => G (- t)) G); [|apply G_derive]. apply (is_derive_comp G (fun t => - t)); [apply G_derive|]. auto_derive; [exact I|ring]. }
  assert (E : G (- z) + G z = G (- 0) + G 0).
  { destruct (MVT_gen (fun t => G (- t) + G t) 0 z (fun _ => 0)) as (t & _ & E).
    - intros t _. apply D.
    - intros t _. apply continuity_pt_filterlim. apply (ex_derive_continuous (fun t => G (- t) + G t)). exists 0. apply D.
    - rewrite Rmult_0_l in E. lra. }
  rewrite Ropp_0, G_0 in E. lra.
Qed.
Lemma erfc_neg z : erfc (- z) = 2 - erfc z.
Proof. rewrite !erfc_G, G_odd. ring. Qed.

Lemma impl_complement z : erf_impl z false + erf_impl z true = 1.
Proof.
  unfold erf_impl. destruct (Rlt_dec z 0) as [L|L]; [|apply nonneg_erf; lra]. pose proof (nonneg_erf (- z) ltac:(lra)). destruct (Rlt_dec z (- Q2R 0.5)); lra.
Qed.
Lemma impl_true_neg z : z < 0 -> erf_impl z true = 2 - erf_impl_nonneg (- z) true.
Proof.
  intros L. unfold erf_impl. destruct (Rlt_dec z 0) as [_|N]; [|lra]. pose proof (nonneg_erf (- z) ltac:(lra)). destruct (Rlt_dec z (- Q2R 0.5)); lra.
Qed.
Lemma impl_error z : Rabs (erf_impl z true - erfc z) <= 3.3 / 10 ^ 10 /\ 0 <= erf_impl z true <= 2 /\
  (Rabs z < / 2 -> Rabs (erf_impl z true - erfc z) <= 3 / 10 ^ 13 * Rabs z).
Proof.
  destruct (Rlt_dec z 0) as [L|L].
  - rewrite (impl_true_neg z L). replace (erfc z) with (2 - erfc (- z)) by (rewrite erfc_neg; ring). rewrite (Rabs_left z L).
    replace (2 - erf_impl_nonneg (- z) true - (2 - erfc (- z))) with (- (erf_impl_nonneg (- z) true - erfc (- z))) by ring. rewrite Rabs_Ropp.
    destruct (nonneg_error (- z) ltac:(lra)) as (A & B & C). split; [exact A|]. split; [lra|exact C].
  - replace (erf_impl z true) with (erf_impl_nonneg z true) by (unfold erf_impl; destruct (Rlt_dec z 0); [lra|reflexivity]).
    rewrite (Rabs_pos_eq z) by lra. destruct (nonneg_error z ltac:(lra)) as (A & B & C). split; [exact A|]. split; [lra|exact C].
Qed.
Lemma impl_odd z : z <> 0 -> erf_impl (- z) false = - erf_impl z false.
Proof. intros N. unfold erf_impl. destruct (Rlt_dec z 0), (Rlt_dec (- z) 0); try lra. rewrite Ropp_involutive. ring. Qed.
Lemma impl_zero : erf_impl 0 false = 0.
Proof.
  unfold erf_impl. destruct (Rlt_dec 0 0); [lra|]. unfold erf_impl_nonneg. pose proof half. destruct (Rle_dec (Q2R 0.5) 0); [lra|]. cbn [andb orb].
  pose proof (lower_range 0 ltac:(lra)). lra.
Qed.
Lemma erf_is_impl z : erf_computed z = erf_impl z false.
Proof. unfold erf_computed. destruct (Req_EM_T z 0) as [->|]; [symmetry; apply impl_zero|reflexivity]. Qed.

(** ** The collision probability *)
Definition rest (z : R) : R := K2 / (2 * z) * (1 - exp (- (z * z))).
Lemma cdf_arg r d : (0 - - r / d) / (1 * sqrt 2) = r / d / sqrt 2.
Proof. unfold Rdiv. rewrite Rmult_1_l. ring. Qed.
Lemma rest_eq r d : 0 < r -> 0 < d -> 2 / (sqrt (PI * 2) * (r / d)) * (1 - exp (- r * r / (2 * d * d))) = rest (r / d / sqrt 2).
Proof.
  intros Hr Hd. pose proof PI_RGT_0. assert (H2 : 0 < sqrt 2) by (apply sqrt_lt_R0; lra). assert (HP : 0 < sqrt PI) by (apply sqrt_lt_R0; lra).
  assert (S2 : sqrt 2 * sqrt 2 = 2) by (apply sqrt_sqrt; lra).
  unfold rest, K2. rewrite sqrt_mult by lra. f_equal.
  - replace (2 * (r / d / sqrt 2)) with (sqrt 2 * sqrt 2 * (r / d / sqrt 2)) by (rewrite S2; reflexivity). field. repeat split; lra.
  - f_equal. f_equal. replace (r / d / sqrt 2 * (r / d / sqrt 2)) with (r * r / (d * d * (sqrt 2 * sqrt 2))) by (field; lra). rewrite S2. field. lra.
Qed.
Lemma computed_rest r d : 0 < r -> 0 < d -> collision_probability_computed r d = 1 - erf_impl (r / d / sqrt 2) true - rest (r / d / sqrt 2).
Proof.
  intros Hr Hd. unfold collision_probability_computed. destruct (Req_EM_T d 0); [lra|]. cbv zeta. rewrite (rest_eq r d Hr Hd).
  unfold normal_cdf_computed, cdf_unchecked, erfc_computed. rewrite cdf_arg, half. field.
Qed.
Lemma exact_rest r d : 0 < r -> 0 < d -> collision_probability_at r d = 1 - erfc (r / d / sqrt 2) - rest (r / d / sqrt 2).
Proof.
  intros Hr Hd. unfold collision_probability_at. destruct (Req_EM_T d 0); [lra|]. cbv zeta. rewrite (rest_eq r d Hr Hd).
  unfold normal_cdf. rewrite cdf_arg. field.
Qed.
Lemma rest_bounds z : 0 < z -> 0 < rest z <= 0.5645 * z.
Proof.
  intros Hz. pose proof K2_bounds as K. assert (X : 1 - z * z <= exp (- (z * z)) < 1).
  { split; [left; pose proof (exp_ineq1 (- (z * z)) ltac:(nra)); lra|]. rewrite <- exp_0. apply exp_increasing. nra. }
  assert (P : 0 < K2 / (2 * z)) by (apply Rdiv_lt_0_compat; lra). unfold rest. split; [apply Rmult_lt_0_compat; lra|].
  apply (Rle_trans _ (K2 / (2 * z) * (z * z))); [apply Rmult_le_compat_l; lra|]. replace (K2 / (2 * z) * (z * z)) with (K2 / 2 * z) by (field; lra).
  apply Rmult_le_compat_r; lra.
Qed.
Lemma collision_small r d : 0 < r -> 0 < d -> r / d / sqrt 2 <= / 2 -> 0.28 * (r / d / sqrt 2) <= collision_probability_at r d.
Proof.
  intros Hr Hd Hz. rewrite (exact_rest r d Hr Hd). assert (P : 0 < r / d / sqrt 2) by (repeat apply Rdiv_lt_0_compat; try assumption; apply sqrt_lt_R0; lra).
  set (z := r / d / sqrt 2) in *. clearbody z. pose proof (rest_bounds z P). pose proof (K2G z ltac:(lra)). rewrite erfc_G.
  assert (A : z * z * z <= / 4 * z) by (apply Rmult_le_compat_r; nra). lra.
Qed.
Lemma collision_error r d : 0 < r -> 0 <= d -> Rabs (collision_probability_computed r d - collision_probability_at r d) <= 3.3 / 10 ^ 10.
Proof.
  intros Hr Hd. destruct (Req_EM_T d 0) as [->|N].
  - unfold collision_probability_computed, collision_probability_at. destruct (Req_EM_T 0 0); [|lra]. rewrite Rminus_diag_eq, Rabs_R0 by reflexivity. lra.
  - rewrite computed_rest, exact_rest by lra. set (z := r / d / sqrt 2). destruct (impl_error z) as (A & _).
    replace (1 - erf_impl z true - rest z - (1 - erfc z - rest z)) with (- (erf_impl z true - erfc z)) by ring. rewrite Rabs_Ropp. exact A.
Qed.
Lemma collision_inside r d : 0 < r -> 0 < d -> 0 < collision_probability_computed r d < 1.
Proof.
  intros Hr Hd. assert (H2 : 0 < sqrt 2) by (apply sqrt_lt_R0; lra).
  assert (P : 0 < r / d / sqrt 2) by (repeat apply Rdiv_lt_0_compat; assumption). split.
  - destruct (Rle_dec (/ 2) (r / d / sqrt 2)) as [L|L].
    + (* at the distance where the argument is 1/2 *)
      pose proof (collision_error r d Hr ltac:(lra)) as E. apply both in E. set (d' := 2 * r / sqrt 2).
      assert (D' : 0 < d') by (unfold d'; apply Rdiv_lt_0_compat; lra).
      assert (Ez : r / d' / sqrt 2 = / 2) by (unfold d'; field; lra).
      pose proof (collision_small r d' Hr D' ltac:(rewrite Ez; lra)) as S. rewrite Ez in S.
      assert (Ld : d <= d').
      { unfold d'. apply (Rmult_le_reg_r (sqrt 2)); [exact H2|]. replace (2 * r / sqrt 2 * sqrt 2) with (2 * r) by (field; lra).
        apply (Rmult_le_compat_r (d * sqrt 2)) in L; [|left; apply Rmult_lt_0_compat; assumption]. replace (r / d / sqrt 2 * (d * sqrt 2)) with r in L by (field; lra). lra. }
      pose proof (collision_antitone r d d' Hr ltac:(lra) Ld). lra.
    + pose proof (collision_small r d Hr Hd ltac:(lra)) as S. rewrite exact_rest in S by assumption. rewrite computed_rest by assumption.
      set (z := r / d / sqrt 2) in *. clearbody z. destruct (impl_error z) as (_ & _ & E). rewrite Rabs_pos_eq in E by lra. specialize (E ltac:(lra)). apply both in E.
      assert (3 / 10 ^ 13 * z <= 0.01 * z) by (apply Rmult_le_compat_r; lra). lra.
  - rewrite computed_rest by assumption. pose proof (rest_bounds _ P). destruct (impl_error (r / d / sqrt 2)) as (_ & B & _). lra.
Qed.

(** ** The failure probability *)
Lemma pow_close a b e n : 0 <= a <= 1 -> 0 <= b <= 1 -> Rabs (a - b) <= e -> Rabs (a ^ n - b ^ n) <= INR n * e.
Proof.
  intros Ha Hb He. induction n as [|n IH]; [cbn; rewrite Rminus_diag_eq, Rabs_R0 by reflexivity; lra|]. rewrite S_INR. cbn [pow].
  replace (a * a ^ n - b * b ^ n) with (a * (a ^ n - b ^ n) + (a - b) * b ^ n) by ring. eapply Rle_trans; [apply Rabs_triang|]. rewrite !Rabs_mult.
  rewrite (Rabs_pos_eq a) by lra. pose proof (pow_unit b n Hb) as P. rewrite (Rabs_pos_eq (b ^ n)) by lra. pose proof (Rabs_pos (a ^ n - b ^ n)). pose proof (Rabs_pos (a - b)). nra.
Qed.
Lemma mult_close a b a' b' e e' : 0 <= a <= 1 -> 0 <= b <= 1 -> 0 <= a' <= 1 -> 0 <= b' <= 1 -> Rabs (a - a') <= e -> Rabs (b - b') <= e' -> Rabs (a * b - a' * b') <= e + e'.
Proof.
  intros Ha Hb Ha' Hb' E E'. replace (a * b - a' * b') with ((a - a') * b + a' * (b - b')) by ring. eapply Rle_trans; [apply Rabs_triang|]. rewrite !Rabs_mult.
  rewrite (Rabs_pos_eq b), (Rabs_pos_eq a') by lra. pose proof (Rabs_pos (a - a')). pose proof (Rabs_pos (b - b')). nra.
Qed.
Lemma miss_close p p' e k n : 0 <= p <= 1 -> 0 <= p' <= 1 -> Rabs (p - p') <= e -> Rabs ((1 - p ^ k) ^ n - (1 - p' ^ k) ^ n) <= INR n * (INR k * e).
Proof.
  intros H H' E. apply pow_close; [apply miss_unit, H|apply miss_unit, H'|].
  replace (1 - p ^ k - (1 - p' ^ k)) with (- (p ^ k - p' ^ k)) by ring. rewrite Rabs_Ropp. apply pow_close; assumption.
Qed.
