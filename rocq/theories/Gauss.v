(** The Gaussian integral: how large the integral of exp (- t^2 / 2) can be. *)
From Coq Require Import Reals Lra.
From Coquelicot Require Import Coquelicot.
Local Open Scope R_scope.

Definition gauss (t : R) : R := exp (- (t * t) / 2).
Definition Gint (x : R) : R := RInt gauss 0 x.

Lemma gauss_derive t : is_derive gauss t (- t * gauss t).
Proof. unfold gauss. auto_derive; [exact I|]. unfold Rdiv. field. Qed.
Lemma gauss_continuous t : continuous gauss t.
Proof. apply (ex_derive_continuous gauss). eexists. apply gauss_derive. Qed.
Lemma gauss_int a b : ex_RInt gauss a b.
Proof. apply (ex_RInt_continuous gauss). intros; apply gauss_continuous. Qed.
Lemma gauss_pos t : 0 < gauss t.
Proof. apply exp_pos. Qed.
Lemma Gint_derive x : is_derive Gint x (gauss x).
Proof.
  apply (is_derive_RInt gauss Gint 0 x); [|apply gauss_continuous].
  exists (mkposreal 1 Rlt_0_1). intros y _. apply (RInt_correct gauss). apply gauss_int.
Qed.
Lemma Gint_0 : Gint 0 = 0.
Proof. unfold Gint. rewrite RInt_point. reflexivity. Qed.

(** [J x] is the integral of exp (- x^2 (1 + s^2) / 2) / (1 + s^2) for s in [0, 1] *)
Definition kern (x s : R) : R := exp (- (x * x * (1 + s * s)) / 2) * / (1 + s * s).
Definition dkern (x s : R) : R := - x * exp (- (x * x * (1 + s * s)) / 2).
Definition J (x : R) : R := RInt (kern x) 0 1.
Lemma one_sq s : 0 < 1 + s * s.
Proof. pose proof (Rle_0_sqr s) as H. unfold Rsqr in H. lra. Qed.
Lemma kern_derive x s : is_derive (fun x => kern x s) x (dkern x s).
Proof.
  pose proof (one_sq s). unfold kern, dkern. auto_derive; [exact I|]. unfold Rdiv. field. lra.
Qed.
Lemma kern_continuous x s : continuous (kern x) s.
Proof. pose proof (one_sq s). apply (ex_derive_continuous (kern x)). unfold kern. auto_derive. lra. Qed.
Lemma kern_int x : ex_RInt (kern x) 0 1.
Proof. apply (ex_RInt_continuous (kern x)). intros; apply kern_continuous. Qed.
Lemma dkern_2d x s : continuity_2d_pt dkern x s.
Proof.
  unfold dkern. apply continuity_2d_pt_mult.
  - apply continuity_2d_pt_opp, continuity_2d_pt_id1.
  - apply (continuity_1d_2d_pt_comp exp (fun u v => - (u * u * (1 + v * v)) / 2)).
    + apply derivable_continuous_pt, derivable_pt_exp.
    + unfold Rdiv. apply continuity_2d_pt_mult; [|apply continuity_2d_pt_const]. apply continuity_2d_pt_opp.
      apply continuity_2d_pt_mult; [apply continuity_2d_pt_mult; apply continuity_2d_pt_id1|].
      apply continuity_2d_pt_plus; [apply continuity_2d_pt_const|]. apply continuity_2d_pt_mult; apply continuity_2d_pt_id2.
Qed.
Lemma J_derive x : is_derive J x (RInt (dkern x) 0 1).
Proof.
  assert (E : RInt (fun t => Derive (fun u => kern u t) x) 0 1 = RInt (dkern x) 0 1).
  { apply RInt_ext. intros t _. apply is_derive_unique, kern_derive. }
  rewrite <- E. apply (is_derive_RInt_param kern 0 1 x).
  - exists (mkposreal 1 Rlt_0_1). intros y _ t _. eexists. apply kern_derive.
  - intros t _. apply (continuity_2d_pt_ext dkern); [|apply dkern_2d]. intros u v. symmetry. apply is_derive_unique, kern_derive.
  - exists (mkposreal 1 Rlt_0_1). intros y _. apply kern_int.
Qed.
Lemma dkern_int x : RInt (dkern x) 0 1 = - (gauss x * Gint x).
Proof.
  transitivity (RInt (fun s => scal (- gauss x) (scal x (gauss (x * s + 0)))) 0 1).
  - apply RInt_ext. intros s _. unfold dkern, gauss, scal. cbn. unfold mult. cbn.
    replace (- (x * x * (1 + s * s)) / 2) with (- (x * x) / 2 + - ((x * s + 0) * (x * s + 0)) / 2) by field. rewrite exp_plus. ring.
  - etransitivity; [apply (RInt_scal (fun s => scal x (gauss (x * s + 0))) 0 1 (- gauss x))|].
    + apply (ex_RInt_comp_lin gauss x 0 0 1). apply gauss_int.
    + assert (E : RInt (fun s => scal x (gauss (x * s + 0))) 0 1 = Gint x).
      { etransitivity; [apply (RInt_comp_lin gauss x 0 0 1); apply gauss_int|]. rewrite Rmult_0_r, Rmult_1_r, !Rplus_0_r. reflexivity. }
      match goal with |- scal _ ?r = _ => change r with (RInt (fun s => scal x (gauss (x * s + 0))) 0 1) end.
      rewrite E. unfold scal. cbn. unfold mult. cbn. ring.
Qed.
Lemma J_0 : J 0 = PI / 4.
Proof.
  unfold J. rewrite <- atan_1. transitivity (RInt (fun s => / (1 + s²)) 0 1).
  - apply RInt_ext. intros s _. unfold kern. rewrite !Rmult_0_l. replace (- 0 / 2) with 0 by lra. rewrite exp_0. unfold Rsqr. apply Rmult_1_l.
  - apply is_RInt_unique. replace (atan 1) with (minus (atan 1) (atan 0)) by (rewrite atan_0; unfold minus, plus, opp; cbn; ring).
    apply (is_RInt_derive atan). { intros; apply is_derive_atan. }
    intros s _. pose proof (one_sq s). apply (ex_derive_continuous (fun s => / (1 + s²))). unfold Rsqr. auto_derive. lra.
Qed.
Lemma J_pos x : 0 < J x.
Proof.
  apply RInt_gt_0; [lra| |intros; apply kern_continuous]. intros s _. unfold kern. pose proof (one_sq s).
  apply Rmult_lt_0_compat; [apply exp_pos|apply Rinv_0_lt_compat; assumption].
Qed.

(** the square of the integral and [J] balance *)
Lemma gauss_balance x : 0 < x -> Gint x * Gint x + 2 * J x = PI / 2.
Proof.
  intros Hx. transitivity (Gint 0 * Gint 0 + 2 * J 0).
  - symmetry. apply (eq_is_derive (fun x => Gint x * Gint x + 2 * J x) 0 x); [|exact Hx]. intros t _.
    assert (E : @zero R_NormedModule = (gauss t * Gint t + Gint t * gauss t) + 2 * - (gauss t * Gint t)) by (unfold zero; cbn; ring).
    rewrite E. apply (is_derive_plus (fun x => Gint x * Gint x) (fun x => 2 * J x)).
    + apply (is_derive_mult Gint Gint t); [apply Gint_derive|apply Gint_derive|]. intros a b. apply Rmult_comm.
    + rewrite <- dkern_int. apply (is_derive_scal J t 2). apply J_derive.
  - rewrite Gint_0, J_0. field.
Qed.
Theorem gauss_bound x : 0 < x -> 0 < Gint x /\ Gint x < sqrt (PI / 2).
Proof.
  intros Hx. pose proof (gauss_balance x Hx) as B. pose proof (J_pos x).
  assert (P : 0 < Gint x) by (apply RInt_gt_0; [exact Hx|intros; apply gauss_pos|intros; apply gauss_continuous]). split; [exact P|].
  rewrite <- (sqrt_square (Gint x)) by lra. apply sqrt_lt_1; nra.
Qed.
