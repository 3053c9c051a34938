(** How far src/stats/erf.rs is from the integral, over all numbers. *)
From Coq Require Import Reals Lra QArith Qreals Qabs ZArith.
From Coquelicot Require Import Coquelicot.
From Verif Require Import Base Series SeriesProofs Collision Gauss CollisionProofs PolyZ Erf ErfProofs.
Local Open Scope R_scope.

(** ** The tail of the integral *)
Lemma J_upper x : J x <= exp (- (x * x) / 2) * (PI / 4).
Proof.
  rewrite <- J_0. unfold J. change (exp (- (x * x) / 2) * RInt (kern 0) 0 1) with (scal (exp (- (x * x) / 2)) (RInt (kern 0) 0 1)).
  rewrite <- (RInt_scal (kern 0) 0 1 (exp (- (x * x) / 2))) by apply kern_int.
  apply RInt_le; [lra|apply kern_int| |].
  - apply (ex_RInt_scal (kern 0)). apply kern_int.
  - intros s _. unfold scal; cbn; unfold mult; cbn. unfold kern. rewrite <- Rmult_assoc, <- exp_plus. apply Rmult_le_compat_r.
    + left. apply Rinv_0_lt_compat, one_sq.
    + assert (A : - (x * x * (1 + s * s)) / 2 <= - (x * x) / 2 + - (0 * 0 * (1 + s * s)) / 2) by nra.
      destruct A as [A|A]; [left; apply exp_increasing, A|rewrite A; apply Rle_refl].
Qed.
Lemma erfc_tail z : 0 < z -> 0 <= erfc z <= exp (- (z * z)).
Proof.
  intros Hz. assert (H2 : 0 < sqrt 2) by (apply sqrt_lt_R0; lra). assert (S2 : sqrt 2 * sqrt 2 = 2) by (apply sqrt_sqrt; lra).
  pose proof PI_RGT_0 as HP. set (c := z * sqrt 2). assert (Hc : 0 < c) by (apply Rmult_lt_0_compat; assumption).
  assert (Ez : z = c / sqrt 2) by (unfold c; field; lra).
  assert (Ecc : c * c = 2 * (z * z)) by (unfold c; transitivity ((sqrt 2 * sqrt 2) * (z * z)); [ring|rewrite S2; reflexivity]).
  assert (EE : exp (- (z * z)) = exp (- (c * c) / 2)) by (rewrite Ecc; f_equal; field).
  rewrite EE, Ez, erfc_gauss. pose proof (gauss_balance c Hc) as B. pose proof (gauss_bound c Hc) as (P1 & P2). pose proof (J_upper c) as U.
  assert (SP : 0 < sqrt (2 * PI)) by (apply sqrt_lt_R0; lra). assert (SS : sqrt (2 * PI) * sqrt (2 * PI) = 2 * PI) by (apply sqrt_sqrt; lra).
  set (g := Gint c) in *. set (e := exp (- (c * c) / 2)) in *. set (y := 2 / sqrt (2 * PI) * g).
  assert (Ey : y * y = 1 - 4 / PI * J c).
  { unfold y. replace (2 / sqrt (2 * PI) * g * (2 / sqrt (2 * PI) * g)) with (4 / (sqrt (2 * PI) * sqrt (2 * PI)) * (g * g)) by (field; lra).
    rewrite SS. replace (g * g) with (PI / 2 - 2 * J c) by lra. field. lra. }
  assert (Y0 : 0 <= y) by (unfold y; apply Rmult_le_pos; [apply Rlt_le, Rdiv_lt_0_compat; lra|lra]).
  assert (J0 : 0 <= 4 / PI * J c) by (apply Rmult_le_pos; [apply Rlt_le, Rdiv_lt_0_compat; lra|left; apply J_pos]).
  assert (Y1 : y <= 1) by nra.
  assert (U' : 4 / PI * J c <= e).
  { replace e with (4 / PI * (e * (PI / 4))) by (field; lra). apply Rmult_le_compat_l; [apply Rlt_le, Rdiv_lt_0_compat; lra|exact U]. }
  fold y. nra.
Qed.
Lemma G_upper z : 0 <= z -> G z <= 0.8863.
Proof.
  intros [Hz|Hz].
  - pose proof (erfc_tail z Hz) as (A & _). rewrite erfc_G in A. pose proof K2_close as C. rewrite k2_val in C. apply both in C.
    assert (B : / 10 ^ 13 <= 0.0000001) by lra. nra.
  - rewrite <- Hz, G_0. lra.
Qed.
Lemma exp_far z : 110 <= z -> exp (- (z * z)) <= / 10 ^ 18.
Proof.
  intros Hz. assert (A : exp 2016 ^ 6 <= exp (z * z)).
  { cbn [pow]. rewrite Rmult_1_r, <- !exp_plus. left. apply exp_increasing. nra. }
  assert (B : 2017 <= exp 2016) by (pose proof (exp_ineq1 2016 ltac:(lra)); lra).
  assert (C : 2017 ^ 6 <= exp 2016 ^ 6) by (apply pow_incr; lra).
  rewrite exp_Ropp. apply Rinv_le_contravar; lra.
Qed.

(** ** The branches above 0.5 *)
Definition pieces : list piece := [
  Piece 0.5 0.75 ERF_IMPL_BN ERF_IMPL_BD 0.3440242112 1.7e-11;
  Piece 0.75 1.25 ERF_IMPL_CN ERF_IMPL_CD 0.419990927 3.3e-11;
  Piece 1.25 2.25 ERF_IMPL_DN ERF_IMPL_DD 0.4898625016 2.9e-11;
  Piece 2.25 3.5 ERF_IMPL_EN ERF_IMPL_ED 0.5317370892 8.5e-12;
  Piece 3.5 5.25 ERF_IMPL_FN ERF_IMPL_FD 0.5489973426 3.1e-12;
  Piece 5.25 8 ERF_IMPL_GN ERF_IMPL_GD 0.5571740866 5.5e-12;
  Piece 8 11.5 ERF_IMPL_HN ERF_IMPL_HD 0.5609807968 2.3e-12;
  Piece 11.5 17 ERF_IMPL_IN ERF_IMPL_ID 0.5626493692 2.7e-12;
  Piece 17 24 ERF_IMPL_JN ERF_IMPL_JD 0.5634598136 1.4e-12;
  Piece 24 38 ERF_IMPL_KN ERF_IMPL_KD 0.5638477802 5.9e-13;
  Piece 38 60 ERF_IMPL_LN ERF_IMPL_LD 0.5640528202 2.6e-13;
  Piece 60 85 ERF_IMPL_MN ERF_IMPL_MD 0.5641309023 5.5e-13;
  Piece 85 110 ERF_IMPL_NN ERF_IMPL_ND 0.5641584396 0].
Lemma pieces_chain : chain 4 pieces = true.
Proof. vm_compute. reflexivity. Qed.
Lemma gaps_pieces : Q2R (gaps pieces) <= Q2R 1.05e-10.
Proof. apply Qle_Rle. vm_compute. discriminate. Qed.
Lemma gap_pos c : In c pieces -> 0 <= Q2R (pgap c).
Proof.
  intros H. assert (A : forallb (fun c => Qle_bool 0 (pgap c)) pieces = true) by (vm_compute; reflexivity).
  rewrite forallb_forall in A. specialize (A c H). apply Qle_bool_iff, Qle_Rle in A. replace (Q2R 0) with 0 in A by (unfold Q2R; cbn; lra). exact A.
Qed.

Ltac qval := repeat match goal with |- context [Q2R ?q] => let v := eval vm_compute in q in change (Q2R q) with (IZR (Qnum v) * / IZR (Zpos (Qden v))) end; cbn [Qnum Qden]; lra.
Lemma q110 : Q2R 110 = 110. Proof. qval. Qed.

Definition last_piece : piece := Piece 85 110 ERF_IMPL_NN ERF_IMPL_ND 0.5641584396 0.
Lemma end_error c : last pieces c = c -> In c pieces -> Rabs (formula c (Q2R (pstop c)) - erfc (Q2R (pstop c))) <= / 10 ^ 18 + / 10 ^ 18.
Proof.
  intros L _. change (last pieces c) with last_piece in L. subst c. change (pstop last_piece) with 110%Q.
  rewrite formula_value by (try (rewrite q110; lra); vm_compute; reflexivity). rewrite q110.
  pose proof (exp_far 110 ltac:(lra)) as X. pose proof (exp_pos (- (110 * 110))) as X0. pose proof (erfc_tail 110 ltac:(lra)) as (E0 & E1).
  set (v := value last_piece _).
  assert (V : 0 <= Q2R v <= 1).
  { split; [replace 0 with (Q2R 0) by qval|replace 1 with (Q2R 1) by qval]; apply Qle_Rle; vm_compute; discriminate. }
  assert (W : 0 <= Q2R v / 110 <= 1) by lra. set (e := exp (- (110 * 110))) in *. set (w := Q2R v / 110) in *. clearbody e w. apply Rabs_le. nra.
Qed.

Lemma branches_formula z : Q2R 0.5 <= z -> z < 110 -> exists c, In c pieces /\ Q2R (pstart c) <= z <= Q2R (pstop c) /\ erf_result z = formula c z.
Proof.
  intros H1 H2. unfold erf_result. destruct (Rlt_dec z (Q2R 0.5)) as [L|_]; [lra|]. destruct (Rlt_dec z 110) as [_|L]; [|lra].
  assert (Fin : forall c, In c pieces -> Q2R (pstart c) <= z <= Q2R (pstop c) -> erf_branches z = branch z (pstart c) (pnum c) (pden c) (pb c) ->
    exists c, In c pieces /\ Q2R (pstart c) <= z <= Q2R (pstop c) /\
      (let '(r, b) := erf_branches z in let g := exp (- z * z) / z in g * b + g * r) = formula c z).
  { intros c Hc Hr E. exists c. split; [exact Hc|]. split; [exact Hr|]. rewrite E. reflexivity. }
  unfold erf_branches in Fin |- *.
  repeat match goal with |- context [Rlt_dec z ?q] => destruct (Rlt_dec z q) end;
  match goal with |- context [branch z ?s ?n ?d ?b] =>
    match eval unfold pieces in pieces with context [Piece s ?t n d b ?g] => apply (Fin (Piece s t n d b g)) end end;
  try reflexivity; try (unfold pieces; repeat (try (left; reflexivity); right); fail); cbn [pstart pstop]; try rewrite q110; lra.
Qed.
Lemma upper_error z : Q2R 0.5 <= z -> Rabs (erf_result z - erfc z) <= 3.3 / 10 ^ 10.
Proof.
  intros Hz. assert (Z0 : 0 < z) by (assert (Q2R 0.5 = 0.5) by qval; lra). destruct (Rlt_dec z 110) as [L|L].
  - destruct (branches_formula z Hz L) as (c & Hc & Hr & E). rewrite E.
    pose proof (chain_error 4 pieces (/ 10 ^ 18 + / 10 ^ 18) gap_pos pieces_chain end_error c z Hc Hr) as B.
    change (last_stop pieces) with 110%Q in B. rewrite q110 in B. pose proof gaps_pieces as Gp. pose proof (G_upper 110 ltac:(lra)) as G1.
    assert (G0 : 0 <= G z) by (rewrite <- G_0; apply G_incr; lra).
    assert (S : slope = 2.5 / 10 ^ 10 + / 10 ^ 13) by (unfold slope; f_equal; unfold eta; qval).
    assert (Q : Q2R 1.05e-10 = 1.05 / 10 ^ 10) by qval. rewrite Q in Gp. pose proof slope_pos.
    assert (slope * (G 110 - G z) <= slope * 0.8863) by (apply Rmult_le_compat_l; lra). rewrite S in *. lra.
  - unfold erf_result. destruct (Rlt_dec z (Q2R 0.5)) as [L'|_]; [lra|]. destruct (Rlt_dec z 110) as [L'|_]; [lra|].
    pose proof (exp_far z ltac:(lra)). pose proof (erfc_tail z Z0). apply Rabs_le. lra.
Qed.
