(** Property theorems C133: the coin tossed for each pair.  Model: Coin.v. *)
From Coq Require Import Reals Lra Lia QArith Qreals Floats.SpecFloat.
From Flocq Require Import Core Relative Sterbenz BinarySingleNaN.
From Verif Require Import Base F64 RSpec Series Moves Profile Counts TopK Iterator Collision CollisionSpec CollisionProofs FpOps FloatProofs FloatBound FloatErr FloatTerm FloatProj
  FloatErf FloatErfSpec FloatErfP FloatErfR FloatErfI FloatColl FloatCollP Powi HashValue IteratorSpec IteratorProofs IteratorLoop EndSpec P_Iterator P_Iterator2 P_End P_Powi P_Coll64 P_Float P_Limit Erf ErfSpec ErfProofs
  Coin CoinProofs.
Local Open Scope R_scope.

(** * C133: the coin can be tossed *)
(** The rate at which pairs are looked at is a number from 0 to 1 as long as the threshold is
    not more than 2^20 times the width, or is infinite; so the coin is made. *)
Lemma chance_sign fexp width d : exp_within fexp -> FloatErfSpec.moderate width -> distance64 d -> fval d <= powerRZ 2 20 * fval width ->
  is_sign_negative (fcollision_probability fexp width d) = false.
Proof.
  intros X Mw Dd L. destruct (c121_collision fexp width d X Mw Dd) as (N & L1 & E).
  replace (powerRZ 2 20) with 1048576 in L by (rewrite pow2_bp; reflexivity).
  pose proof (true_least _ _ 1048576 (moderate_pos _ Mw) (distance_nonneg _ Dd) ltac:(lra) L) as T. pose proof (gap_bound _ _ 1048576 Mw Dd ltac:(lra) L) as G.
  pose proof sqrt2_range as S2. assert (0.28 / (1048576 * (3 / 2)) <= 0.28 / (1048576 * sqrt 2)). { unfold Rdiv at 1 3. apply Rmult_le_compat_l; [lra|]. apply Rinv_le_contravar; lra. }
  unfold within in E. apply Rabs_le_inv in E. destruct (shape_pos _ N) as (m & e & ->); [lra|reflexivity].
Qed.
Definition workable (width th : f64) : Prop := th = S754_infinity false \/ (distance64 th /\ fval th <= powerRZ 2 20 * fval width).
Theorem c133_accepted : forall (fexp : f64 -> f64) (width th : f64) (reps : nat),
  exp_within fexp -> fexp (S754_zero true) = lit 1 -> FloatErfSpec.moderate width -> workable width th ->
  exists c, bernoulli_new (sample_rate (fcollision_probability fexp width) th reps) = Ret c.
Proof.
  intros fexp width th reps X E0 Mw [->|(Dd & L)]; apply coin_made.
  - rewrite c121_infinite by assumption. reflexivity.
  - apply chance_sign; assumption.
Qed.
Print Assumptions c133_accepted.

(** A search never aborts on account of the coin: it is the search without the coin, whose
    other reasons to abort are those of C40. *)
Theorem c133_search_partial :
  forall (p : problem) (a b : nat) (d : f64) (fexp : f64 -> f64) (width : f64) (cbs : list (nat -> bool)) (fuel : nat),
    sound p -> seed_ok p a b d ->
    exp_within fexp -> fexp (S754_zero true) = lit 1 -> FloatErfSpec.moderate width ->
    (forall e, e = d \/ (exists i j, indexed p i /\ indexed p j /\ e = p_zeucl p i j) -> workable width e) ->
    session_coin (fcollision_probability fexp width) p a b d cbs fuel = session p a b d cbs fuel /\
    forall s0, well_behaved p d -> iter_new p a b d = Ret s0 -> session_coin (fcollision_probability fexp width) p a b d cbs fuel <> Panic.
Proof.
  intros p a b d fexp width cbs fuel Sd So X E0 Mw H.
  assert (E : session_coin (fcollision_probability fexp width) p a b d cbs fuel = session p a b d cbs fuel).
  { apply session_coin_eq; [exact Sd| |exact So]. intros th reps Pt _. apply c133_accepted; [exact X|exact E0|exact Mw|].
    destruct Pt as [->|Pt]; [left; reflexivity|apply H, Pt]. }
  split; [exact E|]. intros s0 W Ei. rewrite E. apply (c40_no_abort_partial p a b d s0 cbs fuel Sd So W Ei).
Qed.
Print Assumptions c133_search_partial.

(** * C133: without the bound on the distances it aborts *)
(** The collision probability at a distance of about 10^8 widths can come out below 0, even
    with an exponential function that is correctly rounded. *)
Definition tiny_width : f64 := S754_finite false 6369051673799583 (-78).
Definition tiny_exponent : f64 := S754_finite true 4503599629171936 (-106).
Definition just_below_one : f64 := S754_finite false 9007199254740991 (-53).
Lemma tiny_probability (fexp : f64 -> f64) : fexp tiny_exponent = just_below_one ->
  fcollision_probability fexp tiny_width (fl 2) = S754_finite true 7191519010226176 (-110).
Proof.
  intros H. unfold fcollision_probability.
  replace (fdiv (fmul (SFopp tiny_width) tiny_width) (fmul (fmul (lit 2) (fl 2)) (fl 2))) with tiny_exponent by (vm_compute; reflexivity).
  rewrite H. vm_compute. reflexivity.
Qed.
Lemma number_eq x y : number x -> number y -> fval x = fval y -> fval x <> 0 -> x = y.
Proof.
  intros (Fx & Nx) (Fy & Ny) E Z. destruct (to_B x Fx) as (b & <-). destruct (to_B y Fy) as (c & <-). f_equal.
  rewrite fval_B in *. rewrite fval_B in E. rewrite finite_B in *. apply B2R_inj; [| |exact E].
  - destruct b; try discriminate Nx; [|reflexivity]. cbn in Z. lra.
  - rewrite E in Z. destruct c; try discriminate Ny; [|reflexivity]. cbn in Z. lra.
Qed.
Lemma below_one_val : fval just_below_one = 1 - bp (-53).
Proof. unfold fval, just_below_one, SF2R, F2R. cbn -[Rmult Rinv IZR]. unfold bp. cbn -[Rmult Rinv IZR]. lra. Qed.
Lemma rnd_below_one v : 1 - 3 * bp (-54) < v < 1 - bp (-54) -> rnd v = 1 - bp (-53).
Proof.
  intros B. assert (E54 : bp (-53) = 2 * bp (-54)) by (change (-53)%Z with (1 + -54)%Z; rewrite bpow_plus; reflexivity). pose proof (bpow_gt_0 radix2 (-54)) as P.
  assert (P1 : bp (-54) <= bp (-10)) by (apply bpow_le; lia). change (bp (-10)) with (/ 1024) in P1.
  assert (M : Raux.mag radix2 v = 0%Z :> Z). { apply mag_unique. rewrite Rabs_pos_eq by lra. change (bpow radix2 (0 - 1)) with (/ 2). change (bpow radix2 0) with 1. lra. }
  assert (C : cexp radix2 (SpecFloat.fexp prec emax) v = (-53)%Z) by (unfold cexp; rewrite M; reflexivity).
  unfold rnd, round, scaled_mantissa. rewrite C. change (- -53)%Z with 53%Z.
  assert (I : bp (-54) * bpow radix2 53 = / 2) by (rewrite <- bpow_plus; reflexivity).
  assert (Z : ZnearestE (v * bpow radix2 53) = 9007199254740991%Z).
  { apply Znearest_imp. assert (I53 : bpow radix2 53 = 9007199254740992) by reflexivity. rewrite I53 in I |- *. apply Rabs_lt. lra. }
  rewrite Z. unfold F2R. cbn [Fnum Fexp]. assert (J : 9007199254740992 * bpow radix2 (-53) = 1) by (change 9007199254740992 with (bpow radix2 53); rewrite <- bpow_plus; reflexivity).
  unfold bp in *. lra.
Qed.
Lemma tiny_exponent_val : fval tiny_exponent = - (bp (-54) * (1 + 1801440 / 4503599627370496)).
Proof.
  unfold fval, tiny_exponent, SF2R, F2R. cbn [cond_Zopp Fnum Fexp]. replace (bp (-54)) with (4503599627370496 * bpow radix2 (-106)) by (change 4503599627370496 with (bpow radix2 52); rewrite <- bpow_plus; reflexivity). cbn [Z.opp]. generalize (bpow radix2 (-106)). intros x. lra.
Qed.
Lemma best_tiny : best_exp tiny_exponent = just_below_one.
Proof.
  change (best_exp tiny_exponent) with (of_R (exp (fval tiny_exponent))). pose proof (bpow_gt_0 radix2 (-54)) as P.
  assert (P1 : bp (-54) <= bp (-10)) by (apply bpow_le; lia). change (bp (-10)) with (/ 1024) in P1.
  set (t := bp (-54) * (1 + 1801440 / 4503599627370496)). assert (Et : fval tiny_exponent = - t) by exact tiny_exponent_val.
  assert (Bt : bp (-54) * (1 + / 2500000000) < t < bp (-54) * (1 + / 1000000000)) by (unfold t; split; apply Rmult_lt_compat_l; lra).
  assert (L : 1 - t <= exp (- t)) by (pose proof (exp_ineq1_le (- t)); lra).
  assert (U : exp (- t) <= 1 - t + t * t).
  { pose proof (exp_ineq1_le t) as H. assert (Q : exp (- t) * exp t = 1) by (rewrite <- exp_plus, Rplus_opp_l; apply exp_0). pose proof (exp_pos (- t)) as H1.
    assert (exp (- t) * (1 + t) <= 1) by (rewrite <- Q; apply Rmult_le_compat_l; lra). apply Rmult_le_reg_r with (1 + t); [lra|]. eapply Rle_trans; [eassumption|].
    replace ((1 - t + t * t) * (1 + t)) with (1 + t * t * t) by ring. assert (0 <= t * t * t) by (repeat apply Rmult_le_pos; lra). lra. }
  assert (T2 : t * t <= bp (-54) * / 4000000000).
  { apply Rle_trans with (bp (-54) * (1 + / 1000000000) * t); [apply Rmult_le_compat_r; lra|]. rewrite Rmult_assoc. apply Rmult_le_compat_l; [lra|].
    assert (bp (-54) <= bp (-40)) by (apply bpow_le; lia). change (bp (-40)) with (/ 1099511627776) in *. lra. }
  rewrite Et. destruct (of_R_val (exp (- t))) as (N & V); [pose proof (exp_pos (- t)); pose proof (exp_le_1 (- t)); lra|].
  assert (V' : fval (of_R (exp (- t))) = fval just_below_one). { rewrite V, below_one_val. apply rnd_below_one. lra. }
  apply number_eq; [exact N|split; reflexivity|exact V'|]. rewrite V', below_one_val. assert (bp (-53) <= bp (-1)) by (apply bpow_le; lia). change (bp (-1)) with (/ 2) in *. lra.
Qed.
(** three distances, and a width of about 2 / 10^8 *)
Definition tiny_search (fexp : f64 -> f64) : problem := {|
  p_n := 13; p_ez := 2; p_max_k := 2; p_top_k := 1;
  p_zeucl := toy_distance; p_zeucl_threshold := below toy_distance;
  p_table := fun _ _ => (toy_hashes, [0; 4; 8; 12]%N);
  p_failure := fun e => failure_f64 (fcollision_probability fexp tiny_width e);
  p_delta := one_half; p_coin := fun _ _ _ => true;
  p_expected := toy_expected; p_setup_cost := fl 1; p_collision_cost := fl 1; p_max_repetitions := 100;
  p_buffer := 4; p_threshold := 7; p_stop := false; p_nan_first := true |}.
Lemma tiny_start fexp : exists s, iter_new (tiny_search fexp) 4 8 (fl 2) = Ret s /\ it_return s = [] /\ forallb tk_is_complete (it_top s) = false /\ it_candidates s = 0%nat /\
  graph_threshold (tiny_search fexp) s = Ret (fl 2) /\ (c_rep (it_conf s) <? length (it_tables s))%nat = true /\ length (it_tables s) = INITIAL_REPETITIONS.
Proof. eexists. split; [vm_compute; reflexivity|]. vm_compute. repeat split. Qed.
Lemma tiny_rate fexp : fexp tiny_exponent = just_below_one -> bernoulli_new (sample_rate (fcollision_probability fexp tiny_width) (fl 2) INITIAL_REPETITIONS) = Panic.
Proof. intros H. unfold sample_rate. rewrite (tiny_probability fexp H). vm_compute. reflexivity. Qed.
Theorem c133_search_refuted :
  exists (p : problem) (a b : nat) (d : f64) (fexp : f64 -> f64) (width : f64) (s0 : iter),
    sound p /\ seed_ok p a b d /\ well_behaved p d /\
    exp_within fexp /\ (forall y, number y -> fval y <= 0 -> fval (fexp y) = rnd (exp (fval y))) /\ FloatErfSpec.moderate width /\
    (forall e, e = d \/ (exists i j, indexed p i /\ indexed p j /\ e = p_zeucl p i j) -> distance64 e) /\
    (forall e reps q prev m, p_failure p e reps q prev m = failure_f64 (fcollision_probability fexp width e) reps q prev m) /\
    iter_new p a b d = Ret s0 /\
    (forall cbs fuel, session p a b d cbs fuel <> Panic) /\
    panics (session_coin (fcollision_probability fexp width) p a b d [always]).
Proof.
  destruct (tiny_start best_exp) as (s0 & E0 & R0 & F0 & C0 & T0 & Lt0 & I0). pose proof best_tiny as Bt. pose proof best_exp_within as X.
  exists (tiny_search best_exp), 4%nat, 8%nat, (fl 2), best_exp, tiny_width, s0.
  assert (Sd : sound (tiny_search best_exp)) by (destruct toy_sound as [A B C D E F G H]; split; auto).
  assert (W : well_behaved (tiny_search best_exp) (fl 2)) by (destruct toy_behaved; split; auto).
  split; [exact Sd|]. split; [exact toy_seed|]. split; [exact W|]. split; [exact X|]. split.
  { intros y (Fy & Ny) Ly. pose proof (exp_pos (fval y)). pose proof (exp_le_1 _ Ly). assert (Eb : best_exp y = of_R (exp (fval y))) by (destruct y; try discriminate Ny; reflexivity).
    rewrite Eb. apply of_R_val. lra. }
  split.
  { split; [split; reflexivity|]. unfold fval, tiny_width, SF2R, F2R. cbn [cond_Zopp Fnum Fexp]. rewrite !pow2_bp. split.
    - apply Rle_trans with (1 * bpow radix2 (-78)); [rewrite Rmult_1_l; apply (bpow_le radix2); lia|]. apply Rmult_le_compat_r; [apply bpow_ge_0|lra].
    - apply Rle_trans with (bpow radix2 53 * bpow radix2 (-78)); [apply Rmult_le_compat_r; [apply bpow_ge_0|change (bpow radix2 53) with 9007199254740992; lra]|]. rewrite <- bpow_plus. apply (bpow_le radix2). lia. }
  split.
  { intros e He. assert (Q : exists i j, e = toy_distance i j) by (destruct He as [->|(i & j & _ & _ & ->)]; [exists 4%nat, 8%nat; reflexivity|exists i, j; reflexivity]).
    right. apply (toy_distances e Q). }
  split; [reflexivity|]. split; [exact E0|]. split; [intros cbs fuel; apply (c40_no_abort_partial _ 4 8 (fl 2) s0 cbs fuel Sd toy_seed W E0)|].
  exists 1%nat. intros [|n] Ln; [lia|]. unfold session_coin. rewrite E0. cbn [bind calls_coin]. unfold next_coin. cbn [loop]. unfold loop_body_coin at 1. rewrite R0, F0, C0. cbn [negb always p_threshold p_stop tiny_search Nat.ltb Nat.leb andb].
  unfold turn_coin, update_graph_coin. rewrite Lt0, T0, I0. cbn [assert_ bind]. rewrite (tiny_rate best_exp Bt). reflexivity.
Qed.
Print Assumptions c133_search_refuted.

(** * C133: the rate *)
(** Of the 2^64 words of the generator, those below [h] let a pair pass: the share is
    min(1, 8 / (p reps)) up to 2^-49, where [p] is the computed collision probability. *)
Lemma below_one r : number r -> fval r < 1 -> fval r <= 1 - u.
Proof.
  intros (F & _) L. change 1 with (bpow radix2 0) in L |- *. replace (bpow radix2 0 - u) with (pred radix2 (SpecFloat.fexp prec emax) (bpow radix2 0)) by (rewrite pred_bpow; reflexivity).
  apply pred_ge_gt; [exact Hexp|apply fmt_val, F|change (bpow radix2 0) with (bp 0); apply fmt_bpow; lia|exact L].
Qed.
Lemma coin_scale_val : number coin_scale /\ fval coin_scale = 18446744073709551616.
Proof. split; [split; reflexivity|]. unfold fval, coin_scale, SF2R, F2R. cbn [cond_Zopp Fnum Fexp]. change (bpow radix2 12) with 4096. lra. Qed.
Lemma coin_heads r : number r -> 0 <= fval r <= 1 ->
  exists c h : N, bernoulli_new r = Ret c /\ (h <= 2 ^ 64)%N /\ (forall v, (v < 2 ^ 64)%N -> (bernoulli_sample c v = true <-> (v < h)%N)) /\
    Rabs (IZR (Z.of_N h) / 18446744073709551616 - fval r) <= 2 * u.
Proof.
  intros N B. pose proof u_pos as Pu. assert (N0 : number f_zero) by (split; reflexivity). assert (N1 : number f_one) by (split; reflexivity). destruct coin_scale_val as (Ns & Vs).
  assert (V1 : fval f_one = 1) by (unfold fval, f_one, SF2R, F2R; cbn; lra).
  unfold bernoulli_new. rewrite fle_val, flt_val, feq_val by assumption. rewrite V1. change (fval f_zero) with 0. rewrite Rle_bool_true by lra. cbn [andb].
  destruct (Rlt_le_dec (fval r) 1) as [L|L].
  - rewrite Rlt_bool_true by exact L. pose proof (below_one r N L) as L'.
    assert (Bs : 0 <= fval r * fval coin_scale <= 18446744073709551616 - 2048).
    { rewrite Vs. split; [lra|]. apply Rle_trans with ((1 - u) * 18446744073709551616); [apply Rmult_le_compat_r; lra|]. assert (u * 18446744073709551616 = 2048) by (change 18446744073709551616 with (bpow radix2 64); change u with (bpow radix2 (-53)); rewrite <- bpow_plus; reflexivity). lra. }
    destruct (mul_err r coin_scale 64 N Ns ltac:(lia)) as (Nm & Em). { change (bp 64) with 18446744073709551616. rewrite Rabs_pos_eq; lra. }
    assert (Vm : fval (fmul r coin_scale) = rnd (fval r * fval coin_scale)).
    { apply fmul_val; [exact N|exact Ns|]. apply Rle_lt_trans with (bp 64); [apply rnd_abs_le; [apply fmt_bpow; lia|]; change (bp 64) with 18446744073709551616; rewrite Rabs_pos_eq; lra|apply bp_top; lia]. }
    assert (Bm : 0 <= fval (fmul r coin_scale) <= 18446744073709551616 - 2048).
    { rewrite Vm. split; [apply rnd_pos; lra|]. apply rnd_le_fmt; [|lra]. replace (18446744073709551616 - 2048) with (IZR 9007199254740991 * bpow radix2 11) by (change (bpow radix2 11) with 2048; lra). apply fmt_int; lia. }
    pose proof (as_usize_floor (fmul r coin_scale) Nm) as Fl. change (IZR (2 ^ 64)) with 18446744073709551616 in Fl. specialize (Fl ltac:(lra)).
    set (c := as_usize (fmul r coin_scale)) in *. exists c, c. split; [reflexivity|].
    assert (Lc : (c < always_true)%N). { apply N2Z.inj_lt, lt_IZR. change (IZR (Z.of_N always_true)) with 18446744073709551615. lra. }
    split; [unfold always_true in Lc; lia|]. split.
    { intros v _. unfold bernoulli_sample. destruct (N.eqb_spec c always_true) as [E|_]; [lia|]. cbn [orb]. apply N.ltb_lt. }
    rewrite Vs in Em. assert (Ty : tiny <= u * bp (-1000)) by (apply tiny_u; lia). assert (bp (-1000) <= bp (-1)) by (apply bpow_le; lia). change (bp (-1)) with (/ 2) in *.
    rewrite (Rabs_pos_eq (fval r * _)) in Em by lra. apply Rabs_le_inv in Em.
    assert (u * bp (-1000) <= u * / 2) by (apply Rmult_le_compat_l; lra). assert (u * (fval r * 18446744073709551616) <= u * 18446744073709551616) by (apply Rmult_le_compat_l; lra).
    assert (u * 18446744073709551616 = 2048) by (change 18446744073709551616 with (bpow radix2 64); change u with (bpow radix2 (-53)); rewrite <- bpow_plus; reflexivity).
    apply Rabs_le. split; apply Rmult_le_reg_r with 18446744073709551616; try lra; rewrite Rmult_minus_distr_r; unfold Rdiv; rewrite Rmult_assoc, Rinv_l, Rmult_1_r by lra; lra.
  - rewrite Rlt_bool_false by exact L. rewrite Req_bool_true by lra. exists always_true, (2 ^ 64)%N. split; [reflexivity|]. split; [lia|]. split.
    { intros v Hv. unfold bernoulli_sample. rewrite N.eqb_refl. cbn [orb]. split; auto. }
    change (IZR (Z.of_N (2 ^ 64))) with 18446744073709551616. apply Rabs_le. lra.
Qed.
Lemma min_close a b e : Rabs (a - b) <= e -> Rabs (Rmin 1 a - Rmin 1 b) <= e.
Proof. intros H. apply Rabs_le_inv in H. apply Rabs_le. unfold Rmin. destruct (Rle_dec 1 a), (Rle_dec 1 b); lra. Qed.
Lemma f_min_val x : number x -> number (f_min x f_one) /\ fval (f_min x f_one) = Rmin 1 (fval x).
Proof.
  intros N. assert (N1 : number f_one) by (split; reflexivity). assert (V1 : fval f_one = 1) by (unfold fval, f_one, SF2R, F2R; cbn; lra).
  unfold f_min. rewrite (number_not_nan x N). cbn [is_nan f_one]. fold f_one. rewrite flt_val by assumption. rewrite V1. unfold Rmin. destruct (Rle_dec 1 (fval x)) as [L|L].
  - destruct (Rle_lt_or_eq_dec _ _ L) as [L'|L'].
    + rewrite Rlt_bool_true by exact L'. auto.
    + rewrite Rlt_bool_false by lra. auto.
  - rewrite Rlt_bool_false by lra. auto.
Qed.
Theorem c133_rate : forall (probability : f64 -> f64) (th : f64) (reps : nat),
  number (probability th) -> powerRZ 2 (-200) <= fval (probability th) <= 1 -> (1 <= reps)%nat -> (Z.of_nat reps <= 2 ^ 53)%Z ->
  exists c h : N, bernoulli_new (sample_rate probability th reps) = Ret c /\ (h <= 2 ^ 64)%N /\
    (forall v, (v < 2 ^ 64)%N -> (bernoulli_sample c v = true <-> (v < h)%N)) /\
    Rabs (IZR (Z.of_N h) / 18446744073709551616 - Rmin 1 (8 / (fval (probability th) * INR reps))) <= powerRZ 2 (-49).
Proof.
  intros probability th reps N B L1 L53. rewrite pow2_bp in B. unfold sample_rate. rewrite (number_not_nan _ N). set (p := probability th) in *. clearbody p.
  destruct (of_nat_exact reps L53) as (Nr & Vr). destruct (of_nat_exact 8 ltac:(lia)) as (N8 & V8). replace (INR 8) with 8 in V8 by (cbn; lra).
  assert (R1 : 1 <= INR reps) by (change 1 with (INR 1); apply le_INR, L1).
  assert (R53 : INR reps <= bp 53) by (rewrite INR_IZR_INZ; change (bp 53) with (IZR (2 ^ 53)); apply IZR_le, L53).
  pose proof (bpow_gt_0 radix2 (-200)) as P2. pose proof u_pos as Pu. assert (Us : u <= / 1024) by (change (/ 1024) with (bp (-10)); apply bpow_le; lia).
  set (Q := fval p * INR reps). assert (BQ : bp (-200) <= Q <= bp 53).
  { unfold Q. split; [apply Rle_trans with (bp (-200) * 1); [lra|]; apply Rmult_le_compat; lra|]. apply Rle_trans with (1 * bp 53); [apply Rmult_le_compat; lra|lra]. }
  destruct (mul_err_rel p (f_of_nat reps) 53 N Nr ltac:(lia)) as (Nq & Bq). { rewrite Vr. fold Q. split; [|apply BQ]. apply Rle_trans with (bp (-200)); [apply bpow_le; lia|apply BQ]. }
  rewrite Vr in Bq. fold Q in Bq. set (q := fval (fmul p (f_of_nat reps))) in *.
  assert (Pq : Q / 2 <= q). { apply Rle_trans with ((1 - u) * Q); [|apply Bq]. unfold Rdiv. rewrite Rmult_comm. apply Rmult_le_compat_r; lra. }
  assert (Pq0 : 0 < q) by lra.
  assert (B8 : 0 < 8 / q <= bp 300).
  { split; [apply Rdiv_lt_0_compat; lra|]. apply Rle_trans with (8 / (bp (-200) / 2)); [unfold Rdiv; apply Rmult_le_compat_l; [lra|]; apply Rinv_le_contravar; lra|].
    replace (8 / (bp (-200) / 2)) with (16 * bp 200) by (replace (bp (-200)) with (/ bp 200) by (symmetry; apply (bpow_opp radix2 200)); pose proof (bpow_gt_0 radix2 200) as P3; field; lra). change 16 with (bp 4). rewrite <- bpow_plus. apply bpow_le. lia. }
  destruct (div_err (f_of_nat 8) (fmul p (f_of_nat reps)) 300 N8 Nq ltac:(fold q; lra) ltac:(lia)) as (Nx & Ex). { rewrite V8. fold q. rewrite Rabs_pos_eq; lra. }
  rewrite V8 in Ex. fold q in Ex. set (x := fdiv (f_of_nat 8) (fmul p (f_of_nat reps))) in *. rewrite (Rabs_pos_eq (8 / q)) in Ex by lra.
  destruct (f_min_val x Nx) as (Nm & Vm).
  assert (Ty : tiny <= u * bp (-1000)) by (apply tiny_u; lia). assert (bp (-1000) <= bp (-1)) by (apply bpow_le; lia). change (bp (-1)) with (/ 2) in *.
  assert (u * bp (-1000) <= u * / 2) by (apply Rmult_le_compat_l; lra). assert (Pt : 0 < tiny) by apply tiny_pos.
  assert (Px : 0 <= fval x). { apply Rabs_le_inv in Ex. assert (S : is_sign_negative x = false) by (unfold x; apply fdiv_sign; [apply f_of_nat_sign|]; destruct (shape_pos (fmul p (f_of_nat reps)) Nq Pq0) as (m0 & e0 & ->); reflexivity). apply (FloatBound.sign_val x (proj1 Nx) S). }
  destruct (coin_heads (f_min x f_one) Nm) as (c & h & E1 & E2 & E3 & E4). { rewrite Vm. unfold Rmin. destruct (Rle_dec 1 (fval x)); lra. }
  exists c, h. split; [exact E1|]. split; [exact E2|]. split; [exact E3|]. rewrite Vm in E4.
  assert (C : Rabs (Rmin 1 (fval x) - Rmin 1 (8 / Q)) <= 7 * u).
  { assert (E8 : 8 / q = 8 / Q * (Q / q)) by (field; split; lra). assert (Bd : 1 - 2 * u <= Q / q <= 1 + 2 * u).
    { split; apply Rmult_le_reg_r with q; try lra; unfold Rdiv; rewrite Rmult_assoc, Rinv_l, Rmult_1_r by lra.
      - apply Rle_trans with ((1 - 2 * u) * ((1 + u) * Q)); [apply Rmult_le_compat_l; lra|]. rewrite <- Rmult_assoc. rewrite <- (Rmult_1_l Q) at 2. apply Rmult_le_compat_r; [lra|]. assert (0 <= u * u) by (apply Rmult_le_pos; lra). lra.
      - apply Rle_trans with ((1 + 2 * u) * ((1 - u) * Q)); [|apply Rmult_le_compat_l; lra]. rewrite <- Rmult_assoc. rewrite <- (Rmult_1_l Q) at 1. apply Rmult_le_compat_r; [lra|]. assert (u * u <= u * / 1024) by (apply Rmult_le_compat_l; lra). lra. }
    assert (PQ : 0 < 8 / Q) by (apply Rdiv_lt_0_compat; lra). apply Rabs_le_inv in Ex. destruct (Rle_lt_dec 2 (8 / Q)) as [G|G].
    - assert (3 / 2 <= 8 / q). { rewrite E8. apply Rle_trans with (2 * (1 - 2 * u)); [lra|]. apply Rmult_le_compat; lra. }
      assert (1 <= fval x). { assert (u * (8 / q) <= / 1024 * (8 / q)) by (apply Rmult_le_compat_r; lra). lra. }
      rewrite !Rmin_left by lra. rewrite Rminus_diag_eq, Rabs_R0 by reflexivity. lra.
    - apply min_close. assert (D : Rabs (8 / q - 8 / Q) <= 4 * u).
      { replace (8 / q - 8 / Q) with (8 / Q * (Q / q - 1)) by (rewrite E8; ring). rewrite Rabs_mult, (Rabs_pos_eq (8 / Q)) by lra. apply Rle_trans with (2 * (2 * u)); [|lra]. apply Rmult_le_compat; try lra; [apply Rabs_pos|apply Rabs_le; lra]. }
      apply Rabs_le_inv in D. assert (u * (8 / q) <= u * (5 / 2)) by (apply Rmult_le_compat_l; lra).
      apply Rabs_le. lra. }
  apply Rle_trans with (16 * u); [|rewrite pow2_bp; change 16 with (bp 4); change u with (bp (-53)); rewrite <- bpow_plus; apply bpow_le; lia].
  fold Q. replace (IZR (Z.of_N h) / 18446744073709551616 - Rmin 1 (8 / Q)) with ((IZR (Z.of_N h) / 18446744073709551616 - Rmin 1 (fval x)) + (Rmin 1 (fval x) - Rmin 1 (8 / Q))) by ring.
  eapply Rle_trans; [apply Rabs_triang|]. lra.
Qed.
Print Assumptions c133_rate.

(** * The hypotheses can be met *)
Lemma best_zero : best_exp (S754_zero true) = lit 1.
Proof.
  change (best_exp (S754_zero true)) with (of_R (exp 0)). rewrite exp_0. destruct (of_R_val 1 ltac:(lra)) as (N & V). destruct lit1 as (N1 & V1).
  assert (E : fval (of_R 1) = 1) by (rewrite V; apply rnd_id; change 1 with (bp 0); apply fmt_bpow; lia).
  apply number_eq; [exact N|exact N1|rewrite V1; exact E|lra].
Qed.
(** width 4, threshold 1 or infinite *)
Example c133_accepted_case : exp_within best_exp /\ best_exp (S754_zero true) = lit 1 /\ FloatErfSpec.moderate four /\ workable four (lit 1) /\ workable four (S754_infinity false).
Proof.
  destruct lit1 as (N1 & V1). split; [apply best_exp_within|]. split; [exact best_zero|]. split; [exact moderate_four|]. split; [|left; reflexivity].
  right. split; [right; apply moderate_small; [exact N1|lra]|]. rewrite V1, four_val, pow2_bp. change (bp 20) with 1048576. lra.
Qed.
(** the search of C121 *)
Example c133_search_case : sound toy_collision /\ seed_ok toy_collision 4 8 (fl 2) /\ well_behaved toy_collision (fl 2) /\
  (forall e, e = fl 2 \/ (exists i j, indexed toy_collision i /\ indexed toy_collision j /\ e = p_zeucl toy_collision i j) -> workable four e) /\
  exists s0, iter_new toy_collision 4 8 (fl 2) = Ret s0.
Proof.
  destruct c121_pair_case as (A & B & C & _ & _ & D & _ & _ & E). split; [exact A|]. split; [exact B|]. split; [exact C|]. split; [|exact E].
  intros e He. right. assert (Q : exists i j, e = toy_distance i j) by (destruct He as [->|(i & j & _ & _ & ->)]; [exists 4%nat, 8%nat; reflexivity|exists i, j; reflexivity]).
  destruct (toy_distances e Q) as (M & L). split; [right; exact M|]. pose proof (moderate_pos _ moderate_four). rewrite pow2_bp. change (bp 20) with 1048576. lra.
Qed.
(** probability 1/2: with 8 repetitions every pair passes; with 32, every second *)
Example c133_rate_case : (number one_half /\ powerRZ 2 (-200) <= fval one_half <= 1) /\
  bernoulli_new (sample_rate (fun _ => one_half) (fl 1) 8) = Ret always_true /\
  bernoulli_new (sample_rate (fun _ => one_half) (fl 1) 32) = Ret (2 ^ 63)%N /\
  bernoulli_sample (2 ^ 63) (2 ^ 63 - 1) = true /\ bernoulli_sample (2 ^ 63) (2 ^ 63) = false.
Proof.
  split; [|split; [vm_compute; reflexivity|split; [vm_compute; reflexivity|split; vm_compute; reflexivity]]].
  split; [split; reflexivity|]. rewrite one_half_val, pow2_bp. assert (bp (-200) <= bp (-1)) by (apply bpow_le; lia). change (bp (-1)) with (/ 2) in *. lra.
Qed.
