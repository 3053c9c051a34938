(** Property theorems C114 (the failure probability in floating point).
    Specification: the definitions of this file.  Model: Powi.v. *)
From Coq Require Import Reals Lra Lia Floats.SpecFloat.
From Flocq Require Import Core Relative BinarySingleNaN.
From Verif Require Import Base F64 HashValue Profile Iterator IteratorSpec FpOps FloatErr Powi Collision EndSpec P_Iterator P_Iterator2 P_End.
Local Open Scope R_scope.

(** what is to be computed: all of the [reps] repetitions at [prefix], and those of the
    previous prefix beyond, miss a pair whose bytes agree with probability [p] *)
Definition exact_failure (p : R) (reps prefix : nat) (prev_prefix prev_prefix_repetitions : option nat) : R :=
  (1 - p ^ prefix) ^ reps *
  match prev_prefix, prev_prefix_repetitions with
  | Some prefix, Some repetitions => (1 - p ^ prefix) ^ (repetitions - reps)
  | _, _ => 1
  end.
(** a probability *)
Definition chance (x : f64) : Prop := number x /\ 0 <= fval x <= 1.
(** the number of rounding errors *)
Definition roundings (reps prefix : nat) (prev_prefix prev_prefix_repetitions : option nat) : nat :=
  reps * (prefix + 2) +
  match prev_prefix, prev_prefix_repetitions with
  | Some prefix, Some repetitions => (repetitions - reps) * (prefix + 2)
  | _, _ => 0
  end + 1.

(** ** Rounding below 1 *)
Notation h := (bpow radix2 (-54)).
Lemma h_pos : 0 < h. Proof. apply bpow_gt_0. Qed.
Lemma fmt1 : fmt 1. Proof. apply (fmt_bpow 0). lia. Qed.
Lemma err_below x : 0 <= x <= 1 -> Rabs (rnd x - x) <= h.
Proof.
  intros (P & Q). destruct (Req_dec x 1) as [->|N]; [rewrite (rnd_id _ fmt1); unfold Rminus; rewrite Rplus_opp_r, Rabs_R0; apply bpow_ge_0|].
  destruct (Req_dec x 0) as [->|N0]; [rewrite rnd0; unfold Rminus; rewrite Rplus_opp_r, Rabs_R0; apply bpow_ge_0|].
  unfold rnd. eapply Rle_trans; [apply error_le_half_ulp; typeclasses eauto|].
  rewrite ulp_neq_0 by exact N0. unfold cexp.
  assert (M : (mag radix2 x <= 0)%Z) by (apply mag_le_bpow; [exact N0|rewrite Rabs_pos_eq by lra; cbn; lra]).
  replace h with (/ 2 * bpow radix2 (-53)).
  - apply Rmult_le_compat_l; [lra|]. apply bpow_le. unfold SpecFloat.fexp, SpecFloat.emin, prec, emax. lia.
  - change (-53)%Z with (-54 + 1)%Z. rewrite bpow_plus_1. change (IZR radix2) with 2. field.
Qed.
Lemma top1 : 1 < top. Proof. change 1 with (bpow radix2 0). apply bpow_lt. reflexivity. Qed.
Lemma chance_one : chance f_one. Proof. split; [split; reflexivity|]. replace (fval f_one) with 1; [lra|]. unfold fval, f_one, SF2R, F2R. cbn. field. Qed.
Lemma val_one : fval f_one = 1. Proof. unfold fval, f_one, SF2R, F2R. cbn. field. Qed.
Lemma chance_mul a b : chance a -> chance b -> chance (fmul a b) /\ fval (fmul a b) = rnd (fval a * fval b) /\
  Rabs (fval (fmul a b) - fval a * fval b) <= h /\ fval (fmul a b) <= fval a /\ fval (fmul a b) <= fval b.
Proof.
  intros (Na & Pa) (Nb & Pb). assert (B : 0 <= fval a * fval b <= 1) by (split; [apply Rmult_le_pos; lra|rewrite <- (Rmult_1_l 1); apply Rmult_le_compat; lra]).
  destruct (fmul_le a b 1 Na Nb fmt1 top1) as (N & V & _); [rewrite Rabs_pos_eq; lra|].
  assert (L1 : rnd (fval a * fval b) <= fval a) by (apply rnd_le_fmt; [apply fmt_val, Na|rewrite <- (Rmult_1_r (fval a)) at 2; apply Rmult_le_compat_l; lra]).
  assert (L2 : rnd (fval a * fval b) <= fval b) by (apply rnd_le_fmt; [apply fmt_val, Nb|rewrite <- (Rmult_1_l (fval b)) at 2; apply Rmult_le_compat_r; lra]).
  assert (G : 0 <= rnd (fval a * fval b)) by (apply rnd_ge; [apply fmt0|apply B]).
  split; [split; [exact N|rewrite V; lra]|]. rewrite V. split; [reflexivity|]. split; [apply err_below, B|lra].
Qed.
Lemma chance_complement a : chance a -> chance (fsub f_one a) /\ fval (fsub f_one a) = rnd (1 - fval a) /\
  Rabs (fval (fsub f_one a) - (1 - fval a)) <= h.
Proof.
  intros (Na & Pa). pose proof chance_one as (N1 & _).
  destruct (fsub_le f_one a 1 N1 Na fmt1 top1) as (N & V & _); [rewrite val_one, Rabs_pos_eq; lra|]. rewrite val_one in V.
  assert (L : rnd (1 - fval a) <= 1) by (apply rnd_le_fmt; [apply fmt1|lra]).
  assert (G : 0 <= rnd (1 - fval a)) by (apply rnd_ge; [apply fmt0|lra]).
  split; [split; [exact N|rewrite V; lra]|]. rewrite V. split; [reflexivity|]. apply err_below. lra.
Qed.

(** ** Powers *)
Lemma pow_close x y n : 0 <= x <= 1 -> 0 <= y <= 1 -> Rabs (x ^ n - y ^ n) <= INR n * Rabs (x - y).
Proof.
  intros X Y. induction n as [|n IH]; [cbn; unfold Rminus; rewrite Rplus_opp_r, Rabs_R0; lra|].
  rewrite S_INR. cbn [pow]. replace (x * x ^ n - y * y ^ n) with (x * (x ^ n - y ^ n) + (x - y) * y ^ n) by ring.
  eapply Rle_trans; [apply Rabs_triang|]. rewrite !Rabs_mult, (Rabs_pos_eq x), (Rabs_pos_eq (y ^ n)) by (try apply pow_le; lra).
  assert (P : 0 <= y ^ n <= 1) by (split; [apply pow_le; lra|rewrite <- (pow1 n); apply pow_incr; lra]).
  pose proof (Rabs_pos (x - y)). pose proof (Rabs_pos (x ^ n - y ^ n)). nra.
Qed.
Lemma unit_pow x n : 0 <= x <= 1 -> 0 <= x ^ n <= 1.
Proof. intros X. split; [apply pow_le; lra|rewrite <- (pow1 n); apply pow_incr; lra]. Qed.
Lemma powi_loop_ok b : forall a r, chance a -> chance r -> chance (powi_loop a r b) /\
  Rabs (fval (powi_loop a r b) - fval r * fval a ^ Pos.to_nat b) <= INR (Pos.to_nat b) * h.
Proof.
  induction b as [b IH|b IH|]; intros a r Ca Cr; cbn [powi_loop].
  - destruct (chance_mul a a Ca Ca) as (Cs & _ & Es & _), (chance_mul r a Cr Ca) as (Cm & _ & Em & _).
    destruct (IH _ _ Cs Cm) as (C & E). split; [exact C|].
    rewrite Pos2Nat.inj_xI. set (n := Pos.to_nat b) in *. rewrite S_INR, mult_INR. change (INR 2) with 2. cbn [pow]. rewrite pow_mult. 
    pose proof (pow_close (fval (fmul a a)) (fval a * fval a) n (proj2 Cs)) as D. destruct Ca as (_ & Ca), Cr as (_ & Cr), Cm as (_ & Cm), Cs as (_ & Cs).
    replace (fval a ^ 2) with (fval a * fval a) by ring. set (q := fval a * fval a) in *.
    assert (Q : 0 <= q <= 1) by (unfold q; split; [apply Rmult_le_pos; lra|rewrite <- (Rmult_1_l 1); apply Rmult_le_compat; lra]). specialize (D Q).
    pose proof (unit_pow (fval (fmul a a)) n Cs) as U1. pose proof (unit_pow q n Q) as U2.
    set (x := fval (fmul a a) ^ n) in *. set (y := q ^ n) in *. set (m := fval (fmul r a)) in *. set (res := fval (powi_loop _ _ b)) in *.
    assert (Ra : 0 <= fval r * fval a <= 1) by (split; [apply Rmult_le_pos; lra|rewrite <- (Rmult_1_l 1); apply Rmult_le_compat; lra]).
    replace (res - fval r * (fval a * y)) with ((res - m * x) + (m * (x - y) + (m - fval r * fval a) * y)) by ring.
    eapply Rle_trans; [apply Rabs_triang|]. pose proof (Rabs_triang (m * (x - y)) ((m - fval r * fval a) * y)) as T. rewrite !Rabs_mult, (Rabs_pos_eq m), (Rabs_pos_eq y) in T by lra.
    pose proof (pos_INR n). assert (T1 : m * Rabs (x - y) <= INR n * h) by (pose proof (Rabs_pos (x - y)); nra).
    assert (T2 : Rabs (m - fval r * fval a) * y <= h) by (pose proof (Rabs_pos (m - fval r * fval a)); nra). lra.
  - destruct (chance_mul a a Ca Ca) as (Cs & _ & Es & _). destruct (IH _ _ Cs Cr) as (C & E). split; [exact C|].
    rewrite Pos2Nat.inj_xO. set (n := Pos.to_nat b) in *. rewrite mult_INR. change (INR 2) with 2. rewrite pow_mult.
    pose proof (pow_close (fval (fmul a a)) (fval a * fval a) n (proj2 Cs)) as D. destruct Ca as (_ & Ca), Cr as (_ & Cr), Cs as (_ & Cs).
    replace (fval a ^ 2) with (fval a * fval a) by ring. set (q := fval a * fval a) in *.
    assert (Q : 0 <= q <= 1) by (unfold q; split; [apply Rmult_le_pos; lra|rewrite <- (Rmult_1_l 1); apply Rmult_le_compat; lra]). specialize (D Q).
    set (x := fval (fmul a a) ^ n) in *. set (y := q ^ n) in *. set (res := fval (powi_loop _ _ b)) in *.
    replace (res - fval r * y) with ((res - fval r * x) + fval r * (x - y)) by ring.
    eapply Rle_trans; [apply Rabs_triang|]. rewrite Rabs_mult, (Rabs_pos_eq (fval r)) by lra.
    pose proof (pos_INR n). assert (T1 : fval r * Rabs (x - y) <= INR n * h) by (pose proof (Rabs_pos (x - y)); nra). lra.
  - destruct (chance_mul r a Cr Ca) as (Cm & _ & Em & _). split; [exact Cm|]. change (Pos.to_nat 1) with 1%nat. rewrite pow_1. cbn [INR]. lra.
Qed.
Lemma powi_ok a n : chance a -> chance (powi a n) /\ Rabs (fval (powi a n) - fval a ^ n) <= INR n * h.
Proof.
  intros Ca. unfold powi. destruct (N.of_nat n) as [|b] eqn:E.
  - assert (n = 0%nat) as -> by lia. split; [exact chance_one|]. rewrite val_one. cbn. unfold Rminus. rewrite Rplus_opp_r, Rabs_R0. lra.
  - assert (n = Pos.to_nat b) as -> by lia. destruct (powi_loop_ok b a f_one Ca chance_one) as (C & D). rewrite val_one, Rmult_1_l in D. auto.
Qed.
Lemma miss_ok p q n : chance p -> chance (powi (fsub f_one (powi p q)) n) /\
  Rabs (fval (powi (fsub f_one (powi p q)) n) - (1 - fval p ^ q) ^ n) <= INR (n * (q + 2)) * h.
Proof.
  intros C. destruct (powi_ok p q C) as (C1 & E1). destruct (chance_complement _ C1) as (C2 & _ & E2). destruct (powi_ok _ n C2) as (C3 & E3).
  split; [exact C3|]. pose proof (unit_pow (fval p) q (proj2 C)) as U.
  pose proof (pow_close (fval (fsub f_one (powi p q))) (1 - fval p ^ q) n (proj2 C2) ltac:(lra)) as D.
  set (x := fval (fsub f_one (powi p q))) in *. set (y := fval (powi p q)) in *. set (z := fval p ^ q) in *. set (res := fval (powi _ n)) in *.
  assert (X : Rabs (x - (1 - z)) <= (INR q + 1) * h).
  { replace (x - (1 - z)) with ((x - (1 - y)) + - (y - z)) by ring. eapply Rle_trans; [apply Rabs_triang|]. rewrite Rabs_Ropp. lra. }
  replace (res - (1 - z) ^ n) with ((res - x ^ n) + (x ^ n - (1 - z) ^ n)) by ring. eapply Rle_trans; [apply Rabs_triang|].
  rewrite mult_INR, plus_INR. change (INR 2) with 2. pose proof (pos_INR n). pose proof h_pos. 
  assert (INR n * Rabs (x - (1 - z)) <= INR n * ((INR q + 1) * h)) by (apply Rmult_le_compat_l; lra). lra.
Qed.

(** * C114 *)
(** The result is a probability, off by at most [2^-54] for every rounding. *)
Theorem c114_accuracy :
  forall (p : f64) (reps prefix : nat) (prev_prefix prev_prefix_repetitions : option nat),
    chance p ->
    let f := failure_f64 p reps prefix prev_prefix prev_prefix_repetitions in
    chance f /\
    Rabs (fval f - exact_failure (fval p) reps prefix prev_prefix prev_prefix_repetitions) <=
      INR (roundings reps prefix prev_prefix prev_prefix_repetitions) * bpow radix2 (-54).
Proof.
  intros p reps prefix pp pr C f. unfold f, failure_f64, exact_failure, roundings. clear f.
  assert (G : forall x y X Y n m, chance x -> chance y -> Rabs (fval x - X) <= INR n * h -> Rabs (fval y - Y) <= INR m * h -> 0 <= X <= 1 ->
    chance (fmul x y) /\ Rabs (fval (fmul x y) - X * Y) <= INR (n + m + 1) * h).
  { intros x y X Y n m Cx Cy Ex Ey HX. destruct (chance_mul x y Cx Cy) as (Cm & _ & Em & _). split; [exact Cm|].
    rewrite !plus_INR. change (INR 1) with 1. destruct Cx as (_ & Cx), Cy as (_ & Cy). set (m' := fval (fmul x y)) in *.
    replace (m' - X * Y) with ((m' - fval x * fval y) + ((fval x - X) * fval y + X * (fval y - Y))) by ring.
    eapply Rle_trans; [apply Rabs_triang|]. pose proof (Rabs_triang ((fval x - X) * fval y) (X * (fval y - Y))) as T. rewrite !Rabs_mult, (Rabs_pos_eq X), (Rabs_pos_eq (fval y)) in T by lra.
    assert (Rabs (fval x - X) * fval y <= INR n * h) by (pose proof (Rabs_pos (fval x - X)); nra).
    assert (X * Rabs (fval y - Y) <= INR m * h) by (pose proof (Rabs_pos (fval y - Y)); nra). lra. }
  destruct (miss_ok p prefix reps C) as (C1 & E1).
  assert (U : 0 <= (1 - fval p ^ prefix) ^ reps <= 1) by (apply unit_pow; pose proof (unit_pow (fval p) prefix (proj2 C)); lra).
  destruct pp as [q|], pr as [m|]; try (apply G; auto; [apply chance_one|rewrite val_one; unfold Rminus; rewrite Rplus_opp_r, Rabs_R0; cbn; lra]).
  destruct (miss_ok p q (m - reps) C) as (C2 & E2). apply G; auto.
Qed.
Print Assumptions c114_accuracy.
(** What is confirmed by the computed probability is confirmed by the exact one, but for a
    slightly larger bound. *)
Theorem c114_confirmed :
  forall (p : f64) (reps prefix : nat) (prev_prefix prev_prefix_repetitions : option nat) (delta : f64),
    chance p -> number delta ->
    flt (failure_f64 p reps prefix prev_prefix prev_prefix_repetitions) delta = true ->
    exact_failure (fval p) reps prefix prev_prefix prev_prefix_repetitions <
      fval delta + INR (roundings reps prefix prev_prefix prev_prefix_repetitions) * bpow radix2 (-54).
Proof.
  intros p reps q pp pr delta C Nd F. destruct (c114_accuracy p reps q pp pr C) as (Cf & E). cbv zeta in E.
  rewrite flt_val in F; [|apply Cf|exact Nd]. revert F. unfold Rlt_bool. destruct (Rcompare_spec (fval (failure_f64 p reps q pp pr)) (fval delta)) as [L|L|L]; intros F; try discriminate F.
  apply Rabs_le_inv in E. lra.
Qed.
Print Assumptions c114_confirmed.
(** the exact formula is the one of C42 *)
Lemma exact_failure_is width d reps prefix pp pr :
  failure_probability width d reps prefix pp pr = exact_failure (collision_probability_at width d) reps prefix pp pr.
Proof. reflexivity. Qed.

(** ** Repeated squaring of a number below 1 *)
Fixpoint squared (k : nat) (a : f64) : f64 := match k with O => a | S k => squared k (fmul a a) end.
Lemma squared_chance k : forall a, chance a -> chance (squared k a) /\ fval (squared k a) <= fval a.
Proof.
  induction k as [|k IH]; intros a C; cbn [squared]; [split; [exact C|lra]|].
  destruct (chance_mul a a C C) as (Cs & _ & _ & L & _). destruct (IH _ Cs). split; [assumption|lra].
Qed.
Lemma squared_S k : forall a, squared (S k) a = fmul (squared k a) (squared k a).
Proof. induction k as [|k IH]; intros a; [reflexivity|]. cbn [squared] in *. apply IH. Qed.
Lemma squared_mono k k' a : chance a -> (k <= k')%nat -> fval (squared k' a) <= fval (squared k a).
Proof.
  intros C L. induction L as [|k' L IH]; [lra|]. rewrite squared_S. destruct (squared_chance k' a C) as (Ck & _).
  destruct (chance_mul _ _ Ck Ck) as (_ & _ & _ & H & _). lra.
Qed.
Lemma powi_loop_squared b : forall a r, chance a -> chance r -> fval (powi_loop a r b) <= fval (squared (Pos.size_nat b - 1) a).
Proof.
  induction b as [b IH|b IH|]; intros a r Ca Cr; cbn [powi_loop Pos.size_nat].
  - destruct (chance_mul a a Ca Ca) as (Cs & _), (chance_mul r a Cr Ca) as (Cm & _). specialize (IH _ _ Cs Cm).
    replace (S (Pos.size_nat b) - 1)%nat with (S (Pos.size_nat b - 1)) by (destruct b; cbn; lia). exact IH.
  - destruct (chance_mul a a Ca Ca) as (Cs & _). specialize (IH _ _ Cs Cr).
    replace (S (Pos.size_nat b) - 1)%nat with (S (Pos.size_nat b - 1)) by (destruct b; cbn; lia). exact IH.
  - cbn [squared Nat.sub]. apply (chance_mul r a Cr Ca).
Qed.
Lemma size_nat_pow b k : (2 ^ k <= Pos.to_nat b)%nat -> (k < Pos.size_nat b)%nat.
Proof.
  revert k. induction b as [b IH|b IH|]; intros k L; cbn [Pos.size_nat].
  - destruct k as [|k]; [lia|]. rewrite Pos2Nat.inj_xI in L. cbn [Nat.pow] in L. specialize (IH k ltac:(lia)). lia.
  - destruct k as [|k]; [lia|]. rewrite Pos2Nat.inj_xO in L. cbn [Nat.pow] in L. specialize (IH k ltac:(lia)). lia.
  - change (Pos.to_nat 1) with 1%nat in L. destruct k as [|k]; [lia|]. exfalso. cbn [Nat.pow] in L. pose proof (Nat.pow_nonzero 2 k ltac:(lia)). lia.
Qed.
Lemma powi_squared a n k : chance a -> (2 ^ k <= n)%nat -> fval (powi a n) <= fval (squared k a).
Proof.
  intros C L. unfold powi. destruct (N.of_nat n) as [|b] eqn:E; [pose proof (Nat.pow_nonzero 2 k ltac:(lia)); lia|].
  assert (n = Pos.to_nat b) as -> by lia. eapply Rle_trans; [apply powi_loop_squared; [exact C|apply chance_one]|].
  apply squared_mono; [exact C|]. pose proof (size_nat_pow b k L). lia.
Qed.

(** below 1 there is [1 - 2^-53] *)
Lemma below_one x : fmt x -> x < 1 -> x <= 1 - bpow radix2 (-53).
Proof.
  intros F L. assert (F1 : fmt (1 - bpow radix2 (-53))).
  { replace (1 - bpow radix2 (-53)) with (IZR (2 ^ 53 - 1) * bpow radix2 (-53)); [apply fmt_int; lia|].
    rewrite minus_IZR. change (IZR (2 ^ 53)) with (bpow radix2 53). rewrite Rmult_minus_distr_r, <- bpow_plus. cbn [Z.add]. rewrite Rmult_1_l. reflexivity. }
  destruct (Rle_lt_dec x (1 - bpow radix2 (-53))) as [H|H]; [exact H|exfalso].
  assert (X0 : 0 < x). { assert (bpow radix2 (-53) <= / 2) by (change (/ 2) with (bpow radix2 (-1)); apply bpow_le; lia). lra. }
  (* x lies strictly between two consecutive multiples of 2^-53 *)
  assert (M : mag radix2 x = 0%Z :> Z).
  { apply mag_unique_pos. split; [|cbn; lra]. change (0 - 1)%Z with (-1)%Z. apply Rlt_le. eapply Rle_lt_trans; [|exact H].
    assert (bpow radix2 (-53) <= bpow radix2 (-1)) by (apply bpow_le; lia). change (bpow radix2 (-1)) with (/ 2) in *. lra. }
  unfold fmt, generic_format in F. unfold cexp, scaled_mantissa, cexp in F. rewrite M in F. change (SpecFloat.fexp prec emax 0) with (-53)%Z in F.
  unfold F2R in F. cbn [Fnum Fexp] in F. set (m := Ztrunc _) in F.
  assert (A : IZR m < IZR (2 ^ 53)). { apply Rmult_lt_reg_r with (bpow radix2 (-53)); [apply bpow_gt_0|]. rewrite <- F. change (IZR (2 ^ 53)) with (bpow radix2 53). rewrite <- bpow_plus. cbn. lra. }
  assert (B : IZR (2 ^ 53 - 1) < IZR m). { apply Rmult_lt_reg_r with (bpow radix2 (-53)); [apply bpow_gt_0|]. rewrite <- F, minus_IZR, Rmult_minus_distr_r. change (IZR (2 ^ 53)) with (bpow radix2 53). rewrite <- bpow_plus. cbn [Z.add]. rewrite Rmult_1_l. exact H. }
  apply lt_IZR in A, B. lia.
Qed.
(** one squaring moves away from 1 by a quarter at least *)
Lemma square_away a x : chance a -> fval a <= 1 - x -> bpow radix2 (-53) <= x <= / 4 -> fval (fmul a a) <= 1 - 5 / 4 * x.
Proof.
  intros C L X. destruct (chance_mul a a C C) as (_ & _ & E & _). destruct C as (_ & C). apply Rabs_le_inv in E.
  assert (H : h = / 2 * bpow radix2 (-53)) by (change (-53)%Z with (-54 + 1)%Z; rewrite bpow_plus_1; change (IZR radix2) with 2; field).
  assert (S : fval a * fval a <= (1 - x) * (1 - x)) by (apply Rmult_le_compat; lra). nra.
Qed.
Lemma squared_away a k : chance a -> fval a <= 1 - bpow radix2 (-53) -> fval (squared k a) <= Rmax (3 / 4) (1 - (5 / 4) ^ k * bpow radix2 (-53)).
Proof.
  intros C L. induction k as [|k IH]; [cbn [squared pow]; eapply Rle_trans; [exact L|]; rewrite Rmult_1_l; apply Rmax_r|].
  rewrite squared_S. destruct (squared_chance k a C) as (Ck & _). set (b := squared k a) in *. set (x := (5 / 4) ^ k * bpow radix2 (-53)) in *.
  assert (Gx : bpow radix2 (-53) <= x). { unfold x. rewrite <- (Rmult_1_l (bpow radix2 (-53))) at 1. apply Rmult_le_compat_r; [apply bpow_ge_0|]. apply pow_R1_Rle. lra. }
  cbn [pow]. replace (5 / 4 * (5 / 4) ^ k * bpow radix2 (-53)) with (5 / 4 * x) by (unfold x; ring).
  destruct (Rle_lt_dec x (/ 4)) as [Lx|Lx].
  - rewrite Rmax_right in IH by lra. eapply Rle_trans; [apply square_away with (x := x); auto|apply Rmax_r].
  - rewrite Rmax_left in IH by lra. destruct (chance_mul b b Ck Ck) as (_ & _ & _ & Lm & _). eapply Rle_trans; [|apply Rmax_l]. lra.
Qed.
Lemma squared_three_quarters a : chance a -> fval a < 1 -> exists k, fval (squared k a) <= 3 / 4.
Proof.
  intros C L. apply below_one in L; [|apply fmt_val, C].
  destruct (Pow_x_infinity (5 / 4) ltac:(rewrite Rabs_pos_eq; lra) (bpow radix2 53)) as (N & HN). exists N.
  eapply Rle_trans; [apply squared_away; assumption|]. rewrite Rmax_left; [lra|]. specialize (HN N ltac:(lia)). rewrite Rabs_pos_eq in HN by (apply pow_le; lra).
  assert (bpow radix2 53 * bpow radix2 (-53) <= (5 / 4) ^ N * bpow radix2 (-53)) by (apply Rmult_le_compat_r; [apply bpow_ge_0|lra]).
  rewrite <- bpow_plus in H. change (bpow radix2 (53 + -53)) with 1 in H. lra.
Qed.
Lemma square_half a : chance a -> fval a <= 3 / 4 -> fval (squared 3 a) <= bpow radix2 (-1).
Proof.
  intros C L. cbn [squared]. assert (S : forall b x y, chance b -> fval b <= x -> x * x + h <= y -> chance (fmul b b) /\ fval (fmul b b) <= y).
  { intros b x y Cb Lb Ly. destruct (chance_mul b b Cb Cb) as (Cm & _ & E & _). split; [exact Cm|]. apply Rabs_le_inv in E. destruct Cb as (_ & Cb).
    assert (fval b * fval b <= x * x) by (apply Rmult_le_compat; lra). lra. }
  assert (H : h <= / 1024) by (change (/ 1024) with (bpow radix2 (-10)); apply bpow_le; lia).
  destruct (S a (3 / 4) (6 / 10) C L ltac:(lra)) as (C1 & L1). destruct (S _ (6 / 10) (4 / 10) C1 L1 ltac:(lra)) as (C2 & L2).
  destruct (S _ (4 / 10) (bpow radix2 (-1)) C2 L2) as (C3 & L3); [change (bpow radix2 (-1)) with (/ 2); lra|exact L3].
Qed.
Lemma square_bpow a e : chance a -> (-1074 <= 2 * e)%Z -> fval a <= bpow radix2 e -> fval (fmul a a) <= bpow radix2 (2 * e).
Proof.
  intros C He L. destruct (chance_mul a a C C) as (_ & -> & _). apply rnd_le_fmt; [apply fmt_bpow, He|].
  replace (2 * e)%Z with (e + e)%Z by lia. rewrite bpow_plus. destruct C as (_ & C). apply Rmult_le_compat; lra.
Qed.
Lemma squared_tiny a : chance a -> fval a <= bpow radix2 (-1) -> fval (squared 11 a) < bpow radix2 (-1074).
Proof.
  intros C L. assert (G : forall k, (k <= 10)%nat -> fval (squared k a) <= bpow radix2 (- 2 ^ Z.of_nat k)).
  { induction k as [|k IH]; intros Lk; [exact L|]. rewrite squared_S. destruct (squared_chance k a C) as (Ck & _).
    rewrite Nat2Z.inj_succ, Z.pow_succ_r by lia. replace (- (2 * 2 ^ Z.of_nat k))%Z with (2 * - 2 ^ Z.of_nat k)%Z by lia. apply square_bpow; [exact Ck| |apply IH; lia].
    assert (2 ^ Z.of_nat k <= 2 ^ 9)%Z by (apply Z.pow_le_mono_r; lia). lia. }
  specialize (G 10%nat ltac:(lia)). change (- 2 ^ Z.of_nat 10)%Z with (-1024)%Z in G. rewrite squared_S. destruct (squared_chance 10 a C) as (Ck & _).
  destruct (chance_mul _ _ Ck Ck) as (_ & -> & _). set (x := fval (squared 10 a)) in *. destruct Ck as (_ & Ck). fold x in Ck.
  pose proof (err_any (x * x)) as E. apply Rabs_le_inv in E. rewrite (Rabs_pos_eq (x * x)) in E by (apply Rmult_le_pos; lra).
  assert (X : x * x <= bpow radix2 (-1077)). { eapply Rle_trans; [apply Rmult_le_compat; [lra|lra|exact G|exact G]|]. rewrite <- bpow_plus. apply bpow_le. lia. }
  assert (U : bpow radix2 (-53) <= 1) by (change 1 with (bpow radix2 0); apply bpow_le; lia).
  assert (P : 0 < bpow radix2 (-1077)) by apply bpow_gt_0.
  replace (bpow radix2 (-1074)) with (8 * bpow radix2 (-1077)) by (change (-1074)%Z with (3 + -1077)%Z; rewrite bpow_plus; reflexivity).
  replace (bpow radix2 (-1075)) with (4 * bpow radix2 (-1077)) in E by (change (-1075)%Z with (2 + -1077)%Z; rewrite bpow_plus; reflexivity).
  assert (bpow radix2 (-53) * (x * x) <= x * x) by (rewrite <- (Rmult_1_l (x * x)) at 2; apply Rmult_le_compat_r; [apply Rmult_le_pos; lra|exact U]). lra.
Qed.
Lemma squared_add j k a : squared (j + k) a = squared k (squared j a).
Proof. revert a. induction j as [|j IH]; intros a; [reflexivity|]. cbn [Nat.add squared]. apply IH. Qed.
Lemma powers_vanish a delta : chance a -> fval a < 1 -> number delta -> 0 < fval delta ->
  exists R, forall n, (R <= n)%nat -> fval (powi a n) < fval delta.
Proof.
  intros C L Nd Pd. destruct (squared_three_quarters a C L) as (k & Hk). exists (2 ^ (k + (3 + 11)))%nat. intros n Ln.
  eapply Rle_lt_trans; [apply powi_squared; [exact C|exact Ln]|]. rewrite squared_add.
  destruct (squared_chance k a C) as (Ck & _). rewrite squared_add. destruct (squared_chance 3 _ Ck) as (C3 & _).
  eapply Rlt_le_trans; [apply squared_tiny; [exact C3|apply square_half; assumption]|].
  apply (generic_format_ge_bpow radix2 (SpecFloat.fexp prec emax)); [intros e; unfold SpecFloat.fexp, SpecFloat.emin, prec, emax; lia|exact Pd|apply fmt_val, Nd].
Qed.

(** Enough repetitions bring it below any bound, if the collision probability is not too
    small for its power.  Missing: smaller ones, see below. *)
Theorem c114_fades_partial :
  forall (p : f64) (prefix : nat) (prev_prefix prev_prefix_repetitions : option nat) (delta : f64),
    chance p -> INR (prefix + 1) * bpow radix2 (-54) < fval p ^ prefix ->
    number delta -> 0 < fval delta ->
    exists R, forall reps, (R <= reps)%nat ->
      flt (failure_f64 p reps prefix prev_prefix prev_prefix_repetitions) delta = true.
Proof.
  intros p q pp pr delta C H Nd Pd. destruct (powi_ok p q C) as (C1 & E1). destruct (chance_complement _ C1) as (C2 & _ & E2).
  assert (L : fval (fsub f_one (powi p q)) < 1).
  { apply Rabs_le_inv in E1, E2. rewrite plus_INR in H. change (INR 1) with 1 in H. lra. }
  destruct (powers_vanish _ delta C2 L Nd Pd) as (R & HR). exists R. intros reps Lr. specialize (HR reps Lr).
  destruct (powi_ok _ reps C2) as (C3 & _). pose proof (c114_accuracy p reps q pp pr C) as (Cf & _). cbv zeta in Cf.
  rewrite flt_val; [|apply Cf|exact Nd]. apply Rlt_bool_true. eapply Rle_lt_trans; [|exact HR].
  unfold failure_f64. destruct pp as [q'|], pr as [m|]; try apply (chance_mul _ _ C3 chance_one).
  destruct (miss_ok p q' (m - reps) C) as (C4 & _). apply (chance_mul _ _ C3 C4).
Qed.
Print Assumptions c114_fades_partial.

(** With a collision probability of 1/128 the probability of a collision at prefix 8 is lost
    in the rounding of [1 - p^8]: the failure probability stays 1 for ever, although the exact
    one vanishes. *)
Definition small : f64 := S754_finite false 4503599627370496 (-59).
Lemma small_val : fval small = / 128. Proof. unfold fval, small, SF2R, F2R. cbn. field. Qed.
Lemma powi_one n : powi f_one n = f_one.
Proof.
  unfold powi. destruct (N.of_nat n) as [|b]; [reflexivity|]. induction b as [b IH|b IH|]; cbn [powi_loop]; try reflexivity.
  - replace (fmul f_one f_one) with f_one by reflexivity. exact IH.
  - replace (fmul f_one f_one) with f_one by reflexivity. exact IH.
Qed.
Theorem c114_fades_refuted :
  exists p : f64, chance p /\ 0 < fval p /\
    (forall reps, failure_f64 p reps 8 None None = f_one) /\
    forall delta, 0 < delta -> exists R, forall reps, (R <= reps)%nat -> exact_failure (fval p) reps 8 None None < delta.
Proof.
  exists small. split; [split; [split; reflexivity|rewrite small_val; lra]|]. split; [rewrite small_val; lra|]. split.
  - intros reps. unfold failure_f64. replace (fsub f_one (powi small 8)) with f_one by (vm_compute; reflexivity). rewrite powi_one. reflexivity.
  - intros delta Pd. assert (P : 0 < fval small ^ 8 <= 1) by (split; [apply pow_lt; rewrite small_val; lra|apply unit_pow; rewrite small_val; lra]).
    destruct (pow_lt_1_zero (1 - fval small ^ 8) ltac:(rewrite Rabs_pos_eq; lra) delta Pd) as (N & HN). exists N. intros reps L. specialize (HN reps L).
    rewrite Rabs_pos_eq in HN by (apply pow_le; lra). unfold exact_failure. rewrite Rmult_1_r. exact HN.
Qed.
Print Assumptions c114_fades_refuted.

Definition one_half : f64 := S754_finite false 4503599627370496 (-53).
Lemma one_half_val : fval one_half = / 2. Proof. unfold fval, one_half, SF2R, F2R. cbn. field. Qed.
Example c114_case : chance one_half /\ INR (8 + 1) * bpow radix2 (-54) < fval one_half ^ 8 /\
  failure_f64 one_half 3 2 (Some 3%nat) (Some 5%nat) = S754_finite false 5818615534190592 (-54).
Proof.
  split; [split; [split; reflexivity|rewrite one_half_val; lra]|]. split; [|vm_compute; reflexivity].
  rewrite one_half_val. change (/ 2) with (bpow radix2 (-1)). assert (E : bpow radix2 (-1) ^ 8 = bpow radix2 (-8)) by (cbn; field). rewrite E.
  replace (bpow radix2 (-8)) with (bpow radix2 46 * bpow radix2 (-54)) by (rewrite <- bpow_plus; reflexivity).
  apply Rmult_lt_compat_r; [apply bpow_gt_0|]. cbn. lra.
Qed.

(** A search for one pair that computes the failure probability so ends, if no distance
    between windows has a collision probability below 1/64. *)
Lemma sixty_fourth x q : / 64 <= x -> (1 <= q <= 8)%nat -> INR (q + 1) * bpow radix2 (-54) < x ^ q.
Proof.
  intros Lx Lq. apply Rlt_le_trans with ((/ 64) ^ q); [|apply pow_incr; lra].
  apply Rlt_le_trans with ((/ 64) ^ 8).
  - replace ((/ 64) ^ 8) with (bpow radix2 6 * bpow radix2 (-54)) by (cbn; field). apply Rmult_lt_compat_r; [apply bpow_gt_0|].
    apply Rle_lt_trans with (INR 9); [apply le_INR; lia|cbn; lra].
  - replace 8%nat with (q + (8 - q))%nat by lia. rewrite pow_add. rewrite <- (Rmult_1_r ((/ 64) ^ q)) at 2. apply Rmult_le_compat_l; [apply pow_le; lra|].
    rewrite <- (pow1 (8 - q)). apply pow_incr. lra.
Qed.
Theorem c114_pair_ends_partial :
  forall (p : problem) (a b : nat) (d : f64) (s0 : iter) (collision : f64 -> f64),
    sound p -> seed_ok p a b d -> well_behaved p d -> p_top_k p = 1%nat -> p_max_k p = 2%nat ->
    (forall e reps q prev m, p_failure p e reps q prev m = failure_f64 (collision e) reps q prev m) ->
    (forall e, e = d \/ (exists i j, (i < p_n p)%nat /\ (j < p_n p)%nat /\ e = p_zeucl p i j) -> is_finite e = true ->
       chance (collision e) /\ / 64 <= fval (collision e)) ->
    number (p_delta p) -> 0 < fval (p_delta p) ->
    iter_new p a b d = Ret s0 ->
    (forall cbs, exists s answers, returns (session p a b d cbs) (s, answers)) /\
    exists n s answers, returns (session p a b d (repeat (fun _ => true) n)) (s, answers ++ [End]).
Proof.
  intros p a b d s0 co Sd So W H1 H2 Hf Hc Nd Pd E. apply (c41_pair_ends_partial p a b d s0); auto.
  intros e q prev m He Fe Lq. destruct (Hc e He Fe) as (C & L).
  destruct (c114_fades_partial (co e) q prev m (p_delta p) C (sixty_fourth _ _ L Lq) Nd Pd) as (R & HR). exists R. intros r Lr. rewrite Hf. apply HR, Lr.
Qed.
Print Assumptions c114_pair_ends_partial.
Definition toy_computed : problem := {|
  p_n := 13; p_ez := 2; p_max_k := 2; p_top_k := 1;
  p_zeucl := toy_distance; p_zeucl_threshold := below toy_distance;
  p_table := fun _ _ => (toy_hashes, [0; 4; 8; 12]%N);
  p_failure := fun _ => failure_f64 one_half;
  p_delta := one_half; p_coin := fun _ _ _ => false;
  p_expected := toy_expected; p_setup_cost := fl 1; p_collision_cost := fl 1; p_max_repetitions := 100;
  p_buffer := 4; p_threshold := 7; p_stop := false; p_nan_first := true |}.
Example c114_pair_case : sound toy_computed /\ seed_ok toy_computed 4 8 (fl 2) /\ well_behaved toy_computed (fl 2) /\
  chance one_half /\ / 64 <= fval one_half /\ number (p_delta toy_computed) /\ 0 < fval (p_delta toy_computed) /\
  exists s, iter_new toy_computed 4 8 (fl 2) = Ret s.
Proof.
  split; [destruct toy_sound as [A B C D E F G H]; split; auto|]. split; [exact toy_seed|]. split; [destruct toy_behaved; split; auto|].
  split; [split; [split; reflexivity|rewrite one_half_val; lra]|]. split; [rewrite one_half_val; lra|]. split; [split; reflexivity|].
  split; [cbn [p_delta toy_computed]; rewrite one_half_val; lra|]. eexists. vm_compute. reflexivity.
Qed.
