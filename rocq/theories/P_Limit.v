(** C116: the limit on collisions. *)
From Coq Require Import Reals Lra Lia Floats.SpecFloat.
From Flocq Require Import Core Relative BinarySingleNaN.
From Verif Require Import Base F64 HashValue HashSpec Enumerator EnumSpec OverlapsSpec Profile TopK Graph Iterator IteratorSpec FpOps FloatBound FloatThr FloatErr
  RealProofs Series SeriesProofs Counts Powi P_Powi P_Series P_Windows P_Iterator P_Iterator2 P_Ties.
Local Open Scope R_scope.

(** ** Casts *)
Lemma of_N_nat n : f_of_N n = f_of_nat (N.to_nat n).
Proof. unfold f_of_N, f_of_nat. rewrite N_nat_Z. reflexivity. Qed.
Lemma of_N_exact n : (n <= 2 ^ 53)%N -> number (f_of_N n) /\ fval (f_of_N n) = IZR (Z.of_N n).
Proof.
  intros L. rewrite of_N_nat. destruct (of_nat_exact (N.to_nat n)) as (A & B); [lia|].
  split; [exact A|]. rewrite B, INR_IZR_INZ, N_nat_Z. reflexivity.
Qed.
Lemma as_usize_floor x : number x -> 0 <= fval x < IZR (2 ^ 64) ->
  IZR (Z.of_N (as_usize x)) <= fval x < IZR (Z.of_N (as_usize x)) + 1.
Proof.
  intros (V & F) (L & U). destruct x as [s|s| |s m e]; try discriminate F.
  - change (fval (S754_zero s)) with 0. destruct s; cbn; lra.
  - destruct s.
    + exfalso. assert (fval (S754_finite true m e) < 0) by (unfold fval; cbn [SF2R]; apply F2R_lt_0; cbn; lia). lra.
    + unfold fval in *. cbn [SF2R cond_Zopp] in *.
      set (q := match e with Zneg k => (N.pos m / 2 ^ N.pos k)%N | _ => (N.pos m * 2 ^ Z.to_N e)%N end).
      assert (H : IZR (Z.of_N q) <= F2R (Float radix2 (Zpos m) e) < IZR (Z.of_N q) + 1).
      { unfold F2R. cbn [Fnum Fexp]. destruct e as [|k|k]; subst q.
        - cbn [bpow Z.to_N]. rewrite N.pow_0_r, N.mul_1_r. change (Z.of_N (N.pos m)) with (Zpos m). lra.
        - replace (bpow radix2 (Zpos k)) with (IZR (2 ^ Zpos k)) by (rewrite <- IZR_Zpower by lia; reflexivity).
          rewrite <- mult_IZR. rewrite N2Z.inj_mul, N2Z.inj_pow, Z2N.id by lia. change (Z.of_N (N.pos m)) with (Zpos m). change (Z.of_N 2) with 2%Z. lra.
        - rewrite N2Z.inj_div, N2Z.inj_pow. change (Z.of_N (N.pos m)) with (Zpos m). change (Z.of_N 2) with 2%Z. change (Z.of_N (N.pos k)) with (Zpos k).
          change (Zneg k) with (- Zpos k)%Z. rewrite bpow_opp.
          replace (bpow radix2 (Zpos k)) with (IZR (2 ^ Zpos k)) by (rewrite <- IZR_Zpower by lia; reflexivity).
          assert (P : (0 < 2 ^ Zpos k)%Z) by (apply Z.pow_pos_nonneg; lia). set (d := (2 ^ Zpos k)%Z) in *. clearbody d.
          pose proof (Z.div_mod (Zpos m) d ltac:(lia)) as D. pose proof (Z.mod_pos_bound (Zpos m) d P) as R.
          set (a := (Zpos m / d)%Z) in *. assert (Pr : 0 < IZR d) by (apply IZR_lt; exact P).
          assert (E1 : IZR (Zpos m) = IZR d * IZR a + IZR (Zpos m mod d)) by (rewrite <- mult_IZR, <- plus_IZR; f_equal; exact D).
          destruct R as (R1 & R2). apply IZR_le in R1. apply IZR_lt in R2.
          split; apply (Rmult_le_reg_r (IZR d)) || apply (Rmult_lt_reg_r (IZR d)); try exact Pr; rewrite Rmult_assoc, Rinv_l by lra; lra. }
      assert (Q : (q <= 2 ^ 64 - 1)%N).
      { assert (IZR (Z.of_N q) < IZR (2 ^ 64)) by lra. apply lt_IZR in H0. lia. }
      change (as_usize (S754_finite false m e)) with (N.min (2 ^ 64 - 1) q). rewrite N.min_r by exact Q. exact H.
Qed.

(** * C116: the limit on collisions *)
(** the limit for a fraction of the pairs, as a function of the number of pairs *)
Definition limit_of (pairs : N) (fraction : f64) : N := as_usize (fmul (f_of_N pairs) fraction).
Lemma product pairs fraction : (pairs <= 2 ^ 53)%N -> number fraction -> 0 <= fval fraction <= 1 ->
  number (fmul (f_of_N pairs) fraction) /\
  fval (fmul (f_of_N pairs) fraction) = rnd (IZR (Z.of_N pairs) * fval fraction) /\
  0 <= fval (fmul (f_of_N pairs) fraction) <= IZR (Z.of_N pairs) /\
  Rabs (fval (fmul (f_of_N pairs) fraction) - IZR (Z.of_N pairs) * fval fraction) <= IZR (Z.of_N pairs) * bpow radix2 (-53).
Proof.
  intros L Nf (F0 & F1). destruct (of_N_exact pairs L) as (Np & Vp).
  assert (P : 0 <= IZR (Z.of_N pairs)) by (apply IZR_le; lia).
  assert (Fp : fmt (IZR (Z.of_N pairs))) by (rewrite <- Vp; apply fmt_val, Np).
  assert (T : IZR (Z.of_N pairs) < top).
  { apply Rle_lt_trans with (bpow radix2 53); [change (bpow radix2 53) with (IZR (2 ^ 53)); apply IZR_le; lia|apply bpow_lt; reflexivity]. }
  assert (B : 0 <= IZR (Z.of_N pairs) * fval fraction <= IZR (Z.of_N pairs)).
  { split; [apply Rmult_le_pos; assumption|]. rewrite <- (Rmult_1_r (IZR (Z.of_N pairs))) at 2. apply Rmult_le_compat_l; lra. }
  destruct (fmul_le (f_of_N pairs) fraction (IZR (Z.of_N pairs)) Np Nf Fp T) as (N & V & _); [rewrite Vp, Rabs_pos_eq; lra|].
  rewrite Vp in V. split; [exact N|]. split; [exact V|]. rewrite V. split.
  { split; [apply rnd_ge; [apply fmt0|lra]|apply rnd_le_fmt; [exact Fp|lra]]. }
  destruct (Req_dec (IZR (Z.of_N pairs)) 0) as [Z|Z].
  { rewrite Z, !Rmult_0_l, rnd0, Rminus_0_r, Rabs_R0. lra. }
  assert (P1 : 1 <= IZR (Z.of_N pairs)).
  { apply (IZR_le 1). assert (Z.of_N pairs <> 0%Z) by (intros Q; rewrite Q in Z; apply Z; reflexivity). lia. }
  set (x := IZR (Z.of_N pairs) * fval fraction) in *.
  destruct (Rle_lt_dec (bpow radix2 (-1022)) (Rabs x)) as [H|H].
  - eapply Rle_trans; [apply rel_err, H|]. rewrite Rabs_pos_eq by lra. rewrite Rmult_comm. apply Rmult_le_compat_r; [apply bpow_ge_0|lra].
  - eapply Rle_trans; [apply err_any|]. rewrite Rabs_pos_eq in H |- * by lra.
    apply Rle_trans with (bpow radix2 (-53)); [|rewrite <- (Rmult_1_l (bpow radix2 (-53))) at 1; apply Rmult_le_compat_r; [apply bpow_ge_0|exact P1]].
    assert (bpow radix2 (-53) * x <= bpow radix2 (-53) * bpow radix2 (-1022)) by (apply Rmult_le_compat_l; [apply bpow_ge_0|lra]).
    rewrite <- bpow_plus in H0. assert (bpow radix2 (-53 + -1022) <= bpow radix2 (-54)) by (apply bpow_le; lia).
    assert (bpow radix2 (-1075) <= bpow radix2 (-54)) by (apply bpow_le; lia).
    replace (bpow radix2 (-53)) with (bpow radix2 (-54) + bpow radix2 (-54)) in * ; [unfold u, tiny in *; lra|].
    change (-53)%Z with (-54 + 1)%Z. rewrite bpow_plus_1. change (IZR radix2) with 2. ring.
Qed.
Lemma pairs_small n : (n <= 2 ^ 27)%N -> (n * (n - 1) / 2 <= 2 ^ 53)%N.
Proof.
  intros L. apply N.le_trans with (2 ^ 27 * 2 ^ 27 / 2)%N; [|reflexivity]. apply N.div_le_mono; [discriminate|]. apply N.mul_le_mono; lia.
Qed.
Lemma limit_eq ts w precise s checks fraction :
  (1 <= w)%nat -> series_new ts w precise = Ret s -> (1 <= num_subsequences s)%nat -> (N.of_nat (num_subsequences s) <= 2 ^ 27)%N ->
  python_limit checks s fraction = Ret (limit_of (N.of_nat (length (window_pairs (num_subsequences s)))) fraction) /\
  (N.of_nat (length (window_pairs (num_subsequences s))) <= 2 ^ 53)%N.
Proof.
  intros Lw E L1 L. destruct (c115_pairs ts w precise s checks Lw E) as (_ & _ & P).
  { apply N.le_trans with (2 ^ 27)%N; [exact L|discriminate]. }
  destruct P as [P|(_ & Z & _)]; [|lia]. split; [unfold python_limit; rewrite P; reflexivity|].
  pose proof (window_pairs_length (num_subsequences s)) as Q. pose proof (pairs_small _ L) as B.
  set (n := num_subsequences s) in *. clearbody n.
  replace (N.of_nat (length (window_pairs n))) with (N.of_nat n * (N.of_nat n - 1) / 2)%N; [exact B|].
  symmetry. apply (N.div_unique _ _ _ 0); [reflexivity|]. nia.
Qed.

(** A fraction of the pairs of windows: the limit is that fraction, rounded down, up to the
    error of one rounding; it never exceeds the number of pairs, and a larger fraction never
    gives a smaller limit. *)
Theorem c116_fraction :
  forall (ts : list R) (w : nat) (precise checks : bool) (s : series) (fraction : f64),
    (1 <= w)%nat -> series_new ts w precise = Ret s ->
    (1 <= num_subsequences s)%nat -> (N.of_nat (num_subsequences s) <= 2 ^ 27)%N ->
    number fraction -> 0 <= fval fraction <= 1 ->
    exists limit : N, python_limit checks s fraction = Ret limit /\
      (limit <= N.of_nat (length (window_pairs (num_subsequences s))))%N /\
      let pairs := INR (length (window_pairs (num_subsequences s))) in
      fval fraction * pairs - 1 - pairs / 2 ^ 53 < IZR (Z.of_N limit) <= fval fraction * pairs + pairs / 2 ^ 53.
Proof.
  intros ts w precise checks s fraction Lw E L1 L Nf F. destruct (limit_eq ts w precise s checks fraction Lw E L1 L) as (P & B).
  eexists. split; [exact P|]. set (n := length (window_pairs (num_subsequences s))) in *. clearbody n.
  destruct (product (N.of_nat n) fraction B Nf F) as (N & _ & (V0 & V1) & A).
  assert (En : IZR (Z.of_N (N.of_nat n)) = INR n) by (rewrite nat_N_Z, <- INR_IZR_INZ; reflexivity). rewrite En in *.
  assert (T : INR n < IZR (2 ^ 64)) by (rewrite <- En; apply IZR_lt; lia).
  pose proof (as_usize_floor _ N ltac:(lra)) as (G1 & G2). fold (limit_of (N.of_nat n) fraction) in G1, G2.
  split.
  - assert (IZR (Z.of_N (limit_of (N.of_nat n) fraction)) <= IZR (Z.of_N (N.of_nat n))) by lra. apply le_IZR in H. lia.
  - cbv zeta. apply Rabs_le_inv in A. replace (INR n / 2 ^ 53) with (INR n * bpow radix2 (-53)).
    + set (e := INR n * bpow radix2 (-53)) in *. clearbody e. rewrite (Rmult_comm (fval fraction)). lra.
    + unfold Rdiv. f_equal. change (bpow radix2 (-53)) with (/ IZR (2 ^ 53)). f_equal. rewrite pow_IZR. f_equal.
Qed.
Print Assumptions c116_fraction.

Theorem c116_monotone :
  forall (ts : list R) (w : nat) (precise checks : bool) (s : series) (fraction fraction' : f64) (limit limit' : N),
    (1 <= w)%nat -> series_new ts w precise = Ret s ->
    (1 <= num_subsequences s)%nat -> (N.of_nat (num_subsequences s) <= 2 ^ 27)%N ->
    number fraction -> number fraction' -> 0 <= fval fraction <= fval fraction' -> fval fraction' <= 1 ->
    python_limit checks s fraction = Ret limit -> python_limit checks s fraction' = Ret limit' -> (limit <= limit')%N.
Proof.
  intros ts w precise checks s f f' l l' Lw E L1 L Nf Nf' F F' El El'.
  destruct (limit_eq ts w precise s checks f Lw E L1 L) as (P & B). destruct (limit_eq ts w precise s checks f' Lw E L1 L) as (P' & _).
  rewrite P in El. rewrite P' in El'. apply Ret_inj in El. apply Ret_inj in El'. subst l l'.
  set (n := N.of_nat (length (window_pairs (num_subsequences s)))) in *. clearbody n.
  destruct (product n f B Nf ltac:(lra)) as (N & V & (V0 & V1) & _). destruct (product n f' B Nf' ltac:(lra)) as (N' & V' & (V0' & V1') & _).
  assert (T : IZR (Z.of_N n) < IZR (2 ^ 64)) by (apply IZR_lt; lia).
  pose proof (as_usize_floor _ N ltac:(lra)) as (G1 & G2). pose proof (as_usize_floor _ N' ltac:(lra)) as (G1' & G2').
  assert (M : rnd (IZR (Z.of_N n) * fval f) <= rnd (IZR (Z.of_N n) * fval f')).
  { apply round_le; try typeclasses eauto. apply Rmult_le_compat_l; [apply IZR_le; lia|lra]. }
  unfold limit_of. set (a := as_usize (fmul (f_of_N n) f)) in *. set (b := as_usize (fmul (f_of_N n) f')) in *.
  assert (IZR (Z.of_N a) < IZR (Z.of_N b) + 1) by lra. rewrite <- plus_IZR in H. apply lt_IZR in H. lia.
Qed.
Print Assumptions c116_monotone.

(** All of the pairs, none of them, and the limit of a search made without this option: a
    tenth. *)
Theorem c116_ends :
  forall (ts : list R) (w : nat) (precise checks : bool) (s : series) (fraction : f64),
    (1 <= w)%nat -> series_new ts w precise = Ret s ->
    (1 <= num_subsequences s)%nat -> (N.of_nat (num_subsequences s) <= 2 ^ 27)%N ->
    number fraction ->
    (fval fraction = 1 -> python_limit checks s fraction = Ret (N.of_nat (length (window_pairs (num_subsequences s))))) /\
    (fval fraction = 0 -> python_limit checks s fraction = Ret 0%N) /\
    exists limit : N, default_limit checks s = Ret limit /\
      (10 * limit <= N.of_nat (length (window_pairs (num_subsequences s))) < 10 * limit + 10)%N.
Proof.
  intros ts w precise checks s f Lw E L1 L Nf. destruct (limit_eq ts w precise s checks f Lw E L1 L) as (P & B).
  destruct (c115_pairs ts w precise s checks Lw E) as (_ & _ & Q).
  { apply N.le_trans with (2 ^ 27)%N; [exact L|discriminate]. }
  destruct Q as [Q|(_ & Z & _)]; [|lia].
  rewrite P. set (n := N.of_nat (length (window_pairs (num_subsequences s)))) in *. clearbody n.
  assert (T : IZR (Z.of_N n) < IZR (2 ^ 64)) by (apply IZR_lt; lia).
  split; [|split].
  - intros F. destruct (product n f B Nf ltac:(lra)) as (N & V & (V0 & V1) & _). destruct (of_N_exact n B) as (Nn & Vn).
    rewrite F, Rmult_1_r, rnd_id in V by (rewrite <- Vn; apply fmt_val, Nn).
    pose proof (as_usize_floor _ N ltac:(lra)) as (G1 & G2). fold (limit_of n f) in G1, G2. rewrite V in G1, G2. f_equal.
    apply le_IZR in G1. rewrite <- plus_IZR in G2. apply lt_IZR in G2. lia.
  - intros F. destruct (product n f B Nf ltac:(lra)) as (N & V & (V0 & V1) & _).
    rewrite F, Rmult_0_r, rnd0 in V. pose proof (as_usize_floor _ N ltac:(lra)) as (G1 & G2). fold (limit_of n f) in G1, G2. rewrite V in G1, G2. f_equal.
    apply (le_IZR _ 0) in G1. lia.
  - exists (n / 10)%N. split; [unfold default_limit, stats; rewrite Q; reflexivity|].
    pose proof (N.div_mod n 10 ltac:(discriminate)). pose proof (N.mod_lt n 10 ltac:(discriminate)). lia.
Qed.
Print Assumptions c116_ends.

(** ** What the limit is compared with *)
(** The number compared with the limit is at most the number of pairs times the number of
    repetitions: a search whose limit is as large is never stopped. *)
Local Open Scope nat_scope.
Theorem c116_not_stopped_partial :
  forall (p : problem) (a b : nat) (d : f64) (s : iter),
    sound p -> seed_ok p a b d -> reachable p a b d s ->
    (forall t, In t (it_tables s) -> length (fst t) <= p_n p) ->
    length (it_tables s) * length (window_pairs (p_n p)) <= p_threshold p ->
    (p_threshold p <? it_candidates s) = false.
Proof.
  intros p a b d s Sd So R Ht L. pose proof (c72_candidates_bounded p a b d s Sd So R) as B. apply Nat.ltb_ge.
  etransitivity; [exact B|]. etransitivity; [|exact L]. pose proof (window_pairs_length (p_n p)) as P.
  assert (Q : forall t, In t (it_tables s) -> length (fst t) * (length (fst t) - 1) / 2 <= length (window_pairs (p_n p))).
  { intros t Hin. apply Nat.div_le_upper_bound; [lia|]. rewrite P. specialize (Ht t Hin). nia. }
  clear - Q. induction (it_tables s) as [|t l IH]; [apply Nat.le_0_l|]. cbn [map length].
  pose proof (Q t (or_introl eq_refl)). specialize (IH (fun t H => Q t (or_intror H))). unfold list_sum in *. cbn [fold_right]. rewrite Nat.mul_succ_l. lia.
Qed.
Print Assumptions c116_not_stopped_partial.

(** Three windows are copies of each other and collide in every repetition; no pair is ever
    confirmed. *)
Definition thrice : problem := {|
  p_n := 6; p_ez := 2; p_max_k := 2; p_top_k := 1;
  p_zeucl := fun _ _ => fl 1; p_zeucl_threshold := fun _ _ _ => Some (fl 1);
  p_table := fun _ _ => (toy_hashes, [0; 2; 4; 5]%N);
  p_failure := fun _ _ _ _ _ => f_one;
  p_delta := half; p_coin := fun _ _ _ => true;
  p_expected := toy_expected; p_setup_cost := fl 1; p_collision_cost := fl 1; p_max_repetitions := 100;
  p_buffer := 10; p_threshold := 15; p_stop := true; p_nan_first := true |}.
(** A limit as large as the number of pairs still stops the search: a pair is counted again in
    every repetition.  The search, which would go on without the limit, returns a pair that is
    not confirmed, and ends. *)
Theorem c116_all_pairs_refuted :
  exists (p : problem) (a b : nat) (d : f64) (fuel : nat) (s : iter),
    sound p /\ seed_ok p a b d /\ p_stop p = true /\
    p_threshold p = length (window_pairs (p_n p)) /\
    (forall d reps prefix q r, p_failure p d reps prefix q r = f_one) /\ flt (p_delta p) f_one = true /\
    (forall r k t, p_table p r k = t -> length (fst t) <= p_n p /\ NoDup (snd t)) /\
    session p a b d [always; always] fuel = Ret (s, [Item (Motiflet [a; b] d); End]).
Proof.
  exists thrice, 0, 2, (fl 1), 30.
  eexists. split; [|split; [|split; [reflexivity|split; [reflexivity|split; [reflexivity|split; [reflexivity|split]]]]]].
  - split; cbn [thrice p_ez p_buffer p_table p_n p_zeucl p_zeucl_threshold p_expected fst snd].
    + lia.
    + lia.
    + intros r k _. split; [apply table_ok_check; vm_compute; reflexivity|discriminate].
    + intros r k x i _ H. left. apply nth_error_In in H. cbn in H. intuition (subst; reflexivity).
    + intros a b t d H. injection H as <-. reflexivity.
    + intros i j _. reflexivity.
    + reflexivity.
    + reflexivity.
  - repeat split; cbn; try lia. unfold too_close. lia.
  - intros r k t <-. split; [cbn; lia|]. cbn. repeat constructor; cbn; intuition discriminate.
  - vm_compute. reflexivity.
Qed.
Print Assumptions c116_all_pairs_refuted.

Local Open Scope R_scope.
(** The series 0, 1, 3, 0, 1 and windows of length 2: three windows, three pairs. *)
Example c116_case : exists s, series_new [0; 1; 3; 0; 1] 2 true = Ret s /\ num_subsequences s = 3%nat /\ number half /\ fval half = / 2 /\ python_limit true s half = Ret 1%N /\ python_limit false s f_one = Ret 3%N /\ default_limit true s = Ret 0%N.
Proof.
  eexists. split; [apply series_new_ok; cbn; lia|]. split; [reflexivity|]. split; [split; reflexivity|].
  split; [unfold fval, half, SF2R, F2R; cbn; field|]. repeat split.
Qed.
(** The search of [toy] with a limit of 700 for 78 pairs and 8 repetitions. *)
Definition roomy : problem := {|
  p_n := 13; p_ez := 2; p_max_k := 3; p_top_k := 1;
  p_zeucl := toy_distance; p_zeucl_threshold := below toy_distance;
  p_table := fun _ _ => (toy_hashes, [0; 4; 8; 12]%N);
  p_failure := fun _ reps _ _ _ => if (reps <? 3)%nat then fl 1 else f_zero;
  p_delta := half; p_coin := fun _ _ _ => true;
  p_expected := toy_expected; p_setup_cost := fl 1; p_collision_cost := fl 1; p_max_repetitions := 100;
  p_buffer := 4; p_threshold := 700; p_stop := true; p_nan_first := true |}.
Example c116_search_case : exists s, sound roomy /\ seed_ok roomy 4 8 (fl 2) /\ reachable roomy 4 8 (fl 2) s /\ (0 < it_candidates s)%nat /\
  (forall t, In t (it_tables s) -> length (fst t) <= p_n roomy)%nat /\
  (length (it_tables s) * length (window_pairs (p_n roomy)) <= p_threshold roomy)%nat.
Proof.
  assert (E : exists s answers, session roomy 4 8 (fl 2) toy_calls 30 = Ret (s, answers) /\ it_candidates s = 9%nat /\
            it_tables s = repeat (toy_hashes, [0; 4; 8; 12]%N) 8) by (eexists; eexists; vm_compute; auto).
  destruct E as (s & answers & E & C & T). exists s. split; [destruct toy_sound; split; assumption|]. split; [exact toy_seed|].
  split; [exists toy_calls, 30%nat, answers; exact E|]. rewrite C, T. split; [lia|]. split.
  - intros t Ht. apply repeat_spec in Ht. subst t. cbn. lia.
  - vm_compute. lia.
Qed.
