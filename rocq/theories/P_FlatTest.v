(** C149: the flatness test and its threshold; C150: windows beyond the end.  Specification: the
    number 0.0001 rounded to the nearest [f64] ([rnd], FpOps.v).  Model: FloatSeries.v, Series.v. *)
From Coq Require Import Reals Lra Lia Floats.SpecFloat.
From Flocq Require Import Core BinarySingleNaN.
From Verif Require Import Base F64 Iterator F64Arith FpOps Series FloatSeries FloatProofs FloatBound FloatErr FloatDist FloatHash P_Float P_Acc.
Import FpOps.
Local Open Scope R_scope.

Lemma threshold_nearest : fval fflat_threshold = rnd (/ 10000).
Proof.
  unfold rnd, round. assert (Mg : mag radix2 (/ 10000) = (-13)%Z :> Z).
  { apply mag_unique. rewrite Rabs_pos_eq by lra. change (bpow radix2 (-13 - 1)) with (/ 16384). change (bpow radix2 (-13)) with (/ 8192). lra. }
  assert (Ce : cexp radix2 (SpecFloat.fexp prec emax) (/ 10000) = (-66)%Z) by (unfold cexp; rewrite Mg; reflexivity).
  unfold scaled_mantissa. rewrite Ce. rewrite (Znearest_imp _ _ 7378697629483821).
  - reflexivity.
  - change (bpow radix2 (- -66)) with 73786976294838206464. apply Rabs_lt. lra.
Qed.

(** The deviation recorded for window [i] is compared with the [f64] nearest to 0.0001, and a
    deviation equal to it counts as flat; one that is not a number does not; beyond the
    recorded windows the test aborts. *)
Theorem c149_flat :
  forall (s : fseries) (i : nat),
    (forall sd, nth_error (fs_sd s) i = Some sd -> number sd ->
       (fval sd <= rnd (/ 10000) -> fis_flat s i = Ret true) /\ (rnd (/ 10000) < fval sd -> fis_flat s i = Ret false)) /\
    (nth_error (fs_sd s) i = Some S754_nan -> fis_flat s i = Ret false) /\
    ((length (fs_sd s) <= i)%nat -> fis_flat s i = Panic).
Proof.
  intros s i. rewrite <- threshold_nearest. unfold fis_flat, fsd, get. split; [|split].
  - intros sd -> N. cbn [bind]. rewrite (fle_val sd fflat_threshold N threshold_number). split; intros H; f_equal.
    + apply Rle_bool_true, H.
    + apply Rle_bool_false, H.
  - intros ->. reflexivity.
  - intros L. apply nth_error_None in L. rewrite L. reflexivity.
Qed.
Print Assumptions c149_flat.
(** a deviation of one half is not flat, one of zero is; the [f64] nearest to 0.0001 is flat,
    and the next one is not *)
Example c149_flat_case :
  let next := S754_finite false 7378697629483822 (-66) in
  let s := FSeries [] 1 [] [S754_finite false 4503599627370496 (-53); f_zero; fflat_threshold; next; S754_nan] in
  (forall sd, In sd (firstn 4 (fs_sd s)) -> number sd) /\
  fis_flat s 0 = Ret false /\ fis_flat s 1 = Ret true /\ fis_flat s 2 = Ret true /\ fis_flat s 3 = Ret false /\ fis_flat s 4 = Ret false /\ fis_flat s 5 = Panic.
Proof.
  cbv zeta. split; [|vm_compute; auto 10]. intros sd H. cbn in H. repeat destruct H as [<-|H]; try (vm_compute; auto; fail).
Qed.

(** What is handed over for window [i] when projecting, given the plain dot product [x]: the
    other use of the threshold, where equality does not count as flat. *)
Theorem c149_projected :
  forall (s : fseries) (sumv x m sd : f64) (i : nat),
    nth_error (fs_sd s) i = Some sd -> nth_error (fs_avg s) i = Some m ->
    (number sd -> fval sd < rnd (/ 10000) -> fznormalized_value s sumv i x = Ret S754_nan) /\
    (number sd -> rnd (/ 10000) <= fval sd -> fznormalized_value s sumv i x = Ret (fsub (fdiv x sd) (fdiv (fmul sumv m) sd))) /\
    (sd = S754_nan -> fznormalized_value s sumv i x = Panic).
Proof.
  intros s sumv x m sd i Es Em. rewrite <- threshold_nearest. unfold fznormalized_value, fsd, fmean, get. rewrite Es, Em. cbn [bind].
  split; [|split].
  - intros N H. rewrite (flt_val sd fflat_threshold N threshold_number), Rlt_bool_true by exact H. reflexivity.
  - intros N H. rewrite (flt_val sd fflat_threshold N threshold_number), Rlt_bool_false by lra.
    rewrite (flt_val f_zero sd ltac:(split; reflexivity) N), Rlt_bool_true; [reflexivity|].
    change (fval f_zero) with 0. pose proof threshold_val as T. assert (0 < bp (-14)) by apply bpow_gt_0. lra.
  - intros ->. reflexivity.
Qed.
Print Assumptions c149_projected.
(** deviations of one half, below the threshold, equal to it (flat, and still projected), and not a number *)
Example c149_projected_case :
  let half := S754_finite false 4503599627370496 (-53) in let below := S754_finite false 7378697629483820 (-66) in
  let s := FSeries [] 1 [half; half; half; half] [half; below; fflat_threshold; S754_nan] in
  number half /\ number below /\ number fflat_threshold /\
  fznormalized_value s half 0 half = Ret half /\ fznormalized_value s half 1 half = Ret S754_nan /\
  fis_flat s 2 = Ret true /\ fznormalized_value s half 2 half <> Ret S754_nan /\ fznormalized_value s half 2 half <> Panic /\
  fznormalized_value s half 3 half = Panic.
Proof. cbv zeta. repeat split; try (vm_compute; reflexivity); vm_compute; discriminate. Qed.

(** The values of window [i], or an abort if the window does not lie inside the series *)
Theorem c150_subsequence :
  forall (s : fseries) (r : series) (i : nat),
    ((length (fs_data s) < i + fs_w s)%nat -> fsubsequence s i = Panic) /\
    ((i + fs_w s <= length (fs_data s))%nat -> exists v, fsubsequence s i = Ret v /\ length v = fs_w s /\
       forall k, (k < fs_w s)%nat -> nth_error v k = nth_error (fs_data s) (i + k)) /\
    ((length (s_data r) < i + s_w r)%nat -> subsequence r i = Panic) /\
    ((i + s_w r <= length (s_data r))%nat -> exists v, subsequence r i = Ret v /\ length v = s_w r /\
       forall k, (k < s_w r)%nat -> nth_error v k = nth_error (s_data r) (i + k)).
Proof.
  assert (P : forall (A : Type) (l : list A) i w, (i + w <= length l)%nat -> length (firstn (i + w - i) (skipn i l)) = w /\
     forall k, (k < w)%nat -> nth_error (firstn (i + w - i) (skipn i l)) k = nth_error l (i + k)).
  { intros A l i w L. replace (i + w - i)%nat with w by lia. split; [rewrite firstn_length, skipn_length; lia|].
    intros k Hk. rewrite <- (firstn_skipn i l) at 2. rewrite nth_error_app2 by (rewrite firstn_length; lia).
    rewrite firstn_length, Nat.min_l by lia. replace (i + k - i)%nat with k by lia.
    rewrite <- (firstn_skipn w (skipn i l)) at 2. rewrite nth_error_app1; [reflexivity|]. rewrite firstn_length, skipn_length. lia. }
  intros s r i. unfold fsubsequence, cut, subsequence, slice, assert_.
  split; [|split; [|split]]; intros L.
  - destruct (Nat.leb_spec (i + fs_w s) (length (fs_data s))); [lia|]. rewrite Bool.andb_false_r. reflexivity.
  - rewrite (proj2 (Nat.leb_le _ _) L), (proj2 (Nat.leb_le i (i + fs_w s)) ltac:(lia)). eexists. split; [reflexivity|]. apply P, L.
  - destruct (Nat.leb_spec (i + s_w r) (length (s_data r))); [lia|]. rewrite Bool.andb_false_r. reflexivity.
  - rewrite (proj2 (Nat.leb_le _ _) L), (proj2 (Nat.leb_le i (i + s_w r)) ltac:(lia)). eexists. split; [reflexivity|]. apply P, L.
Qed.
Print Assumptions c150_subsequence.
(** five values, windows of three: the last window starts at 2 *)
Example c150_case :
  let f_one := S754_finite false 4503599627370496 (-52) in let s := FSeries [f_zero; f_one; f_zero; f_one; f_one] 3 [] [] in let r := Series.Series [0; 1; 0; 1; 1] 3 [] [] in
  fsubsequence s 2 = Ret [f_zero; f_one; f_one] /\ fsubsequence s 3 = Panic /\ subsequence r 2 = Ret [0; 1; 1] /\ subsequence r 3 = Panic.
Proof. cbv zeta. repeat split. Qed.
