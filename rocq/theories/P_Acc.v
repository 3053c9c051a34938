(** C97 to C99: how accurate the recorded statistics are. *)
From Coq Require Import Reals Lra Lia Floats.SpecFloat.
From Flocq Require Import Core BinarySingleNaN.
From Verif Require Import Base F64 RSpec RealProofs Iterator FpOps FloatSeries FloatSpec FloatProofs FloatRoll FloatBound FloatDist FloatDist2 FloatThr FloatErr FloatMean FloatSd FloatVar P_Float P_Float2.
Local Open Scope R_scope.

(** ** Bridges *)
Lemma power_bp e : powerRZ 2 e = bp e. Proof. symmetry. apply (bpow_powerRZ radix2 e). Qed.
Lemma at_most_bnd e l : at_most e l -> forall x, In x l -> bnd x e.
Proof. intros H x Hx. destruct (H x Hx) as (N & B). rewrite power_bp in B. split; assumption. Qed.
Lemma precise_record z ts w s i : moderate ts -> usable ts w -> fseries_new z ts w true = Ret s -> (i < length ts - w)%nat ->
  nth_error (fs_avg s) i = Some (mean0 z ts w i) /\ nth_error (fs_sd s) i = Some (sd_from w (squares0 z ts w i)).
Proof.
  intros Mo ((Lw & L) & Hw) E Li. unfold fseries_new in E. rewrite (proj2 (Nat.leb_le _ _) L) in E. cbn [assert_] in E.
  rewrite slow_ok in E by (auto; intros k Hk; destruct (slow_stats z ts w 200 ltac:(lia) Lw Hw (moderate_bnd ts Mo) k ltac:(lia)) as (((_ & A) & _) & ((_ & B) & _) & _); auto).
  cbn [bind] in E. injection E as <-. cbn [fs_avg fs_sd]. unfold slow_avgs, slow_sds. rewrite !nth_error_map, nth_error_range by exact Li. auto.
Qed.
Lemma default_record z ts w s i : moderate ts -> usable ts w -> fseries_new z ts w false = Ret s -> (i < length ts - w)%nat ->
  exists a j, (a + j = i)%nat /\ Z.of_nat j = (Z.of_nat i mod 1000000)%Z /\
  nth_error (fs_avg s) i = Some (fst (roll z ts w a j)) /\ nth_error (fs_sd s) i = Some (sd_from w (snd (roll z ts w a j))).
Proof.
  intros Mo ((Lw & L) & Hw) E Li. assert (Cs : Z.of_nat fchunk_size = 1000000%Z) by (unfold fchunk_size; lia). unfold fseries_new in E. rewrite (proj2 (Nat.leb_le _ _) L) in E. cbn [assert_] in E.
  unfold frolling_stat in E. rewrite (chunked_ok z fchunk_size ts w ltac:(lia) Lw L) in E.
  2: { intros k n Hn Hi j Hj. destruct (roll_stats z ts w 200 ltac:(lia) Lw Hw (moderate_bnd ts Mo) (k * fchunk_size) j ltac:(lia) ltac:(lia)) as ((N1 & _) & (N2 & _) & _). split; [apply N1|apply N2]. }
  cbn [bind] in E. injection E as <-. cbn [fs_avg fs_sd]. exists (i / fchunk_size * fchunk_size)%nat, (i mod fchunk_size)%nat.
  pose proof (Nat.div_mod i fchunk_size ltac:(lia)) as Dm. split; [lia|]. split; [rewrite mod_Zmod, Cs by lia; reflexivity|].
  unfold chunk_avgs, chunk_sds. rewrite !nth_error_map, nth_error_range by exact Li. auto.
Qed.
Lemma win_win ts w i : win (win ts w i) w 0 = win ts w i.
Proof. unfold win. cbn [skipn]. rewrite firstn_firstn, Nat.min_id. reflexivity. Qed.
Lemma bp_51 : bp (-51) = 4 * u. Proof. change (-51)%Z with (2 + -53)%Z. rewrite bpow_plus. reflexivity. Qed.
Lemma bp_54 : bp (-54) = u / 2. Proof. change (-53)%Z with (-54 + 1)%Z. rewrite bp_double. field. Qed.

(** ** C97 and C98: recorded means and standard deviations *)
(** The full property: they are as accurate as the size of the values in the window allows. *)
Definition accurate (precise : bool) : Prop :=
  forall (z : zeros) (ts : list f64) (w : nat) (s : fseries) (i : nat) (m sd : f64) (e : Z),
    moderate ts -> usable ts w -> fseries_new z ts w precise = Ret s -> (i < length ts - w)%nat ->
    nth_error (fs_avg s) i = Some m -> nth_error (fs_sd s) i = Some sd ->
    (-400 <= e <= 200)%Z -> at_most e (firstn w (skipn i ts)) ->
    Rabs (fval m - mean_of (exact_window ts w i)) <= (INR w + 5) * powerRZ 2 (-54) * powerRZ 2 e /\
    Rabs (fval sd - sd_of (exact_window ts w i)) <= (INR w + 6) * powerRZ 2 (-51) * powerRZ 2 e.

(** It holds in precise mode. *)
Theorem c97_precise : accurate true.
Proof.
  intros z ts w s i m sd e Mo U E Li Em Es He A. destruct (precise_record z ts w s i Mo U E Li) as (Em' & Es').
  rewrite Em in Em'. injection Em' as ->. rewrite Es in Es'. injection Es' as ->. destruct U as ((Lw & L) & Hw).
  rewrite !power_bp, bp_51, bp_54. change (firstn w (skipn i ts)) with (win ts w i) in A. pose proof (at_most_bnd e _ A) as B.
  assert (Ln : (0 + w <= length (win ts w i))%nat) by (rewrite win_length by lia; lia).
  assert (E0 : mean0 z ts w i = mean0 z (win ts w i) w 0) by (unfold mean0; rewrite win_win; reflexivity).
  assert (E1 : squares0 z ts w i = squares0 z (win ts w i) w 0) by (unfold squares0; rewrite E0, win_win; reflexivity).
  rewrite E0, E1. unfold exact_window. change (firstn w (skipn i ts)) with (win ts w i). split.
  - pose proof (mean0_err z (win ts w i) w e ltac:(lia) Lw Hw B 0 Ln) as H. unfold mu in H. rewrite win_win in H. eapply Rle_trans; [exact H|]. apply Req_le. field.
  - pose proof (sd_precise z (win ts w i) w e ltac:(lia) Lw Hw B 0 Ln) as H. unfold sigma in H. rewrite win_win in H. eapply Rle_trans; [exact H|]. apply Req_le. ring.
Qed.
Print Assumptions c97_precise.
Lemma nums_at_most e l : (forall n, In n l -> (Z.of_nat n <= 2 ^ e)%Z) -> (0 <= e <= 53)%Z -> at_most e (nums l).
Proof.
  intros H He x Hx. apply in_map_iff in Hx as (n & <- & Hn). specialize (H n Hn). assert (2 ^ e <= 2 ^ 53)%Z by (apply Z.pow_le_mono_r; lia).
  destruct (of_nat_exact n ltac:(lia)) as (N & V). split; [exact N|].
  rewrite V, Rabs_right by (apply Rle_ge, pos_INR). rewrite INR_IZR_INZ, power_bp, <- (IZR_Zpower radix2) by lia. apply IZR_le, H.
Qed.
(** The windows of five values of the example, which are at most 16. *)
Example c97_case : moderate data_ex /\ usable data_ex 5 /\ fseries_new z_ex data_ex 5 true = Ret series_ex /\ length data_ex = 10%nat /\
  at_most 4 (firstn 5 (skipn 2 data_ex)) /\ nth_error (fs_avg series_ex) 2 = Some (f_of_nat 4) /\
  nth_error (fs_sd series_ex) 2 = Some (S754_finite false 4503599627370496 (-51)).
Proof.
  split; [apply data_ex_moderate|]. split; [unfold usable; vm_compute; split; [lia|discriminate]|]. split; [apply series_ex_new|]. split; [reflexivity|].
  split; [apply (nums_at_most 4 [4; 7; 3; 1; 5]%nat); [intros n Hn; cbn in Hn; lia|lia]|]. split; vm_compute; reflexivity.
Qed.

(** It fails in default mode: a large value leaves an error in the statistics of windows
    that do not contain it.  Here the deviation of 1 2 3 is on record as 77490641. *)
Definition big : f64 := S754_finite false 5000000000000000 1.
Definition spoilt : list f64 := big :: nums [1; 2; 3; 1; 2; 5; 1]%nat.
Lemma big_val : number big /\ fval big = 10000000000000000.
Proof. split; [split; reflexivity|]. unfold fval, big. cbn [SF2R SpecFloat.cond_Zopp]. unfold F2R. cbn [Fnum Fexp]. change (bp 1) with 2. lra. Qed.
Lemma spoilt_moderate : moderate spoilt.
Proof.
  intros x [<-|Hx].
  - destruct big_val as (N & V). split; [exact N|]. rewrite V, Rabs_right by lra. rewrite (pow_IZR 2 200). apply IZR_le. vm_compute. discriminate.
  - apply (nums_moderate [1; 2; 3; 1; 2; 5; 1]%nat); [|exact Hx]. intros n Hn. cbn in Hn. lia.
Qed.
Theorem c98_default_refuted : ~ accurate false.
Proof.
  intros H. specialize (H z_ex spoilt 3%nat (series_of spoilt 3 false) 1%nat).
  destruct (nth_error (fs_avg (series_of spoilt 3 false)) 1) as [m|] eqn:Em; [|vm_compute in Em; discriminate Em].
  specialize (H m (S754_finite false 5200308914369308 (-26)) 2%Z spoilt_moderate).
  assert (U : usable spoilt 3) by (unfold usable; vm_compute; split; [lia|discriminate]).
  assert (A : fseries_new z_ex spoilt 3 false = Ret (series_of spoilt 3 false)) by (rewrite small_new_ok by (vm_compute; lia); vm_compute; reflexivity).
  assert (S : nth_error (fs_sd (series_of spoilt 3 false)) 1 = Some (S754_finite false 5200308914369308 (-26))) by (vm_compute; reflexivity).
  assert (B : at_most 2 (firstn 3 (skipn 1 spoilt))) by (apply (nums_at_most 2 [1; 2; 3]%nat); [intros n Hn; cbn in Hn; lia|lia]).
  destruct (H U A ltac:(cbn; lia) eq_refl S ltac:(lia) B) as (_ & C). clear - C.
  assert (V : fval (S754_finite false 5200308914369308 (-26)) = 5200308914369308 / 67108864) by (unfold fval; cbn [SF2R SpecFloat.cond_Zopp]; unfold F2R; cbn [Fnum Fexp]; change (bp (-26)) with (/ 67108864); reflexivity).
  assert (D : sd_of (exact_window spoilt 3 1) <= 4).
  { pose proof (sigma_M (nums [1; 2; 3]%nat) 3 2 ltac:(lia) (at_most_bnd 2 _ (nums_at_most 2 [1; 2; 3]%nat ltac:(intros n Hn; cbn in Hn; lia) ltac:(lia))) 0 ltac:(cbn; lia)) as H.
    change (bp 2) with 4 in H. exact H. }
  rewrite V in C. apply abs_between in C. rewrite !power_bp in C. change (bp 2) with 4 in C. assert (bp (-51) <= 1) by (change 1 with (bp 0); apply bpow_le; lia). cbn [INR] in C. lra.
Qed.
Print Assumptions c98_default_refuted.

(** What holds: the size of all values counts, and errors grow with the position of the
    window in its block of 10^6 windows. *)
Theorem c98_default_partial :
  forall (z : zeros) (ts : list f64) (w : nat) (s : fseries) (i : nat) (m sd : f64) (e : Z),
    moderate ts -> usable ts w -> fseries_new z ts w false = Ret s -> (i < length ts - w)%nat ->
    nth_error (fs_avg s) i = Some m -> nth_error (fs_sd s) i = Some sd ->
    (-400 <= e <= 200)%Z -> at_most e ts ->
    let k := IZR (Z.of_nat i mod 1000000) in
    Rabs (fval m - mean_of (exact_window ts w i)) <= (INR w + 5 + 16 * k) * powerRZ 2 (-54) * powerRZ 2 e /\
    Rabs (fval sd ^ 2 - sd_of (exact_window ts w i) ^ 2) <=
      (3 * INR w + 5 * k + 26 + (96 * k + 16 * k ^ 2) / INR w) * powerRZ 2 (-53) * powerRZ 2 e ^ 2.
Proof.
  intros z ts w s i m sd e Mo U E Li Em Es He A k. destruct (default_record z ts w s i Mo U E Li) as (a & j & Ei & Ej & Em' & Es').
  rewrite Em in Em'. injection Em' as ->. rewrite Es in Es'. injection Es' as ->. destruct U as ((Lw & L) & Hw).
  pose proof (at_most_bnd e _ A) as B. pose proof (Z.mod_pos_bound (Z.of_nat i) 1000000 ltac:(lia)) as Mb. assert (Hj : (Z.of_nat j < 2 ^ 20)%Z) by lia.
  assert (Ek : k = INR j) by (unfold k; rewrite <- Ej, INR_IZR_INZ; reflexivity). rewrite Ek. clear k Ek. rewrite !power_bp, bp_54.
  pose proof (W1 w Lw) as HW. unfold exact_window. change (firstn w (skipn i ts)) with (win ts w i). rewrite <- Ei. split.
  - eapply Rle_trans; [apply (roll_mean_err z ts w e ltac:(lia) Lw Hw B a j Hj ltac:(lia))|]. unfold mean_bound. apply Req_le. field.
  - pose proof (sd_rolled z ts w e ltac:(lia) Lw Hw B a j Hj ltac:(lia)) as H. cbv zeta in H. unfold sigma in H. cbn [pow]. rewrite !Rmult_1_r. eapply Rle_trans; [exact H|].
    unfold var_bound. apply Req_le. field. lra.
Qed.
Print Assumptions c98_default_partial.
Example c98_case : moderate data_ex /\ usable data_ex 5 /\ fseries_new z_ex data_ex 5 false = Ret (series_of data_ex 5 false) /\
  at_most 4 data_ex /\ nth_error (fs_avg (series_of data_ex 5 false)) 2 = Some (f_of_nat 4) /\
  nth_error (fs_sd (series_of data_ex 5 false)) 2 = Some (S754_finite false 4503599627370496 (-51)).
Proof.
  split; [apply data_ex_moderate|]. split; [unfold usable; vm_compute; split; [lia|discriminate]|].
  split; [rewrite small_new_ok by (vm_compute; lia); vm_compute; reflexivity|].
  split; [apply (nums_at_most 4); [intros n Hn; cbn in Hn; lia|lia]|]. split; vm_compute; reflexivity.
Qed.

(** ** C99: flat windows *)
(** Whether a window is flat is decided by comparing its recorded deviation with 0.0001. *)
Lemma threshold_close : Rabs (fval fflat_threshold - / 10000) <= bp (-65).
Proof.
  unfold fval, fflat_threshold. cbn [SF2R SpecFloat.cond_Zopp]. unfold F2R. cbn [Fnum Fexp].
  change (bp (-66)) with (/ 73786976294838206464). change (bp (-65)) with (/ 36893488147419103232). apply Rabs_le. lra.
Qed.
Definition decided (precise : bool) (err : nat -> nat -> Z -> R) : Prop :=
  forall (z : zeros) (ts : list f64) (w : nat) (s : fseries) (i : nat) (e : Z),
    moderate ts -> usable ts w -> fseries_new z ts w precise = Ret s -> (i < length ts - w)%nat ->
    (-14 <= e <= 200)%Z -> at_most e (if precise then firstn w (skipn i ts) else ts) ->
    let sd := sd_of (exact_window ts w i) in
    (/ 10000 + err w i e < sd -> fis_flat s i = Ret false) /\
    (sd < / 10000 - err w i e -> fis_flat s i = Ret true).
Definition precise_err (w i : nat) (e : Z) : R := (INR w + 7) * powerRZ 2 (-51) * powerRZ 2 e.
Definition default_err (w i : nat) (e : Z) : R :=
  let k := IZR (Z.of_nat i mod 1000000) in
  sqrt ((3 * INR w + 5 * k + 26 + (96 * k + 16 * k ^ 2) / INR w) * powerRZ 2 (-53) * powerRZ 2 e ^ 2) + powerRZ 2 (-65).
Lemma flat_val s i sd : number sd -> nth_error (fs_sd s) i = Some sd ->
  (fval fflat_threshold < fval sd -> fis_flat s i = Ret false) /\ (fval sd < fval fflat_threshold -> fis_flat s i = Ret true).
Proof.
  intros N E. unfold fis_flat, fsd, get. rewrite E. cbn [bind]. rewrite (fle_val sd fflat_threshold N threshold_number). split; intros H; f_equal.
  - apply Rle_bool_false, H.
  - apply Rle_bool_true. lra.
Qed.
Lemma recorded_sd z ts w s i precise : moderate ts -> usable ts w -> fseries_new z ts w precise = Ret s -> (i < length ts - w)%nat ->
  exists m sd, nth_error (fs_avg s) i = Some m /\ nth_error (fs_sd s) i = Some sd /\ number sd /\ 0 <= fval sd.
Proof.
  intros Mo ((Lw & L) & Hw) E Li. destruct (new_returns z ts w 200 ltac:(lia) Lw Hw L (moderate_bnd ts Mo) precise) as (s' & E' & _ & _ & _ & _ & H).
  rewrite E in E'. injection E' as <-. destruct (H i Li) as (m & sd & W & _ & (N & _) & S). apply window_at_iff in W as (Wm & Ws & _).
  exists m, sd. split; [exact Wm|]. split; [exact Ws|]. split; [exact N|]. apply sign_val; [apply N|exact S].
Qed.
Theorem c99_flat_precise : decided true precise_err.
Proof.
  intros z ts w s i e Mo U E Li He A. cbv zeta. destruct (recorded_sd z ts w s i true Mo U E Li) as (m & sd & Em & Es & N & P).
  destruct (c97_precise z ts w s i m sd e Mo U E Li Em Es ltac:(lia) A) as (_ & H). destruct (flat_val s i sd N Es) as (F1 & F2).
  pose proof threshold_close as T. apply abs_between in T. apply abs_between in H. unfold precise_err. rewrite !power_bp in *.
  assert (bp (-65) <= bp (-51) * bp e) by (rewrite <- bpow_plus; apply bpow_le; lia). split; intros C; [apply F1|apply F2]; lra.
Qed.
Print Assumptions c99_flat_precise.
Theorem c99_flat_default : decided false default_err.
Proof.
  intros z ts w s i e Mo U E Li He A. cbv zeta. destruct (recorded_sd z ts w s i false Mo U E Li) as (m & sd & Em & Es & N & P).
  destruct (c98_default_partial z ts w s i m sd e Mo U E Li Em Es ltac:(lia) A) as (_ & H). destruct (flat_val s i sd N Es) as (F1 & F2).
  pose proof threshold_close as T. apply abs_between in T. pose proof threshold_val as TV. pose proof (bpow_gt_0 radix2 (-14)) as P14. unfold default_err. rewrite (power_bp (-65)).
  set (B := (3 * INR w + _ + 26 + _) * powerRZ 2 (-53) * powerRZ 2 e ^ 2) in *. assert (PB : 0 <= B) by (eapply Rle_trans; [apply Rabs_pos|exact H]). clearbody B.
  apply abs_between in H. pose proof (sd_nonneg (exact_window ts w i)) as SP. pose proof (sqrt_pos B) as QP. pose proof (sqrt_sqrt B PB) as QQ.
  set (q := sqrt B) in *. set (g := sd_of _) in *. set (x := fval sd) in *. set (t := fval fflat_threshold) in *. clearbody q g x t. cbn [pow] in H. split; intros C; [apply F1|apply F2].
  - assert (C' : t + q < g) by lra. apply Rnot_le_lt. intros D. assert (x * x <= t * t) by (apply Rmult_le_compat; lra). assert ((t + q) * (t + q) < g * g) by (apply Rmult_le_0_lt_compat; lra).
    assert (0 <= t * q) by (apply Rmult_le_pos; lra). lra.
  - assert (C' : g + q < t) by lra. apply Rnot_le_lt. intros D. assert (t * t <= x * x) by (apply Rmult_le_compat; lra). assert ((g + q) * (g + q) < t * t) by (apply Rmult_le_0_lt_compat; lra).
    assert (0 <= g * q) by (apply Rmult_le_pos; lra). lra.
Qed.
Print Assumptions c99_flat_default.
(** Both kinds of windows occur: 4 7 3 1 5 has deviation 2, and 3 3 3 has deviation 0. *)
Definition flat_data : list f64 := nums [3; 3; 3; 3; 8]%nat.
Example c99_case :
  sd_of (exact_window data_ex 5 2) = 2 /\ precise_err 5 2 4 < / 10000 /\
  fis_flat series_ex 2 = Ret false /\
  sd_of (exact_window flat_data 3 0) = 0 /\ precise_err 3 0 4 < / 10000 /\ at_most 4 flat_data /\
  fis_flat (series_of flat_data 3 true) 0 = Ret true /\ fis_flat (series_of flat_data 3 false) 0 = Ret true.
Proof.
  assert (V : forall l, (forall n, In n l -> (n < 100)%nat) -> map fval (nums l) = map INR l).
  { intros l H. unfold nums. rewrite map_map. apply map_ext_in. intros n Hn. apply of_nat_exact. specialize (H n Hn). lia. }
  assert (P51 : bp (-51) = / 2251799813685248) by reflexivity.
  split; [|split; [|split; [vm_compute; reflexivity|split; [|split; [|split; [apply (nums_at_most 4); [intros n Hn; cbn in Hn; lia|lia]|split; vm_compute; reflexivity]]]]]].
  - unfold exact_window. change (firstn 5 (skipn 2 data_ex)) with (nums [4; 7; 3; 1; 5]%nat). rewrite V by (intros n Hn; cbn in Hn; lia).
    unfold sd_of, mean_of, total. cbn [map fold_right length INR]. rewrite <- (sqrt_square 2) by lra. f_equal. field.
  - unfold precise_err. rewrite !power_bp, P51. change (bp 4) with 16. cbn [INR]. lra.
  - unfold exact_window. change (firstn 3 (skipn 0 flat_data)) with (nums [3; 3; 3]%nat). rewrite V by (intros n Hn; cbn in Hn; lia).
    unfold sd_of, mean_of, total. cbn [map fold_right length INR]. match goal with |- sqrt ?x = 0 => replace x with 0 by field; apply sqrt_0 end.
  - unfold precise_err. rewrite !power_bp, P51. change (bp 4) with 16. cbn [INR]. lra.
Qed.
