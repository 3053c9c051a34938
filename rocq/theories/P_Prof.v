(** C120: distance profiles in floating point. *)
From Coq Require Import Reals Lra Lia Floats.SpecFloat.
From Flocq Require Import Core BinarySingleNaN.
From Verif Require Import Base F64 RSpec RealProofs SeriesProofs FFT FFTProofs Iterator FpOps FloatSeries FloatSpec FloatProofs FloatRoll FloatBound FloatDist FloatDist2 FloatThr FloatErr FloatMean FloatSd FloatVar FloatSum FloatTerm FloatPair FloatProj FloatProf P_Float P_Float2 P_Acc P_Acc2 FloatHash ProjSpec P_Proj AccSpec.
Local Open Scope R_scope.

(** * C120: the profile of a window *)
(** [normal] is the window at [from] after z-normalisation, [err] bounds the error of its
    dot products.  The profile is computed, with an entry for each window, provided all
    other windows are farther from [from] than the error; see below why this is needed. *)
Theorem c120_profile_partial :
  forall (z : zeros) (ts : list f64) (w : nat) (precise : bool) (s : fseries) (sdp : list f64 -> nat -> f64)
         (from : nat) (normal : list f64) (e : Z) (eps err : R),
    moderate ts -> usable ts w -> fseries_new z ts w precise = Ret s ->
    (from < length ts - w)%nat -> lively s from -> 0 < eps <= / 64 -> accurate s (length ts - w) e eps ->
    fznormalized s from = Ret normal -> err <= 2 ^ 500 ->
    let tolerance i := 5 * (err / sd_of (exact_window ts w i)) + 20 * (INR w * eps) in
    (forall i, (i < length ts - w)%nat -> i <> from -> lively s i ->
       dot_within ts w normal i err (sdp normal i) /\ tolerance i < exact_distance ts w from i ^ 2) ->
    exists profile, fdistance_profile z s sdp from = Ret profile /\ length profile = (length ts - w)%nat /\
      forall i, (i < length ts - w)%nat -> exists d, nth_error profile i = Some d /\
        (i = from -> d = f_zero) /\
        (i <> from -> ~ lively s i -> is_nan d = true) /\
        (i <> from -> lively s i -> distance_value d /\ Rabs (fval d ^ 2 - exact_distance ts w from i ^ 2) <= tolerance i).
Proof.
  intros z ts w precise s sdp from normal e eps err Mo U E Lf Ff He Acc En Err tolerance Hd.
  destruct (made z ts w precise s Mo U E) as (Ed & Ew & Es & Hm).
  destruct (at_window z ts w precise s from from e eps Mo U E Lf Lf from Lf Ff (Acc from Lf Ff)) as (ma & sa & Wa & Ln & Ba & Ma & Sa & Na & Cm & Cs & Ha & Ra).
  assert (Enorm : normal = buf (win ts w from) ma sa).
  { destruct Wa as (Em & Esd & Esub). unfold fznormalized in En. rewrite Em, Esd, Esub in En. cbn [bind] in En. apply Ret_inj in En. symmetry. exact En. }
  assert (Lnorm : length normal = w) by (rewrite Enorm; unfold buf; rewrite map_length; exact Ln).
  assert (E500 : err <= bp 500) by (eapply Rle_trans; [exact Err|]; rewrite pow_powerRZ, power_bp; apply bpow_le, Z.leb_le; vm_compute; reflexivity).
  destruct (projections_return z ts w precise s sdp Mo U E normal Lnorm) as (values & Ev & Lv & Hv).
  assert (Good : forall i, (i < length ts - w)%nat -> i <> from -> lively s i -> exists y, fznormalized_value s (fsum z normal) i (sdp normal i) = Ret y /\
     distance_value (profile_distance w y) /\ Rabs (fval (profile_distance w y) ^ 2 - exact_distance ts w from i ^ 2) <= tolerance i).
  { intros i Li Ni Fi. destruct (Hd i Li Ni Fi) as ((Nx & Ex) & Far).
    destruct (at_window z ts w precise s from i e eps Mo U E Lf Li i Li Fi (Acc i Li Fi)) as (mb & sb & Wb & Lnb & Bb & Mb & Sb & Nb & Cmb & Csb & Hb & Rb).
    pose proof (value_returns z ts w precise s Mo U E (fsum z normal) i (sdp normal i) Li) as (y & Ey). exists y. split; [exact Ey|].
    assert (Yp : y = proj z normal mb sb (sdp normal i)).
    { destruct Wb as (Em & Esd & _). unfold fznormalized_value in Ey. rewrite Esd, Em in Ey. cbn [bind] in Ey.
      assert (F : flt sb fflat_threshold = false).
      { rewrite flt_val by (apply Sb || apply threshold_number). apply Rlt_bool_false.
        unfold not_flat in Nb. rewrite fle_val in Nb by (apply Sb || apply threshold_number). destruct (Rle_bool_spec (fval sb) (fval fflat_threshold)); [discriminate|lra]. }
      rewrite F in Ey. unfold assert_ in Ey. destruct (flt f_zero sb); [|discriminate Ey]. apply Ret_inj in Ey. symmetry. exact Ey. }
    rewrite Enorm in *. destruct U as ((Lw & L) & Hw). unfold tolerance, exact_distance in *. cbn [pow] in *. rewrite !Rmult_1_r in *.
    pose proof (prof_distance z w (win ts w from) (win ts w i) ma sa mb sb (sdp (buf (win ts w from) ma sa) i) (bp e) eps err
      Ln Lnb Lw Hw Ba Bb Ma Mb Sa Sb Na Nb He Cm Cmb Cs Csb Ha Hb Ra Rb Nx Ex E500 (or_introl Far)) as (N1 & P1 & C1).
    rewrite Yp. split; [split; assumption|]. exact C1. }
  unfold fdistance_profile. rewrite En. cbn [bind]. rewrite Ev. cbn [bind]. rewrite Es, Ew.
  match goal with |- context [mapM ?g (combine (seq 0 _) values)] => destruct (mapM_indexed g values (length ts - w)%nat Lv) as (profile & E1 & L1 & H1) end.
  { intros i x Li Ex. cbv beta iota. destruct (Nat.eqb_spec i from) as [->|Ni]; [eexists; reflexivity|].
    destruct (Hm i Li) as (m & sd & _ & Esd & _). unfold fis_flat, fsd, get. rewrite Esd. cbn [bind]. destruct (fle sd fflat_threshold) eqn:Fl; [eexists; reflexivity|].
    assert (Fi : lively s i) by (unfold lively, fis_flat, fsd, get; rewrite Esd; cbn [bind]; rewrite Fl; reflexivity).
    destruct (Good i Li Ni Fi) as (y & Ey & (Nd & _) & _). destruct (Hv i Li) as (y' & Ey' & Fy'). rewrite Ex in Ey'. injection Ey' as <-. rewrite Ey in Fy'. apply Ret_inj in Fy'. subst y.
    fold (profile_distance w x). rewrite (number_not_nan _ Nd). eexists; reflexivity. }
  exists profile. split; [exact E1|]. split; [exact L1|]. intros i Li.
  destruct (Hv i Li) as (y & Ey & Fy). destruct (H1 i y Ey) as (d & Ed1 & Gd). exists d. split; [exact Ed1|]. cbv beta iota in Gd.
  destruct (Nat.eqb_spec i from) as [->|Ni].
  - apply Ret_inj in Gd. subst d. split; [reflexivity|]. split; intros C; contradiction.
  - split; [intros C; contradiction|]. destruct (Hm i Li) as (m & sd & _ & Esd & _). unfold fis_flat, fsd, get in Gd. rewrite Esd in Gd. cbn [bind] in Gd.
    assert (Lv' : lively s i <-> fle sd fflat_threshold = false).
    { unfold lively, fis_flat, fsd, get. rewrite Esd. cbn [bind]. split; [intros C; apply Ret_inj in C; exact C|intros ->; reflexivity]. }
    destruct (fle sd fflat_threshold).
    + apply Ret_inj in Gd. subst d. split; [reflexivity|]. intros _ C. apply Lv' in C. discriminate C.
    + split; [intros _ C; exfalso; apply C, Lv'; reflexivity|]. intros _ Fi. destruct (Good i Li Ni Fi) as (y' & Ey' & V & C). rewrite Fy in Ey'. apply Ret_inj in Ey'. subst y'.
      fold (profile_distance w y) in Gd. unfold assert_ in Gd. destruct (negb _); [|discriminate Gd]. apply Ret_inj in Gd. subst d. split; assumption.
Qed.
Print Assumptions c120_profile_partial.

(** The values 1 0 0 1 0 0, windows of length 3, exact dot products: each window holds a
    single 1. *)
Definition data_pf : list f64 := nums [1; 0; 0; 1; 0; 0]%nat.
Definition series_pf : fseries := match fseries_new z_ex data_pf 3 true with Ret s => s | _ => FSeries [] 0 [] [] end.
Definition dot_cp (v : list f64) (i : nat) : f64 := nth (match i with 1 => 2 | 2 => 1 | _ => 0 end) v f_zero.
Example c120_case : exists normal,
  moderate data_pf /\ usable data_pf 3 /\ fseries_new z_ex data_pf 3 true = Ret series_pf /\ (length data_pf - 3)%nat = 3%nat /\
  accurate series_pf 3 0 (/ 2 ^ 40) /\ fznormalized series_pf 0 = Ret normal /\
  (forall i, (i < 3)%nat -> lively series_pf i) /\
  (forall i, (i < 3)%nat -> i <> 0%nat -> dot_within data_pf 3 normal i 0 (dot_cp normal i) /\
     5 * (0 / sd_of (exact_window data_pf 3 i)) + 20 * (INR 3 * / 2 ^ 40) < exact_distance data_pf 3 0 i ^ 2) /\
  exists d1 d2, fdistance_profile z_ex series_pf dot_cp 0 = Ret [f_zero; d1; d2] /\ fle d1 (f_of_nat 4) = true /\ fle (f_of_nat 2) d1 = true.
Proof.
  assert (Us : usable data_pf 3) by (unfold usable; vm_compute; split; [lia|discriminate]).
  assert (Mo : moderate data_pf) by (apply nums_moderate; intros n Hn; cbn in Hn; lia).
  assert (En : fseries_new z_ex data_pf 3 true = Ret series_pf) by (vm_compute; reflexivity).
  assert (Am : at_most 0 data_pf) by (apply (nums_at_most 0); [intros n Hn; cbn in Hn; lia|lia]).
  assert (Fw : forall i, (i < 3)%nat -> exact_window data_pf 3 i = nth i [[1; 0; 0]; [0; 0; 1]; [0; 1; 0]] []).
  { intros i Li. unfold exact_window, data_pf, nums. rewrite skipn_map, firstn_map. fold (nums (firstn 3 (skipn i [1; 0; 0; 1; 0; 0]%nat))).
    do 3 (destruct i as [|i]; [rewrite exact_nums, (map_ext _ _ INR_IZR_INZ) by (intros n Hn; cbn in Hn; lia); reflexivity|]). lia. }
  assert (Mn : forall i, (i < 3)%nat -> mean_of (exact_window data_pf 3 i) = / 3).
  { intros i Li. rewrite (Fw i Li). do 3 (destruct i as [|i]; [unfold mean_of, total; cbn [nth fold_right length INR]; lra|]). lia. }
  assert (Sd : forall i, (i < 3)%nat -> sd_of (exact_window data_pf 3 i) = sqrt (2 / 9)).
  { intros i Li. unfold sd_of. f_equal. rewrite (Mn i Li), (Fw i Li).
    do 3 (destruct i as [|i]; [unfold mean_of, total; cbn [nth map fold_right length INR]; lra|]). lia. }
  assert (S4 : / 4 <= sqrt (2 / 9)) by (rewrite <- (sqrt_square (/ 4)) by lra; apply sqrt_le_1_alt; lra).
  assert (P51 : bp (-51) = / 2251799813685248) by reflexivity.
  assert (P40 : / 2 ^ 40 = / 1099511627776) by (rewrite (pow_IZR 2 40); reflexivity).
  destruct (fznormalized series_pf 0) as [normal| |] eqn:Ez; [|exfalso; vm_compute in Ez; discriminate Ez..].
  exists normal. split; [exact Mo|]. split; [exact Us|]. split; [exact En|]. split; [reflexivity|]. split.
  { intros i Li _. apply (c100_precise z_ex data_pf 3); [exact Mo|exact Us|exact En|cbn; lia|lia|intros x Hx; apply Am; eapply win_incl; exact Hx|].
    rewrite (Sd i Li), !power_bp, P51, P40. change (bp 0) with 1. cbn [INR]. lra. }
  split; [reflexivity|].
  split; [intros i Li; do 3 (destruct i as [|i]; [vm_compute; reflexivity|]); lia|].
  split; [|eexists _, _; split; [vm_compute; reflexivity|split; vm_compute; reflexivity]].
  intros i Li Ni. split.
  - assert (Nn : (forall t, In t normal -> number t) /\ length normal = 3%nat).
    { vm_compute in Ez. apply Ret_inj in Ez. subst normal. split; [|reflexivity]. intros t [<-|[<-|[<-|[]]]]; split; vm_compute; reflexivity. }
    destruct Nn as (Nu & Ln). destruct normal as [|x [|y [|q [|? ?]]]]; try discriminate Ln. clear Ez.
    unfold dot_within. rewrite (Fw i Li).
    do 3 (destruct i as [|i]; [split; [apply Nu; cbn; tauto|]; unfold inner, total; cbn [nth dot_cp map combine fold_right fst snd]; match goal with |- Rabs ?d <= 0 => replace d with 0 by ring end; rewrite Rabs_R0; lra|]). lia.
  - unfold Rdiv. rewrite Rmult_0_l. apply Rlt_le_trans with 1; [rewrite P40; cbn [INR]; lra|].
    assert (Is : / sqrt (2 / 9) * / sqrt (2 / 9) = 9 / 2) by (rewrite <- Rinv_mult, sqrt_sqrt by lra; field).
    unfold exact_distance, zdistance, euclid. cbn [pow]. rewrite Rmult_1_r, sqrt_sqrt; unfold znorm; rewrite !Mn, !Sd, !Fw by lia; set (q := sqrt (2 / 9)) in *; clearbody q;
      do 3 (destruct i as [|i]; [try lia; unfold total, Rdiv; cbn [nth map combine fold_right fst snd]; match goal with |- _ <= ?d => replace d with (2 * (/ q * / q)) by ring end; lra|]); lia.
Qed.

(** If another window is a copy of the one the profile is made for, the computation may
    abort, even if all dot products are exact: rounding takes the dot product of the
    normalised windows above the window length, and the root of a negative number is taken.
    Here the values are 1 0 0 1 0 0 0, the windows have length 3, and the first is repeated. *)
Definition data_cp : list f64 := nums [1; 0; 0; 1; 0; 0; 0]%nat.
Definition series_cp : fseries := match fseries_new z_ex data_cp 3 true with Ret s => s | _ => FSeries [] 0 [] [] end.
Theorem c120_aborts_refuted :
  exists (z : zeros) (ts : list f64) (w : nat) (s : fseries) (sdp : list f64 -> nat -> f64) (from : nat) (e : Z) (eps : R),
    moderate ts /\ usable ts w /\ fseries_new z ts w true = Ret s /\ (from < length ts - w)%nat /\
    (forall i, (i < length ts - w)%nat -> lively s i) /\ 0 < eps <= / 2 ^ 40 /\ accurate s (length ts - w) e eps /\
    (forall v i, length v = w -> (forall x, In x v -> number x) -> (i < length ts - w)%nat -> dot_within ts w v i 0 (sdp v i)) /\
    fdistance_profile z s sdp from = Panic.
Proof.
  exists z_ex, data_cp, 3%nat, series_cp, dot_cp, 0%nat, 0%Z, (/ 2 ^ 40).
  assert (Us : usable data_cp 3) by (unfold usable; vm_compute; split; [lia|discriminate]).
  assert (Mo : moderate data_cp) by (apply nums_moderate; intros n Hn; cbn in Hn; lia).
  assert (En : fseries_new z_ex data_cp 3 true = Ret series_cp) by (vm_compute; reflexivity).
  assert (Am : at_most 0 data_cp) by (apply (nums_at_most 0); [intros n Hn; cbn in Hn; lia|lia]).
  assert (Fw : forall i, (i < 4)%nat -> exact_window data_cp 3 i = nth i [[1; 0; 0]; [0; 0; 1]; [0; 1; 0]; [1; 0; 0]] []).
  { intros i Li. unfold exact_window, data_cp, nums. rewrite skipn_map, firstn_map. fold (nums (firstn 3 (skipn i [1; 0; 0; 1; 0; 0; 0]%nat))).
    do 4 (destruct i as [|i]; [rewrite exact_nums, (map_ext _ _ INR_IZR_INZ) by (intros n Hn; cbn in Hn; lia); reflexivity|]). lia. }
  assert (S : forall i, (i < 4)%nat -> / 4 <= sd_of (exact_window data_cp 3 i)).
  { intros i Li. rewrite (Fw i Li). rewrite <- (sqrt_square (/ 4)) by lra. unfold sd_of. apply sqrt_le_1_alt.
    do 4 (destruct i as [|i]; [unfold mean_of, total; cbn [nth map fold_right length INR]; lra|]). lia. }
  assert (P51 : bp (-51) = / 2251799813685248) by reflexivity.
  assert (P40 : / 2 ^ 40 = / 1099511627776) by (rewrite (pow_IZR 2 40); reflexivity).
  split; [exact Mo|]. split; [exact Us|]. split; [exact En|]. change (length data_cp - 3)%nat with 4%nat. split; [lia|].
  split; [intros i Li; do 4 (destruct i as [|i]; [vm_compute; reflexivity|]); lia|].
  split; [rewrite P40; lra|]. split.
  { intros i Li _. apply (c100_precise z_ex data_cp 3); [exact Mo|exact Us|exact En|cbn; lia|lia|intros x Hx; apply Am; eapply win_incl; exact Hx|].
    rewrite !power_bp, P51, P40. change (bp 0) with 1. cbn [INR]. specialize (S i Li). lra. }
  split; [|vm_compute; reflexivity].
  intros v i Lv Mv Li. destruct v as [|x [|y [|q [|? ?]]]]; try discriminate Lv. clear Lv.
  assert (Nx : number x) by (apply Mv; left; reflexivity). assert (Ny : number y) by (apply Mv; right; left; reflexivity). assert (Nq : number q) by (apply Mv; right; right; left; reflexivity).
  unfold dot_within. rewrite (Fw i Li).
  do 4 (destruct i as [|i]; [split; [assumption|]; unfold inner, total; cbn [nth dot_cp map combine fold_right fst snd]; match goal with |- Rabs ?d <= 0 => replace d with 0 by ring end; rewrite Rabs_R0; lra|]). lia.
Qed.
Print Assumptions c120_aborts_refuted.
