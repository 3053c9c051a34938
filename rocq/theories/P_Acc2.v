(** C100: how accurate the computed distances are. *)
From Coq Require Import Reals Lra Lia Floats.SpecFloat.
From Flocq Require Import Core BinarySingleNaN.
From Verif Require Import Base F64 RSpec RealProofs SeriesProofs Iterator FpOps FloatSeries FloatSpec FloatProofs FloatRoll FloatBound FloatDist FloatDist2 FloatThr FloatErr FloatMean FloatSd FloatVar FloatSum FloatTerm FloatPair P_Float P_Float2 P_Acc.
Local Open Scope R_scope.

(** ** Distances from accurate records *)
Section Pair.
  Variables (z : zeros) (ts : list f64) (w : nat) (precise : bool) (s : fseries) (i j : nat) (e : Z) (eps : R).
  Hypothesis Mo : moderate ts.
  Hypothesis U : usable ts w.
  Hypothesis E : fseries_new z ts w precise = Ret s.
  Hypothesis Li : (i < length ts - w)%nat.
  Hypothesis Lj : (j < length ts - w)%nat.
  Hypothesis Fi : lively s i.
  Hypothesis Fj : lively s j.
  Hypothesis He : 0 < eps <= / 64.
  Hypothesis Ai : accurate_at s i e eps.
  Hypothesis Aj : accurate_at s j e eps.
  Notation D := (zdistance (exact_window ts w i) (exact_window ts w j)).

  Lemma fields : fs_data s = ts /\ fs_w s = w /\ holds_f64 s.
  Proof.
    destruct (c94_new z ts w precise Mo U) as (s' & E' & Ed & Ew & _ & _ & Nm & Ns). rewrite E in E'. injection E' as <-. split; [exact Ed|]. split; [exact Ew|].
    split; [rewrite Ed; intros x Hx; apply (Mo x Hx)|]. split; intros x Hx; [apply (Nm x Hx)|apply (Ns x Hx)].
  Qed.
  Lemma at_window k : (k < length ts - w)%nat -> lively s k -> accurate_at s k e eps ->
    exists m sd, fwindow s k m sd (win ts w k) /\ length (win ts w k) = w /\ (forall x, In x (win ts w k) -> bnd x 200) /\ bnd m 221 /\ bnd sd 228 /\ not_flat sd /\
      Rabs (fval m - mean_of (vals (win ts w k))) <= eps * sd_of (vals (win ts w k)) /\
      Rabs (fval sd - sd_of (vals (win ts w k))) <= eps * sd_of (vals (win ts w k)) /\
      (forall x, In x (win ts w k) -> Rabs (fval x) <= bp e) /\ (INR w + 16) * (u * bp e) <= eps * sd_of (vals (win ts w k)).
  Proof.
    intros Lk Fk (m & sd & Em & Es & Am & As & At & Ar). destruct fields as (Ed & Ew & _). destruct U as ((Lw & L) & Hw).
    destruct (new_returns z ts w 200 ltac:(lia) Lw Hw L (moderate_bnd ts Mo) precise) as (s' & E' & _ & _ & _ & _ & Wn).
    rewrite E in E'. injection E' as <-. destruct (Wn k Lk) as (m' & sd' & Wk & Bm & Bs & _).
    pose proof (proj2 (window_at_iff s k m' sd' _) Wk) as (Em' & Es' & _). rewrite Em in Em'. injection Em' as <-. rewrite Es in Es'. injection Es' as <-.
    rewrite Ed, Ew in *. exists m, sd. split; [exact Wk|]. split; [apply win_length; lia|].
    split; [intros x Hx; apply (moderate_bnd ts Mo); eapply win_incl; eauto|]. split; [exact Bm|]. split; [exact Bs|]. split; [exact (lively_sd s k m sd _ Fk Wk)|].
    split; [exact Am|]. split; [exact As|]. split; [intros x Hx; apply (at_most_bnd e _ At x Hx)|]. rewrite !power_bp in Ar. rewrite <- Rmult_assoc. exact Ar.
  Qed.
  Lemma pair_distance : exists d, fzeucl z s i j = Ret d /\ distance_value d /\ Rabs (fval d ^ 2 - D ^ 2) <= 10 * INR w * eps.
  Proof.
    destruct (at_window i Li Fi Ai) as (mi & si & Wi & Ln & Bi & Mi & Si & Ni & Cm & Cs & Hi & Ri). destruct (at_window j Lj Fj Aj) as (mj & sj & Wj & Lnj & Bj & Mj & Sj & Nj & Cmj & Csj & Hj & Rj).
    destruct fields as (_ & Ew & _). destruct U as ((Lw & L) & Hw). destruct (Nat.eq_dec i j) as [<-|Nij].
    - exists f_zero. split; [apply c92_self|]. split; [split; [apply zero_number|cbn; lra]|]. unfold zdistance. rewrite euclid_refl. change (fval f_zero) with 0. cbn [pow]. rewrite !Rmult_0_l, Rminus_0_r, Rabs_R0.
      pose proof (pos_INR w). apply Rmult_le_pos; lra.
    - rewrite (fzeucl_eq z s i j mi si _ mj sj _ Nij Wi Wj). cbv zeta. rewrite Ew.
      pose proof (fzeucl_close z w _ _ mi si mj sj (bp e) eps Ln Lnj Lw Hw Bi Bj Mi Mj Si Sj Ni Nj He Cm Cmj Cs Csj Hi Hj Ri) as C. cbv zeta in C.
      set (d := if flt _ _ then _ else _) in *. destruct C as (Nd & Pd & C). rewrite (number_not_nan _ Nd). exists d. split; [reflexivity|]. split; [split; assumption|].
      cbn [pow]. rewrite !Rmult_1_r. rewrite Rmult_assoc. exact C.
  Qed.
  Lemma pair_threshold : exists d, fzeucl_threshold z s i j f_inf = Ret (Some d) /\ distance_value d /\ Rabs (fval d - D) <= 10 * sqrt (INR w) * eps.
  Proof.
    destruct (at_window i Li Fi Ai) as (mi & si & Wi & Ln & Bi & Mi & Si & Ni & Cm & Cs & Hi & Ri). destruct (at_window j Lj Fj Aj) as (mj & sj & Wj & Lnj & Bj & Mj & Sj & Nj & Cmj & Csj & Hj & Rj).
    destruct fields as (_ & Ew & _). destruct U as ((Lw & L) & Hw).
    pose proof (threshold_close' z w _ _ mi si mj sj (bp e) eps Ln Lnj Lw Hw Bi Bj Mi Mj Si Sj Ni Nj He Cm Cmj Cs Csj Hi Hj Ri Rj) as C. cbv zeta in C.
    rewrite (fzeucl_threshold_eq z s i j _ _ _ _ _ _ f_inf Wi Wj). change (fmul f_inf f_inf) with f_inf. rewrite faccumulate_inf. cbn [option_map].
    destruct C as (Nd & Pd & C). eexists. split; [reflexivity|]. split; [split; assumption|]. eapply Rle_trans; [exact C|]. apply Req_le. ring.
  Qed.
  Lemma pair_any t : number t ->
    match fzeucl_threshold z s i j t with
    | Ret (Some d) => distance_value d /\ Rabs (fval d - D) <= 10 * sqrt (INR w) * eps
    | Ret None => fval t <= D + 10 * sqrt (INR w) * eps
    | _ => False
    end.
  Proof.
    intros Nt. destruct pair_threshold as (d & Ei & (Nd & Pd) & C). destruct fields as (_ & _ & Ok).
    destruct (c93_threshold z s i j d Ok Ei (number_not_nan _ Nd)) as (x & _ & _ & _ & A). rewrite A. destruct (flt _ _) eqn:F.
    - pose proof (A t) as At. rewrite F in At. pose proof (c93_rejected z s i j t d Ok Ei (number_not_nan _ Nd) (proj1 Nt) (number_not_nan _ Nt) At) as R.
      rewrite (fle_val _ _ Nt Nd) in R. unfold Rle_bool in R. apply abs_between in C. destruct (Rcompare_spec (fval t) (fval d)); try discriminate R; lra.
    - split; [split; assumption|exact C].
  Qed.
End Pair.

(** ** C100: computed distances *)
(** [zdistance] is the distance of the definition, between the exact windows.  If the
    statistics of both windows are on record with relative error [eps], the square of the
    distance computed is within [10 w eps] of the square of the distance, which is at most
    [4 w]. *)
Theorem c100_distance :
  forall (z : zeros) (ts : list f64) (w : nat) (precise : bool) (s : fseries) (i j : nat) (e : Z) (eps : R),
    moderate ts -> usable ts w -> fseries_new z ts w precise = Ret s ->
    (i < length ts - w)%nat -> (j < length ts - w)%nat -> lively s i -> lively s j ->
    0 < eps <= / 64 -> accurate_at s i e eps -> accurate_at s j e eps ->
    exists d, fzeucl z s i j = Ret d /\ distance_value d /\
      Rabs (fval d ^ 2 - zdistance (exact_window ts w i) (exact_window ts w j) ^ 2) <= 10 * INR w * eps.
Proof. exact pair_distance. Qed.
Print Assumptions c100_distance.

(** The computation with a threshold is more accurate: the distance itself is within
    [10 sqrt w eps].  A pair is rejected only if it is that close to the threshold, or
    farther apart. *)
Theorem c100_threshold :
  forall (z : zeros) (ts : list f64) (w : nat) (precise : bool) (s : fseries) (i j : nat) (e : Z) (eps : R),
    moderate ts -> usable ts w -> fseries_new z ts w precise = Ret s ->
    (i < length ts - w)%nat -> (j < length ts - w)%nat -> lively s i -> lively s j ->
    0 < eps <= / 64 -> accurate_at s i e eps -> accurate_at s j e eps ->
    let exact := zdistance (exact_window ts w i) (exact_window ts w j) in
    (exists d, fzeucl_threshold z s i j f_inf = Ret (Some d) /\ distance_value d /\
       Rabs (fval d - exact) <= 10 * sqrt (INR w) * eps) /\
    (forall t, number t ->
       match fzeucl_threshold z s i j t with
       | Ret (Some d) => distance_value d /\ Rabs (fval d - exact) <= 10 * sqrt (INR w) * eps
       | Ret None => fval t <= exact + 10 * sqrt (INR w) * eps
       | _ => False
       end).
Proof.
  intros z ts w precise s i j e eps Mo U E Li Lj Fi Fj He Ai Aj. cbv zeta. split.
  - eapply pair_threshold; eauto.
  - intros t Nt. eapply pair_any; eauto.
Qed.
Print Assumptions c100_threshold.

(** In precise mode it is enough that the windows vary, compared to the size of their
    values. *)
Lemma u_is : bp (-53) = u. Proof. reflexivity. Qed.
Theorem c100_precise :
  forall (z : zeros) (ts : list f64) (w : nat) (s : fseries) (i : nat) (e : Z) (eps : R),
    moderate ts -> usable ts w -> fseries_new z ts w true = Ret s -> (i < length ts - w)%nat ->
    (-400 <= e <= 200)%Z -> at_most e (firstn w (skipn i ts)) ->
    (INR w + 16) * powerRZ 2 (-51) * powerRZ 2 e <= eps * sd_of (exact_window ts w i) ->
    accurate_at s i e eps.
Proof.
  intros z ts w s i e eps Mo U E Li He A C. destruct (precise_record z ts w s i Mo U E Li) as (Em & Es).
  destruct (c97_precise z ts w s i _ _ e Mo U E Li Em Es He A) as (Cm & Cs).
  destruct (fields z ts w true s Mo U E) as (Ed & Ew & _). eexists _, _. split; [exact Em|]. split; [exact Es|]. rewrite Ed, Ew.
  pose proof (pos_INR w) as W. pose proof u_pos as Up. pose proof (bpow_gt_0 radix2 e) as Be. rewrite !power_bp, ?bp_51, ?bp_54, ?u_is in *.
  assert (Q : 0 < u * bp e) by (apply Rmult_lt_0_compat; lra). assert (0 <= INR w * (u * bp e)) by (apply Rmult_le_pos; lra).
  split; [eapply Rle_trans; [exact Cm|lra]|]. split; [eapply Rle_trans; [exact Cs|lra]|]. split; [exact A|]. lra.
Qed.
Print Assumptions c100_precise.

(** In default mode it has to vary compared to the size of all values, and more so the later
    the window comes in its block. *)
Theorem c100_default :
  forall (z : zeros) (ts : list f64) (w : nat) (s : fseries) (i : nat) (e : Z) (eps : R),
    moderate ts -> usable ts w -> fseries_new z ts w false = Ret s -> (i < length ts - w)%nat ->
    (-400 <= e <= 200)%Z -> at_most e ts ->
    let k := IZR (Z.of_nat i mod 1000000) in
    let sd := sd_of (exact_window ts w i) in
    0 < sd ->
    (INR w + 16 + 8 * k) * powerRZ 2 (-53) * powerRZ 2 e <= eps * sd ->
    (3 * INR w + 5 * k + 26 + (96 * k + 16 * k ^ 2) / INR w) * powerRZ 2 (-53) * powerRZ 2 e ^ 2 <= eps * sd ^ 2 ->
    accurate_at s i e eps.
Proof.
  intros z ts w s i e eps Mo U E Li He A k sd Psd C1 C2. pose proof (default_record z ts w s i Mo U E Li) as (a0 & j0 & _ & _ & Em & Es).
  destruct (c98_default_partial z ts w s i _ _ e Mo U E Li Em Es He A) as (Cm & Cs). fold k in Cm, Cs. fold sd in Cs.
  destruct (fields z ts w false s Mo U E) as (Ed & Ew & _). destruct (c94_new z ts w false Mo U) as (s' & E' & _ & _ & _ & _ & _ & Ns). rewrite E in E'. injection E' as <-.
  destruct (Ns _ (nth_error_In _ _ Es)) as (_ & Ps). set (r := fval (sd_from _ _)) in *. eexists _, _. split; [exact Em|]. split; [exact Es|]. rewrite Ed, Ew. fold sd. fold r.
  pose proof (pos_INR w) as W. pose proof u_pos as Up. pose proof (bpow_gt_0 radix2 e) as Be. rewrite !power_bp, ?bp_51, ?bp_54, ?u_is in *.
  assert (Q : 0 < u * bp e) by (apply Rmult_lt_0_compat; lra). assert (0 <= INR w * (u * bp e)) by (apply Rmult_le_pos; lra).
  assert (Pk : 0 <= k) by (apply IZR_le; apply Z.mod_pos_bound; lia). assert (0 <= k * (u * bp e)) by (apply Rmult_le_pos; lra).
  split; [eapply Rle_trans; [exact Cm|lra]|]. split.
  - pose proof (Rle_trans _ _ _ Cs C2) as H1. replace (r ^ 2 - sd ^ 2) with ((r - sd) * (r + sd)) in H1 by ring. rewrite Rabs_mult, (Rabs_right (r + sd)) in H1 by lra.
    apply Rmult_le_reg_r with sd; [exact Psd|]. apply Rle_trans with (Rabs (r - sd) * (r + sd)); [apply Rmult_le_compat_l; [apply Rabs_pos|lra]|]. eapply Rle_trans; [exact H1|]. apply Req_le. ring.
  - split; [intros x Hx; apply A; eapply win_incl; exact Hx|]. lra.
Qed.
Print Assumptions c100_default.

(** The windows at 0 and 3 of the example, values at most 16: [eps] can be [2^-36], in both
    modes, and the distance computed is about 3.38. *)
Lemma exact_nums l : (forall n, In n l -> (n <= 100)%nat) -> map fval (nums l) = map INR l.
Proof. intros H. unfold nums. rewrite map_map. apply map_ext_in. intros n Hn. specialize (H n Hn). apply (of_nat_exact n). lia. Qed.
Example c100_case : moderate data_ex /\ usable data_ex 5 /\
  fseries_new z_ex data_ex 5 true = Ret series_ex /\ lively series_ex 0 /\ lively series_ex 3 /\
  accurate_at series_ex 0 4 (/ 2 ^ 36) /\ accurate_at series_ex 3 4 (/ 2 ^ 36) /\
  fseries_new z_ex data_ex 5 false = Ret (series_of data_ex 5 false) /\
  accurate_at (series_of data_ex 5 false) 0 4 (/ 2 ^ 36) /\ accurate_at (series_of data_ex 5 false) 3 4 (/ 2 ^ 36) /\
  exists d, fzeucl z_ex series_ex 0 3 = Ret d /\ 33 / 10 < fval d < 34 / 10.
Proof.
  assert (Us : usable data_ex 5) by (unfold usable; vm_compute; split; [lia|discriminate]).
  assert (Nd : fseries_new z_ex data_ex 5 false = Ret (series_of data_ex 5 false)) by (rewrite small_new_ok by (vm_compute; lia); vm_compute; reflexivity).
  assert (Am : at_most 4 data_ex) by (apply (nums_at_most 4); [intros n Hn; cbn in Hn; lia|lia]).
  assert (S0 : 2 <= sd_of (exact_window data_ex 5 0)).
  { unfold exact_window. change (firstn 5 (skipn 0 data_ex)) with (nums [1; 2; 4; 7; 3]%nat). rewrite exact_nums by (intros n Hn; cbn in Hn; lia).
    rewrite <- (sqrt_square 2) by lra. unfold sd_of. apply sqrt_le_1_alt. unfold mean_of, total. cbn [map fold_right length INR]. lra. }
  assert (S3 : 2 <= sd_of (exact_window data_ex 5 3)).
  { unfold exact_window. change (firstn 5 (skipn 3 data_ex)) with (nums [7; 3; 1; 5; 2]%nat). rewrite exact_nums by (intros n Hn; cbn in Hn; lia).
    rewrite <- (sqrt_square 2) by lra. unfold sd_of. apply sqrt_le_1_alt. unfold mean_of, total. cbn [map fold_right length INR]. lra. }
  assert (P51 : bp (-51) = / 2251799813685248) by reflexivity. assert (P53 : bp (-53) = / 9007199254740992) by reflexivity.
  assert (P40 : / 2 ^ 36 = / 68719476736) by (rewrite (pow_IZR 2 36); reflexivity).
  split; [apply data_ex_moderate|]. split; [exact Us|]. split; [apply series_ex_new|]. split; [vm_compute; reflexivity|]. split; [vm_compute; reflexivity|].
  assert (Pr : forall i, (i < 5)%nat -> 2 <= sd_of (exact_window data_ex 5 i) -> accurate_at series_ex i 4 (/ 2 ^ 36)).
  { intros i Hi S. apply (c100_precise z_ex data_ex 5); [apply data_ex_moderate|exact Us|apply series_ex_new|cbn; lia|lia|intros x Hx; apply Am; eapply win_incl; exact Hx|].
    rewrite !power_bp, P51, P40. change (bp 4) with 16. cbn [INR]. lra. }
  assert (De : forall i, (i < 5)%nat -> 2 <= sd_of (exact_window data_ex 5 i) -> accurate_at (series_of data_ex 5 false) i 4 (/ 2 ^ 36)).
  { intros i Hi S. assert (K : 0 <= IZR (Z.of_nat i mod 1000000) <= 4) by (rewrite Z.mod_small by lia; split; apply IZR_le; lia).
    apply (c100_default z_ex data_ex 5); [apply data_ex_moderate|exact Us|exact Nd|cbn; lia|lia|exact Am|lra| |]; rewrite !power_bp, P53, P40; change (bp 4) with 16; cbn [INR pow];
      set (k := IZR (Z.of_nat i mod 1000000)) in *; [lra|]. assert (k * (k * 1) <= 16) by nra. assert (4 <= sd_of (exact_window data_ex 5 i) * (sd_of (exact_window data_ex 5 i) * 1)) by nra. lra. }
  split; [apply Pr; [lia|exact S0]|]. split; [apply Pr; [lia|exact S3]|]. split; [exact Nd|]. split; [apply De; [lia|exact S0]|]. split; [apply De; [lia|exact S3]|].
  eexists. split; [vm_compute; reflexivity|]. unfold fval. cbn [SF2R SpecFloat.cond_Zopp]. unfold F2R. cbn [Fnum Fexp]. change (bp (-51)) with (/ 2251799813685248). lra.
Qed.
