(** How far the standard deviations of the default mode are from the exact ones. *)
From Coq Require Import Reals Lra Lia Floats.SpecFloat.
From Flocq Require Import Core Relative Plus_error BinarySingleNaN.
From Verif Require Import Base F64 RSpec RealProofs Series SeriesProofs Iterator FpOps FloatSeries FloatProofs FloatRoll FloatBound FloatDist FloatDist2 FloatThr FloatErr FloatMean FloatSd.
Local Open Scope R_scope.

Section Variances.
  Variables (z : zeros) (ts : list f64) (w : nat) (e : Z).
  Hypothesis He : (-400 <= e <= 450)%Z.
  Hypothesis Lw : (1 <= w)%nat.
  Hypothesis Hw : (Z.of_nat w <= 2 ^ 52)%Z.
  Hypothesis Data : forall x, In x ts -> bnd x e.
  Notation W := (INR w).
  Notation M := (bp e).
  Notation mu := (mu ts w).
  Notation var := (var ts w).
  Notation sigma := (sigma ts w).

  Lemma tiny_MM : tiny <= u * (M * M).
  Proof. rewrite <- !bpow_plus. apply bpow_le. lia. Qed.
  Lemma squares0_var i : (i + w <= length ts)%nat -> Rabs (fval (squares0 z ts w i) - var i) <= 3 * W * (W + 4) * (u * (M * M)).
  Proof.
    intros L. pose proof (squares0_err z ts w e He Lw Hw Data i L) as E. pose proof (dev0_eq z ts w Lw i L) as D. pose proof (mean0_close z ts w e He Lw Hw Data i L) as C.
    rewrite Rmult_plus_distr_l, <- (var_sigma ts w Lw i L) in D. pose proof (var_M ts w e Data i L) as V. pose proof (W1 w Lw) as HW. pose proof u_pos as UP. pose proof u_small as US.
    pose proof (wu w Hw) as WU. pose proof tiny_MM as T. assert (PM : 0 < M) by apply bpow_gt_0. pose proof (var_pos ts w i) as PV.
    set (c := mu i - fval (mean0 z ts w i)) in *. set (S := fval (squares0 z ts w i)) in *. set (D0 := dev0 z ts w i) in *. clearbody c S D0.
    assert (Sq : c * c = Rabs c * Rabs c) by (rewrite <- Rabs_mult; symmetry; apply Rabs_right, Rle_ge, Rle_0_sqr). rewrite Sq in D. pose proof (Rabs_pos c) as PC. set (b := Rabs c) in *. clearbody b. clear Sq.
    assert (Small : (W + 5) / 2 * (u * M) <= / 3 * M).
    { replace ((W + 5) / 2 * (u * M)) with ((W * u + 5 * u) / 2 * M) by field. apply Rmult_le_compat_r; lra. }
    assert (B2 : b * b <= (W + 5) / 2 * (u * M) * (/ 3 * M)) by (apply Rmult_le_compat; lra).
    assert (B3 : b * b <= (/ 3 * M) * (/ 3 * M)) by (apply Rmult_le_compat; lra).
    assert (B2' : W * (b * b) <= W * ((W + 5) / 2 * (u * M) * (/ 3 * M))) by (apply Rmult_le_compat_l; lra).
    assert (B3' : W * (b * b) <= W * ((/ 3 * M) * (/ 3 * M))) by (apply Rmult_le_compat_l; lra).
    assert (PB : 0 <= W * (b * b)) by (apply Rmult_le_pos; [lra|apply Rle_0_sqr]).
    assert (D1 : D0 <= 10 / 9 * (W * (M * M))) by lra.
    assert (D2 : (2 * W + 8) * u * D0 <= (2 * W + 8) * u * (10 / 9 * (W * (M * M)))) by (apply Rmult_le_compat_l; [apply Rmult_le_pos; lra|exact D1]).
    assert (D3 : 2 * W * tiny <= 2 * W * (u * (M * M))) by (apply Rmult_le_compat_l; lra).
    replace (S - var i) with ((S - D0) + (D0 - var i)) by ring. eapply Rle_trans; [apply Rabs_triang|]. rewrite (Rabs_right (D0 - var i)) by lra.
    set (h := u * (M * M)) in *. replace ((2 * W + 8) * u * (10 / 9 * (W * (M * M)))) with ((2 * W + 8) * (10 / 9) * W * h) in D2 by (unfold h; ring).
    replace (W * ((W + 5) / 2 * (u * M) * (/ 3 * M))) with (W * (W + 5) / 6 * h) in B2' by (unfold h; field).
    assert (PH : 0 < h) by (unfold h; apply Rmult_lt_0_compat; [exact UP|apply Rmult_lt_0_compat; exact PM]). clearbody h.
    assert (0 <= W * h) by (apply Rmult_le_pos; lra). assert (0 <= W * W * h) by (apply Rmult_le_pos; [apply Rmult_le_pos|]; lra).
    replace ((2 * W + 8) * (10 / 9) * W * h) with (20 / 9 * (W * W * h) + 80 / 9 * (W * h)) in D2 by field.
    replace (W * (W + 5) / 6 * h) with (/ 6 * (W * W * h) + 5 / 6 * (W * h)) in B2' by field.
    replace (3 * W * (W + 4) * h) with (3 * (W * W * h) + 12 * (W * h)) by ring. lra.
  Qed.

  Lemma var_step i : (1 <= i)%nat -> (i + w <= length ts)%nat ->
    var i = var (i - 1) + (fval (elem ts (i + w - 1)) - fval (elem ts (i - 1))) * (fval (elem ts (i + w - 1)) - mu i + fval (elem ts (i - 1)) - mu (i - 1)).
  Proof.
    intros I L. unfold FloatSd.var, FloatMean.mu. rewrite !vals_win. destruct (window_shift (vals ts) w (i - 1) Lw) as (l & E1 & E2); [rewrite map_length; lia|].
    replace (i - 1 + 1)%nat with i in E2 by lia. replace (i - 1 + w)%nat with (i + w - 1)%nat in E2 by lia.
    rewrite E1, E2, !vals_elem. apply roll_var.
  Qed.

  Lemma update_err i m m' d E F : (1 <= i)%nat -> (i + w <= length ts)%nat -> number m -> number m' -> number d ->
    Rabs (fval m - mu (i - 1)) <= E -> Rabs (fval m' - mu i) <= E -> E <= M ->
    Rabs (fval d - var (i - 1)) <= F * (u * (M * M)) -> F * u <= 2 * W ->
    number (roll_update ts w i m m' d) /\
    Rabs (fval (roll_update ts w i m m' d) - var i) <= (F + 3 * W + 65) * (u * (M * M)) + 4 * (M * E).
  Proof.
    intros I L Nm Nm' Nd Em Em' HE Ed HF. unfold roll_update. cbv zeta.
    assert (Enew : bnd (elem ts (i + w - 1)) e) by (apply (elem_bnd ts e Data); lia).
    assert (Eold : bnd (elem ts (i - 1)) e) by (apply (elem_bnd ts e Data); lia).
    pose proof (var_step i I L) as VS. pose proof (mu_abs ts w e Lw Data i L) as A1. pose proof (mu_abs ts w e Lw Data (i - 1) ltac:(lia)) as A0.
    pose proof (var_M ts w e Data i L) as V1. pose proof (var_pos ts w i) as V0.
    set (y := elem ts (i + w - 1)) in *. set (x := elem ts (i - 1)) in *. destruct Enew as (Ny & By), Eold as (Nx & Bx).
    set (ma := mu (i - 1)) in *. set (mb := mu i) in *. set (va := var (i - 1)) in *. set (vb := var i) in *. clearbody y x ma mb va vb.
    pose proof (W1 w Lw) as HW. pose proof u_pos as UP. pose proof u_small as US. assert (PM : 0 < M) by apply bpow_gt_0. pose proof tiny_MM as T.
    assert (UM : u * M <= / 1024 * M) by (apply Rmult_le_compat_r; lra). assert (PUM : 0 < u * M) by (apply Rmult_lt_0_compat; assumption).
    apply abs_between in Em, Em', By, Bx, A1, A0.
    assert (Pow : forall k c, (0 <= k <= 55)%Z -> c <= IZR (2 ^ k) -> c * M <= bp (e + k)).
    { intros k c K C. rewrite Z.add_comm, bpow_plus. apply Rmult_le_compat_r; [lra|]. rewrite <- (IZR_Zpower radix2) by lia. exact C. }
    (* new - m' *)
    destruct (sub_err y m' (e + 2) Ny Nm') as (N1 & E1); [lia|apply Rle_trans with (4 * M); [apply Rabs_le; lra|apply Pow; [lia|cbn; lra]]|].
    set (s1 := fsub y m') in *. assert (B1 : Rabs (fval y - fval m') <= 3 * M) by (apply Rabs_le; lra).
    assert (C1 : Rabs (fval s1 - (fval y - fval m')) <= 3 * (u * M)) by (eapply Rle_trans; [exact E1|]; replace (3 * (u * M)) with (u * (3 * M)) by ring; apply Rmult_le_compat_l; lra).
    apply abs_between in C1. apply abs_between in B1. clear E1.
    (* + old *)
    destruct (add_err s1 x (e + 3) N1 Nx) as (N2 & E2); [lia|apply Rle_trans with (8 * M); [apply Rabs_le; lra|apply Pow; [lia|cbn; lra]]|].
    set (s2 := fadd s1 x) in *. assert (C2 : Rabs (fval s2 - (fval s1 + fval x)) <= 5 * (u * M)).
    { eapply Rle_trans; [exact E2|]; replace (5 * (u * M)) with (u * (5 * M)) by ring; apply Rmult_le_compat_l; [lra|]. apply Rabs_le; lra. }
    apply abs_between in C2. clear E2.
    (* - m *)
    destruct (sub_err s2 m (e + 3) N2 Nm) as (N3 & E3); [lia|apply Rle_trans with (8 * M); [apply Rabs_le; lra|apply Pow; [lia|cbn; lra]]|].
    set (s3 := fsub s2 m) in *. assert (C3 : Rabs (fval s3 - (fval s2 - fval m)) <= 7 * (u * M)).
    { eapply Rle_trans; [exact E3|]; replace (7 * (u * M)) with (u * (7 * M)) by ring; apply Rmult_le_compat_l; [lra|]. apply Rabs_le; lra. }
    apply abs_between in C3. clear E3.
    set (q := fval y - mb + fval x - ma) in *.
    assert (Q : Rabs (fval s3 - q) <= 15 * (u * M) + 2 * E) by (unfold q; apply Rabs_le; lra).
    assert (B3 : Rabs (fval s3) <= 7 * M) by (apply Rabs_le; lra).
    (* new - old *)
    destruct (sub_err y x (e + 1) Ny Nx) as (N4 & E4); [lia|apply Rle_trans with (2 * M); [apply Rabs_le; lra|apply Pow; [lia|cbn; lra]]|].
    set (s4 := fsub y x) in *. set (dl := fval y - fval x) in *. assert (Dl : Rabs dl <= 2 * M) by (unfold dl; apply Rabs_le; lra).
    assert (C4 : Rabs (fval s4 - dl) <= 2 * (u * M)).
    { eapply Rle_trans; [exact E4|]; replace (2 * (u * M)) with (u * (2 * M)) by ring; apply Rmult_le_compat_l; [lra|exact Dl]. }
    assert (B4 : Rabs (fval s4) <= 15 / 7 * M) by (pose proof (abs_between _ _ C4); pose proof (abs_between _ _ Dl); apply Rabs_le; lra). clear E4.
    (* product *)
    assert (B5 : Rabs (fval s4 * fval s3) <= 15 * (M * M)).
    { rewrite Rabs_mult. apply Rle_trans with (15 / 7 * M * (7 * M)); [apply Rmult_le_compat; auto using Rabs_pos|lra]. }
    assert (PMM : 0 < M * M) by (apply Rmult_lt_0_compat; lra).
    assert (Pow2 : forall k c, (0 <= k <= 55)%Z -> c <= IZR (2 ^ k) -> c * (M * M) <= bp (2 * e + k)).
    { intros k c K C. replace (2 * e + k)%Z with (k + (e + e))%Z by lia. rewrite !bpow_plus. apply Rmult_le_compat_r; [lra|]. rewrite <- (IZR_Zpower radix2) by lia. exact C. }
    destruct (mul_err s4 s3 (2 * e + 4) N4 N3) as (N5 & E5); [lia|eapply Rle_trans; [exact B5|apply Pow2; [lia|cbn; lra]]|].
    set (p := fmul s4 s3) in *. set (h := u * (M * M)) in *. assert (PH : 0 < h) by (unfold h; apply Rmult_lt_0_compat; lra).
    assert (C5 : Rabs (fval p - fval s4 * fval s3) <= 16 * h).
    { eapply Rle_trans; [exact E5|]. assert (u * Rabs (fval s4 * fval s3) <= u * (15 * (M * M))) by (apply Rmult_le_compat_l; lra). unfold h in *. lra. }
    assert (C6 : Rabs (fval s4 * fval s3 - dl * q) <= 44 * h + 4 * (M * E)).
    { replace (fval s4 * fval s3 - dl * q) with ((fval s4 - dl) * fval s3 + dl * (fval s3 - q)) by ring. eapply Rle_trans; [apply Rabs_triang|]. rewrite !Rabs_mult.
      apply Rle_trans with (2 * (u * M) * (7 * M) + 2 * M * (15 * (u * M) + 2 * E)); [|unfold h; apply Req_le; ring].
      apply Rplus_le_compat; apply Rmult_le_compat; auto using Rabs_pos. }
    assert (C7 : Rabs (fval p - dl * q) <= 60 * h + 4 * (M * E)).
    { replace (fval p - dl * q) with ((fval p - fval s4 * fval s3) + (fval s4 * fval s3 - dl * q)) by ring. eapply Rle_trans; [apply Rabs_triang|]. lra. }
    (* sum *)
    assert (ME : M * E <= M * M) by (apply Rmult_le_compat_l; lra).
    assert (FH : F * h <= 2 * W * (M * M)) by (unfold h; replace (F * (u * (M * M))) with (F * u * (M * M)) by ring; apply Rmult_le_compat_r; lra).
    assert (H60 : 60 * h <= / 10 * (M * M)) by (unfold h; replace (60 * (u * (M * M))) with (60 * u * (M * M)) by ring; apply Rmult_le_compat_r; lra).
    assert (Cs : Rabs (fval d + fval p - vb) <= F * h + 60 * h + 4 * (M * E)).
    { replace (fval d + fval p - vb) with ((fval d - va) + (fval p - dl * q)) by (rewrite VS; unfold dl, q; ring). eapply Rle_trans; [apply Rabs_triang|]. lra. }
    assert (B6 : Rabs (fval d + fval p) <= (3 * W + 5) * (M * M)).
    { pose proof (abs_between _ _ Cs). assert (0 <= W * (M * M)) by (apply Rmult_le_pos; lra). apply Rabs_le. lra. }
    pose proof (W52 w Hw) as HW2. change (bp 52) with 4503599627370496 in HW2.
    destruct (add_err d p (2 * e + 55) Nd N5) as (N6 & E6); [lia|eapply Rle_trans; [exact B6|apply Pow2; [lia|cbn; lra]]|].
    split; [exact N6|]. assert (C8 : u * Rabs (fval d + fval p) <= (3 * W + 5) * h) by (unfold h; replace ((3 * W + 5) * (u * (M * M))) with (u * ((3 * W + 5) * (M * M))) by ring; apply Rmult_le_compat_l; lra).
    match goal with |- Rabs (?a - vb) <= _ => replace (a - vb) with ((a - (fval d + fval p)) + (fval d + fval p - vb)) by ring end.
    eapply Rle_trans; [apply Rabs_triang|]. lra.
  Qed.

  Definition var_bound (j : nat) : R := 3 * W * (W + 4) + INR j * (5 * W + 96 + 16 * INR j).
  Lemma var_bound_0 j : 3 * W * (W + 4) <= var_bound j.
  Proof. unfold var_bound. pose proof (W1 w Lw). pose proof (pos_INR j). assert (0 <= INR j * (5 * W + 96 + 16 * INR j)) by (apply Rmult_le_pos; lra). lra. Qed.
  Lemma var_bound_small j : (Z.of_nat j < 2 ^ 20)%Z -> var_bound j * u <= 2 * W.
  Proof.
    intros J. assert (Hj : INR j <= 1048576) by (rewrite INR_IZR_INZ; apply IZR_le; lia). pose proof (W1 w Lw). pose proof (pos_INR j). pose proof (wu w Hw) as WU. pose proof u_pos.
    assert (Uj : INR j * u <= / 4294967296).
    { apply Rle_trans with (1048576 * u); [apply Rmult_le_compat_r; lra|]. change 1048576 with (bp 20). rewrite <- bpow_plus. apply Rle_trans with (bp (-32)); [apply bpow_le; lia|]. apply Rle_refl. }
    assert (U4 : 12 * u <= / 4294967296) by (apply Rle_trans with (bp 4 * u); [apply Rmult_le_compat_r; [lra|cbn; lra]|]; rewrite <- bpow_plus; apply Rle_trans with (bp (-32)); [apply bpow_le; lia|apply Rle_refl]).
    unfold var_bound. replace ((3 * W * (W + 4) + INR j * (5 * W + 96 + 16 * INR j)) * u) with (W * (3 * (W * u) + 12 * u) + (INR j * u) * (5 * W + 96 + 16 * INR j)) by ring.
    assert (W * (3 * (W * u) + 12 * u) <= W * (3 / 2 + / 4294967296)) by (apply Rmult_le_compat_l; lra).
    assert (INR j * u * (5 * W + 96 + 16 * INR j) <= / 4294967296 * (5 * W + 96 + 16 * 1048576)) by (apply Rmult_le_compat; try lra; apply Rmult_le_pos; lra). lra.
  Qed.
  Lemma roll_number a j : (Z.of_nat j < 2 ^ 20)%Z -> (a + j + w <= length ts)%nat -> number (fst (roll z ts w a j)) /\ number (snd (roll z ts w a j)) /\ is_sign_negative (snd (roll z ts w a j)) = false.
  Proof. intros J L. pose proof (roll_bnd z ts w e He Lw Hw Data a j J L) as H. destruct (roll z ts w a j). cbn [fst snd]. tauto. Qed.
  Lemma roll_var_err a j : (Z.of_nat j < 2 ^ 20)%Z -> (a + j + w <= length ts)%nat ->
    Rabs (fval (snd (roll z ts w a j)) - var (a + j)) <= var_bound j * (u * (M * M)).
  Proof.
    assert (PH : 0 <= u * (M * M)) by (rewrite <- !bpow_plus; apply bpow_ge_0).
    assert (Base : forall k i, (i + w <= length ts)%nat -> Rabs (fval (squares0 z ts w i) - var i) <= var_bound k * (u * (M * M))).
    { intros k i L. eapply Rle_trans; [apply squares0_var, L|]. apply Rmult_le_compat_r; [exact PH|apply var_bound_0]. }
    induction j as [|j IH]; intros J L.
    - cbn [roll snd]. rewrite Nat.add_0_r in *. apply Base, L.
    - specialize (IH ltac:(lia) ltac:(lia)). destruct (roll_number a j ltac:(lia) ltac:(lia)) as (N1 & N2 & _).
      pose proof (roll_mean_err z ts w e He Lw Hw Data a j ltac:(lia) ltac:(lia)) as Em.
      pose proof (roll_mean_err z ts w e He Lw Hw Data a (S j) J L) as Em'. destruct (roll_number a (S j) J L) as (N3 & _).
      cbn [roll] in *. destruct (roll z ts w a j) as [m d]. unfold roll_step in *. cbn [fst snd] in *.
      destruct (flt f_zero _); [|apply Base; exact L].
      assert (Mono : mean_bound w e j <= mean_bound w e (S j)).
      { unfold mean_bound. apply Rmult_le_compat_r; [rewrite <- bpow_plus; apply bpow_ge_0|]. rewrite S_INR. lra. }
      destruct (update_err (a + S j) m (roll_mean ts w (a + S j) m) d (mean_bound w e (S j)) (var_bound j)) as (_ & R); auto; try lia.
      + replace (a + S j - 1)%nat with (a + j)%nat by lia. lra.
      + apply (mean_bound_small w e); auto; lia.
      + replace (a + S j - 1)%nat with (a + j)%nat by lia. exact IH.
      + apply var_bound_small. lia.
      + eapply Rle_trans; [exact R|]. unfold mean_bound, var_bound. rewrite !S_INR. set (h := u * (M * M)) in *.
        match goal with |- ?l + 4 * (M * (?c * (u * M))) <= _ => replace (l + 4 * (M * (c * (u * M)))) with (l + 4 * c * h) by (unfold h; ring) end.
        rewrite <- Rmult_plus_distr_r. apply Rmult_le_compat_r; [exact PH|]. lra.
  Qed.

  (** the recorded standard deviation, squared *)
  Lemma sd_rolled a j : (Z.of_nat j < 2 ^ 20)%Z -> (a + j + w <= length ts)%nat ->
    let sd := fval (sd_from w (snd (roll z ts w a j))) in
    Rabs (sd * sd - sigma (a + j) * sigma (a + j)) <= (var_bound j / W + 14) * (u * (M * M)).
  Proof.
    intros J L. cbv zeta. pose proof (roll_var_err a j J L) as E. destruct (roll_number a j J L) as (_ & N & Sg). pose proof (roll_bnd z ts w e He Lw Hw Data a j J L) as Bd.
    set (d := snd (roll z ts w a j)) in *. assert (B : bnd d (2 * e + 55)).
    { split; [exact N|]. unfold d in *. destruct (roll z ts w a j) as [m d']. cbn [snd] in *. destruct Bd as (_ & _ & _ & Bd). eapply Rle_trans; [exact Bd|].
      replace (2 * e + 55)%Z with (53 + (2 * e + 2))%Z by lia. rewrite (bpow_plus radix2 53). apply Rmult_le_compat_r; [apply bpow_ge_0|].
      change (bp 53) with (IZR (2 ^ 53)). apply IZR_le. lia. }
    clearbody d. clear Bd. assert (P : 0 <= fval d) by (apply sign_val; [apply N|exact Sg]).
    destruct (quotient_err ts w e He Lw Hw Data d B P) as (Nq & Eq). assert (Pq : 0 <= fval (fdiv d (f_of_nat w))) by (apply sign_val; [apply Nq|]; apply fdiv_sign; [exact Sg|apply w_sign; assumption]).
    unfold sd_from. destruct (sqrt_err _ Nq Pq) as (_ & Ps & Es). pose proof (sqrt_sqrt _ Pq) as Sq. pose proof (sqrt_pos (fval (fdiv d (f_of_nat w)))) as SP. set (q := fval (fdiv d (f_of_nat w))) in *. set (r := sqrt q) in *. set (sd := fval (fsqrt64 _)) in *. clearbody r sd q.
    pose proof (W1 w Lw) as HW. pose proof u_pos as UP. pose proof u_small as US. assert (PM : 0 < M) by apply bpow_gt_0. pose proof tiny_MM as T. assert (TE : tiny <= u * M) by (apply tiny_u; lia). pose proof tiny_pos as TP.
    pose proof (var_bound_small j J) as VB. pose proof (var_M ts w e Data (a + j) L) as VM. pose proof (var_pos ts w (a + j)) as VP.
    assert (PMM : 0 < M * M) by (apply Rmult_lt_0_compat; lra). set (h := u * (M * M)) in *. assert (PH : 0 < h) by (unfold h; apply Rmult_lt_0_compat; lra).
    assert (Eq0 : Rabs (fval d / W - var (a + j) / W) <= var_bound j / W * h).
    { replace (fval d / W - var (a + j) / W) with ((fval d - var (a + j)) / W) by (unfold Rdiv; ring). eapply Rle_trans; [apply (abs_over_w w Lw), E|]. apply Req_le. field. lra. }
    assert (D3 : fval d / W <= 3 * (M * M)).
    { apply Rmult_le_reg_r with W; [lra|]. unfold Rdiv. rewrite Rmult_assoc, Rinv_l, Rmult_1_r by lra. apply abs_between in E.
      assert (var_bound j * h <= 2 * W * (M * M)) by (unfold h; replace (var_bound j * (u * (M * M))) with (var_bound j * u * (M * M)) by ring; apply Rmult_le_compat_r; lra). lra. }
    pose proof (over_w w Lw _ P) as D0. set (d' := fval d / W) in *. clearbody d'.
    assert (Sg2 : sigma (a + j) * sigma (a + j) = var (a + j) / W) by (rewrite (var_sigma ts w Lw) by exact L; field; lra). rewrite Sg2.
    assert (Ud : u * d' <= 3 * h) by (unfold h; replace (3 * (u * (M * M))) with (u * (3 * (M * M))) by ring; apply Rmult_le_compat_l; lra).
    assert (Q4 : Rabs (q - d') <= 4 * h) by lra. assert (Hs : h <= / 1024 * (M * M)) by (unfold h; apply Rmult_le_compat_r; lra).
    assert (Qb : q <= 4 * (M * M)) by (apply abs_between in Q4; lra).
    assert (Rb : r <= 2 * M) by (apply Rnot_lt_le; intros C; assert (2 * M * (2 * M) < r * r) by (apply Rmult_le_0_lt_compat; lra); lra).
    assert (Dr : Rabs (sd - r) <= 3 * (u * M)) by (assert (u * r <= u * (2 * M)) by (apply Rmult_le_compat_l; lra); lra).
    assert (Ub : u * M <= / 1024 * M) by (apply Rmult_le_compat_r; lra).
    assert (Sr : Rabs (sd * sd - q) <= 10 * h).
    { assert (Dr' : Rabs (sd - r) <= u * r + tiny) by exact Es. rewrite <- Sq. replace (sd * sd - r * r) with ((sd - r) * (2 * r + (sd - r))) by ring. rewrite Rabs_mult.
      assert (B2 : Rabs (2 * r + (sd - r)) <= 2 * r + 3 * (u * M)) by (eapply Rle_trans; [apply Rabs_triang|]; rewrite Rabs_right by lra; lra).
      apply Rle_trans with ((u * r + tiny) * (2 * r + 3 * (u * M))); [apply Rmult_le_compat; auto using Rabs_pos|].
      assert (T2 : tiny * (2 * r + 3 * (u * M)) <= h).
      { apply Rle_trans with (/ 8 * u * M * (5 * M)); [|unfold h; assert (0 < u * (M * M)) by exact PH; lra].
        apply Rmult_le_compat; [lra| | |lra]; [assert (0 <= u * M) by (apply Rmult_le_pos; lra); lra|].
        apply Rle_trans with (bp (-3) * u * M); [rewrite <- !bpow_plus; apply bpow_le; lia|apply Rle_refl]. }
      assert (Q2 : u * (2 * (r * r)) <= 8 * h) by (unfold h; replace (8 * (u * (M * M))) with (u * (8 * (M * M))) by ring; apply Rmult_le_compat_l; lra).
      assert (Q3 : u * r * (3 * (u * M)) <= / 10 * h).
      { apply Rle_trans with (u * (2 * M) * (3 * (/ 1024 * M))); [apply Rmult_le_compat; [apply Rmult_le_pos; lra|assert (0 <= u * M) by (apply Rmult_le_pos; lra); lra|apply Rmult_le_compat_l; lra|lra]|]. unfold h. assert (0 < u * (M * M)) by exact PH. lra. }
      replace ((u * r + tiny) * (2 * r + 3 * (u * M))) with (u * (2 * (r * r)) + u * r * (3 * (u * M)) + tiny * (2 * r + 3 * (u * M))) by ring. lra. }
    replace (sd * sd - var (a + j) / W) with ((sd * sd - q) + ((q - d') + (d' - var (a + j) / W))) by ring.
    eapply Rle_trans; [apply Rabs_triang|]. eapply Rle_trans; [apply Rplus_le_compat_l, Rabs_triang|]. lra.
  Qed.
End Variances.
