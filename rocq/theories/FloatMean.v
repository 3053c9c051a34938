(** How far the recorded means are from the exact ones. *)
From Coq Require Import Reals Lra Lia Floats.SpecFloat.
From Flocq Require Import Core Relative Plus_error BinarySingleNaN.
From Verif Require Import Base F64 RSpec RealProofs Series SeriesProofs Iterator FpOps FloatSeries FloatProofs FloatRoll FloatBound FloatDist FloatDist2 FloatThr FloatErr.
Local Open Scope R_scope.

Lemma vals_win ts w i : vals (win ts w i) = window (vals ts) w i.
Proof. unfold win, window. rewrite <- firstn_map, <- skipn_map. reflexivity. Qed.
Lemma vals_elem ts i : nth i (vals ts) 0 = fval (elem ts i).
Proof. unfold elem. change 0 with (fval f_zero). apply map_nth. Qed.
Lemma abs_between x b : Rabs x <= b -> - b <= x <= b. Proof. intros H. apply Rabs_le_inv, H. Qed.

Section Means.
  Variables (z : zeros) (ts : list f64) (w : nat) (e : Z).
  Hypothesis He : (-400 <= e <= 450)%Z.
  Hypothesis Lw : (1 <= w)%nat.
  Hypothesis Hw : (Z.of_nat w <= 2 ^ 52)%Z.
  Hypothesis Data : forall x, In x ts -> bnd x e.
  Definition mu (i : nat) : R := mean_of (vals (win ts w i)).

  Lemma W1 : 1 <= INR w. Proof. apply (le_INR 1), Lw. Qed.
  Lemma W52 : INR w <= bp 52.
  Proof. rewrite INR_IZR_INZ. change (bp 52) with (IZR (2 ^ 52)). apply IZR_le, Hw. Qed.
  Lemma vals_win_length i : (i + w <= length ts)%nat -> length (vals (win ts w i)) = w.
  Proof. intros L. rewrite map_length. apply win_length, L. Qed.
  Lemma vals_bnd i x : In x (vals (win ts w i)) -> Rabs x <= bp e.
  Proof. intros H. apply in_map_iff in H as (y & <- & Hy). apply (win_bnd ts w e Data i y Hy). Qed.
  Lemma mu_abs i : (i + w <= length ts)%nat -> Rabs (mu i) <= bp e.
  Proof.
    intros L. apply mean_abs; [|apply vals_bnd]. intros E. pose proof (vals_win_length i L) as H. rewrite E in H. cbn in H. lia.
  Qed.
  Lemma mu_step i : (i + 1 + w <= length ts)%nat -> mu (i + 1) = mu i + (fval (elem ts (i + w)) - fval (elem ts i)) / INR w.
  Proof.
    intros L. unfold mu. rewrite !vals_win. destruct (window_shift (vals ts) w i Lw) as (l & E1 & E2); [rewrite map_length; exact L|].
    pose proof (vals_win_length i ltac:(lia)) as Ln. rewrite vals_win, E1 in Ln. rewrite E1, E2, (SeriesProofs.roll_mean (nth i (vals ts) 0)), Ln, !vals_elem. reflexivity.
  Qed.
  Lemma e_pos : 0 < bp e. Proof. apply bpow_gt_0. Qed.
  Lemma tiny_e : tiny <= u * bp e. Proof. apply tiny_u. lia. Qed.
  Lemma div_w x k : (-1074 <= k < 1024)%Z -> bnd x k ->
    Rabs (fval (fdiv x (f_of_nat w)) - fval x / INR w) <= u * bp k + tiny.
  Proof.
    intros K (N & B). destruct (w_number w Lw Hw) as (Nw & Vw). pose proof W1.
    assert (D : Rabs (fval x / INR w) <= bp k).
    { unfold Rdiv. rewrite Rabs_mult, (Rabs_right (/ INR w)) by (apply Rle_ge, Rlt_le, Rinv_0_lt_compat; lra).
      apply Rle_trans with (Rabs (fval x) * 1); [|lra]. apply Rmult_le_compat_l; [apply Rabs_pos|]. rewrite <- Rinv_1. apply Rinv_le_contravar; lra. }
    destruct (div_err x (f_of_nat w) k N Nw) as (_ & E); [rewrite Vw; lra|lia|rewrite Vw; exact D|]. rewrite Vw in E.
    eapply Rle_trans; [exact E|]. apply Rplus_le_compat_r, Rmult_le_compat_l; [apply bpow_ge_0|exact D].
  Qed.

  Lemma mean0_err i : (i + w <= length ts)%nat -> Rabs (fval (mean0 z ts w i) - mu i) <= (INR w + 5) / 2 * (u * bp e).
  Proof.
    intros L. pose proof W1 as W. unfold mean0, mu.
    assert (Lv : length (win ts w i) = w) by (apply win_length, L).
    assert (B : forall x, In x (win ts w i) -> bnd x e) by (apply (win_bnd ts w e Data)).
    pose proof (fsum_err z e (win ts w i) ltac:(lia) ltac:(rewrite Lv; lia) B) as E. rewrite Lv in E.
    destruct (fsum_bound z e (win ts w i) ltac:(lia) ltac:(rewrite Lv; lia) B) as (Ns & Bs). rewrite Lv in Bs.
    destruct (w_number w Lw Hw) as (Nw & Vw).
    set (s := fsum z (win ts w i)) in *. set (t := total (vals (win ts w i))) in *.
    assert (Em : mean_of (vals (win ts w i)) = t / INR w) by (unfold mean_of; rewrite vals_win_length by exact L; reflexivity). rewrite Em.
    assert (D : Rabs (fval s / INR w) <= bp e).
    { unfold Rdiv. rewrite Rabs_mult, (Rabs_right (/ INR w)) by (apply Rle_ge, Rlt_le, Rinv_0_lt_compat; lra).
      apply Rmult_le_reg_r with (INR w); [lra|]. rewrite Rmult_assoc, Rinv_l by lra. lra. }
    destruct (div_err s (f_of_nat w) e Ns Nw) as (_ & E2); [rewrite Vw; lra|lia|rewrite Vw; exact D|]. rewrite Vw in E2.
    assert (E1 : Rabs (fval s / INR w - t / INR w) <= u * bp e * ((INR w + 1) / 2)).
    { replace (fval s / INR w - t / INR w) with ((fval s - t) * / INR w) by (unfold Rdiv; ring). rewrite Rabs_mult, (Rabs_right (/ INR w)) by (apply Rle_ge, Rlt_le, Rinv_0_lt_compat; lra).
      apply Rmult_le_reg_r with (INR w); [lra|]. rewrite Rmult_assoc, Rinv_l, Rmult_1_r by lra.
      eapply Rle_trans; [exact E|]. apply Req_le. field. }
    pose proof tiny_e as T. pose proof u_pos as U.
    assert (u * Rabs (fval s / INR w) <= u * bp e) by (apply Rmult_le_compat_l; lra).
    replace (fval (fdiv s (f_of_nat w)) - t / INR w) with ((fval (fdiv s (f_of_nat w)) - fval s / INR w) + (fval s / INR w - t / INR w)) by ring.
    eapply Rle_trans; [apply Rabs_triang|]. lra.
  Qed.
  (** one step *)
  Lemma step_err i m E : (1 <= i)%nat -> (i + w <= length ts)%nat -> bnd m (e + 21) -> Rabs (fval m - mu (i - 1)) <= E -> E <= bp e ->
    Rabs (fval (roll_mean ts w i m) - mu i) <= E + 8 * (u * bp e).
  Proof.
    intros I L Bm H HE. pose proof W1 as W. pose proof e_pos as EP. pose proof u_pos as UP. pose proof tiny_e as T.
    assert (Enew : bnd (elem ts (i + w - 1)) e) by (apply (elem_bnd ts e Data); lia).
    assert (Eold : bnd (elem ts (i - 1)) e) by (apply (elem_bnd ts e Data); lia).
    assert (Diff : bnd (fsub (elem ts (i + w - 1)) (elem ts (i - 1))) (e + 1)) by (apply sub_bnd; auto; lia).
    assert (Q : bnd (fdiv (fsub (elem ts (i + w - 1)) (elem ts (i - 1))) (f_of_nat w)) (e + 1)) by (apply (div_w_bnd ts w e Lw Hw Data); [lia|exact Diff]).
    assert (S1 : Rabs (fval (elem ts (i + w - 1)) - fval (elem ts (i - 1))) <= bp (e + 1)).
    { rewrite bp_double. eapply Rle_trans; [apply Rabs_triang|]. rewrite Rabs_Ropp. destruct Enew, Eold. lra. }
    destruct (sub_err (elem ts (i + w - 1)) (elem ts (i - 1)) (e + 1)) as (_ & Esub); [apply Enew|apply Eold|lia|exact S1|].
    pose proof (div_w _ (e + 1) ltac:(lia) Diff) as Ediv. rewrite bp_double in Ediv, S1.
    pose proof (mu_step (i - 1) ltac:(lia)) as St. replace (i - 1 + 1)%nat with i in St by lia. replace (i - 1 + w)%nat with (i + w - 1)%nat in St by lia.
    unfold roll_mean. set (new := elem ts (i + w - 1)) in *. set (old := elem ts (i - 1)) in *. set (d := fsub new old) in *. set (q := fdiv d (f_of_nat w)) in *.
    set (g := (fval new - fval old) / INR w) in *.
    assert (Ed : Rabs (fval d / INR w - g) <= 2 * (u * bp e)).
    { unfold g. replace (fval d / INR w - (fval new - fval old) / INR w) with ((fval d - (fval new - fval old)) * / INR w) by (unfold Rdiv; ring).
      rewrite Rabs_mult, (Rabs_right (/ INR w)) by (apply Rle_ge, Rlt_le, Rinv_0_lt_compat; lra).
      apply Rle_trans with (Rabs (fval d - (fval new - fval old)) * 1); [apply Rmult_le_compat_l; [apply Rabs_pos|]; rewrite <- Rinv_1; apply Rinv_le_contravar; lra|].
      rewrite Rmult_1_r. eapply Rle_trans; [exact Esub|]. assert (u * Rabs (fval new - fval old) <= u * (2 * bp e)) by (apply Rmult_le_compat_l; lra). lra. }
    assert (Eq : Rabs (fval q - g) <= 5 * (u * bp e)).
    { replace (fval q - g) with ((fval q - fval d / INR w) + (fval d / INR w - g)) by ring. eapply Rle_trans; [apply Rabs_triang|]. lra. }
    assert (Big : Rabs (fval m + fval q) <= 3 * bp e).
    { replace (fval m + fval q) with (mu i + ((fval m - mu (i - 1)) + (fval q - g))) by (rewrite St; ring).
      eapply Rle_trans; [apply Rabs_triang|]. eapply Rle_trans; [apply Rplus_le_compat_l, Rabs_triang|]. pose proof (mu_abs i L).
      assert (5 * u <= 1) by (change 1 with (bp 0); apply Rle_trans with (bp 3 * u); [apply Rmult_le_compat_r; [apply bpow_ge_0|change (bp 3) with 8; lra]|rewrite <- bpow_plus; apply bpow_le; lia]).
      nra. }
    destruct (add_err m q (e + 22)) as (_ & Ea); [apply Bm|apply Q|lia| |].
    { eapply Rle_trans; [exact Big|]. apply Rle_trans with (bp 22 * bp e); [|rewrite <- bpow_plus; apply bpow_le; lia].
      apply Rmult_le_compat_r; [apply bpow_ge_0|]. change (bp 22) with 4194304. lra. }
    assert (u * Rabs (fval m + fval q) <= u * (3 * bp e)) by (apply Rmult_le_compat_l; lra).
    replace (fval (fadd m q) - mu i) with ((fval (fadd m q) - (fval m + fval q)) + ((fval m - mu (i - 1)) + (fval q - g))) by (rewrite St; ring).
    eapply Rle_trans; [apply Rabs_triang|]. eapply Rle_trans; [apply Rplus_le_compat_l, Rabs_triang|]. lra.
  Qed.
  Definition mean_bound (j : nat) : R := ((INR w + 5) / 2 + 8 * INR j) * (u * bp e).
  Lemma mean_bound_small j : (Z.of_nat j < 2 ^ 20)%Z -> mean_bound j <= bp e.
  Proof.
    intros J. unfold mean_bound. pose proof W52. assert (Hj : INR j <= bp 20) by (rewrite INR_IZR_INZ; change (bp 20) with (IZR (2 ^ 20)); apply IZR_le; lia).
    rewrite <- Rmult_assoc. rewrite <- (Rmult_1_l (bp e)) at 2. apply Rmult_le_compat_r; [apply bpow_ge_0|].
    apply Rle_trans with (bp 53 * u); [|rewrite <- bpow_plus; apply Rle_refl]. apply Rmult_le_compat_r; [apply bpow_ge_0|].
    change (bp 53) with 9007199254740992. change (bp 52) with 4503599627370496 in *. change (bp 20) with 1048576 in Hj. lra.
  Qed.
  Lemma roll_mean_err a j : (Z.of_nat j < 2 ^ 20)%Z -> (a + j + w <= length ts)%nat ->
    Rabs (fval (fst (roll z ts w a j)) - mu (a + j)) <= mean_bound j.
  Proof.
    induction j as [|j IH]; intros J L.
    - cbn [roll fst]. rewrite Nat.add_0_r in *. unfold mean_bound. cbn [INR]. rewrite Rmult_0_r, Rplus_0_r. apply mean0_err, L.
    - specialize (IH ltac:(lia) ltac:(lia)). pose proof (roll_stats z ts w e He Lw Hw Data a j ltac:(lia) ltac:(lia)) as (Bm & _).
      cbn [roll]. destruct (roll z ts w a j) as [m d]. cbn [fst] in *. unfold roll_step. cbn [fst].
      replace (mean_bound (S j)) with (mean_bound j + 8 * (u * bp e)) by (unfold mean_bound; rewrite S_INR; ring).
      apply step_err; [lia|lia|exact Bm| |apply mean_bound_small; lia]. replace (a + S j - 1)%nat with (a + j)%nat by lia. exact IH.
  Qed.
End Means.
