(** Rounding errors of the error function: small arguments, and the whole function. *)
From Coq Require Import Reals Lra Lia QArith Qreals Qabs Floats.SpecFloat.
From Flocq Require Import Core Relative Sterbenz BinarySingleNaN.
From Verif Require Import Base F64 Series Iterator FpOps FloatProofs FloatBound FloatErr FloatTerm FloatProj PolyZ Gauss Erf ErfSpec ErfProofs ErfBound ErfLow ErfAll FloatErf FloatErfSpec FloatErfP FloatErfR.
Local Open Scope R_scope.

(** the literal 1e-10 lies above the decimal number *)
Lemma ten_above : Q2R 1e-10 <= fval (lit 1e-10).
Proof.
  assert (E : lit 1e-10 = S754_finite false 7737125245533627 (-86)) by (vm_compute; reflexivity). rewrite E. cbn [fval SF2R]. unfold F2R. cbn [Fnum Fexp cond_Zopp].
  replace (bpow radix2 (-86)) with (/ IZR (2 ^ 86)) by reflexivity. unfold Q2R. cbn [Qnum Qden].
  replace (IZR (2 ^ 86)) with 77371252455336267181195264 by (vm_compute (2 ^ 86)%Z; reflexivity). change (Qnum 1e-10) with 1%Z. change (Z.pos (Qden 1e-10)) with 10000000000%Z. lra.
Qed.
Lemma below_ten z : number z -> flt z (lit 1e-10) = if Rlt_dec (fval z) (Q2R 1e-10) then true else false.
Proof.
  intros Nz. assert (T : Q2R 1e-10 = / 10000000000) by qval. pose proof ten_above as A.
  destruct (lit_val 1e-10) as (N & V). { rewrite T, Rabs_pos_eq by lra. apply Rle_trans with (bp 0); [change (bp 0) with 1; lra|apply bpow_le; lia]. }
  rewrite flt_val by assumption. destruct (Rlt_dec (fval z) (Q2R 1e-10)) as [L|L]; [apply Rlt_bool_true; lra|apply Rlt_bool_false].
  rewrite V. rewrite <- (rnd_id (fval z)) by (apply fmt_val, Nz). apply rnd_le. lra.
Qed.
Lemma lower fexp z : number z -> 0 <= fval z < Q2R 0.5 ->
  number (ferf_result fexp z) /\ Rabs (fval (ferf_result fexp z) - erf_result (fval z)) <= 100 * u.
Proof.
  intros Nz H. unfold ferf_result, erf_result. rewrite (flt_lit 2 0.5), below_ten by (exact Nz || reflexivity). destruct (Rlt_dec (fval z) (Q2R 0.5)) as [_|L]; [|lra].
  rewrite half in H. pose proof u_pos as UP. pose proof tiny_le as TL. pose proof tiny_pos as TP. assert (US : u <= / 100000000) by (rewrite u53; lra).
  destruct (lit_exact 3 1.125 eq_refl) as (Nc & Vc). assert (C : Q2R 1.125 = 9 / 8) by qval. rewrite C in Vc |- *.
  destruct (mul_err z (lit 1.125) 1 Nz Nc ltac:(lia)) as (N1 & E1). { rewrite Vc. change (bp 1) with 2. rewrite Rabs_pos_eq; lra. }
  rewrite Vc, (Rabs_pos_eq (fval z * (9 / 8))) in E1 by lra. assert (u * (fval z * (9 / 8)) <= u * 1) by (apply Rmult_le_compat_l; lra).
  assert (Fin : forall y Y e, number y -> Rabs (fval y - Y) <= e * u -> 0 <= e <= 90 -> Rabs Y <= 2 ->
    number (fadd (fmul z (lit 1.125)) y) /\ Rabs (fval (fadd (fmul z (lit 1.125)) y) - (fval z * (9 / 8) + Y)) <= (e + 5) * u).
  { intros y Y e Ny Ey He BY. assert (e * u <= 90 * u) by (apply Rmult_le_compat_r; lra). assert (0 <= e * u) by (apply Rmult_le_pos; lra).
    assert (M : Rabs (fval (fmul z (lit 1.125)) + fval y) <= 3). { apply Rabs_le. apply Rabs_le_inv in E1, Ey, BY. lra. }
    destruct (add_err (fmul z (lit 1.125)) y 2 N1 Ny ltac:(lia)) as (N3 & E3). { change (bp 2) with 4. lra. }
    split; [exact N3|]. assert (u * Rabs (fval (fmul z (lit 1.125)) + fval y) <= u * 3) by (apply Rmult_le_compat_l; lra).
    apply Rabs_le. apply Rabs_le_inv in E1, Ey, E3. lra. }
  destruct (Rlt_dec (fval z) (Q2R 1e-10)) as [L|L].
  - assert (K : / 1000 <= Q2R 0.003379167095512573896158903121545171688 <= / 100) by (unfold Q2R; cbn [Qnum Qden]; lra).
    destruct (lit_err 0.003379167095512573896158903121545171688) as (Nk & Ek). { apply small_bp; [lia|]. rewrite Rabs_pos_eq; lra. }
    rewrite (Rabs_pos_eq (Q2R 0.003379167095512573896158903121545171688)) in Ek by lra. assert (UK : u * Q2R 0.003379167095512573896158903121545171688 <= u * / 100) by (apply Rmult_le_compat_l; lra). set (kr := Q2R 0.003379167095512573896158903121545171688) in *. clearbody kr. set (k := lit 0.003379167095512573896158903121545171688) in *. clearbody k.
    assert (Bk : 0 <= fval k <= 1) by (apply Rabs_le_inv in Ek; lra). assert (P1 : 0 <= fval z * fval k <= 1) by (split; [apply Rmult_le_pos; lra|]; apply Rle_trans with (1 * 1); [apply Rmult_le_compat; lra|lra]).
    destruct (mul_err z k 1 Nz Nk ltac:(lia)) as (N2 & E2). { change (bp 1) with 2. rewrite Rabs_pos_eq; lra. }
    rewrite (Rabs_pos_eq (fval z * fval k)) in E2 by lra. assert (u * (fval z * fval k) <= u * 1) by (apply Rmult_le_compat_l; lra).
    destruct (Fin (fmul z k) (fval z * kr) 4 N2) as (N3 & E3); [| |apply Rabs_le; assert (0 <= fval z * kr <= 1) by (split; [apply Rmult_le_pos; lra|]; apply Rle_trans with (1 * 1); [apply Rmult_le_compat; lra|lra]); lra|split; [exact N3|lra]]; [|lra].
    assert (D : Rabs (fval z * fval k - fval z * kr) <= 2 * u).
    { rewrite <- Rmult_minus_distr_l, Rabs_mult, (Rabs_pos_eq (fval z)) by lra. apply Rle_trans with (1 * (2 * u)); [|lra]. apply Rmult_le_compat; try lra. apply Rabs_pos. }
    replace (fval (fmul z k) - fval z * kr) with ((fval (fmul z k) - fval z * fval k) + (fval z * fval k - fval z * kr)) by ring.
    eapply Rle_trans; [apply Rabs_triang|]. lra.
  - destruct (sizes_ok _ _ _ _ (fval z) low_sizes ltac:(lra)) as (S1 & S2 & S3 & S4 & S5 & S6).
    assert (XB : 0 <= fval z <= bp 7) by (change (bp 7) with 128; lra).
    destruct (evaluated z _ _ Nz XB S4 S5 S6 S1 S2 S3) as (Nn & En & Nd & Ed & Mn).
    assert (DB : poly (fval z) ERF_IMPL_AD <= bp 100).
    { eapply Rle_trans; [apply Rle_abs|]. eapply Rle_trans; [apply poly_mag; lra|]. eapply Rle_trans; [apply mag_le; [exact XB|intros k Hk; apply S4, in_or_app; right; exact Hk]|]. apply bpow_le. lia. }
    set (D := poly (fval z) ERF_IMPL_AD) in *. set (N := poly (fval z) ERF_IMPL_AN) in *. set (n := fpoly z ERF_IMPL_AN) in *. set (d := fpoly z ERF_IMPL_AD) in *. clearbody D N n d.
    assert (UD : 0 <= u * D) by (apply Rmult_le_pos; lra). assert (UD' : u * (/ 2) <= u * D) by (apply Rmult_le_compat_l; lra).
    assert (UD3 : u * D <= / 100 * D) by (apply Rmult_le_compat_r; lra).
    assert (Bn : Rabs (fval n) <= D). { apply Rabs_le. apply Rabs_le_inv in En, Mn. lra. }
    assert (Bzn : Rabs (fval z * fval n) <= / 2 * D). { rewrite Rabs_mult, (Rabs_pos_eq (fval z)) by lra. apply Rmult_le_compat; try lra. apply Rabs_pos. }
    destruct (mul_err z n 100 Nz Nn ltac:(lia)) as (N2 & E2). { pose proof (Rabs_pos (fval z * fval n)). lra. }
    assert (u * Rabs (fval z * fval n) <= u * (/ 2 * D)) by (apply Rmult_le_compat_l; lra).
    assert (E3 : Rabs (fval (fmul z n) - fval z * N) <= 14 * u * D).
    { assert (X : Rabs (fval z * fval n - fval z * N) <= / 2 * (25 * u * D)).
      { rewrite <- Rmult_minus_distr_l, Rabs_mult, (Rabs_pos_eq (fval z)) by lra. apply Rmult_le_compat; try lra. apply Rabs_pos. }
      replace (fval (fmul z n) - fval z * N) with ((fval (fmul z n) - fval z * fval n) + (fval z * fval n - fval z * N)) by ring. eapply Rle_trans; [apply Rabs_triang|]. lra. }
    assert (BX : Rabs (fval z * N) <= / 2 * D). { rewrite Rabs_mult, (Rabs_pos_eq (fval z)) by lra. apply Rmult_le_compat; try lra. apply Rabs_pos. }
    destruct (quotient _ _ _ _ (14 * u) (49 * u) N2 Nd (conj S3 DB) ltac:(lra) ltac:(lra) E3 Ed ltac:(lra)) as (Nr & Er).
    destruct (Fin _ (fval z * N / D) 65 Nr) as (N4 & E4); [lra|lra| |split; [exact N4|lra]].
    unfold Rdiv. rewrite Rabs_mult, Rabs_inv, (Rabs_pos_eq D) by lra. apply (Rmult_le_reg_r D); [lra|]. rewrite Rmult_assoc, Rinv_l by lra. lra.
Qed.
Lemma result_near fexp z : exp_within fexp -> number z -> 0 <= fval z ->
  number (ferf_result fexp z) /\ (Q2R 0.5 <= fval z -> 0 <= fval (ferf_result fexp z)) /\ Rabs (fval (ferf_result fexp z) - erf_result (fval z)) <= 256 * u.
Proof.
  intros X Nz P. pose proof u_pos. destruct (Rlt_dec (fval z) (Q2R 0.5)) as [L|L].
  - destruct (lower fexp z Nz (conj P L)) as (N & E). split; [exact N|]. split; [intros; lra|lra].
  - destruct (Rlt_dec (fval z) 110) as [L'|L'].
    + destruct (upper fexp z X Nz ltac:(lra) L') as (N & S & E). split; [exact N|]. split; [intros _; exact S|exact E].
    + unfold ferf_result, erf_result. rewrite (flt_lit 2 0.5), (flt_lit 2 110), q110 by (exact Nz || reflexivity).
      destruct (Rlt_dec (fval z) (Q2R 0.5)); [lra|]. destruct (Rlt_dec (fval z) 110); [lra|]. cbn [fval SF2R]. split; [split; reflexivity|]. split; [lra|]. rewrite Rminus_diag_eq, Rabs_R0 by reflexivity. lra.
Qed.
Lemma nonneg_near fexp z inv : exp_within fexp -> number z -> 0 <= fval z ->
  number (ferf_impl_nonneg fexp z inv) /\ (inv = true -> 0 <= fval (ferf_impl_nonneg fexp z inv)) /\ Rabs (fval (ferf_impl_nonneg fexp z inv) - erf_impl_nonneg (fval z) inv) <= 260 * u.
Proof.
  intros X Nz P. destruct (result_near fexp z X Nz P) as (N & S & E). unfold ferf_impl_nonneg, erf_impl_nonneg. rewrite (fle_lit 2 0.5) by (exact Nz || reflexivity).
  destruct (lit_exact 1 1 eq_refl) as (No & Vo). assert (O : Q2R 1 = 1) by qval. rewrite O in Vo. pose proof u_pos as UP. assert (US : u <= / 100000000) by (rewrite u53; lra).
  assert (B : 0 <= erf_result (fval z) <= 1).
  { destruct (Rlt_dec (fval z) (Q2R 0.5)) as [L|L]; [pose proof (lower_range (fval z) (conj P L)); rewrite half in L; lra|]. split; [apply upper_pos; lra|apply upper_le; lra]. }
  assert (Sub : number (fsub (lit 1) (ferf_result fexp z)) /\ Rabs (fval (fsub (lit 1) (ferf_result fexp z)) - (1 - erf_result (fval z))) <= 260 * u).
  { destruct (sub_err (lit 1) (ferf_result fexp z) 2 No N ltac:(lia)) as (N1 & E1). { rewrite Vo. change (bp 2) with 4. apply Rabs_le. apply Rabs_le_inv in E. lra. }
    rewrite Vo in E1. assert (M : Rabs (1 - fval (ferf_result fexp z)) <= 2) by (apply Rabs_le; apply Rabs_le_inv in E; lra).
    assert (u * Rabs (1 - fval (ferf_result fexp z)) <= u * 2) by (apply Rmult_le_compat_l; lra). split; [exact N1|]. apply Rabs_le. apply Rabs_le_inv in E, E1. lra. }
  destruct Sub as (N1 & E1). destruct (Rle_dec (Q2R 0.5) (fval z)) as [L|L]; destruct inv; cbn [andb orb].
  - split; [exact N|]. split; [intros _; apply S, L|lra].
  - split; [exact N1|]. split; [discriminate|exact E1].
  - split; [exact N1|]. split; [intros _|exact E1]. assert (L' : fval z < Q2R 0.5) by lra. pose proof (lower_range (fval z) (conj P L')). rewrite half in L'. apply Rabs_le_inv in E1. lra.
  - split; [exact N|]. split; [discriminate|lra].
Qed.
Lemma impl_near fexp z inv : exp_within fexp -> number z ->
  number (ferf_impl fexp z inv) /\ (inv = true -> 0 <= fval (ferf_impl fexp z inv)) /\ Rabs (fval (ferf_impl fexp z inv) - erf_impl (fval z) inv) <= 270 * u.
Proof.
  intros X Nz. pose proof u_pos as UP. assert (US : u <= / 100000000) by (rewrite u53; lra). unfold ferf_impl, erf_impl.
  rewrite flt_val by (exact Nz || (split; reflexivity)). cbn [fval SF2R]. fold (fval z).
  destruct (Rlt_dec (fval z) 0) as [L|L].
  2: { rewrite Rlt_bool_false by lra. destruct (nonneg_near fexp z inv X Nz ltac:(lra)) as (N & S & E). split; [exact N|]. split; [exact S|lra]. }
  rewrite Rlt_bool_true by exact L. destruct (opp_val z Nz) as (No & Vo).
  pose proof (nonneg_near fexp (SFopp z) true X No ltac:(lra)) as (N1 & S1 & E1). pose proof (nonneg_near fexp (SFopp z) false X No ltac:(lra)) as (N2 & _ & E2). rewrite Vo in E1, E2.
  destruct (nonneg_error (- fval z) ltac:(lra)) as (_ & B1 & _). pose proof (nonneg_erf (- fval z) ltac:(lra)) as B2.
  destruct inv.
  - destruct (lit_exact 1 0.5 eq_refl) as (Nh & Vh). destruct (opp_val _ Nh) as (Noh & Voh). rewrite flt_val, Voh, Vh by assumption.
    destruct (lit_exact 1 1 eq_refl) as (N1' & V1'). destruct (lit_exact 1 2 eq_refl) as (N2' & V2'). assert (O1 : Q2R 1 = 1) by qval. assert (O2 : Q2R 2 = 2) by qval. rewrite O1 in V1'. rewrite O2 in V2'.
    destruct (Rlt_dec (fval z) (- Q2R 0.5)) as [L'|L'].
    + rewrite Rlt_bool_true by exact L'. set (y := ferf_impl_nonneg fexp (SFopp z) true) in *. set (Y := erf_impl_nonneg (- fval z) true) in *. clearbody y Y.
      assert (M : Rabs (2 - fval y) <= 3) by (apply Rabs_le; apply Rabs_le_inv in E1; lra).
      destruct (sub_err (lit 2) y 2 N2' N1 ltac:(lia)) as (N3 & E3). { rewrite V2'. change (bp 2) with 4. lra. }
      rewrite V2' in E3. assert (u * Rabs (2 - fval y) <= u * 3) by (apply Rmult_le_compat_l; lra).
      split; [exact N3|]. assert (F : Rabs (fval (fsub (lit 2) y) - (2 - Y)) <= 270 * u) by (apply Rabs_le; apply Rabs_le_inv in E1, E3; lra). split; [intros _; apply Rabs_le_inv in F; lra|exact F].
    + rewrite Rlt_bool_false by lra. set (y := ferf_impl_nonneg fexp (SFopp z) false) in *. set (Y := erf_impl_nonneg (- fval z) false) in *. set (Y' := erf_impl_nonneg (- fval z) true) in *. clearbody y Y Y'.
      assert (M : Rabs (1 + fval y) <= 3) by (apply Rabs_le; apply Rabs_le_inv in E2; lra).
      destruct (add_err (lit 1) y 2 N1' N2 ltac:(lia)) as (N3 & E3). { rewrite V1'. change (bp 2) with 4. lra. }
      rewrite V1' in E3. assert (u * Rabs (1 + fval y) <= u * 3) by (apply Rmult_le_compat_l; lra).
      split; [exact N3|]. assert (F : Rabs (fval (fadd (lit 1) y) - (1 + Y)) <= 270 * u) by (apply Rabs_le; apply Rabs_le_inv in E2, E3; lra). split; [intros _; apply Rabs_le_inv in F; lra|exact F].
  - destruct (opp_val _ N2) as (N3 & V3). split; [exact N3|]. split; [discriminate|]. rewrite V3. replace (- fval (ferf_impl_nonneg fexp (SFopp z) false) - - erf_impl_nonneg (- fval z) false) with
      (- (fval (ferf_impl_nonneg fexp (SFopp z) false) - erf_impl_nonneg (- fval z) false)) by ring. rewrite Rabs_Ropp. lra.
Qed.
