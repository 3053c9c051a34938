(** C117: quantised projections in floating point. *)
From Coq Require Import Reals Lra Lia Floats.SpecFloat.
From Flocq Require Import Core Relative BinarySingleNaN.
From Verif Require Import Base F64 HashSpec RealProofs Profile Iterator FpOps FloatBound FloatThr FloatErr Hashing HashingSpec HashingProofs Quantise P_Hashing P_Iterator.
Local Open Scope R_scope.

(** ** Casts *)
Lemma magnitude_floor m e :
  let q := match e with Zneg k => (Zpos m / 2 ^ Zpos k)%Z | _ => (Zpos m * 2 ^ e)%Z end in
  (0 <= q)%Z /\ IZR q <= F2R (Float radix2 (Zpos m) e) < IZR q + 1.
Proof.
  intros q. unfold F2R. cbn [Fnum Fexp]. destruct e as [|k|k]; subst q.
  - cbn [bpow]. rewrite Z.pow_0_r, Z.mul_1_r. split; [lia|]. lra.
  - replace (bpow radix2 (Zpos k)) with (IZR (2 ^ Zpos k)) by (rewrite <- IZR_Zpower by lia; reflexivity).
    rewrite <- mult_IZR. split; [apply Z.mul_nonneg_nonneg; [lia|apply Z.pow_nonneg; lia]|]. lra.
  - change (Zneg k) with (- Zpos k)%Z. rewrite bpow_opp.
    replace (bpow radix2 (Zpos k)) with (IZR (2 ^ Zpos k)) by (rewrite <- IZR_Zpower by lia; reflexivity).
    assert (P : (0 < 2 ^ Zpos k)%Z) by (apply Z.pow_pos_nonneg; lia). set (d := (2 ^ Zpos k)%Z) in *. clearbody d.
    split; [apply Z.div_pos; lia|].
    pose proof (Z.div_mod (Zpos m) d ltac:(lia)) as D. pose proof (Z.mod_pos_bound (Zpos m) d P) as R.
    set (a := (Zpos m / d)%Z) in *. assert (Pr : 0 < IZR d) by (apply IZR_lt; exact P).
    assert (E1 : IZR (Zpos m) = IZR d * IZR a + IZR (Zpos m mod d)) by (rewrite <- mult_IZR, <- plus_IZR; f_equal; exact D).
    destruct R as (R1 & R2). apply IZR_le in R1. apply IZR_lt in R2.
    split; apply (Rmult_le_reg_r (IZR d)) || apply (Rmult_lt_reg_r (IZR d)); try exact Pr; rewrite Rmult_assoc, Rinv_l by lra; lra.
Qed.
Lemma as_i64_trunc x : number x -> Rabs (fval x) <= 128 -> as_i64 x = trunc (fval x).
Proof.
  intros (V & F) L. destruct x as [s|s| |s m e]; try discriminate F.
  - change (fval (S754_zero s)) with 0. rewrite (trunc_pos 0 0) by lra. reflexivity.
  - pose proof (magnitude_floor m e) as (P & H). set (q := match e with Zneg k => _ | _ => _ end) in *.
    assert (B : forall v, v = F2R (Float radix2 (Zpos m) e) -> v <= 128 -> (q <= 128)%Z) by (intros v -> Hv; apply le_IZR; lra).
    assert (P0 : 0 < F2R (Float radix2 (Zpos m) e)) by (apply F2R_gt_0; cbn; lia).
    destruct s; unfold fval in *; cbn [SF2R cond_Zopp] in *.
    + change (Z.neg m) with (- Zpos m)%Z in *. rewrite F2R_Zopp in *. rewrite Rabs_Ropp, Rabs_pos_eq in L by lra.
      specialize (B _ eq_refl L). rewrite (trunc_neg _ (- q)%Z) by (rewrite ?opp_IZR; lra).
      change (as_i64 (S754_finite true m e)) with (Z.max (- 2 ^ 63) (Z.min (2 ^ 63 - 1) (- q))). lia.
    + rewrite Rabs_pos_eq in L by lra. specialize (B _ eq_refl L). rewrite (trunc_pos _ q) by lra.
      change (as_i64 (S754_finite false m e)) with (Z.max (- 2 ^ 63) (Z.min (2 ^ 63 - 1) q)). lia.
Qed.
(** quantisation of a quotient already computed *)
Definition quantise_quotient (h : f64) : N :=
  let h := if flt (f_of_nat 128) (SFabs h) then (if is_sign_negative h then SFopp (f_of_nat 127) else f_of_nat 127) else h in
  Z.to_N (Z.land (as_i64 h) 255).
Lemma fabs_val h : number h -> number (SFabs h) /\ fval (SFabs h) = Rabs (fval h).
Proof.
  intros (V & F). destruct h as [s|s| |s m e]; try discriminate F.
  - split; [split; reflexivity|]. change (fval (S754_zero s)) with 0. rewrite Rabs_R0. reflexivity.
  - split; [split; [exact V|reflexivity]|]. unfold fval. cbn [SFabs SF2R]. rewrite <- F2R_Zabs. destruct s; reflexivity.
Qed.
Lemma quotient_byte h : number h -> byte_of (fval h) (quantise_quotient h).
Proof.
  intros N. destruct (fabs_val h N) as (Na & Va).
  assert (E : quantise_quotient h = quantise 0 1 (fval h)).
  { unfold quantise_quotient, quantise. replace ((fval h + 0) / 1) with (fval h) by field.
    destruct (of_nat_exact 128) as (N128 & V128); [cbn; lia|]. rewrite flt_val, Va, V128 by assumption.
    replace (INR 128) with 128 by (rewrite INR_IZR_INZ; reflexivity).
    destruct (Rlt_bool_spec 128 (Rabs (fval h))) as [L|L]; destruct (Rlt_dec 128 (Rabs (fval h))) as [L'|L']; try lra.
    - assert (S : is_sign_negative h = true <-> fval h < 0).
      { destruct N as (V & F). destruct h as [s|s| |s m e]; try discriminate F.
        - change (fval (S754_zero s)) with 0 in L. rewrite Rabs_R0 in L. lra.
        - unfold fval. destruct s; cbn [SF2R cond_Zopp is_sign_negative].
          + split; [intros _; apply F2R_lt_0; cbn; lia|reflexivity].
          + split; [discriminate|]. intros H. assert (0 < F2R (Float radix2 (Zpos m) e)) by (apply F2R_gt_0; cbn; lia). lra. }
      unfold signum. destruct (Rlt_dec (fval h) 0) as [Z|Z].
      + rewrite (proj2 S Z). rewrite (trunc_neg (-1 * 127) (-127)) by (change (IZR (-127)) with (-127); lra). vm_compute. reflexivity.
      + destruct (is_sign_negative h); [exfalso; apply Z, S; reflexivity|]. rewrite (trunc_pos (1 * 127) 127) by lra. vm_compute. reflexivity.
    - rewrite as_i64_trunc by (assumption || lra). reflexivity. }
  rewrite E. pose proof (quantise_byte 0 1 (fval h)) as B. replace ((fval h + 0) / 1) with (fval h) in B by field. exact B.
Qed.
Lemma infinite_byte s : quantise_quotient (S754_infinity s) = if s then 129%N else 127%N.
Proof. destruct s; vm_compute; reflexivity. Qed.
(** division that overflows *)
Lemma fdiv_over a b : number a -> number b -> fval b <> 0 -> top <= Rabs (rnd (fval a / fval b)) ->
  fdiv a b = S754_infinity (xorb (is_sign_negative a) (is_sign_negative b)).
Proof.
  intros (Ha & Fa) (Hb & Fb) Z L. destruct (to_B a Ha) as [x <-], (to_B b Hb) as [y <-].
  rewrite !fval_B in *. rewrite finite_B in Fa, Fb. pose proof (Bdiv_correct prec emax Hprec Hmax mode_NE x y Z) as C.
  change (round radix2 (SpecFloat.fexp prec emax) (round_mode mode_NE)) with rnd in C.
  rewrite Rlt_bool_false in C by exact L. rewrite fdiv_B, C, !sign_B. reflexivity.
Qed.
Lemma sign_val x : number x -> fval x <> 0 -> is_sign_negative x = Rlt_bool (fval x) 0.
Proof.
  intros (V & F) Z. destruct x as [s|s| |s m e]; try discriminate F; [exfalso; apply Z; reflexivity|].
  unfold fval. destruct s; cbn [SF2R cond_Zopp is_sign_negative]; symmetry.
  - apply Rlt_bool_true, F2R_lt_0. cbn. lia.
  - apply Rlt_bool_false. apply F2R_ge_0. cbn. lia.
Qed.

(** * C117: the byte of a projection in floating point *)
(** The byte computed is the byte of a number of buckets that differs from the exact one by
    less than one part in [2^51].  The division may overflow. *)
Theorem c117_byte :
  forall shift width x : f64,
    number shift -> number width -> number x -> 0 < fval width ->
    Rabs (fval x) <= bpow radix2 1022 -> Rabs (fval shift) <= bpow radix2 1022 ->
    exists z : R, byte_of z (quantise_f64 shift width x) /\
      let exact := (fval x + fval shift) / fval width in
      Rabs (z - exact) <= Rabs exact * / 2 ^ 51 + bpow radix2 (-1075).
Proof.
  intros shift width x Ns Nw Nx Pw Bx Bs.
  assert (Bsum : Rabs (fval x + fval shift) <= bpow radix2 1023).
  { eapply Rle_trans; [apply Rabs_triang|]. change 1023%Z with (1022 + 1)%Z. rewrite bpow_plus_1. change (IZR radix2) with 2. lra. }
  destruct (add_err x shift 1023 Nx Ns ltac:(lia) Bsum) as (Na & Ea).
  set (a := fadd x shift) in *. set (exact := (fval x + fval shift) / fval width).
  assert (Hq : quantise_f64 shift width x = quantise_quotient (fdiv a width)) by reflexivity. rewrite Hq. clear Hq. cbv zeta.
  assert (Uv : u = / 2 ^ 53) by (change u with (/ IZR (2 ^ 53)); f_equal; rewrite pow_IZR; try reflexivity).
  assert (U51 : / 2 ^ 51 = 4 * u) by (rewrite Uv; field).
  assert (U1 : 0 < u <= / 8) by (rewrite Uv; split; [apply Rinv_0_lt_compat, pow_lt; lra|apply Rinv_le; lra]).
  assert (Q : Rabs (fval a / fval width - exact) <= u * Rabs exact).
  { unfold exact. replace (fval a / fval width - (fval x + fval shift) / fval width) with ((fval a - (fval x + fval shift)) / fval width) by (field; lra).
    unfold Rdiv. rewrite !Rabs_mult, <- Rmult_assoc. apply Rmult_le_compat_r; [apply Rabs_pos|exact Ea]. }
  pose proof (err_any (fval a / fval width)) as Er.
  assert (Ab : Rabs (fval a / fval width) <= (1 + u) * Rabs exact).
  { replace (fval a / fval width) with (fval a / fval width - exact + exact) by ring. eapply Rle_trans; [apply Rabs_triang|]. lra. }
  destruct (Rlt_le_dec (Rabs (rnd (fval a / fval width))) top) as [T|T].
  - destruct (fdiv_val a width Na Nw ltac:(lra) T) as (N & V). exists (fval (fdiv a width)). split; [apply quotient_byte, N|]. rewrite V.
    replace (rnd (fval a / fval width) - exact) with (rnd (fval a / fval width) - fval a / fval width + (fval a / fval width - exact)) by ring.
    eapply Rle_trans; [apply Rabs_triang|]. pose proof (Rabs_pos exact) as Pe. rewrite U51.
    assert (u * Rabs (fval a / fval width) <= u * ((1 + u) * Rabs exact)) by (apply Rmult_le_compat_l; lra).
    assert (u * u * Rabs exact <= u * Rabs exact) by (apply Rmult_le_compat_r; [exact Pe|]; rewrite <- (Rmult_1_r u) at 3; apply Rmult_le_compat_l; lra).
    assert (0 <= u * Rabs exact) by (apply Rmult_le_pos; lra). lra.
  - assert (Big : 1024 < Rabs (fval a / fval width)).
    { apply Rnot_le_lt. intros H. assert (Rabs (rnd (fval a / fval width)) <= 1024).
      { apply Rabs_le. apply Rabs_le_inv in H. split.
        - apply rnd_ge; [|lra]. apply generic_format_opp. change 1024 with (bpow radix2 10). apply fmt_bpow. lia.
        - apply rnd_le_fmt; [|lra]. change 1024 with (bpow radix2 10). apply fmt_bpow. lia. }
      assert (1024 < top) by (change 1024 with (bpow radix2 10); apply bpow_lt; reflexivity). lra. }
    exists exact. split; [|unfold Rminus; rewrite Rplus_opp_r, Rabs_R0; apply Rplus_le_le_0_compat; [apply Rmult_le_pos; [apply Rabs_pos|left; apply Rinv_0_lt_compat, pow_lt; lra]|apply bpow_ge_0]].
    rewrite (fdiv_over a width Na Nw ltac:(lra) T). 
    assert (Za : fval a <> 0) by (intros Z; rewrite Z in Big; unfold Rdiv in Big; rewrite Rmult_0_l, Rabs_R0 in Big; lra).
    rewrite (sign_val a Na Za), (sign_val width Nw ltac:(lra)), (Rlt_bool_false (fval width)) by lra. rewrite xorb_false_r, infinite_byte.
    assert (Pi : 0 < / fval width) by (apply Rinv_0_lt_compat, Pw).
    destruct (Rlt_bool_spec (fval a) 0) as [S|S].
    + assert (fval a / fval width < 0) by (unfold Rdiv; rewrite <- (Rmult_0_l (/ fval width)); apply Rmult_lt_compat_r; assumption).
      rewrite Rabs_left in Big by assumption. apply Rabs_le_inv in Q.
      assert (Ee : exact < -128) by (unfold Rabs in Q; destruct (Rcase_abs exact); assert (u * Rabs exact <= / 8 * Rabs exact) by (apply Rmult_le_compat_r; [apply Rabs_pos|lra]); unfold Rabs in *; destruct (Rcase_abs exact); lra).
      split; [lra|]. split; [reflexivity|]. split; intros m Hm; lra.
    + assert (0 <= fval a / fval width) by (unfold Rdiv; apply Rmult_le_pos; lra).
      rewrite Rabs_pos_eq in Big by assumption. apply Rabs_le_inv in Q.
      assert (Ee : 128 < exact) by (unfold Rabs in Q; destruct (Rcase_abs exact); assert (u * Rabs exact <= / 8 * Rabs exact) by (apply Rmult_le_compat_r; [apply Rabs_pos|lra]); unfold Rabs in *; destruct (Rcase_abs exact); lra).
      split; [reflexivity|]. split; [lra|]. split; intros m Hm; lra.
Qed.
Print Assumptions c117_byte.

Lemma cell_value z b m : IZR m < z < IZR m + 1 -> (-128 <= m <= 127)%Z -> byte_of z b ->
  Z.of_N b = if (0 <=? m)%Z then m else ((m + 1) mod 256)%Z.
Proof.
  intros H (L1 & L2) (_ & _ & B3 & B4). apply IZR_le in L1, L2. destruct (Z.leb_spec 0 m) as [P|P].
  - apply IZR_le in P. apply B3; lra.
  - assert (Q : (m + 1 <= 0)%Z) by lia. apply IZR_le in Q. rewrite plus_IZR in Q. apply B4; rewrite ?plus_IZR; lra.
Qed.
Lemma cell_robust z z' d b : (forall m : Z, (-128 <= m <= 128)%Z -> d < Rabs (z - IZR m)) -> Rabs (z' - z) <= d -> byte_of z' b -> byte_of z b.
Proof.
  intros H A B. apply Rabs_le_inv in A.
  destruct (Rlt_dec 128 z) as [L|L].
  - pose proof (H 128%Z ltac:(lia)) as G. rewrite Rabs_pos_eq in G by lra. rewrite (proj1 B) by lra.
    split; [reflexivity|]. split; [lra|]. split; intros m Hm; lra.
  - destruct (Rlt_dec z (-128)) as [L2|L2].
    + pose proof (H (-128)%Z ltac:(lia)) as G. change (IZR (-128)) with (-128) in G. rewrite Rabs_left in G by lra. rewrite (proj1 (proj2 B)) by lra.
      split; [lra|]. split; [reflexivity|]. split; intros m Hm; lra.
    + destruct (byte_of_floor z) as (m & Hm).
      assert (Lm : (-128 <= m <= 128)%Z).
      { split; [|apply le_IZR; lra]. apply Zlt_succ_le, lt_IZR. unfold Z.succ. rewrite plus_IZR. change (IZR (-128)) with (-128). lra. }
      pose proof (H m Lm) as G. rewrite Rabs_pos_eq in G by lra.
      assert (Lm' : (m <= 127)%Z).
      { destruct (Z.eq_dec m 128) as [->|]; [|lia]. exfalso. lra. }
      pose proof (H (m + 1)%Z ltac:(lia)) as G'. rewrite plus_IZR, Rabs_left in G' by lra.
      pose proof (quantise_byte 0 1 z) as Q. replace ((z + 0) / 1) with z in Q by field.
      assert (E : b = quantise 0 1 z); [|rewrite E; exact Q].
      apply N2Z.inj. rewrite (cell_value z' b m), (cell_value z (quantise 0 1 z) m); try assumption; try lra; try lia.
Qed.
(** An absolute bound, in the range of the bytes and a little beyond. *)
Lemma bucket_error shift width x :
  number shift -> number width -> number x -> 0 < fval width ->
  Rabs (fval x) <= bpow radix2 1022 -> Rabs (fval shift) <= bpow radix2 1022 ->
  let exact := (fval x + fval shift) / fval width in
  Rabs exact <= 129 ->
  exists z : R, byte_of z (quantise_f64 shift width x) /\ Rabs (z - exact) <= / 2 ^ 43.
Proof.
  intros Ns Nw Nx Pw Bx Bs exact L. destruct (c117_byte shift width x Ns Nw Nx Pw Bx Bs) as (z & B & E). exists z. split; [exact B|].
  cbv zeta in E. fold exact in E. eapply Rle_trans; [exact E|].
  assert (T : bpow radix2 (-1075) <= bpow radix2 (-51)) by (apply bpow_le; lia).
  replace (bpow radix2 (-51)) with (/ 2 ^ 51) in T by (change (bpow radix2 (-51)) with (/ IZR (2 ^ 51)); f_equal; rewrite pow_IZR; try reflexivity).
  assert (P : 0 < / 2 ^ 51) by (apply Rinv_0_lt_compat, pow_lt; lra).
  assert (Rabs exact * / 2 ^ 51 <= 129 * / 2 ^ 51) by (apply Rmult_le_compat_r; lra).
  replace (/ 2 ^ 43) with (256 * / 2 ^ 51) by field. lra.
Qed.

(** The byte is the one of exact arithmetic, unless the projection is within [2^-43] of a
    width from a boundary between two buckets. *)
Theorem c117_exact_partial :
  forall shift width x : f64,
    number shift -> number width -> number x -> 0 < fval width ->
    Rabs (fval x) <= bpow radix2 1022 -> Rabs (fval shift) <= bpow radix2 1022 ->
    (forall m : Z, (-128 <= m <= 128)%Z -> / 2 ^ 43 < Rabs ((fval x + fval shift) / fval width - IZR m)) ->
    byte_of ((fval x + fval shift) / fval width) (quantise_f64 shift width x).
Proof.
  intros shift width x Ns Nw Nx Pw Bx Bs H. set (exact := (fval x + fval shift) / fval width) in *.
  destruct (Rle_lt_dec (Rabs exact) 129) as [L|L].
  - destruct (bucket_error shift width x Ns Nw Nx Pw Bx Bs L) as (z & B & E). exact (cell_robust exact z _ _ H E B).
  - destruct (c117_byte shift width x Ns Nw Nx Pw Bx Bs) as (z & B & E). cbv zeta in E. fold exact in E.
    assert (T : bpow radix2 (-1075) <= bpow radix2 (-2)) by (apply bpow_le; lia). change (bpow radix2 (-2)) with (/ 4) in T.
    assert (P : / 2 ^ 51 <= / 1024) by (apply Rinv_le; lra).
    assert (Rabs exact * / 2 ^ 51 <= Rabs exact * / 1024) by (apply Rmult_le_compat_l; [apply Rabs_pos|exact P]).
    apply Rabs_le_inv in E. unfold Rabs in *. destruct (Rcase_abs exact) as [S|S].
    + rewrite (proj1 (proj2 B)) by lra. split; [lra|]. split; [reflexivity|]. split; intros m Hm; lra.
    + rewrite (proj1 B) by lra. split; [reflexivity|]. split; [lra|]. split; intros m Hm; lra.
Qed.
Print Assumptions c117_exact_partial.
(** On a boundary it may not be: with a shift of [2^-54] and a width of 1, the largest number
    below 1 gets the byte of bucket 1 instead of that of bucket 0. *)
Theorem c117_exact_refuted :
  exists shift width x : f64, number shift /\ number width /\ number x /\ 0 <= fval shift < fval width /\
    byte_of ((fval x + fval shift) / fval width) 0 /\ quantise_f64 shift width x = 1%N.
Proof.
  exists (S754_finite false 4503599627370496 (-106)), f_one, (S754_finite false 9007199254740991 (-53)).
  assert (V1 : fval (S754_finite false 4503599627370496 (-106)) = / 2 ^ 54) by (unfold fval, SF2R, F2R; cbn -[pow]; field).
  assert (V2 : fval f_one = 1) by (unfold fval, f_one, SF2R, F2R; cbn; field).
  assert (V3 : fval (S754_finite false 9007199254740991 (-53)) = 1 - / 2 ^ 53) by (unfold fval, SF2R, F2R; cbn -[pow]; field).
  rewrite V1, V2, V3. split; [split; reflexivity|]. split; [split; reflexivity|]. split; [split; reflexivity|].
  assert (P : 0 < / 2 ^ 54) by (apply Rinv_0_lt_compat, pow_lt; lra). assert (P1 : / 2 ^ 54 <= / 1024) by (apply Rinv_le; lra).
  split; [lra|]. split; [|vm_compute; reflexivity].
  replace ((1 - / 2 ^ 53 + / 2 ^ 54) / 1) with (1 - / 2 ^ 54) by field. split; [lra|]. split; [lra|]. split; [|intros m Hm; lra].
  intros m _ (H1 & H2).
  assert (IZR m < 1) by lra. assert (-1 < IZR m) by lra. apply lt_IZR in H. apply (lt_IZR (-1)) in H0. lia.
Qed.
Print Assumptions c117_exact_refuted.

(** Projections with equal bytes differ by less than twice the width, and a little. *)
Theorem c117_close :
  forall shift width x y : f64,
    number shift -> number width -> number x -> number y -> 0 < fval width ->
    Rabs (fval x) <= bpow radix2 1022 -> Rabs (fval y) <= bpow radix2 1022 -> Rabs (fval shift) <= bpow radix2 1022 ->
    Rabs ((fval x + fval shift) / fval width) <= 127 -> Rabs ((fval y + fval shift) / fval width) <= 127 ->
    quantise_f64 shift width x = quantise_f64 shift width y ->
    Rabs (fval x - fval y) < (2 + / 2 ^ 42) * fval width.
Proof.
  intros shift width x y Ns Nw Nx Ny Pw Bx By Bs Hx Hy E.
  destruct (bucket_error shift width x Ns Nw Nx Pw Bx Bs ltac:(lra)) as (zx & Qx & Ex).
  destruct (bucket_error shift width y Ns Nw Ny Pw By Bs ltac:(lra)) as (zy & Qy & Ey). rewrite E in Qx.
  set (ex := (fval x + fval shift) / fval width) in *. set (ey := (fval y + fval shift) / fval width) in *.
  assert (P43 : 0 < / 2 ^ 43 <= / 1024) by (split; [apply Rinv_0_lt_compat, pow_lt; lra|apply Rinv_le; lra]).
  apply Rabs_le_inv in Ex, Ey, Hx, Hy.
  destruct (in_range zx _ ltac:(lra) Qx) as (m & Lm & Em & Hm). destruct (in_range zy _ ltac:(lra) Qy) as (m' & Lm' & Em' & Hm').
  assert (m = m').
  { rewrite Em' in Em. pose proof (Z.div_mod m 256 ltac:(lia)). pose proof (Z.div_mod m' 256 ltac:(lia)).
    pose proof (Z.mod_pos_bound m 256 ltac:(lia)). pose proof (Z.mod_pos_bound m' 256 ltac:(lia)). lia. }
  subst m'. assert (A : Rabs (ex - ey) < 2 + / 2 ^ 42).
  { replace (/ 2 ^ 42) with (2 * / 2 ^ 43) by field. apply Rabs_def1; lra. }
  replace (ex - ey) with ((fval x - fval y) / fval width) in A by (unfold ex, ey; field; lra).
  unfold Rdiv in A. rewrite Rabs_mult, (Rabs_pos_eq (/ fval width)) in A by (left; apply Rinv_0_lt_compat, Pw).
  apply (Rmult_lt_compat_r (fval width)) in A; [|exact Pw].
  replace (Rabs (fval x - fval y) * / fval width * fval width) with (Rabs (fval x - fval y)) in A by (field; lra). exact A.
Qed.
Print Assumptions c117_close.

(** Conversely, two projections less than a width apart, less a little, are in the same
    bucket or in neighbouring ones. *)
Theorem c117_neighbours :
  forall shift width x y : f64,
    number shift -> number width -> number x -> number y -> 0 < fval width ->
    Rabs (fval x) <= bpow radix2 1022 -> Rabs (fval y) <= bpow radix2 1022 -> Rabs (fval shift) <= bpow radix2 1022 ->
    Rabs ((fval x + fval shift) / fval width) <= 127 -> Rabs ((fval y + fval shift) / fval width) <= 127 ->
    Rabs (fval x - fval y) <= (1 - / 2 ^ 42) * fval width ->
    exists m m' : Z, Z.of_N (quantise_f64 shift width x) = (m mod 256)%Z /\ Z.of_N (quantise_f64 shift width y) = (m' mod 256)%Z /\
      (-128 <= m <= 127)%Z /\ (-128 <= m' <= 127)%Z /\ (Z.abs (m - m') <= 1)%Z.
Proof.
  intros shift width x y Ns Nw Nx Ny Pw Bx By Bs Hx Hy A.
  destruct (bucket_error shift width x Ns Nw Nx Pw Bx Bs ltac:(lra)) as (zx & Qx & Ex).
  destruct (bucket_error shift width y Ns Nw Ny Pw By Bs ltac:(lra)) as (zy & Qy & Ey).
  assert (A2 : Rabs ((fval x + fval shift) / fval width - (fval y + fval shift) / fval width) <= 1 - / 2 ^ 42).
  { replace ((fval x + fval shift) / fval width - (fval y + fval shift) / fval width) with ((fval x - fval y) / fval width) by (field; lra).
    unfold Rdiv. rewrite Rabs_mult, (Rabs_pos_eq (/ fval width)) by (left; apply Rinv_0_lt_compat, Pw).
    apply (Rmult_le_reg_r (fval width)); [exact Pw|]. replace (Rabs (fval x - fval y) * / fval width * fval width) with (Rabs (fval x - fval y)) by (field; lra). exact A. }
  set (ex := (fval x + fval shift) / fval width) in *. set (ey := (fval y + fval shift) / fval width) in *.
  assert (P43 : 0 < / 2 ^ 43 <= / 1024) by (split; [apply Rinv_0_lt_compat, pow_lt; lra|apply Rinv_le; lra]).
  replace (/ 2 ^ 42) with (2 * / 2 ^ 43) in A2 by field.
  apply Rabs_le_inv in Ex, Ey, Hx, Hy, A2.
  assert (T : forall z b, -128 <= z < 128 -> byte_of z b -> exists m : Z, (-128 <= m <= 127)%Z /\ Z.of_N b = (m mod 256)%Z /\
            (0 <= z -> IZR m <= z < IZR m + 1) /\ (z < 0 -> IZR m - 1 < z <= IZR m)).
  { intros z b Hz (_ & _ & B3 & B4). destruct (Rlt_dec z 0) as [L|L].
    - destruct (byte_of_ceil z) as (m & Hm). exists m. split; [|split; [apply B4; lra|lra]].
      split; [apply le_IZR; change (IZR (-128)) with (-128); lra|]. apply Zlt_succ_le, lt_IZR. change (IZR (Z.succ 127)) with 128. lra.
    - destruct (byte_of_floor z) as (m & Hm). exists m. assert (H0 : (0 <= m <= 127)%Z).
      { split; apply Zlt_succ_le, lt_IZR; [unfold Z.succ; rewrite plus_IZR; lra|]. change (IZR (Z.succ 127)) with 128. lra. }
      split; [lia|]. split; [|lra]. rewrite (B3 m) by lra. symmetry. apply Z.mod_small. lia. }
  destruct (T zx _ ltac:(lra) Qx) as (m & Lm & Em & Hm1 & Hm2). destruct (T zy _ ltac:(lra) Qy) as (m' & Lm' & Em' & Hm1' & Hm2').
  exists m, m'. split; [exact Em|]. split; [exact Em'|]. split; [exact Lm|]. split; [exact Lm'|].
  assert (D : IZR m - IZR m' < 2 /\ IZR m' - IZR m < 2).
  { destruct (Rlt_dec zx 0) as [S|S]; destruct (Rlt_dec zy 0) as [S'|S'].
    - specialize (Hm2 S). specialize (Hm2' S'). lra.
    - specialize (Hm2 S). specialize (Hm1' ltac:(lra)). lra.
    - specialize (Hm1 ltac:(lra)). specialize (Hm2' S'). lra.
    - specialize (Hm1 ltac:(lra)). specialize (Hm1' ltac:(lra)). lra. }
  destruct D as (D1 & D2). rewrite <- minus_IZR in D1, D2. apply lt_IZR in D1, D2. lia.
Qed.
Print Assumptions c117_neighbours.

(** A width of 1, a shift of 1/2 and projections of 3 and 4: buckets 3 and 4. *)
Example c117_case :
  number half /\ number f_one /\ number (f_of_nat 3) /\ number (f_of_nat 4) /\ fval f_one = 1 /\ fval half = / 2 /\
  fval (f_of_nat 3) = 3 /\ fval (f_of_nat 4) = 4 /\
  quantise_f64 half f_one (f_of_nat 3) = 3%N /\ quantise_f64 half f_one (f_of_nat 4) = 4%N /\
  (forall m : Z, / 2 ^ 43 < Rabs ((fval (f_of_nat 3) + fval half) / fval f_one - IZR m)).
Proof.
  assert (V2 : fval f_one = 1) by (unfold fval, f_one, SF2R, F2R; cbn; field).
  assert (V1 : fval half = / 2) by (unfold fval, half, SF2R, F2R; cbn; field).
  destruct (of_nat_exact 3) as (N3 & V3); [cbn; lia|]. destruct (of_nat_exact 4) as (N4 & V4); [cbn; lia|].
  rewrite V2, V1, V3, V4. split; [split; reflexivity|]. split; [split; reflexivity|]. split; [exact N3|]. split; [exact N4|].
  split; [reflexivity|]. split; [reflexivity|]. split; [cbn; lra|]. split; [cbn; lra|]. split; [vm_compute; reflexivity|]. split; [vm_compute; reflexivity|].
  intros m. assert (P : / 2 ^ 43 <= / 1024) by (apply Rinv_le; lra).
  replace ((INR 3 + / 2) / 1) with (3 + / 2) by (cbn; field).
  destruct (Z.le_gt_cases m 3) as [L|L].
  - apply IZR_le in L. rewrite Rabs_pos_eq; lra.
  - assert (L' : (4 <= m)%Z) by lia. apply IZR_le in L'. rewrite Rabs_left; lra.
Qed.
