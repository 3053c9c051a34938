(** The arithmetic of [f64]: the operations of [Coq.Floats.SpecFloat] at binary64, and what
    they compute as real numbers.  The link with real numbers is proved through Flocq's
    [BinarySingleNaN], whose operations are shown to agree with those of the standard
    library. *)
From Coq Require Import Reals Lra Floats.SpecFloat.
From Flocq Require Import Core Relative Plus_error BinarySingleNaN.
From Verif Require Import Base F64 Iterator F64Arith.
Local Open Scope R_scope.

(** ** Operations: [+], [-], [*], [/], [sqrt], and [n as f64] for [n : usize]
    ([f_of_nat] in Iterator.v).  All round to nearest, ties to even. *)
Definition fadd (a b : f64) : f64 := SFadd prec emax a b.
Definition fsub (a b : f64) : f64 := SFsub prec emax a b.
Definition fmul (a b : f64) : f64 := SFmul prec emax a b.
Definition fdiv (a b : f64) : f64 := SFdiv prec emax a b.
Definition fsqrt64 (a : f64) : f64 := SFsqrt prec emax a.

(** An IEEE value of the right format: what an [f64] can hold. *)
Definition is_f64 (x : f64) : Prop := valid_binary prec emax x = true.
(** a finite [f64] *)
Definition number (x : f64) : Prop := is_f64 x /\ is_finite x = true.
(** the real number it stands for (0 for infinities and NaN) *)
Definition fval (x : f64) : R := SF2R radix2 x.

(** Rounding to nearest, ties to even, without upper limit on the exponent. *)
Definition rnd (x : R) : R := round radix2 (SpecFloat.fexp prec emax) ZnearestE x.
Definition fmt (x : R) : Prop := generic_format radix2 (SpecFloat.fexp prec emax) x.

Global Instance Hprec : Prec_gt_0 prec := eq_refl.
Global Instance Hmax : Prec_lt_emax prec emax := eq_refl.
Global Instance Hexp : Valid_exp (SpecFloat.fexp prec emax) := FLT_exp_valid (SpecFloat.emin prec emax) prec.

(** ** Agreement with Flocq *)
Lemma to_B x : is_f64 x -> exists b : binary_float prec emax, B2SF b = x.
Proof. intros H. exists (SF2B x H). apply B2SF_SF2B. Qed.
Lemma of_B (b : binary_float prec emax) : is_f64 (B2SF b).
Proof. apply valid_binary_B2SF. Qed.
Lemma fval_B (b : binary_float prec emax) : fval (B2SF b) = B2R b.
Proof. destruct b; reflexivity. Qed.
Lemma finite_B (b : binary_float prec emax) : is_finite (B2SF b) = BinarySingleNaN.is_finite b.
Proof. destruct b; reflexivity. Qed.
Lemma sign_B (b : binary_float prec emax) : is_sign_negative (B2SF b) = Bsign b.
Proof. destruct b; reflexivity. Qed.
Lemma nan_B (b : binary_float prec emax) : is_nan (B2SF b) = BinarySingleNaN.is_nan b.
Proof. destruct b; reflexivity. Qed.

Lemma even_equiv s m l : round_nearest_even m l = choice_mode mode_NE s m l.
Proof. destruct l as [|[]]; try reflexivity. cbn. unfold Round.cond_incr. destruct (Z.even m); reflexivity. Qed.
Lemma aux_equiv sx mx ex lx :
  SpecFloat.binary_round_aux prec emax sx mx ex lx = BinarySingleNaN.binary_round_aux prec emax mode_NE sx mx ex lx.
Proof.
  unfold SpecFloat.binary_round_aux, BinarySingleNaN.binary_round_aux. destruct (shr_fexp _ _ _ _ _) as [m e].
  rewrite (even_equiv sx). reflexivity.
Qed.
Lemma round_equiv s m e : SpecFloat.binary_round prec emax s m e = BinarySingleNaN.binary_round prec emax mode_NE s m e.
Proof.
  unfold SpecFloat.binary_round, BinarySingleNaN.binary_round, shl_align_fexp. destruct (shl_align _ _ _). apply aux_equiv.
Qed.
Lemma normalize_equiv m e z :
  SpecFloat.binary_normalize prec emax m e z = B2SF (BinarySingleNaN.binary_normalize prec emax Hprec Hmax mode_NE m e z).
Proof. destruct m; cbn [SpecFloat.binary_normalize BinarySingleNaN.binary_normalize]; [reflexivity| |]; rewrite B2SF_SF2B; apply round_equiv. Qed.

Lemma fmul_B (x y : binary_float prec emax) : fmul (B2SF x) (B2SF y) = B2SF (Bmult mode_NE x y).
Proof. destruct x, y; try reflexivity. cbn. rewrite B2SF_SF2B. apply aux_equiv. Qed.
Lemma fadd_B (x y : binary_float prec emax) : fadd (B2SF x) (B2SF y) = B2SF (Bplus mode_NE x y).
Proof. destruct x as [s|s| |s], y as [s'|s'| |s']; try reflexivity; try (cbn; destruct (Bool.eqb s s'); reflexivity). apply normalize_equiv. Qed.
Lemma fsub_B (x y : binary_float prec emax) : fsub (B2SF x) (B2SF y) = B2SF (Bminus mode_NE x y).
Proof.
  destruct x as [s|s| |s], y as [s'|s'| |s']; try reflexivity; try (cbn; destruct (Bool.eqb s (negb s')); reflexivity).
  unfold fsub. cbn [B2SF SFsub Bminus]. unfold Zminus. rewrite <- cond_Zopp_negb. apply normalize_equiv.
Qed.
Lemma fdiv_B (x y : binary_float prec emax) : fdiv (B2SF x) (B2SF y) = B2SF (Bdiv mode_NE x y).
Proof.
  destruct x as [s|s| |s], y as [s'|s'| |s']; try reflexivity; try (cbn; destruct (Bool.eqb s s'); reflexivity).
  unfold fdiv. cbn [B2SF SFdiv Bdiv]. rewrite B2SF_SF2B. destruct (SFdiv_core_binary _ _ _ _ _ _) as [[m' e'] l]. apply aux_equiv.
Qed.
Lemma fsqrt_B (x : binary_float prec emax) : fsqrt64 (B2SF x) = B2SF (Bsqrt mode_NE x).
Proof.
  destruct x as [s| [] | |s]; try reflexivity. destruct s; [reflexivity|].
  unfold fsqrt64. cbn [B2SF SFsqrt Bsqrt]. rewrite B2SF_SF2B. destruct (SFsqrt_core_binary _ _ _ _) as [[m' e'] l]. apply aux_equiv.
Qed.

(** ** The results are [f64] values *)
Lemma fadd_f64 a b : is_f64 a -> is_f64 b -> is_f64 (fadd a b).
Proof. intros Ha Hb. destruct (to_B a Ha) as [x <-], (to_B b Hb) as [y <-]. rewrite fadd_B. apply of_B. Qed.
Lemma fsub_f64 a b : is_f64 a -> is_f64 b -> is_f64 (fsub a b).
Proof. intros Ha Hb. destruct (to_B a Ha) as [x <-], (to_B b Hb) as [y <-]. rewrite fsub_B. apply of_B. Qed.
Lemma fmul_f64 a b : is_f64 a -> is_f64 b -> is_f64 (fmul a b).
Proof. intros Ha Hb. destruct (to_B a Ha) as [x <-], (to_B b Hb) as [y <-]. rewrite fmul_B. apply of_B. Qed.
Lemma fdiv_f64 a b : is_f64 a -> is_f64 b -> is_f64 (fdiv a b).
Proof. intros Ha Hb. destruct (to_B a Ha) as [x <-], (to_B b Hb) as [y <-]. rewrite fdiv_B. apply of_B. Qed.
Lemma fsqrt_f64 a : is_f64 a -> is_f64 (fsqrt64 a).
Proof. intros Ha. destruct (to_B a Ha) as [x <-]. rewrite fsqrt_B. apply of_B. Qed.
Lemma of_nat_f64 n : is_f64 (f_of_nat n).
Proof. unfold f_of_nat. rewrite normalize_equiv. apply of_B. Qed.

(** ** Their values, when there is no overflow *)
Definition top : R := bpow radix2 emax.
Lemma fits x : Rabs x < top -> Rlt_bool (Rabs x) (bpow radix2 emax) = true.
Proof. apply Rlt_bool_true. Qed.

Lemma fadd_val a b : number a -> number b -> Rabs (rnd (fval a + fval b)) < top ->
  number (fadd a b) /\ fval (fadd a b) = rnd (fval a + fval b).
Proof.
  intros (Ha & Fa) (Hb & Fb) L. destruct (to_B a Ha) as [x <-], (to_B b Hb) as [y <-].
  rewrite !fval_B in *. rewrite finite_B in Fa, Fb. pose proof (Bplus_correct prec emax Hprec Hmax mode_NE x y Fa Fb) as C.
  change (round radix2 (SpecFloat.fexp prec emax) (round_mode mode_NE)) with rnd in C. rewrite (fits _ L) in C.
  destruct C as (C1 & C2 & _). rewrite fadd_B. split; [split; [apply of_B|rewrite finite_B; exact C2]|rewrite fval_B; exact C1].
Qed.
Lemma fsub_val a b : number a -> number b -> Rabs (rnd (fval a - fval b)) < top ->
  number (fsub a b) /\ fval (fsub a b) = rnd (fval a - fval b).
Proof.
  intros (Ha & Fa) (Hb & Fb) L. destruct (to_B a Ha) as [x <-], (to_B b Hb) as [y <-].
  rewrite !fval_B in *. rewrite finite_B in Fa, Fb. pose proof (Bminus_correct prec emax Hprec Hmax mode_NE x y Fa Fb) as C.
  change (round radix2 (SpecFloat.fexp prec emax) (round_mode mode_NE)) with rnd in C. rewrite (fits _ L) in C.
  destruct C as (C1 & C2 & _). rewrite fsub_B. split; [split; [apply of_B|rewrite finite_B; exact C2]|rewrite fval_B; exact C1].
Qed.
Lemma fmul_val a b : number a -> number b -> Rabs (rnd (fval a * fval b)) < top ->
  number (fmul a b) /\ fval (fmul a b) = rnd (fval a * fval b).
Proof.
  intros (Ha & Fa) (Hb & Fb) L. destruct (to_B a Ha) as [x <-], (to_B b Hb) as [y <-].
  rewrite !fval_B in *. rewrite finite_B in Fa, Fb. pose proof (Bmult_correct prec emax Hprec Hmax mode_NE x y) as C.
  change (round radix2 (SpecFloat.fexp prec emax) (round_mode mode_NE)) with rnd in C. rewrite (fits _ L), Fa, Fb in C.
  destruct C as (C1 & C2 & _). rewrite fmul_B. split; [split; [apply of_B|rewrite finite_B; exact C2]|rewrite fval_B; exact C1].
Qed.
Lemma fdiv_val a b : number a -> number b -> fval b <> 0 -> Rabs (rnd (fval a / fval b)) < top ->
  number (fdiv a b) /\ fval (fdiv a b) = rnd (fval a / fval b).
Proof.
  intros (Ha & Fa) (Hb & Fb) Z L. destruct (to_B a Ha) as [x <-], (to_B b Hb) as [y <-].
  rewrite !fval_B in *. rewrite finite_B in Fa, Fb. pose proof (Bdiv_correct prec emax Hprec Hmax mode_NE x y Z) as C.
  change (round radix2 (SpecFloat.fexp prec emax) (round_mode mode_NE)) with rnd in C. rewrite (fits _ L), Fa in C.
  destruct C as (C1 & C2 & _). rewrite fdiv_B. split; [split; [apply of_B|rewrite finite_B; exact C2]|rewrite fval_B; exact C1].
Qed.
Lemma fsqrt_val a : number a -> 0 <= fval a -> number (fsqrt64 a) /\ fval (fsqrt64 a) = rnd (sqrt (fval a)).
Proof.
  intros (Ha & Fa) P. destruct (to_B a Ha) as [x <-].
  rewrite !fval_B in *. rewrite finite_B in Fa. pose proof (Bsqrt_correct prec emax Hprec Hmax mode_NE x) as C.
  change (round radix2 (SpecFloat.fexp prec emax) (round_mode mode_NE)) with rnd in C.
  destruct C as (C1 & C2 & _). rewrite fsqrt_B. split; [split; [apply of_B|rewrite finite_B, C2]|rewrite fval_B; exact C1].
  destruct x as [| | |[] m e B]; try discriminate Fa; try reflexivity. exfalso. cbn [B2R] in P.
  assert (F2R (Float radix2 (SpecFloat.cond_Zopp true (Zpos m)) e) < 0) by (apply F2R_lt_0; cbn; lia). lra.
Qed.
Lemma of_nat_val n : Rabs (rnd (INR n)) < top -> number (f_of_nat n) /\ fval (f_of_nat n) = rnd (INR n).
Proof.
  intros L. unfold f_of_nat. rewrite normalize_equiv.
  pose proof (binary_normalize_correct prec emax Hprec Hmax mode_NE (Z.of_nat n) 0 false) as C. cbv zeta in C.
  change (round radix2 (SpecFloat.fexp prec emax) (round_mode mode_NE)) with rnd in C.
  assert (E : F2R (Float radix2 (Z.of_nat n) 0) = INR n) by (unfold F2R; cbn [Fnum Fexp bpow]; rewrite <- INR_IZR_INZ; ring).
  rewrite E, (fits _ L) in C. destruct C as (C1 & C2 & _).
  split; [split; [apply of_B|rewrite finite_B; exact C2]|rewrite fval_B; exact C1].
Qed.

(** ** Comparisons *)
Lemma compare_val a b : number a -> number b -> SFcompare a b = Some (Rcompare (fval a) (fval b)).
Proof.
  intros (Ha & Fa) (Hb & Fb). destruct (to_B a Ha) as [x <-], (to_B b Hb) as [y <-]. rewrite finite_B in Fa, Fb.
  rewrite !fval_B, <- (Bcompare_correct prec emax x y Fa Fb). reflexivity.
Qed.
Lemma flt_val a b : number a -> number b -> flt a b = Rlt_bool (fval a) (fval b).
Proof.
  intros Ha Hb. unfold flt. rewrite compare_val by assumption. unfold Rlt_bool.
  destruct (Rcompare _ _); reflexivity.
Qed.
Lemma fle_val a b : number a -> number b -> fle a b = Rle_bool (fval a) (fval b).
Proof.
  intros Ha Hb. unfold fle. rewrite compare_val by assumption. unfold Rle_bool.
  destruct (Rcompare _ _); reflexivity.
Qed.
Lemma feq_val a b : number a -> number b -> feq a b = Req_bool (fval a) (fval b).
Proof.
  intros Ha Hb. unfold feq. rewrite compare_val by assumption. unfold Req_bool.
  destruct (Rcompare _ _); reflexivity.
Qed.

(** ** Rounding *)
Lemma rnd_le a b : a <= b -> rnd a <= rnd b.
Proof. apply round_le; typeclasses eauto. Qed.
Lemma rnd_id x : fmt x -> rnd x = x.
Proof. apply round_generic. typeclasses eauto. Qed.
Lemma rnd_abs_le x b : fmt b -> Rabs x <= b -> Rabs (rnd x) <= b.
Proof. apply abs_round_le_generic; typeclasses eauto. Qed.
Lemma rnd_ge x b : fmt b -> b <= x -> b <= rnd x.
Proof. intros F H. rewrite <- (rnd_id b F). apply rnd_le, H. Qed.
Lemma rnd_le_fmt x b : fmt b -> x <= b -> rnd x <= b.
Proof. intros F H. rewrite <- (rnd_id b F). apply rnd_le, H. Qed.
Lemma fmt0 : fmt 0. Proof. apply generic_format_0. Qed.
Lemma rnd0 : rnd 0 = 0. Proof. apply rnd_id, fmt0. Qed.
Lemma fmt_val x : is_f64 x -> fmt (fval x).
Proof. intros H. destruct (to_B x H) as [b <-]. rewrite fval_B. apply generic_format_B2R. Qed.
(** integers of at most 53 bits, scaled by a power of two *)
Lemma fmt_int m e : (Z.abs m <= 2 ^ 53)%Z -> (-1074 <= e)%Z -> fmt (IZR m * bpow radix2 e).
Proof.
  intros M E. destruct (Z.eq_dec (Z.abs m) (2 ^ 53)) as [E53|N].
  - unfold fmt. assert (G : forall s : Z, generic_format radix2 (SpecFloat.fexp prec emax) (IZR (Z.pow 2 53) * bpow radix2 e)).
    { intros _. change (IZR (Z.pow 2 53)) with (bpow radix2 53). rewrite <- bpow_plus. apply generic_format_bpow.
      unfold SpecFloat.fexp, SpecFloat.emin, prec, emax. lia. }
    destruct (Z.abs_spec m) as [[_ A]|[_ A]]; rewrite A in E53.
    + rewrite E53. apply G. exact 0%Z.
    + replace m with (- (2 ^ 53))%Z by lia. rewrite opp_IZR, Ropp_mult_distr_l_reverse. apply generic_format_opp, G. exact 0%Z.
  - apply (generic_format_FLT radix2 (-1074) 53). exists (Float radix2 m e).
    + reflexivity.
    + cbn [Fnum]. change (Zpower radix2 53) with (2 ^ 53)%Z. lia.
    + exact E.
Qed.
Lemma fmt_bpow e : (-1074 <= e)%Z -> fmt (bpow radix2 e).
Proof. intros E. rewrite <- (Rmult_1_l (bpow radix2 e)). apply (fmt_int 1); [cbn; lia|exact E]. Qed.
Lemma fmt_INR n : (Z.of_nat n <= 2 ^ 53)%Z -> fmt (INR n).
Proof. intros L. rewrite INR_IZR_INZ, <- (Rmult_1_r (IZR _)). change 1 with (bpow radix2 0). apply fmt_int; lia. Qed.
Lemma top_INR n : (Z.of_nat n <= 2 ^ 53)%Z -> Rabs (INR n) < top.
Proof.
  intros L. rewrite Rabs_right by (apply Rle_ge, pos_INR). rewrite INR_IZR_INZ. apply Rle_lt_trans with (bpow radix2 53).
  - change (bpow radix2 53) with (IZR (2 ^ 53)). apply IZR_le, L.
  - apply bpow_lt. reflexivity.
Qed.
(** [w as f64] is exact up to [2^53] *)
Lemma of_nat_exact n : (Z.of_nat n <= 2 ^ 53)%Z -> number (f_of_nat n) /\ fval (f_of_nat n) = INR n.
Proof.
  intros L. assert (E : rnd (INR n) = INR n) by apply rnd_id, fmt_INR, L.
  destruct (of_nat_val n) as (A & B); [rewrite E; apply top_INR, L|]. rewrite E in B. auto.
Qed.

(** Results within a representable bound below the overflow threshold. *)
Lemma fadd_le a b c : number a -> number b -> fmt c -> c < top -> Rabs (fval a + fval b) <= c ->
  number (fadd a b) /\ fval (fadd a b) = rnd (fval a + fval b) /\ Rabs (fval (fadd a b)) <= c.
Proof.
  intros Na Nb Fc Lc H. assert (L : Rabs (rnd (fval a + fval b)) <= c) by (apply rnd_abs_le; assumption).
  destruct (fadd_val a b Na Nb) as (A & B); [lra|]. rewrite B. auto.
Qed.
Lemma fsub_le a b c : number a -> number b -> fmt c -> c < top -> Rabs (fval a - fval b) <= c ->
  number (fsub a b) /\ fval (fsub a b) = rnd (fval a - fval b) /\ Rabs (fval (fsub a b)) <= c.
Proof.
  intros Na Nb Fc Lc H. assert (L : Rabs (rnd (fval a - fval b)) <= c) by (apply rnd_abs_le; assumption).
  destruct (fsub_val a b Na Nb) as (A & B); [lra|]. rewrite B. auto.
Qed.
Lemma fmul_le a b c : number a -> number b -> fmt c -> c < top -> Rabs (fval a * fval b) <= c ->
  number (fmul a b) /\ fval (fmul a b) = rnd (fval a * fval b) /\ Rabs (fval (fmul a b)) <= c.
Proof.
  intros Na Nb Fc Lc H. assert (L : Rabs (rnd (fval a * fval b)) <= c) by (apply rnd_abs_le; assumption).
  destruct (fmul_val a b Na Nb) as (A & B); [lra|]. rewrite B. auto.
Qed.
Lemma fdiv_le a b c : number a -> number b -> fval b <> 0 -> fmt c -> c < top -> Rabs (fval a / fval b) <= c ->
  number (fdiv a b) /\ fval (fdiv a b) = rnd (fval a / fval b) /\ Rabs (fval (fdiv a b)) <= c.
Proof.
  intros Na Nb Z Fc Lc H. assert (L : Rabs (rnd (fval a / fval b)) <= c) by (apply rnd_abs_le; assumption).
  destruct (fdiv_val a b Na Nb Z) as (A & B); [lra|]. rewrite B. auto.
Qed.
