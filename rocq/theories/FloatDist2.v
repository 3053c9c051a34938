(** The distances of FloatSeries.v for any data: when they abort, and what the threshold
    does. *)
From Coq Require Import Reals Lra Lia Floats.SpecFloat.
From Flocq Require Import Core Relative BinarySingleNaN.
From Verif Require Import Base F64 Iterator F64Arith FpOps FloatSeries FloatProofs FloatRoll FloatBound FloatDist.
Local Open Scope R_scope.

(** ** Operations that may overflow *)
Lemma fadd_or a b : number a -> number b ->
  (number (fadd a b) /\ fval (fadd a b) = rnd (fval a + fval b)) \/ fadd a b = S754_infinity (is_sign_negative a).
Proof.
  intros (Ha & Fa) (Hb & Fb). destruct (to_B a Ha) as [x <-], (to_B b Hb) as [y <-]. rewrite finite_B in Fa, Fb.
  pose proof (Bplus_correct prec emax Hprec Hmax mode_NE x y Fa Fb) as C.
  change (round radix2 (SpecFloat.fexp prec emax) (round_mode mode_NE)) with rnd in C. rewrite fadd_B, !fval_B, sign_B.
  destruct (Rlt_bool _ _).
  - left. destruct C as (C1 & C2 & _). split; [split; [apply of_B|rewrite finite_B; exact C2]|exact C1].
  - right. destruct C as (C & _). rewrite C. reflexivity.
Qed.
Lemma fsub_or a b : number a -> number b ->
  (number (fsub a b) /\ fval (fsub a b) = rnd (fval a - fval b)) \/ (fsub a b = S754_infinity (is_sign_negative a) /\ is_sign_negative b = negb (is_sign_negative a)).
Proof.
  intros (Ha & Fa) (Hb & Fb). destruct (to_B a Ha) as [x <-], (to_B b Hb) as [y <-]. rewrite finite_B in Fa, Fb.
  pose proof (Bminus_correct prec emax Hprec Hmax mode_NE x y Fa Fb) as C.
  change (round radix2 (SpecFloat.fexp prec emax) (round_mode mode_NE)) with rnd in C. rewrite fsub_B, !fval_B, !sign_B.
  destruct (Rlt_bool _ _).
  - left. destruct C as (C1 & C2 & _). split; [split; [apply of_B|rewrite finite_B; exact C2]|exact C1].
  - right. destruct C as (C & D). rewrite C, D, negb_involutive. auto.
Qed.
Lemma fmul_or a b : number a -> number b ->
  (number (fmul a b) /\ fval (fmul a b) = rnd (fval a * fval b)) \/ fmul a b = S754_infinity (xorb (is_sign_negative a) (is_sign_negative b)).
Proof.
  intros (Ha & Fa) (Hb & Fb). destruct (to_B a Ha) as [x <-], (to_B b Hb) as [y <-]. rewrite finite_B in Fa, Fb.
  pose proof (Bmult_correct prec emax Hprec Hmax mode_NE x y) as C.
  change (round radix2 (SpecFloat.fexp prec emax) (round_mode mode_NE)) with rnd in C. rewrite fmul_B, !fval_B, !sign_B.
  destruct (Rlt_bool _ _).
  - left. destruct C as (C1 & C2 & _). rewrite Fa, Fb in C2. split; [split; [apply of_B|rewrite finite_B; exact C2]|exact C1].
  - right. rewrite C. reflexivity.
Qed.

(** [(2w - 2 dotp).sqrt()] is NaN only if [dotp] is *)
Lemma fast_not_nan (w : nat) dotp : (Z.of_nat w <= 2 ^ 52)%Z -> is_f64 dotp -> flt (f_of_nat w) dotp = false ->
  is_nan (fsqrt64 (fsub (fmul f_two (f_of_nat w)) (fmul f_two dotp))) = is_nan dotp.
Proof.
  intros Hw D F. destruct (of_nat_exact w ltac:(lia)) as (Nw & Vw). destruct two_number as (N2 & V2).
  assert (B2 : bnd f_two 1) by (split; [exact N2|rewrite V2; change (bp 1) with 2; rewrite Rabs_right; lra]).
  assert (Bw : bnd (f_of_nat w) 52).
  { split; [exact Nw|]. rewrite Vw, Rabs_right by (apply Rle_ge, pos_INR). rewrite INR_IZR_INZ. change (bp 52) with (IZR (2 ^ 52)). apply IZR_le, Hw. }
  assert (B2w : bnd (fmul f_two (f_of_nat w)) (1 + 52)) by (apply mul_bnd; auto; lia). destruct B2w as (N2w & B2w).
  destruct (fmul_le f_two (f_of_nat w) (bp (1 + 52)) N2 Nw) as (_ & E1 & _); [apply fmt_bpow; lia|apply bp_top; lia| |].
  { rewrite Rabs_mult, bpow_plus. apply Rmult_le_compat; auto using Rabs_pos; [apply B2|apply Bw]. }
  assert (Inf : forall y, y = S754_infinity true -> is_nan (fsqrt64 (fsub (fmul f_two (f_of_nat w)) y)) = false).
  { intros y ->. destruct N2w as (_ & N2w). destruct (fmul f_two (f_of_nat w)) as [|s| |]; try discriminate N2w; reflexivity. }
  destruct (is_finite dotp) eqn:Fd.
  - assert (Nd : number dotp) by (split; assumption).
    assert (Le : fval dotp <= INR w).
    { rewrite (flt_val _ _ Nw Nd) in F. unfold Rlt_bool in F. rewrite Vw in F. destruct (Rcompare_spec (INR w) (fval dotp)); try discriminate; lra. }
    replace (is_nan dotp) with false by (destruct dotp; try discriminate Fd; reflexivity).
    destruct (fmul_or f_two dotp N2 Nd) as [(N2d & E2)|E2].
    + destruct (fsub_or _ _ N2w N2d) as [(Ns & Es)|(Es & Es')].
      * assert (P : 0 <= fval (fsub (fmul f_two (f_of_nat w)) (fmul f_two dotp))).
        { rewrite Es, <- rnd0. apply rnd_le. rewrite E1, E2, V2, Vw. assert (rnd (2 * fval dotp) <= rnd (2 * INR w)) by (apply rnd_le; lra). lra. }
        destruct (fsqrt_val _ Ns P) as ((_ & R) & _). destruct (fsqrt64 _); try discriminate R; reflexivity.
      * rewrite Es. destruct (is_sign_negative (fmul f_two (f_of_nat w))) eqn:Sg; [|reflexivity]. exfalso.
        assert (Nn : is_nan (fmul f_two (f_of_nat w)) = false) by (destruct N2w as (_ & N); destruct (fmul f_two (f_of_nat w)); try discriminate N; reflexivity).
        rewrite fmul_sign in Sg by exact Nn.
        assert (Sw : is_sign_negative (f_of_nat w) = false) by (destruct w; [reflexivity|destruct (f_of_nat_pos (S w) ltac:(lia) ltac:(lia)) as (m & k & ->); reflexivity]).
        rewrite Sw in Sg. discriminate Sg.
    + destruct (is_sign_negative dotp) eqn:Sd; [cbn in E2; apply Inf, E2|]. exfalso.
      assert (P : 0 <= fval dotp) by (apply sign_val; assumption).
      assert (Lt : Rabs (rnd (fval f_two * fval dotp)) < top).
      { rewrite V2. apply Rle_lt_trans with (bp 53); [|apply bp_top; lia]. apply rnd_abs_le; [apply fmt_bpow; lia|]. rewrite Rabs_right by lra.
        destruct Bw as (_ & Bw). rewrite Vw, Rabs_right in Bw by (apply Rle_ge, pos_INR). change 53%Z with (52 + 1)%Z. rewrite bp_double. lra. }
      destruct (fmul_val f_two dotp N2 Nd Lt) as ((_ & Ff) & _). rewrite E2 in Ff. discriminate Ff.
  - destruct dotp as [|[]| |]; try discriminate Fd.
    + apply Inf. reflexivity.
    + exfalso. destruct Nw as (_ & Nw). destruct (f_of_nat w) as [|[]| |]; try discriminate Nw; discriminate F.
    + destruct N2w as (_ & N2w). destruct (fmul f_two (f_of_nat w)) as [|s| |]; try discriminate N2w; reflexivity.
Qed.

(** ** Everything is an [f64] *)
Definition fseries_ok (s : fseries) : Prop :=
  (forall x, In x (fs_data s) -> is_f64 x) /\ (forall x, In x (fs_avg s) -> is_f64 x) /\ (forall x, In x (fs_sd s) -> is_f64 x).
Lemma fold_f64 l : forall acc, is_f64 acc -> (forall x, In x l -> is_f64 x) -> is_f64 (fold_left fadd l acc).
Proof. induction l as [|x l IH]; intros acc A H; cbn [fold_left]; [exact A|]. apply IH; [apply fadd_f64; [exact A|apply H; left; reflexivity]|intros; apply H; right; assumption]. Qed.
Lemma zero_f64 s : is_f64 (S754_zero s). Proof. reflexivity. Qed.
Lemma fsum_f64 z l : (forall x, In x l -> is_f64 x) -> is_f64 (fsum z l).
Proof. apply fold_f64, zero_f64. Qed.
Lemma simd_f64 z k l : (forall c, In c l -> forall x, In x c -> is_f64 x) -> forall x, In x (fsimd_sum z k l) -> is_f64 x.
Proof.
  unfold fsimd_sum. assert (G : forall l acc, (forall x, In x acc -> is_f64 x) -> (forall c, In c l -> forall x, In x c -> is_f64 x) ->
    forall x, In x (fold_left (zip_with fadd) l acc) -> is_f64 x).
  { clear. induction l as [|c l IH]; intros acc A H; cbn [fold_left]; [exact A|]. apply IH; [|intros d Hd; apply H; right; exact Hd].
    intros x Hx. apply in_zip_with in Hx as (u & v & Hu & Hv & ->). apply fadd_f64; [auto|]. apply (H c (or_introl eq_refl)), Hv. }
  intros H. apply G; [|exact H]. intros x Hx. apply repeat_spec in Hx. subst x. apply zero_f64.
Qed.
Lemma zdot_f64 z a ma sa b mb sb : (forall x, In x a -> is_f64 x) -> (forall x, In x b -> is_f64 x) -> is_f64 ma -> is_f64 mb -> is_f64 sa -> is_f64 sb -> is_f64 (fzdot z a ma sa b mb sb).
Proof.
  intros A B Ma Mb Sa Sb. unfold fzdot. destruct (_ || _); [reflexivity|]. apply fdiv_f64; [|apply fmul_f64; assumption]. apply fadd_f64; apply fsum_f64.
  - apply simd_f64. intros c Hc x Hx. apply in_zip_with in Hc as (u & v & Hu & Hv & ->). apply in_zip_with in Hx as (p & q & Hp & Hq & ->).
    destruct (in_chunk 4 a u ltac:(lia) Hu) as (_ & Iu). destruct (in_chunk 4 b v ltac:(lia) Hv) as (_ & Iv).
    apply fmul_f64; apply fsub_f64; auto.
  - intros x Hx. apply in_zip_with in Hx as (u & v & Hu & Hv & ->). apply fmul_f64; apply fsub_f64; auto; [apply A|apply B]; eapply in_rest; eauto.
Qed.
Lemma fterm_f64 mi si mj sj x y : is_f64 mi -> is_f64 si -> is_f64 mj -> is_f64 sj -> is_f64 x -> is_f64 y -> is_f64 (fterm mi si mj sj x y).
Proof. intros. unfold fterm. cbv zeta. assert (is_f64 (fsub (fdiv (fsub x mi) si) (fdiv (fsub y mj) sj))) by (repeat first [apply fsub_f64|apply fdiv_f64]; assumption). apply fmul_f64; assumption. Qed.
Lemma fchunk_term_f64 z mi si mj sj x y : is_f64 mi -> is_f64 si -> is_f64 mj -> is_f64 sj -> (forall u, In u x -> is_f64 u) -> (forall u, In u y -> is_f64 u) -> is_f64 (fchunk_term z mi si mj sj x y).
Proof.
  intros Mi Si Mj Sj X Y. unfold fchunk_term. cbv zeta. apply fdiv_f64; [|repeat apply fmul_f64; assumption]. apply fsum_f64. intros d Hd.
  apply in_map_iff in Hd as (c & <- & Hc). apply in_zip_with in Hc as (u & v & Hu & Hv & ->).
  assert (is_f64 (fsub (fsub (fmul u sj) (fmul v si)) (fsub (fmul mi sj) (fmul mj si)))) by (repeat first [apply fsub_f64|apply fmul_f64]; auto).
  apply fmul_f64; assumption.
Qed.
Lemma terms_f64 z mi si mj sj a b x : is_f64 mi -> is_f64 si -> is_f64 mj -> is_f64 sj -> (forall u, In u a -> is_f64 u) -> (forall u, In u b -> is_f64 u) ->
  In x (fterms z mi si mj sj a b) -> is_f64 x.
Proof.
  intros Mi Si Mj Sj A B H. unfold fterms in H. apply in_app_or in H as [H|H]; apply in_zip_with in H as (u & v & Hu & Hv & ->).
  - apply fterm_f64; auto; [apply A|apply B]; eapply in_rest; eauto.
  - destruct (in_chunk 4 a u ltac:(lia) Hu) as (_ & Iu). destruct (in_chunk 4 b v ltac:(lia) Hv) as (_ & Iv). apply fchunk_term_f64; auto.
Qed.
Lemma fwindow_ok s i m sd a : fseries_ok s -> fwindow s i m sd a -> is_f64 m /\ is_f64 sd /\ forall x, In x a -> is_f64 x.
Proof.
  intros (D & M & S) (Em & Es & Ea). unfold fmean, fsd, get in Em, Es.
  destruct (nth_error (fs_avg s) i) as [m'|] eqn:E1; [|discriminate]. destruct (nth_error (fs_sd s) i) as [s'|] eqn:E2; [|discriminate].
  injection Em as ->. injection Es as ->. split; [apply M; eapply nth_error_In; eauto|]. split; [apply S; eapply nth_error_In; eauto|].
  unfold fsubsequence, cut, assert_ in Ea. destruct (_ && _); [|discriminate]. injection Ea as <-. intros x Hx. apply D. apply (win_incl _ (i + fs_w s - i) i), Hx.
Qed.

(** ** Sums of terms that are not negative only grow *)
Lemma fadd_grows a b : is_f64 a -> is_f64 b -> is_sign_negative a = false -> is_sign_negative b = false -> is_nan (fadd a b) = false -> fle a (fadd a b) = true.
Proof.
  intros Ha Hb Sa Sb N. destruct (is_finite a) eqn:Fa; [destruct (is_finite b) eqn:Fb|].
  - assert (Na : number a) by (split; assumption). assert (Nb : number b) by (split; assumption).
    destruct (fadd_or a b Na Nb) as [(Ns & E)|E].
    + rewrite (fle_val _ _ Na Ns), E. apply Rle_bool_true, rnd_ge; [apply fmt_val, Ha|]. pose proof (sign_val b Hb Sb). lra.
    + rewrite E, Sa. destruct a as [[]|[]| |[]]; try discriminate; reflexivity.
  - destruct a as [[]|[]| |[]], b as [[]|[]| |[]]; try discriminate; reflexivity.
  - destruct a as [[]|[]| |[]], b as [[]|[]| |[]]; try discriminate; reflexivity.
Qed.
Lemma fadd_nan_l b : fadd S754_nan b = S754_nan.
Proof. reflexivity. Qed.
Lemma fold_nan l : fold_left fadd l S754_nan = S754_nan.
Proof. induction l as [|x l IH]; cbn [fold_left]; [reflexivity|exact IH]. Qed.
Lemma fold_not_nan l acc : is_nan (fold_left fadd l acc) = false -> is_nan acc = false.
Proof. intros H. destruct acc; try reflexivity. rewrite fold_nan in H. discriminate H. Qed.
Lemma fold_grows l : forall acc, is_f64 acc -> is_sign_negative acc = false -> (forall x, In x l -> is_f64 x /\ is_sign_negative x = false) ->
  is_nan (fold_left fadd l acc) = false -> fle acc (fold_left fadd l acc) = true.
Proof.
  induction l as [|x l IH]; intros acc Ha Sa H N; cbn [fold_left] in *; [apply fle_refl, N|].
  destruct (H x (or_introl eq_refl)) as (Hx & Sx). assert (Nx : is_nan (fadd acc x) = false) by (eapply fold_not_nan, N).
  assert (G : fle acc (fadd acc x) = true) by (apply fadd_grows; assumption).
  assert (R : fle (fadd acc x) (fold_left fadd l (fadd acc x)) = true).
  { apply IH; [apply fadd_f64; assumption|apply fadd_sign; auto|intros; apply H; right; assumption|exact N]. }
  eapply fle_trans; eauto.
Qed.
Lemma faccumulate_spec l t : forall acc, is_f64 acc -> is_sign_negative acc = false -> (forall x, In x l -> is_f64 x /\ is_sign_negative x = false) ->
  is_nan (fold_left fadd l acc) = false -> flt t acc = false ->
  faccumulate l t acc = if flt t (fold_left fadd l acc) then None else Some (fold_left fadd l acc).
Proof.
  induction l as [|x l IH]; intros acc Ha Sa H N T; cbn [faccumulate fold_left] in *; [rewrite T; reflexivity|].
  destruct (H x (or_introl eq_refl)) as (Hx & Sx).
  destruct (flt t (fadd acc x)) eqn:F.
  - assert (G : fle (fadd acc x) (fold_left fadd l (fadd acc x)) = true).
    { apply fold_grows; [apply fadd_f64; assumption|apply fadd_sign; auto|intros; apply H; right; assumption|exact N]. }
    assert (F' : flt t (fold_left fadd l (fadd acc x)) = true) by (f64_tac). rewrite F'. reflexivity.
  - apply IH; [apply fadd_f64; assumption|apply fadd_sign; auto|intros; apply H; right; assumption|exact N|exact F].
Qed.
Lemma fmul_self_zero t : flt (fmul t t) f_zero = false.
Proof. pose proof (mul_self_sign t) as S. destruct (fmul t t) as [[]|[]| |[]]; try discriminate S; reflexivity. Qed.
Lemma sqrt_nan_pos x : is_sign_negative x = false -> is_nan (fsqrt64 x) = is_nan x.
Proof.
  intros S. destruct x as [[]|[]| |[] m e]; try discriminate S; try reflexivity. unfold fsqrt64. cbn [SFsqrt is_nan].
  destruct (SFsqrt_core_binary _ _ _ _) as [[m' e'] l] eqn:F.
  assert (P : (0 <= m')%Z).
  { unfold SFsqrt_core_binary in F. cbv zeta in F;
      match type of F with (let (_, _) := Z.sqrtrem ?n in _) = _ => pose proof (Z.sqrt_nonneg n) as Q; rewrite <- Z.sqrtrem_sqrt in Q; destruct (Z.sqrtrem n) end;
      injection F as <- _ _; exact Q. }
  destruct (round_aux_sign false m' e' l P) as [-> |[-> |(a & b & ->)]]; reflexivity.
Qed.
