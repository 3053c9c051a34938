(** Property theorems C122 (memory sizes with decimal numbers) and C123 (decimal numbers in
    series files).
    Specification: DecimalSpec.v, TextSpec.v and the definitions of this file.
    Model: Decimal.v, Text.v. *)
From Coq Require Import Reals Lra Lia QArith Qreals String Floats.SpecFloat.
From Flocq Require Import Core Relative Mult_error BinarySingleNaN.
From Verif Require Import Base F64 Iterator Text TextSpec TextForms TextProofs FpOps FloatProofs FloatBound FloatThr FloatErr FloatErf FloatErfP FloatErfR Counts P_Limit P_Text Decimal DecimalSpec DecimalProofs.
Local Open Scope list_scope.
Local Open Scope R_scope.

(** the number of bytes [n] for a size of [y] bytes *)
Definition max_size : N := 2 ^ 64 - 1.
Definition size_near (n : N) (y : R) : Prop :=
  (y <= 0 -> n = 0%N) /\
  (0 <= y < 2 ^ 64 -> Rabs (IZR (Z.of_N n) - y) <= 1 + y / 2 ^ 53) /\
  (2 ^ 64 <= y -> n = max_size).

(** ** Scaling *)
Definition big (x : f64) : Prop := x = S754_infinity false \/ (FpOps.number x /\ bp 64 <= fval x).
Definition holds (x : f64) (y : R) : Prop := (FpOps.number x /\ fval x = y /\ 0 <= y < bp 64) \/ (big x /\ bp 64 <= y).
Lemma number_1024 : FpOps.number f_1024 /\ fval f_1024 = 1024.
Proof. assert (E : Q2R 1024 = 1024) by (unfold Q2R; cbn; field). rewrite <- E. apply (lit_exact 0). vm_compute. reflexivity. Qed.
Lemma fmt_scale x : fmt x -> fmt (x * 1024).
Proof. intros F. change 1024 with (bp 10). apply (mult_bpow_pos_exact_FLT radix2 (-1074) 53 x 10); [exact F|lia]. Qed.
Lemma big_mul x : big x -> big (fmul x f_1024).
Proof.
  destruct number_1024 as (K & VK). intros [->|(N & L)]; [left; reflexivity|]. destruct (Rlt_le_dec (fval x * 1024) top) as [T|T].
  - right. assert (P : 0 < bp 64) by apply bpow_gt_0. assert (E : rnd (fval x * fval f_1024) = fval x * 1024) by (rewrite VK; apply rnd_id, fmt_scale, fmt_val, N).
    destruct (fmul_val x f_1024 N K) as (A & B); [rewrite E, Rabs_pos_eq by lra; exact T|]. split; [exact A|]. rewrite B, E. lra.
  - left. destruct N as (V & F). destruct (to_B x V) as [b <-], (to_B f_1024 (proj1 K)) as [c Hc]. rewrite fval_B in *. rewrite <- Hc in *. rewrite fval_B in VK.
    pose proof (Bmult_correct prec emax Hprec Hmax mode_NE b c) as C. change (round radix2 (SpecFloat.fexp prec emax) (round_mode mode_NE)) with rnd in C.
    assert (P : 0 < bp 64) by apply bpow_gt_0.
    assert (E : rnd (B2R b * B2R c) = B2R b * 1024) by (rewrite VK; apply rnd_id, fmt_scale; apply generic_format_B2R).
    rewrite E, Rlt_bool_false in C by (rewrite Rabs_pos_eq by lra; exact T). rewrite fmul_B, C.
    assert (Sb : Bsign b = false). { destruct b as [s|s| |s m e B]; cbn [B2R] in L; try (cbn in L; lra). destruct s; [exfalso|reflexivity]. assert (F2R (Float radix2 (Zneg m) e) < 0) by (apply F2R_lt_0; reflexivity). cbn [SpecFloat.cond_Zopp Z.opp] in L. lra. }
    assert (Sc : Bsign c = false). { destruct c as [s|s| |s m e B]; cbn [B2R] in VK; try (cbn in VK; lra). destruct s; [exfalso|reflexivity]. assert (F2R (Float radix2 (Zneg m) e) < 0) by (apply F2R_lt_0; reflexivity). cbn [SpecFloat.cond_Zopp Z.opp] in VK. lra. }
    rewrite Sb, Sc. reflexivity.
Qed.
Lemma holds_mul x y : holds x y -> holds (fmul x f_1024) (y * 1024).
Proof.
  destruct number_1024 as (K & VK). assert (P : 0 < bp 64) by apply bpow_gt_0. intros [(N & <- & L)|(B & L)].
  - assert (E : rnd (fval x * fval f_1024) = fval x * 1024) by (rewrite VK; apply rnd_id, fmt_scale, fmt_val, N).
    assert (T : bp 64 * 1024 < top) by (change 1024 with (bp 10); rewrite <- bpow_plus; apply bpow_lt; reflexivity).
    destruct (fmul_val x f_1024 N K) as (A & B); [rewrite E, Rabs_pos_eq; lra|]. rewrite E in B.
    destruct (Rlt_le_dec (fval x * 1024) (bp 64)) as [H|H]; [left; split; [exact A|]; split; [exact B|]; lra|right]. split; [right; split; [exact A|lra]|exact H].
  - right. split; [apply big_mul, B|lra].
Qed.
Definition scale (k : nat) (x : f64) : f64 := Nat.iter k (fun x => fmul x f_1024) x.
Lemma holds_scale k x y : holds x y -> holds (scale k x) (y * 1024 ^ k).
Proof.
  intros H. induction k as [|k IH]; [cbn; rewrite Rmult_1_r; exact H|]. cbn [scale Nat.iter]. replace (y * 1024 ^ S k) with (y * 1024 ^ k * 1024) by (cbn [pow]; ring). apply holds_mul, IH.
Qed.
Lemma bp64 : bp 64 = 2 ^ 64. Proof. rewrite pow_powerRZ, (bpow_powerRZ radix2 64). reflexivity. Qed.
Lemma bp64_Z : bp 64 = IZR (2 ^ 64). Proof. reflexivity. Qed.
Lemma big_usize x : big x -> as_usize x = max_size.
Proof.
  intros [->|((V & F) & L)]; [reflexivity|]. destruct x as [s|s| |s m e]; try discriminate F; [exfalso; cbn in L; assert (0 < bp 64) by apply bpow_gt_0; lra|].
  destruct s. { exfalso. assert (0 < bp 64) by apply bpow_gt_0. assert (F2R (Float radix2 (Zneg m) e) < 0) by (apply F2R_lt_0; reflexivity). unfold fval, SF2R in L. cbn [SpecFloat.cond_Zopp Z.opp] in L. lra. }
  unfold as_usize. unfold fval, SF2R, F2R in L. cbn [SpecFloat.cond_Zopp Fnum Fexp] in L. rewrite bp64_Z in L.
  assert (G : (2 ^ 64 <= match e with Zneg k => N.pos m / 2 ^ N.pos k | _ => N.pos m * 2 ^ Z.to_N e end)%N); [|unfold max_size; rewrite N.min_l; [reflexivity|lia]].
  destruct e as [|k|k].
  - change (bp 0) with 1 in L. rewrite Rmult_1_r in L. apply le_IZR in L. change (2 ^ Z.to_N 0)%N with 1%N. lia.
  - rewrite <- (IZR_Zpower radix2) in L by discriminate. rewrite <- mult_IZR in L. apply le_IZR in L. change (radix_val radix2) with 2%Z in L. rewrite Z.pow_pos_fold in L || idtac.
    change (Z.to_N (Zpos k)) with (N.pos k). apply N2Z.inj_le. rewrite N2Z.inj_mul, !N2Z.inj_pow. exact L.
  - apply N.div_le_lower_bound; [apply N.pow_nonzero; discriminate|]. apply N2Z.inj_le. rewrite N2Z.inj_mul, !N2Z.inj_pow. change (Z.of_N 2) with 2%Z. change (Z.of_N (N.pos k)) with (Zpos k). change (Z.of_N (N.pos m)) with (Zpos m). change (Z.of_N 64) with 64%Z.
    apply le_IZR. rewrite mult_IZR. change (Zneg k) with (- Zpos k)%Z in L. rewrite bpow_opp in L. change 2%Z with (radix_val radix2) at 1. rewrite (IZR_Zpower radix2 (Zpos k)) by discriminate.
    assert (P : 0 < bp (Zpos k)) by apply bpow_gt_0. apply (Rmult_le_compat_r (bp (Zpos k))) in L; [|lra]. rewrite Rmult_assoc, Rinv_l, Rmult_1_r in L by lra. lra.
Qed.
Lemma holds_floor x y : holds x y -> (y < 2 ^ 64 -> IZR (Z.of_N (as_usize x)) <= y < IZR (Z.of_N (as_usize x)) + 1) /\ (2 ^ 64 <= y -> as_usize x = max_size).
Proof.
  rewrite <- bp64. intros [(N & <- & L)|(B & L)]; split; intros H; try lra.
  - apply as_usize_floor; [exact N|exact L].
  - apply big_usize, B.
Qed.
Lemma holds_nearest n e : holds (nearest_decimal n e) (rnd (nval n e)).
Proof.
  destruct (nearest_val n e) as (A & B). assert (P : 0 <= rnd (nval n e)) by (rewrite <- rnd0; apply rnd_le, nval_nonneg).
  assert (T : bp 64 < top) by (apply bpow_lt; reflexivity).
  destruct (Rlt_le_dec (rnd (nval n e)) top) as [L|L].
  - destruct (A L) as (N & V). destruct (Rlt_le_dec (rnd (nval n e)) (bp 64)) as [H|H]; [left; split; [exact N|]; split; [exact V|]; lra|right]. split; [right; split; [exact N|rewrite V; exact H]|exact H].
  - right. rewrite (B L). split; [left; reflexivity|lra].
Qed.
(** negative numbers *)
Lemma mul_opp x y : fmul (SFopp x) y = SFopp (fmul x y).
Proof.
  assert (R : forall s m e l, SpecFloat.binary_round_aux prec emax (negb s) m e l = SFopp (SpecFloat.binary_round_aux prec emax s m e l)).
  { intros s m e l. unfold SpecFloat.binary_round_aux. destruct (shr_fexp prec emax m e l) as [mrs' e']. destruct (shr_fexp prec emax (round_nearest_even (shr_m mrs') (loc_of_shr_record mrs')) e' loc_Exact) as [mrs'' e''].
    destruct (shr_m mrs''); try reflexivity. destruct (e'' <=? emax - prec)%Z; reflexivity. }
  destruct x as [s|s| |s m e], y as [s'|s'| |s' m' e']; try (destruct s, s'; reflexivity); try reflexivity.
  - unfold fmul. cbn [SFopp SFmul]. rewrite <- R. f_equal. destruct s, s'; reflexivity.
Qed.
Lemma scale_opp k x : scale k (SFopp x) = SFopp (scale k x).
Proof. induction k as [|k IH]; [reflexivity|]. change (fmul (scale k (SFopp x)) f_1024 = SFopp (fmul (scale k x) f_1024)). rewrite IH. apply mul_opp. Qed.
Lemma usize_opp x y : holds x y -> as_usize (SFopp x) = 0%N.
Proof.
  assert (G : FpOps.number x -> 0 <= fval x -> as_usize (SFopp x) = 0%N).
  { intros (V & F) L. destruct x as [s|s| |s m e]; try discriminate F; [reflexivity|]. destruct s; [exfalso|reflexivity].
    assert (F2R (Float radix2 (Zneg m) e) < 0) by (apply F2R_lt_0; reflexivity). unfold fval, SF2R in L. cbn [SpecFloat.cond_Zopp Z.opp] in L. lra. }
  intros [(N & <- & L)|([->|(N & L)] & _)]; [apply G; [exact N|lra]|reflexivity|]. apply G; [exact N|]. assert (0 < bp 64) by apply bpow_gt_0. lra.
Qed.

(** ** Units *)
Lemma ends_spec p s : ends_with p s = true <-> exists front, s = front ++ p.
Proof.
  unfold ends_with. destruct (strip (rev p) (rev s)) as [r|] eqn:E.
  - split; [intros _|reflexivity]. apply strip_spec in E. exists (rev r). rewrite <- (rev_involutive s), E, rev_app_distr, rev_involutive. reflexivity.
  - split; [discriminate|]. intros (front & ->). rewrite strip_none in E. exfalso. exact (E front eq_refl).
Qed.
Lemma remove_cons a b x y t : remove_matches a b (x :: y :: t) = if ((x =? a) && (y =? b))%N then remove_matches a b t else x :: remove_matches a b (y :: t).
Proof. reflexivity. Qed.
Lemma without_remove a b s core : without [a; b] s core -> remove_matches a b s = core.
Proof.
  intros H. induction H as [|text core _ IH|c text core N _ IH]; [reflexivity| |].
  - cbn [app]. rewrite remove_cons, !N.eqb_refl. exact IH.
  - destruct text as [|y t]; [cbn in IH |- *; rewrite IH; reflexivity|]. rewrite remove_cons. destruct (N.eqb_spec c a) as [->|]; [destruct (N.eqb_spec y b) as [->|]|]; cbn [andb]; [exfalso; exact (N t eq_refl)|rewrite IH; reflexivity|rewrite IH; reflexivity].
Qed.
Lemma remove_without a b s : without [a; b] s (remove_matches a b s).
Proof.
  assert (G : forall n s, (length s <= n)%nat -> without [a; b] s (remove_matches a b s)); [|apply (G (length s)); lia].
  induction n as [|n IH]; intros [|x [|y t]] L; cbn [length] in L; try lia; try constructor.
  - intros rest E. discriminate E.
  - constructor.
  - rewrite remove_cons. destruct (N.eqb_spec x a) as [->|]; [destruct (N.eqb_spec y b) as [->|]|]; cbn [andb].
    + apply (without_name [a; b] t). apply IH. lia.
    + constructor; [intros rest E; injection E as E _; congruence|]. apply IH. cbn [length]. lia.
    + constructor; [intros rest E; injection E as E _; congruence|]. apply IH. cbn [length]. lia.
Qed.
Lemma two_ends front front' (a b c d : N) : front ++ [a; b] = front' ++ [c; d] -> a = c /\ b = d.
Proof.
  intros E. change [a; b] with ([a] ++ [b]) in E. change [c; d] with ([c] ++ [d]) in E. rewrite !app_assoc in E. apply app_inj_tail in E. destruct E as (E & ->). apply app_inj_tail in E. split; [apply E|reflexivity].
Qed.
Lemma try_core s core m : core_of s core m -> exists k, (k <= 3)%nat /\ m = 1024 ^ k /\ try_from_string s = option_map (fun x => as_usize (scale k x)) (parse_f64 core).
Proof.
  intros [front name mm c Hn U W|text H].
  - unfold try_from_string. destruct U; [congruence| | |].
    + exists 1%nat. split; [lia|]. split; [cbn; ring|].
      destruct (ends_with (codes "Gb") (front ++ codes "Kb")) eqn:E1; [apply ends_spec in E1; destruct E1 as (f' & E1); apply two_ends in E1; destruct E1; discriminate|].
      destruct (ends_with (codes "Mb") (front ++ codes "Kb")) eqn:E2; [apply ends_spec in E2; destruct E2 as (f' & E2); apply two_ends in E2; destruct E2; discriminate|].
      rewrite (proj2 (ends_spec (codes "Kb") _)) by (exists front; reflexivity). rewrite (without_remove 75 98 _ _ W). reflexivity.
    + exists 2%nat. split; [lia|]. split; [cbn; ring|].
      destruct (ends_with (codes "Gb") (front ++ codes "Mb")) eqn:E1; [apply ends_spec in E1; destruct E1 as (f' & E1); apply two_ends in E1; destruct E1; discriminate|].
      rewrite (proj2 (ends_spec (codes "Mb") _)) by (exists front; reflexivity). rewrite (without_remove 77 98 _ _ W). reflexivity.
    + exists 3%nat. split; [lia|]. split; [cbn; ring|].
      rewrite (proj2 (ends_spec (codes "Gb") _)) by (exists front; reflexivity). rewrite (without_remove 71 98 _ _ W). reflexivity.
  - exists 0%nat. split; [lia|]. split; [reflexivity|]. unfold try_from_string.
    destruct (ends_with (codes "Gb") text) eqn:E1; [apply ends_spec in E1; destruct E1 as (f' & E1); exfalso; refine (H f' _ _ _ unit_gb E1); discriminate|].
    destruct (ends_with (codes "Mb") text) eqn:E2; [apply ends_spec in E2; destruct E2 as (f' & E2); exfalso; refine (H f' _ _ _ unit_mb E2); discriminate|].
    destruct (ends_with (codes "Kb") text) eqn:E3; [apply ends_spec in E3; destruct E3 as (f' & E3); exfalso; refine (H f' _ _ _ unit_kb E3); discriminate|].
    reflexivity.
Qed.
Lemma core_exists s : exists core m, core_of s core m.
Proof.
  destruct (ends_with (codes "Gb") s) eqn:E1; [apply ends_spec in E1; destruct E1 as (f & ->); exists (remove_matches 71 98 (f ++ codes "Gb")), (1024 * 1024 * 1024); constructor; [discriminate|constructor|apply remove_without]|].
  destruct (ends_with (codes "Mb") s) eqn:E2; [apply ends_spec in E2; destruct E2 as (f & ->); exists (remove_matches 77 98 (f ++ codes "Mb")), (1024 * 1024); constructor; [discriminate|constructor|apply remove_without]|].
  destruct (ends_with (codes "Kb") s) eqn:E3; [apply ends_spec in E3; destruct E3 as (f & ->); exists (remove_matches 75 98 (f ++ codes "Kb")), 1024; constructor; [discriminate|constructor|apply remove_without]|].
  exists s, 1. constructor. intros front name m Hn U E.
  assert (G : ends_with name s = true) by (apply ends_spec; exists front; exact E). destruct U; [congruence| | |]; rewrite G in *; discriminate.
Qed.

Lemma k1024 k : 1024 ^ k = bp (10 * Z.of_nat k).
Proof.
  induction k as [|k IH]; [reflexivity|]. cbn [pow]. rewrite IH. change 1024 with (bp 10). rewrite <- bpow_plus. f_equal. lia.
Qed.

(** * C122: memory sizes with decimal numbers *)
(** What is left without the unit is a number, and the size is that number of units: to
    within one byte and a relative error of 2^-53, and the largest size if it is too large. *)
Theorem c122_value : forall s core m v, core_of s core m -> signed_text core v ->
  exists n, try_from_string s = Some n /\ size_near n (v * m).
Proof.
  intros s core m v C S. destruct (try_core s core m C) as (k & Hk & -> & E). destruct (signed_parse core v S) as (neg & n & e & P & V).
  rewrite P in E. cbn [option_map] in E. eexists. split; [exact E|]. clear E P.
  pose proof (nval_nonneg n e) as G. assert (Pk : 1 <= 1024 ^ k) by (apply pow_R1_Rle; lra).
  pose proof (holds_scale k _ _ (holds_nearest n e)) as H. assert (R0 : 0 <= rnd (nval n e)) by (rewrite <- rnd0; apply rnd_le, G).
  unfold size_near. destruct neg; subst v; cbn [signed].
  - rewrite scale_opp, (usize_opp _ _ H). assert (0 <= nval n e * 1024 ^ k) by (apply Rmult_le_pos; lra).
    split; [reflexivity|]. split; intros L.
    + replace (- nval n e * 1024 ^ k) with 0 in * by lra. cbn. rewrite Rminus_0_r, Rabs_R0. lra.
    + assert (0 < 2 ^ 64) by (apply pow_lt; lra). lra.
  - set (x := nearest_decimal n e) in *. set (v := nval n e) in *. destruct (holds_floor _ _ H) as (H1 & H2). clearbody x. clear S C.
    set (r := as_usize (scale k x)) in *. clearbody r. clear H.
    assert (N0 : 0 <= IZR (Z.of_N r)) by (apply IZR_le; lia).
    split; [|split].
    + intros L. assert (v = 0) by nra. rewrite H, rnd0, Rmult_0_l in H1. destruct H1 as (H1 & _); [apply pow_lt; lra|]. apply le_IZR in H1. lia.
    + intros (L0 & L). assert (U : / 2 ^ 53 = u) by (rewrite pow_powerRZ, <- powerRZ_neg', (bpow_powerRZ radix2 (-53)); reflexivity). unfold Rdiv. rewrite U. clear U.
      destruct (Rle_lt_dec (bp (-1022)) v) as [B|B].
      * pose proof (rel_err v) as R. rewrite Rabs_pos_eq in R by exact G. specialize (R B). apply Rabs_le_inv in R.
        assert (R1 : v * 1024 ^ k - u * (v * 1024 ^ k) <= rnd v * 1024 ^ k <= v * 1024 ^ k + u * (v * 1024 ^ k)).
        { split; [replace (v * 1024 ^ k - u * (v * 1024 ^ k)) with ((v - u * v) * 1024 ^ k) by ring|replace (v * 1024 ^ k + u * (v * 1024 ^ k)) with ((v + u * v) * 1024 ^ k) by ring]; apply Rmult_le_compat_r; lra. }
        rewrite (Rmult_comm (v * 1024 ^ k) u). set (y := v * 1024 ^ k) in *. set (z := rnd v * 1024 ^ k) in *. assert (0 <= u * y) by (apply Rmult_le_pos; [apply Rlt_le, u_pos|exact L0]).
        apply Rabs_le. destruct (Rlt_le_dec z (2 ^ 64)) as [T|T]; [specialize (H1 T); lra|].
        rewrite (H2 T) in *. assert (M : IZR (Z.of_N max_size) = 2 ^ 64 - 1) by (rewrite <- bp64, bp64_Z, <- minus_IZR; reflexivity). rewrite M. lra.
      * assert (R1 : rnd v <= bp (-1022)) by (apply rnd_le_fmt; [apply fmt_bpow; lia|lra]).
        assert (S3 : bp (-1022) * 1024 ^ k < 1). { rewrite k1024, <- bpow_plus. change 1 with (bp 0). apply bpow_lt. lia. }
        assert (S1 : v * 1024 ^ k <= bp (-1022) * 1024 ^ k) by (apply Rmult_le_compat_r; lra). assert (S2 : rnd v * 1024 ^ k <= bp (-1022) * 1024 ^ k) by (apply Rmult_le_compat_r; lra).
        assert (1 < 2 ^ 64) by (rewrite <- bp64; change 1 with (bp 0); apply bpow_lt; lia). destruct H1 as (H1 & _); [lra|].
        assert (Z : (Z.of_N r < 1)%Z) by (apply lt_IZR; lra). replace (Z.of_N r) with 0%Z by lia. rewrite Rminus_0_l, Rabs_Ropp, Rabs_pos_eq by exact L0.
        assert (0 <= v * 1024 ^ k * u) by (apply Rmult_le_pos; [exact L0|apply Rlt_le, u_pos]). lra.
    + intros L. apply H2. rewrite <- bp64 in *. rewrite k1024 in *. assert (B : 0 < bp (10 * Z.of_nat k)) by apply bpow_gt_0.
      assert (X : bp (64 - 10 * Z.of_nat k) <= v).
      { apply (Rmult_le_reg_r (bp (10 * Z.of_nat k))); [exact B|]. rewrite <- bpow_plus. replace (64 - 10 * Z.of_nat k + 10 * Z.of_nat k)%Z with 64%Z by lia. exact L. }
      assert (Y : bp (64 - 10 * Z.of_nat k) <= rnd v) by (apply rnd_ge; [apply fmt_bpow; lia|exact X]).
      apply (Rmult_le_compat_r (bp (10 * Z.of_nat k))) in Y; [|lra]. rewrite <- bpow_plus in Y. replace (64 - 10 * Z.of_nat k + 10 * Z.of_nat k)%Z with 64%Z in Y by lia. exact Y.
Qed.
Print Assumptions c122_value.

(** A number with at most 53 significant bits is read exactly; only the fraction of a byte is dropped. *)
Theorem c122_exact : forall s core m v a j, core_of s core m -> signed_text core v ->
  v = IZR (Z.of_N a) / 2 ^ j -> (a <= 2 ^ 53)%N -> (j <= 1000)%nat -> v * m < 2 ^ 64 ->
  exists n, try_from_string s = Some n /\ IZR (Z.of_N n) <= v * m < IZR (Z.of_N n) + 1.
Proof.
  intros s core m v a j C S Hv Ha Hj L. destruct (try_core s core m C) as (k & Hk & -> & E). destruct (signed_parse core v S) as (neg & n & e & P & V).
  rewrite P in E. cbn [option_map] in E. eexists. split; [exact E|]. clear E P.
  assert (F : fmt v). { rewrite Hv. unfold Rdiv. rewrite pow_powerRZ, <- powerRZ_neg'. change (powerRZ 2) with (powerRZ (IZR radix2)). rewrite <- bpow_powerRZ. apply fmt_int; lia. }
  assert (P0 : 0 <= v) by (rewrite Hv; apply Rmult_le_pos; [apply IZR_le; lia|apply Rlt_le, Rinv_0_lt_compat, pow_lt; lra]).
  pose proof (nval_nonneg n e) as G. pose proof (holds_scale k _ _ (holds_nearest n e)) as H.
  destruct neg; cbn [signed].
  - rewrite scale_opp, (usize_opp _ _ H). assert (v = 0) as -> by lra. rewrite Rmult_0_l. cbn. lra.
  - rewrite <- V, (rnd_id v F) in H. apply (holds_floor _ _ H). exact L.
Qed.
Print Assumptions c122_exact.

(** [inf] is the largest size, a negative one and [nan] are 0 *)
Theorem c122_words : forall s core m word neg, core_of s core m -> word_text core word neg ->
  try_from_string s = Some (if list_eq_dec N.eq_dec word (codes "nan") then 0%N else if neg : bool then 0%N else max_size).
Proof.
  intros s core m word neg C W. destruct (try_core s core m C) as (k & Hk & -> & E). rewrite (word_parse _ _ _ W) in E. rewrite E. cbn [option_map]. f_equal.
  destruct (list_eq_dec N.eq_dec word (codes "nan")) as [_|_].
  - destruct k as [|[|[|[|k]]]]; try lia; reflexivity.
  - destruct neg; destruct k as [|[|[|[|k]]]]; try lia; reflexivity.
Qed.
Print Assumptions c122_words.

(** Every text is either such a size or an error. *)
Theorem c122_accepts : forall s,
  (exists n, try_from_string s = Some n) <->
  exists core m, core_of s core m /\ ((exists v, signed_text core v) \/ (exists word neg, word_text core word neg)).
Proof.
  intros s. split.
  - intros (n & E). destruct (core_exists s) as (core & m & C). exists core, m. split; [exact C|]. destruct (try_core s core m C) as (k & _ & _ & E'). rewrite E' in E.
    destruct (parse_f64 core) as [x|] eqn:P; [|discriminate E]. destruct (parse_inv _ _ P) as [H|H]; [right|left]; exact H.
  - intros (core & m & C & [(v & H)|(word & neg & H)]).
    + destruct (c122_value _ _ _ _ C H) as (n & E & _). exists n. exact E.
    + eexists. exact (c122_words _ _ _ _ _ C H).
Qed.
Print Assumptions c122_accepts.

(** ** A number followed by a unit *)
Definition plainchar (c : N) : Prop := (c < 70)%N \/ c = 101%N.
Lemma written_chars ds : small ds -> Forall plainchar (written ds).
Proof. intros H. induction H as [|d l Hd _ IH]; cbn [written map]; constructor; [left; lia|exact IH]. Qed.
Lemma plain_chars t v : plain_text t v -> Forall plainchar t.
Proof.
  intros [w D|w f D]; [apply written_chars, D|]. pose proof (proj2 D) as H. apply Forall_app in H. destruct H as (H1 & H2).
  apply Forall_app. split; [apply written_chars, H1|]. constructor; [left; reflexivity|apply written_chars, H2].
Qed.
Lemma signed_chars t v : signed_text t v -> Forall plainchar t.
Proof.
  assert (G : forall t v, decimal_text t v -> Forall plainchar t).
  { intros t' v' [t1 v1 P|t1 v1 e plus ex P E S D|t1 v1 e ex P E D].
    - exact (plain_chars _ _ P).
    - apply Forall_app. split; [exact (plain_chars _ _ P)|]. constructor; [destruct E as [<-|[<-|[]]]; [right|left]; reflexivity|]. apply Forall_app. split; [destruct S as [->| ->]; repeat constructor|apply written_chars, D].
    - apply Forall_app. split; [exact (plain_chars _ _ P)|]. constructor; [destruct E as [<-|[<-|[]]]; [right|left]; reflexivity|]. constructor; [left; reflexivity|apply written_chars, D]. }
  intros [t' v' D|t' v' D|t' v' D]; [exact (G _ _ D)|constructor; [left; reflexivity|exact (G _ _ D)]|constructor; [left; reflexivity|exact (G _ _ D)]].
Qed.
Lemma without_end a b t : ~ plainchar a -> Forall plainchar t -> without [a; b] (t ++ [a; b]) t.
Proof.
  intros A H. induction H as [|c t Hc _ IH]; [apply (without_name [a; b] []); constructor|]. cbn [app]. constructor; [|exact IH]. intros rest E. injection E as -> _. exact (A Hc).
Qed.
Theorem c122_written : forall text v name m, signed_text text v -> size_unit name m -> core_of (text ++ name) text m.
Proof.
  intros text v name m S U. pose proof (signed_chars _ _ S) as H.
  assert (B : ~ plainchar 98) by (unfold plainchar; lia).
  destruct U.
  - rewrite app_nil_r. constructor. intros front name m Hn U E. subst text. apply Forall_app in H. destruct H as (_ & H).
    destruct U; [congruence| | |]; inversion H as [|? ? _ Hb]; inversion Hb as [|? ? Hb' _]; exact (B Hb').
  - constructor; [discriminate|constructor|]. apply without_end; [|exact H]. intros [X|X]; [discriminate X|discriminate X].
  - constructor; [discriminate|constructor|]. apply without_end; [|exact H]. intros [X|X]; [discriminate X|discriminate X].
  - constructor; [discriminate|constructor|]. apply without_end; [|exact H]. intros [X|X]; [discriminate X|discriminate X].
Qed.
Print Assumptions c122_written.

(** On whole numbers, both readers of memory sizes agree. *)
Theorem c122_agrees : forall checks digits name m, is_digits digits -> size_unit name (IZR (Z.of_N m)) -> (decimal digits < 2 ^ 53)%N -> (decimal digits * m < 2 ^ 64)%N ->
  try_from_string (written digits ++ name) = Some (decimal digits * m)%N /\
  from_str checks (written digits ++ name) = Ret (Some (decimal digits * m)%N).
Proof.
  intros checks digits name m D U L1 L2.
  assert (S : signed_text (written digits) (IZR (Z.of_N (decimal digits)))) by (do 3 constructor; exact D).
  assert (Y : IZR (Z.of_N (decimal digits)) * IZR (Z.of_N m) = IZR (Z.of_N (decimal digits * m))) by (rewrite <- mult_IZR, <- N2Z.inj_mul; reflexivity).
  split.
  - destruct (c122_exact _ _ _ _ (decimal digits) 0 (c122_written _ _ _ _ S U) S) as (n & E & H); [cbn; field|lia|lia| |].
    + rewrite Y, <- bp64, bp64_Z. apply IZR_lt. lia.
    + rewrite E. f_equal. rewrite Y in H. destruct H as (H1 & H2). apply le_IZR in H1. rewrite <- plus_IZR in H2. apply lt_IZR in H2. lia.
  - apply c56_value; [|exact L2]. apply size_text_same.
    assert (W : map lower (written digits) = written digits).
    { destruct D as (_ & D). clear -D. induction D as [|d l Hd _ IH]; [reflexivity|]. cbn [written map]. f_equal; [|exact IH]. unfold lower. destruct (N.leb_spec 65 (48 + d)); [lia|reflexivity]. }
    assert (M : forall a b, IZR (Z.of_N a) = b -> forall c, IZR (Z.of_N c) = b -> a = c) by (intros a b <- c Ec; apply eq_IZR in Ec; lia).
    inversion U as [E1 E2|E1 E2|E1 E2|E1 E2]; subst name.
    + replace m with 1%N by (symmetry; apply (M m 1 (eq_sym E2) 1%N); reflexivity). exists digits, [], [], 1%N, []. split; [exact D|]. split; [constructor|]. split; [constructor|]. split; [constructor|]. rewrite !app_nil_r. split; [exact W|reflexivity].
    + replace m with 1024%N by (symmetry; apply (M m 1024 (eq_sym E2) 1024%N); reflexivity). exists digits, [], (codes "k"), 1024%N, (codes "b"). split; [exact D|]. split; [constructor|]. split; [constructor|]. split; [constructor|]. rewrite map_app, W. split; reflexivity.
    + replace m with (1024 * 1024)%N by (symmetry; apply (M m (1024 * 1024) (eq_sym E2) (1024 * 1024)%N); cbn; ring). exists digits, [], (codes "m"), (1024 * 1024)%N, (codes "b"). split; [exact D|]. split; [constructor|]. split; [constructor|]. split; [constructor|]. rewrite map_app, W. split; reflexivity.
    + replace m with (1024 * 1024 * 1024)%N by (symmetry; apply (M m (1024 * 1024 * 1024) (eq_sym E2) (1024 * 1024 * 1024)%N); cbn; ring). exists digits, [], (codes "g"), (1024 * 1024 * 1024)%N, (codes "b"). split; [exact D|]. split; [constructor|]. split; [constructor|]. split; [constructor|]. rewrite map_app, W. split; reflexivity.
Qed.
Print Assumptions c122_agrees.

(** Other texts are accepted too: a unit in the middle is ignored, and a negative size is 0. *)
Theorem c122_only_numbers_refuted :
  (exists s, (forall text v name m, signed_text text v -> size_unit name m -> s <> text ++ name) /\ try_from_string s = Some (12 * 1024 * 1024 * 1024)%N) /\
  (exists s text v, s = text ++ codes "Gb" /\ signed_text text v /\ v < 0 /\ try_from_string s = Some 0%N).
Proof.
  split.
  - exists (codes "1Gb2Gb"). split; [|vm_compute; reflexivity]. intros text v name m S U E. pose proof (signed_chars _ _ S) as H.
    assert (A : Forall (fun c => c <> 71%N) text). { eapply Forall_impl; [|exact H]. intros c [X| ->]; [intros ->; discriminate X|discriminate]. }
    assert (B : (length name <= 2)%nat) by (destruct U; cbn; lia). pose proof (f_equal (@length N) E) as Le. rewrite app_length in Le. change (length (codes "1Gb2Gb")) with 6%nat in Le.
    destruct text as [|t1 [|t2 text]]; cbn [length] in Le; try lia. inversion E; subst. inversion A as [|? ? _ A1]; inversion A1 as [|? ? A2 _]. exact (A2 eq_refl).
  - exists (codes "-5Gb"), (codes "-5"), (- IZR (Z.of_N (decimal [5%N]))). split; [reflexivity|]. split; [apply (minus_sign (written [5%N])); do 2 constructor; split; [discriminate|repeat constructor]|]. split; [cbn; lra|]. vm_compute. reflexivity.
Qed.
Print Assumptions c122_only_numbers_refuted.

Example c122_case : try_from_string (codes "1.5Gb") = Some 1610612736%N /\ try_from_string (codes "0.1Mb") = Some 104857%N /\
  try_from_string (codes "2e3Kb") = Some 2048000%N /\ try_from_string (codes "1e30") = Some max_size /\ try_from_string (codes "12 Gb") = None /\
  try_from_string (codes "Gb") = None /\ try_from_string (codes "-inf") = Some 0%N.
Proof. vm_compute. repeat split. Qed.
(** the hypotheses of [c122_value] and [c122_exact]: 1.5Gb *)
Example c122_hypotheses : exists v, core_of (codes "1.5Gb") (codes "1.5") (1024 * 1024 * 1024) /\ signed_text (codes "1.5") v /\ v = IZR (Z.of_N 3) / 2 ^ 1.
Proof.
  assert (S : signed_text (codes "1.5") (IZR (Z.of_N (decimal [1; 5]%N)) / 10 ^ length [5%N])).
  { do 2 constructor. apply (point_text [1%N] [5%N]). split; [discriminate|repeat constructor]. }
  eexists. split; [exact (c122_written _ _ _ _ S unit_gb)|]. split; [exact S|]. cbn. field.
Qed.

(** * C123: decimal numbers in series files *)
(** The parser of numbers reads a decimal number in front of white space or the end, to the
    nearest [f64], and never claims more characters than there are. *)
Definition reads_decimals (parse : list N -> option (f64 * nat)) : Prop :=
  (forall s x n, parse s = Some (x, n) -> (n <= length s)%nat) /\
  forall text v rest, signed_text text v -> match rest with [] => True | c :: _ => is_white c = true end ->
    exists x, parse (text ++ rest) = Some (x, length text) /\ reads_as x v.
(** a line: white space only, or a decimal number and white space *)
Inductive line_of : list N -> list R -> Prop :=
| blank_line gap : TextSpec.blanks gap -> line_of gap []
| number_line text gap v : signed_text text v -> TextSpec.blanks gap -> line_of (text ++ gap) [v].

Lemma blank_blanks gap : TextSpec.blanks gap -> TextSpec.blank gap = true.
Proof. intros H. apply forallb_forall. apply Forall_forall. exact H. Qed.
Lemma plain_white c : plainchar c -> is_white c = true -> (c < 33)%N.
Proof. rewrite <- is_space_white. unfold is_space. intros [H| ->]; [|discriminate]. destruct (N.leb_spec 9 c), (N.leb_spec c 13), (N.eqb_spec c 32); cbn; try discriminate; lia. Qed.
Lemma signed_head text v : signed_text text v -> exists c t, text = c :: t /\ is_white c = false.
Proof.
  assert (G : forall t v, plain_text t v -> exists c r, t = c :: r /\ is_white c = false).
  { intros t w P. destruct (plain_parts _ _ P) as (whole & frac & dot & W & F & D & Hf & -> & _).
    assert (Q : forall d, (d < 10)%N -> is_white (48 + d) = false).
    { intros d Hd. rewrite <- is_space_white. unfold is_space. destruct (N.leb_spec (48 + d) 13); [lia|]. rewrite andb_false_r. destruct (N.eqb_spec (48 + d) 32); [lia|reflexivity]. }
    destruct whole as [|d l].
    - destruct dot; [|rewrite Hf in D by reflexivity; destruct D as (D & _); exfalso; apply D; reflexivity]. exists 46%N, (written frac). split; reflexivity.
    - inversion W as [|? ? Hd _]; subst. eexists _, _. split; [reflexivity|]. apply Q, Hd. }
  assert (G2 : forall t v, decimal_text t v -> exists c r, t = c :: r /\ is_white c = false).
  { intros t w [t1 w1 P|t1 w1 e plus ex P E S D|t1 w1 e ex P E D]; destruct (G _ _ P) as (c & r & -> & H); eexists c, _; (split; [reflexivity|exact H]). }
  intros [t w D|t w D|t w D]; [exact (G2 _ _ D)| |]; eexists _, t; (split; reflexivity).
Qed.
Lemma line_number parse line vs : reads_decimals parse -> line_of line vs ->
  (vs = [] /\ TextSpec.blank line = true) \/ exists v x, vs = [v] /\ TextSpec.blank line = false /\ TextSpec.number parse line = Some x /\ reads_as x v.
Proof.
  intros (_ & P) [gap B|text gap v S B]; [left; split; [reflexivity|apply blank_blanks, B]|right]. exists v.
  destruct (P text v gap S) as (x & E & R). { destruct B as [|c l Hc _]; [exact I|exact Hc]. }
  exists x. split; [reflexivity|]. split.
  - destruct (signed_head _ _ S) as (c & t & -> & H). cbn [app TextSpec.blank forallb]. rewrite H. reflexivity.
  - split; [|exact R]. unfold TextSpec.number. rewrite E, skipn_app, skipn_all, Nat.sub_diag. cbn [skipn app]. rewrite blank_blanks by exact B. reflexivity.
Qed.
(** A file of decimal numbers, one per line, with blank lines anywhere, is loaded as the
    nearest [f64] values in the same order. *)
Theorem c123_load : forall parse file lines values, reads_decimals parse -> lines_are file lines -> Forall2 line_of lines values ->
  exists xs, returns (load_from parse None file) (Some xs) /\ Forall2 reads_as xs (concat values).
Proof.
  intros parse file lines values P L F.
  assert (G : exists xs, TextSpec.numbers parse lines = Some xs /\ Forall2 reads_as xs (concat values)).
  { clear L. induction F as [|line vs lines values H F IH]; [exists []; split; [reflexivity|constructor]|].
    destruct IH as (xs & E & A). unfold TextSpec.numbers in *. cbn [filter concat]. destruct (line_number parse line vs P H) as [(-> & B)|(v & x & -> & B & N & R)]; rewrite B; cbn [negb].
    - exists xs. split; [exact E|exact A].
    - cbn [map all_some]. rewrite N, E. exists (x :: xs). split; [reflexivity|]. constructor; [exact R|exact A]. }
  destruct G as (xs & E & A). exists xs. split; [|exact A]. rewrite <- E. apply c55_load; [apply P|exact L].
Qed.
Print Assumptions c123_load.

(** The nearest [f64] is within one part in 2^53, or 2^-1075 near 0. *)
Lemma some_f64 r : fmt r -> Rabs r < top -> exists y, FpOps.number y /\ fval y = r.
Proof.
  intros F T. pose proof (binary_normalize_correct prec emax Hprec Hmax mode_NE (Ztrunc (scaled_mantissa radix2 (SpecFloat.fexp prec emax) r)) (cexp radix2 (SpecFloat.fexp prec emax) r) false) as C.
  cbv zeta in C. assert (E : F2R (Float radix2 (Ztrunc (scaled_mantissa radix2 (SpecFloat.fexp prec emax) r)) (cexp radix2 (SpecFloat.fexp prec emax) r)) = r) by (symmetry; exact F).
  rewrite E in C. change (round radix2 (SpecFloat.fexp prec emax) (round_mode mode_NE)) with rnd in C. rewrite (rnd_id r F), (fits _ T) in C. destruct C as (C1 & C2 & _).
  eexists. split; [split; [apply of_B|rewrite finite_B; exact C2]|rewrite fval_B; exact C1].
Qed.
Theorem c123_error : forall x v, reads_as x v -> Rabs v < largest ->
  FpOps.number x /\ Rabs (fval x - v) <= Rabs v / 2 ^ 53 + / 2 ^ 1075.
Proof.
  intros x v (H & _) L. destruct (H L) as (N & A). split; [exact N|].
  assert (F : fmt (rnd v)) by (apply generic_format_round; [exact Hexp|exact (valid_rnd_N _)]).
  assert (T : Rabs (rnd v) < top).
  { destruct (Rcase_abs v) as [V|V].
    - rewrite Rabs_left in L by exact V. assert (R : rnd v = - rnd (- v)) by (rewrite rnd_opp; ring). rewrite R, Rabs_Ropp, Rabs_pos_eq by (rewrite <- rnd0; apply rnd_le; lra). apply rnd_below, L.
    - rewrite Rabs_right in L by exact V. rewrite Rabs_pos_eq by (rewrite <- rnd0; apply rnd_le; lra). apply rnd_below, L. }
  destruct (some_f64 _ F T) as (y & Ny & Vy). eapply Rle_trans; [apply (A y Ny)|]. rewrite Vy. eapply Rle_trans; [apply err_any|].
  assert (U : / 2 ^ 53 = u) by (rewrite pow_powerRZ, <- powerRZ_neg', (bpow_powerRZ radix2 (-53)); reflexivity).
  assert (U' : / 2 ^ 1075 = tiny) by (rewrite pow_powerRZ, <- powerRZ_neg', (bpow_powerRZ radix2 (-1075)); reflexivity).
  unfold Rdiv. rewrite U, U'. lra.
Qed.
Print Assumptions c123_error.

(** a parser with this property: what is in front of the first white space, read as by the
    standard library *)
Fixpoint front_word (s : list N) : list N := match s with c :: t => if is_white c then [] else c :: front_word t | [] => [] end.
Definition word_parser (s : list N) : option (f64 * nat) := option_map (fun x => (x, length (front_word s))) (parse_f64 (front_word s)).
Lemma front_length s : (length (front_word s) <= length s)%nat.
Proof. induction s as [|c t IH]; [reflexivity|]. cbn [front_word]. destruct (is_white c); cbn [length]; lia. Qed.
Lemma front_app t rest : Forall (fun c => is_white c = false) t -> match rest with [] => True | c :: _ => is_white c = true end -> front_word (t ++ rest) = t.
Proof.
  intros H R. induction H as [|c t Hc _ IH]; cbn [app].
  - destruct rest as [|c r]; [reflexivity|]. cbn [front_word]. rewrite R. reflexivity.
  - cbn [front_word]. rewrite Hc, IH. reflexivity.
Qed.
Lemma written_dark ds : small ds -> Forall (fun c => is_white c = false) (written ds).
Proof.
  intros H. induction H as [|d l Hd _ IH]; cbn [written map]; constructor; [|exact IH].
  rewrite <- is_space_white. unfold is_space. destruct (N.leb_spec (48 + d) 13); [lia|]. rewrite andb_false_r. destruct (N.eqb_spec (48 + d) 32); [lia|reflexivity].
Qed.
Lemma signed_dark t v : signed_text t v -> Forall (fun c => is_white c = false) t.
Proof.
  assert (G0 : forall t v, plain_text t v -> Forall (fun c => is_white c = false) t).
  { intros t' v' [w D|w f D]; [apply written_dark, D|]. pose proof (proj2 D) as H. apply Forall_app in H. destruct H as (H1 & H2).
    apply Forall_app. split; [apply written_dark, H1|]. constructor; [reflexivity|apply written_dark, H2]. }
  assert (G : forall t v, decimal_text t v -> Forall (fun c => is_white c = false) t).
  { intros t' v' [t1 v1 P|t1 v1 e plus ex P E S D|t1 v1 e ex P E D].
    - exact (G0 _ _ P).
    - apply Forall_app. split; [exact (G0 _ _ P)|]. constructor; [destruct E as [<-|[<-|[]]]; reflexivity|]. apply Forall_app. split; [destruct S as [->| ->]; repeat constructor|apply written_dark, D].
    - apply Forall_app. split; [exact (G0 _ _ P)|]. constructor; [destruct E as [<-|[<-|[]]]; reflexivity|]. constructor; [reflexivity|apply written_dark, D]. }
  intros [t' v' D|t' v' D|t' v' D]; [exact (G _ _ D)|constructor; [reflexivity|exact (G _ _ D)]|constructor; [reflexivity|exact (G _ _ D)]].
Qed.
Example c123_parser : reads_decimals word_parser.
Proof.
  split.
  - intros s x n E. unfold word_parser in E. destruct (parse_f64 (front_word s)); [|discriminate E]. injection E as _ <-. apply front_length.
  - intros text v rest S R. unfold word_parser. rewrite (front_app _ _ (signed_dark _ _ S) R). destruct (signed_parse _ _ S) as (neg & n & e & P & _). rewrite P. cbn [option_map].
    eexists. split; [reflexivity|]. exact (reads _ _ _ S P).
Qed.
(** the file: 2.5, an empty line, -3e2 with a space behind it *)
Example c123_case : exists file lines, lines_are file lines /\ Forall2 line_of lines [[5 / 2]; []; [-300]] /\
  exists a b, load_from word_parser None file 9 = Ret (Some [a; b]) /\ fval a = 5 / 2 /\ fval b = -300.
Proof.
  exists (codes "2.5" ++ [10%N] ++ [10%N] ++ codes "-3e2 "), [codes "2.5" ++ [10%N]; [10%N]; codes "-3e2 "]. split; [|split].
  - exists [codes "2.5"; []], (codes "-3e2 "). split; [vm_compute; intuition discriminate|]. split; [repeat constructor; vm_compute; intuition discriminate|]. split; reflexivity.
  - constructor; [|constructor; [|constructor; [|constructor]]].
    + replace (5 / 2) with (IZR (Z.of_N (decimal [2; 5]%N)) / 10 ^ length [5%N]) by (cbn; field). apply (number_line (written [2%N] ++ codes "." ++ written [5%N]) [10%N]); [do 2 constructor; constructor; split; [discriminate|repeat constructor]|repeat constructor].
    + constructor. repeat constructor.
    + replace (-300) with (- (IZR (Z.of_N (decimal [3%N])) * 10 ^ N.to_nat (decimal [2%N]))) by (change (Z.of_N (decimal [3%N])) with 3%Z; change (N.to_nat (decimal [2%N])) with 2%nat; cbn [pow]; ring).
      change (codes "-3e2 ") with ((codes "-" ++ (written [3%N] ++ 101%N :: [] ++ written [2%N])) ++ [32%N]). apply number_line; [|repeat constructor].
      apply minus_sign. apply exponent; [constructor; split; [discriminate|repeat constructor]|left; reflexivity|left; reflexivity|split; [discriminate|repeat constructor]].
  - eexists _, _. split; [vm_compute; reflexivity|]. split; cbn; unfold F2R; cbn; lra.
Qed.
