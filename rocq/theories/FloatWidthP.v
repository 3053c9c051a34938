(** Proofs on the quantisation width in floating point. *)
From Coq Require Import Reals Lra Lia Permutation Floats.SpecFloat.
From Flocq Require Import Core BinarySingleNaN.
From Verif Require Import Base F64 RSpec RealProofs SortSpec OverlapsSpec EnumSpec Enumerator EnumProofs EstimateProofs SeriesProofs FFT FFTProofs HashSpec HashValue HashProofs Hashing HashingSpec HashingProofs
  Iterator FpOps FloatSeries FloatSpec FloatProofs FloatRoll FloatBound FloatDist FloatDist2 FloatThr FloatErr FloatMean FloatSd FloatVar FloatSum FloatTerm FloatPair FloatProj P_Float P_Float2 P_Acc P_Acc2
  Quantise P_Quantise FloatHash ProjSpec P_Proj P_Width FloatWidth.
Local Open Scope R_scope.

(** ** Rows, whatever the shifts *)
Section Raw.
  Variables (z : zeros) (ts : list f64) (w : nat) (precise : bool) (s : fseries) (hs : fhasher) (sdp : list f64 -> nat -> f64).
  Hypothesis Mo : moderate ts.
  Hypothesis U : usable ts w.
  Hypothesis E : fseries_new z ts w precise = Ret s.
  Hypothesis H1 : length (fh_vectors hs) = 8%nat.
  Hypothesis H2 : forall v, In v (fh_vectors hs) -> length v = w.
  Hypothesis H3 : length (fh_shifts hs) = 8%nat.
  Notation n := (length ts - w)%nat.

  Definition raw_row (max_k i : nat) (row : N * N) : Prop :=
    is_u64 (fst row) /\
    ((1 <= max_k)%nat -> (row = (u64_max, u32_max) \/ snd row = (N.of_nat i mod 2 ^ 32)%N) /\ (below_limit s i -> row = (u64_max, u32_max))) /\
    (forall y : nat -> f64, (1 <= max_k)%nat ->
       (forall k, (k < max_k)%nat -> fznormalized_value s (fsum z (vector hs k)) i (sdp (vector hs k) i) = Ret (y k) /\ is_nan (y k) = false) ->
       snd row = (N.of_nat i mod 2 ^ 32)%N /\
       forall k, (k < max_k)%nat -> byte_at (fst row) k = quantise_f64 (nth k (fh_shifts hs) f_zero) (fh_width hs) (y k)).
  Lemma fhash_raw max_k : (max_k <= 8)%nat ->
    exists rows, fhash z hs s sdp max_k = Ret rows /\ length rows = n /\
      forall i, (i < n)%nat -> exists row, nth_error rows i = Some row /\ raw_row max_k i row.
  Proof.
    intros Lk. destruct (made z ts w precise s Mo U E) as (_ & Ew & En & Hm). unfold fhash. rewrite En.
    set (body := fun (k : nat) (out : list (N * N)) => _).
    destruct (foreach_inv body (fun done out => length out = n /\
       forall i, (i < n)%nat -> exists row, nth_error out i = Some row /\ raw_row (length done) i row) (seq 0 max_k) (repeat (0, 0)%N n)) as (out & Eo & L & I1).
    - split; [apply repeat_length|]. intros i Li. exists (0, 0)%N. split; [rewrite (nth_error_nth' _ (0, 0)%N) by (rewrite repeat_length; exact Li); f_equal; apply nth_repeat|].
      split; [unfold is_u64; cbn; lia|]. cbn [length]. split; [intros C; lia|intros y C; lia].
    - intros done k tail out Es (L & I1).
      assert (Ek : k = length done /\ (k < max_k)%nat).
      { assert (G : nth_error (seq 0 max_k) (length done) = Some k) by (rewrite Es, nth_error_app2, Nat.sub_diag by lia; reflexivity).
        assert (length done < max_k)%nat by (rewrite <- (seq_length max_k 0); apply nth_error_Some; congruence).
        rewrite (nth_error_nth' _ 0%nat), seq_nth in G by (rewrite ?seq_length; lia). injection G as <-. lia. }
      destruct Ek as (Ek & Lk'). assert (Lk8 : (k < 8)%nat) by lia. unfold body. rewrite (get_ret (fh_vectors hs) k []), (get_ret (fh_shifts hs) k f_zero) by lia. cbn [bind].
      fold (vector hs k). assert (Iv : In (vector hs k) (fh_vectors hs)) by (apply nth_In; lia). pose proof (H2 _ Iv) as Lv.
      destruct (projections_return z ts w precise s sdp Mo U E (vector hs k) Lv) as (values & Ev & Lvs & Hv). rewrite Ev. cbn [bind]. clear Ev.
      match goal with |- context [mapM ?g (combine (seq 0 n) (combine values out))] => destruct (mapM_indexed g (combine values out) n) as (out' & E' & L' & H') end.
      { rewrite combine_length. lia. }
      { intros i (x & o) _ _. cbv beta iota. destruct (is_nan x); [eexists; reflexivity|].
        destruct (set_byte_ret (fst o) k (quantise_f64 (nth k (fh_shifts hs) f_zero) (fh_width hs) x) ltac:(lia)) as (h' & ->). eexists. reflexivity. }
      exists out'. split; [exact E'|]. split; [congruence|].
      intros i Li. rewrite app_length. cbn [length].
      destruct (I1 i Li) as (o & Eo & O1 & _ & O3).
      destruct (Hv i Li) as (y & Ey & Fy).
      destruct (H' i (y, o) (combine_at _ _ i y o Ey Eo)) as (o' & Eo' & Go). exists o'. split; [exact Eo'|].
      assert (U' : is_u64 (fst o')).
      { destruct (is_nan y); [apply Ret_inj in Go; subst o'; reflexivity|].
        destruct (set_byte (fst o) k _) as [h'| |] eqn:Eb; cbn [bind] in Go; try discriminate Go. apply Ret_inj in Go. subst o'.
        destruct (set_byte_spec _ _ _ _ O1 (quantise_f64_u8 _ _ _) Lk8 Eb) as (S1 & _). exact S1. }
      split; [exact U'|]. split.
      + intros _. split.
        { destruct (is_nan y); [apply Ret_inj in Go; left; symmetry; exact Go|]. right.
          destruct (set_byte (fst o) k _) as [h'| |]; cbn [bind] in Go; try discriminate Go. apply Ret_inj in Go. subst o'. reflexivity. }
        intros (sd & Esd & Lsd). destruct (Hm i Li) as (m & sd' & _ & Esd' & Nsd & _). rewrite Esd in Esd'. injection Esd' as <-.
        unfold fznormalized_value, fsd, get in Fy. rewrite Esd in Fy. cbn [bind] in Fy.
        rewrite flt_val, Rlt_bool_true in Fy by (assumption || apply threshold_number). apply Ret_inj in Fy. subst y. cbn in Go. congruence.
      + intros yy _ Hy. destruct (Hy k ltac:(lia)) as (Hy1 & Hy2). rewrite Fy in Hy1. apply Ret_inj in Hy1. subst y. rewrite Hy2 in Go.
        destruct (set_byte (fst o) k _) as [h'| |] eqn:Eb; cbn [bind] in Go; try discriminate Go. apply Ret_inj in Go. subst o'.
        destruct (set_byte_spec _ _ _ _ O1 (quantise_f64_u8 _ _ _) Lk8 Eb) as (S1 & S2 & S3).
        split; [reflexivity|]. cbn [fst]. intros k' Lk2. destruct (Nat.eq_dec k' k) as [->|Nk]; [exact S2|].
        rewrite S3 by lia. apply (O3 yy ltac:(lia)); [intros k0 Lk0; apply Hy; lia|lia].
    - rewrite seq_length in I1. exists out. auto.
  Qed.
  Lemma ftable_rows arrange max_k : (max_k <= 8)%nat -> sorts arrange -> exists hashes indices,
    frepetition_table z arrange hs s sdp max_k = Ret (hashes, indices) /\ table_ok hashes indices /\ length hashes = n /\
    (forall i, (i < n)%nat -> exists x row, nth_error hashes x = Some (fst row) /\ nth_error indices x = Some (snd row) /\ raw_row max_k i row) /\
    (forall x h, nth_error hashes x = Some h -> exists i row, (i < n)%nat /\ fst row = h /\ nth_error indices x = Some (snd row) /\ raw_row max_k i row).
  Proof.
    intros Lk So. destruct (fhash_raw max_k Lk) as (rows & Er & L & Hr). destruct (So rows) as (P & Sd).
    exists (map fst (arrange rows)), (map snd (arrange rows)). unfold frepetition_table. rewrite Er. cbn [bind]. split; [reflexivity|].
    assert (Ll : length (arrange rows) = n) by (rewrite <- (Permutation_length P); exact L).
    split; [|split; [rewrite map_length; exact Ll|split]].
    - split; [rewrite !map_length; reflexivity|]. split.
      + intros h Hh. apply in_map_iff in Hh. destruct Hh as (row & <- & Hin). apply (Permutation_in _ (Permutation_sym P)) in Hin.
        destruct (In_nth_error _ _ Hin) as (i & Hi). assert (Li : (i < n)%nat) by (rewrite <- L; apply nth_error_Some; congruence).
        destruct (Hr i Li) as (row' & Hi' & R & _). rewrite Hi in Hi'. injection Hi' as <-. exact R.
      + intros x y hx hy Lxy Hx Hy. rewrite nth_error_map in Hx, Hy. destruct (nth_error (arrange rows) x) as [rx|] eqn:Ex; [|discriminate]. destruct (nth_error (arrange rows) y) as [ry|] eqn:Ey; [|discriminate].
        injection Hx as <-. injection Hy as <-. destruct (Nat.eq_dec x y) as [->|Nxy]; [rewrite Ex in Ey; injection Ey as ->; lia|]. apply (Sd x y rx ry); try assumption. lia.
    - intros i Li. destruct (Hr i Li) as (row & Hi & R). apply nth_error_In in Hi. apply (Permutation_in _ P) in Hi. destruct (In_nth_error _ _ Hi) as (x & Hx).
      exists x, row. split; [apply map_nth_error; exact Hx|]. split; [apply map_nth_error; exact Hx|exact R].
    - intros x h Hx. rewrite nth_error_map in Hx. destruct (nth_error (arrange rows) x) as [row|] eqn:Ex; [|discriminate]. cbn [option_map] in Hx. injection Hx as <-. pose proof Ex as Ex0.
      apply nth_error_In, (Permutation_in _ (Permutation_sym P)), In_nth_error in Ex. destruct Ex as (i & Hi). assert (Li : (i < n)%nat) by (rewrite <- L; apply nth_error_Some; congruence).
      destruct (Hr i Li) as (row' & Hi' & R). rewrite Hi in Hi'. injection Hi' as <-. exists i, row. split; [exact Li|]. split; [reflexivity|]. split; [|exact R]. apply map_nth_error. exact Ex0.
  Qed.
  Lemma ftable_raw arrange : sorts arrange -> exists hashes indices,
    frepetition_table z arrange hs s sdp 8 = Ret (hashes, indices) /\ table_ok hashes indices /\ length hashes = n /\
    (forall i, (i < n)%nat -> exists x row, nth_error hashes x = Some (fst row) /\ nth_error indices x = Some (snd row) /\ raw_row 8 i row) /\
    (forall x h, nth_error hashes x = Some h -> exists i row, (i < n)%nat /\ fst row = h /\ raw_row 8 i row).
  Proof.
    intros So. destruct (ftable_rows arrange 8 (le_n 8) So) as (hashes & indices & A & B & C & D & F). exists hashes, indices. repeat (split; [assumption|]).
    intros x h Hx. destruct (F x h Hx) as (i & row & G & H & _ & J). exists i, row. auto.
  Qed.
End Raw.

(** ** Doubling *)
Lemma two_val : number f_two /\ fval f_two = 2.
Proof.
  split; [split; reflexivity|]. unfold fval, f_two. cbn [SF2R SpecFloat.cond_Zopp]. unfold F2R. cbn [Fnum Fexp]. change (bp (-51)) with (/ 2251799813685248). lra.
Qed.
Lemma fmt_double x : fmt x -> fmt (x * 2).
Proof.
  intros F. apply (FLT_format_generic radix2 (SpecFloat.emin prec emax) prec) in F. destruct F as [f Ef H1 H2].
  apply (generic_format_FLT radix2 (SpecFloat.emin prec emax) prec). exists (Float radix2 (Fnum f) (Fexp f + 1)).
  - rewrite Ef. unfold F2R. cbn [Fnum Fexp]. rewrite bpow_plus. change (bpow radix2 1) with 2. ring.
  - exact H1.
  - cbn [Fexp]. lia.
Qed.
Lemma fdouble x : number x -> (Rabs (fval x * 2) < top -> number (fmul x f_two) /\ fval (fmul x f_two) = fval x * 2) /\
  (top <= Rabs (fval x * 2) -> is_finite (fmul x f_two) = false).
Proof.
  intros N. destruct two_val as (N2 & V2). assert (Er : rnd (fval x * fval f_two) = fval x * 2) by (rewrite V2; apply rnd_id, fmt_double, fmt_val, N). split.
  - intros L. destruct (fmul_val x f_two N N2) as (A & B); [rewrite Er; exact L|]. rewrite Er in B. auto.
  - intros L. destruct N as (Ha & Fa), N2 as (Hb & Fb). destruct (to_B x Ha) as [a <-], (to_B f_two Hb) as [b Eb]. rewrite <- Eb in *.
    rewrite !fval_B in *. rewrite finite_B in Fa, Fb. pose proof (Bmult_correct prec emax Hprec Hmax mode_NE a b) as C.
    change (round radix2 (SpecFloat.fexp prec emax) (round_mode mode_NE)) with rnd in C. rewrite Er in C.
    rewrite Rlt_bool_false in C by exact L. rewrite fmul_B, C. reflexivity.
Qed.
Lemma number_inj x y : number x -> number y -> 0 < fval x -> fval x = fval y -> x = y.
Proof.
  intros (Hx & Fx) (Hy & Fy) P Eq. destruct (to_B x Hx) as [a <-], (to_B y Hy) as [b <-]. rewrite !fval_B in *. f_equal.
  apply B2R_inj; [| |exact Eq]; [destruct a|destruct b]; cbn in *; try reflexivity; try discriminate; lra.
Qed.
Lemma number_top x : number x -> Rabs (fval x) < top.
Proof. intros (Hx & Fx). destruct (to_B x Hx) as [a <-]. rewrite fval_B. apply abs_B2R_lt_emax. Qed.

(** ** Large widths *)
Lemma gap W : fmt W -> bp 960 <= W -> bp 907 <= W - pred radix2 (SpecFloat.fexp prec emax) W /\ u * W <= W - pred radix2 (SpecFloat.fexp prec emax) W.
Proof.
  intros F L. assert (P : 0 < W) by (pose proof (bpow_gt_0 radix2 960); lra). rewrite pred_eq_pos by lra. unfold pred_pos.
  assert (M : (961 <= mag radix2 W)%Z) by (apply mag_ge_bpow; rewrite Rabs_pos_eq by lra; exact L).
  destruct (Req_bool_spec W (bpow radix2 (mag radix2 W - 1))) as [Eq|Ne].
  - replace (W - (W - bpow radix2 (SpecFloat.fexp prec emax (mag radix2 W - 1)))) with (bpow radix2 (SpecFloat.fexp prec emax (mag radix2 W - 1))) by ring.
    assert (Ee : SpecFloat.fexp prec emax (mag radix2 W - 1) = (mag radix2 W - 54)%Z) by (unfold SpecFloat.fexp, SpecFloat.emin; change prec with 53%Z; change emax with 1024%Z; lia).
    rewrite Ee. split; [apply bpow_le; lia|]. apply Rle_trans with (bp (-53) * bpow radix2 (mag radix2 W - 1)); [rewrite <- Eq; right; reflexivity|]. rewrite <- bpow_plus. apply bpow_le. lia.
  - replace (W - (W - ulp radix2 (SpecFloat.fexp prec emax) W)) with (ulp radix2 (SpecFloat.fexp prec emax) W) by ring.
    rewrite ulp_neq_0 by lra. unfold cexp.
    assert (Ee : SpecFloat.fexp prec emax (mag radix2 W) = (mag radix2 W - 53)%Z) by (unfold SpecFloat.fexp, SpecFloat.emin; change prec with 53%Z; change emax with 1024%Z; lia).
    rewrite Ee. split; [apply bpow_le; lia|]. apply Rle_trans with (bp (-53) * bpow radix2 (mag radix2 W)); [|rewrite <- bpow_plus; apply bpow_le; lia].
    change u with (bp (-53)). apply Rmult_le_compat_l; [apply bpow_ge_0|]. pose proof (bpow_mag_gt radix2 W) as G. rewrite Rabs_pos_eq in G by lra. lra.
Qed.
Lemma wide_zero shift W y : number shift -> number W -> number y -> bp 960 <= fval W -> 0 <= fval shift < fval W -> Rabs (fval y) <= bp 900 -> quantise_f64 shift W y = 0%N.
Proof.
  intros Ns Nw Ny L Bs By. set (p := pred radix2 (SpecFloat.fexp prec emax) (fval W)).
  destruct (gap (fval W) (fmt_val _ (proj1 Nw)) L) as (G1 & G2). fold p in G1, G2. pose proof (number_top W Nw) as TW. apply Rabs_le_inv in By.
  assert (P : 0 < fval W) by (pose proof (bpow_gt_0 radix2 960); lra). rewrite Rabs_pos_eq in TW by lra.
  assert (E7 : bp 907 = 128 * bp 900) by (change (bp 907) with (bp (7 + 900)); rewrite bpow_plus; f_equal). assert (P9 : 0 < bp 900) by apply bpow_gt_0.
  assert (Fp : fmt p) by (apply generic_format_pred; [apply fexp_correct, Hprec|apply fmt_val, Nw]).
  assert (Sp : fval shift <= p) by (apply pred_ge_gt; [apply fexp_correct, Hprec|apply fmt_val, Ns|apply fmt_val, Nw|lra]).
  assert (A1 : rnd (fval y + fval shift) <= p).
  { apply round_N_le_midp; [apply fexp_correct, Hprec|exact Fp|]. unfold p at 2. rewrite succ_pred by (apply fexp_correct, Hprec || apply fmt_val, Nw). lra. }
  assert (A2 : - bp 900 <= rnd (fval y + fval shift)) by (apply rnd_ge; [apply generic_format_opp, fmt_bpow; lia|lra]).
  assert (T9 : bp 900 < top) by (apply bp_top; lia).
  destruct (fadd_val y shift Ny Ns) as (Na & Va); [apply Rabs_def1; lra|]. set (a := fadd y shift) in *. rewrite <- Va in A1, A2.
  assert (Q1 : fval a / fval W <= 1 - u).
  { apply (Rmult_le_reg_r (fval W)); [exact P|]. unfold Rdiv. rewrite Rmult_assoc, Rinv_l by lra. lra. }
  assert (Q2 : - / 2 <= fval a / fval W).
  { apply (Rmult_le_reg_r (fval W)); [exact P|]. unfold Rdiv. rewrite Rmult_assoc, Rinv_l by lra.
    assert (bp 960 = bp 60 * bp 900) by (rewrite <- bpow_plus; reflexivity). assert (2 <= bp 60) by (change 2 with (bp 1); apply bpow_le; lia). nra. }
  assert (U : u = / 9007199254740992) by reflexivity.
  assert (R1 : rnd (fval a / fval W) <= 1 - u).
  { apply rnd_le_fmt; [|exact Q1]. replace (1 - u) with (IZR 9007199254740991 * bp (-53)) by (change (bp (-53)) with u; rewrite U; lra). apply fmt_int; [vm_compute; discriminate|lia]. }
  assert (R2 : - / 2 <= rnd (fval a / fval W)) by (apply rnd_ge; [apply generic_format_opp; change (/ 2) with (bp (-1)); apply fmt_bpow; lia|exact Q2]).
  assert (T0 : 1 < top) by (change 1 with (bp 0); apply bp_top; lia).
  destruct (fdiv_val a W Na Nw ltac:(lra)) as (Nq & Vq); [apply Rabs_def1; lra|]. rewrite <- Vq in R1, R2.
  change (quantise_f64 shift W y) with (quantise_quotient (fdiv a W)). apply (byte_of_zero (fval (fdiv a W))); [lra|apply quotient_byte, Nq].
Qed.
Lemma doublings r : forall width, number width -> 0 < fval width -> bp 960 <= fval width * 2 ^ r -> exists j wj, number wj /\ fval wj = fval width * 2 ^ j /\ bp 960 <= fval wj.
Proof.
  induction r as [|r IH]; intros width N P L; [exists 0%nat, width; rewrite pow_O in *; split; [exact N|split; lra]|].
  destruct (Rle_lt_dec (bp 960) (fval width)) as [G|G]; [exists 0%nat, width; rewrite pow_O; split; [exact N|split; lra]|].
  destruct (proj1 (fdouble width N)) as (N' & V').
  { rewrite Rabs_pos_eq by lra. apply Rlt_trans with (bp 961); [change (bp 961) with (bp (960 + 1)); rewrite bp_double; lra|apply bp_top; lia]. }
  destruct (IH _ N' ltac:(lra)) as (j & wj & H1 & H2 & H3); [rewrite V'; cbn [pow] in L; lra|]. exists (S j), wj. split; [exact H1|]. split; [rewrite H2, V'; cbn [pow]; ring|exact H3].
Qed.

(** ** The loop *)
Definition festimate_for (z : zeros) (arrange : f64 -> list (N * N) -> list (N * N)) (s : fseries) (sdp : list f64 -> nat -> f64) (ez : nat)
    (shifts : f64 -> list f64) (vectors : list (list f64)) (width : f64) (fuel : nat) : res nat :=
  let! hs := fhasher_new shifts vectors width in
  let! '(hashes, indices) := frepetition_table z (arrange width) hs s sdp 8 in
  estimate hashes indices 8 ez fuel.
Section Loop.
  Variables (z : zeros) (ts : list f64) (w : nat) (precise : bool) (s : fseries) (sdp : list f64 -> nat -> f64) (ez : nat)
    (shifts : f64 -> list f64) (vectors : list (list f64)) (arrange : f64 -> list (N * N) -> list (N * N)).
  Hypothesis Mo : moderate ts.
  Hypothesis U : usable ts w.
  Hypothesis E : fseries_new z ts w precise = Ret s.
  Hypothesis Hn : (w < length ts)%nat.
  Hypothesis H1 : length vectors = 8%nat.
  Hypothesis H2 : forall v, In v vectors -> length v = w.
  Hypothesis H3 : forall width, length (shifts width) = 8%nat.
  Hypothesis So : forall width, sorts (arrange width).
  Notation n := (length ts - w)%nat.
  Notation est := (festimate_for z arrange s sdp ez shifts vectors).
  Definition fbody (fuel : nat) (width : f64) : res (f64 + f64) :=
       let! hs := fhasher_new shifts vectors width in
       let! '(hashes, indices) := frepetition_table z (arrange width) hs s sdp K in
       let! e := enum_new fuel hashes indices K None in
       let! c := estimate_num_collisions fuel ez e in
       if (0 <? c)%nat then Ret (inr width) else Ret (inl (fmul width f_two)).
  Lemma fhasher_ret width : number width -> 0 < fval width -> fhasher_new shifts vectors width = Ret (FHasher vectors (shifts width) width).
  Proof.
    intros N P. unfold fhasher_new, assert_. rewrite flt_val by (apply zero_number || exact N). change (fval f_zero) with 0. rewrite Rlt_bool_true by exact P.
    destruct N as (_ & ->). reflexivity.
  Qed.
  Lemma fest_ok width : number width -> 0 < fval width -> exists c, (forall fuel, (n < fuel)%nat -> est width fuel = Ret c) /\
    (forall fuel, (n < fuel)%nat -> fbody fuel width = if (0 <? c)%nat then Ret (inr width) else Ret (inl (fmul width f_two))).
  Proof.
    intros N P. destruct (ftable_raw z ts w precise s (FHasher vectors (shifts width) width) sdp Mo U E H1 H2 (H3 width) (arrange width) (So width)) as (hashes & indices & Et & T & L & _ & _).
    destruct (estimate_runs hashes indices 8 ez T ltac:(lia) ltac:(intros ->; cbn in L; lia)) as (c & Hc & _ & _). rewrite L in Hc. exists c. split; intros fuel Lf.
    - unfold festimate_for. rewrite (fhasher_ret width N P). cbn [bind]. rewrite Et. cbn [bind]. apply Hc, Lf.
    - unfold fbody. rewrite (fhasher_ret width N P). cbn [bind]. unfold K. rewrite Et. cbn [bind]. specialize (Hc fuel Lf).
      destruct (enum_new fuel hashes indices 8 None) as [e| |]; cbn [bind] in *; try discriminate Hc. rewrite Hc. reflexivity.
  Qed.
  Lemma fbody_panic fuel width : is_finite width = false -> fbody fuel width = Panic.
  Proof. intros F. unfold fbody, fhasher_new, assert_. rewrite F. destruct (flt f_zero width); reflexivity. Qed.

  Lemma find_outcome r : forall width, number width -> 0 < fval width -> top <= fval width * 2 ^ r ->
    (exists result j, (forall m fuel, (r < m)%nat -> (n < fuel)%nat -> loop m (fbody fuel) width = Ret result) /\
       number result /\ fval result = fval width * 2 ^ j /\ (exists c, (0 < c)%nat /\ returns (est result) c) /\
       forall i wi, (i < j)%nat -> number wi -> fval wi = fval width * 2 ^ i -> returns (est wi) 0%nat) \/
    ((forall m fuel, (r < m)%nat -> (n < fuel)%nat -> loop m (fbody fuel) width = Panic) /\
       forall i wi, number wi -> fval wi = fval width * 2 ^ i -> returns (est wi) 0%nat).
  Proof.
    induction r as [|r IH]; intros width N P T.
    - exfalso. pose proof (number_top width N) as B. rewrite Rabs_pos_eq in B by lra. rewrite pow_O in T. lra.
    - destruct (fest_ok width N P) as (c & Hc & Hb). assert (Rc : returns (est width) c) by (exists (S n); intros g Lg; apply Hc; lia).
      destruct (0 <? c)%nat eqn:Ec.
      + left. exists width, 0%nat. split; [intros [|m] fuel Lm Lf; [lia|]; cbn [loop]; rewrite Hb by exact Lf; reflexivity|].
        split; [exact N|]. split; [rewrite pow_O; ring|]. split; [exists c; split; [apply Nat.ltb_lt; exact Ec|exact Rc]|intros; lia].
      + assert (c = 0%nat) by (apply Nat.ltb_ge in Ec; lia). subst c.
        assert (Self : forall wi, number wi -> fval wi = fval width * 2 ^ 0 -> returns (est wi) 0%nat).
        { intros wi Ni Ei. rewrite pow_O, Rmult_1_r in Ei. rewrite (number_inj wi width Ni N) by (lra || exact Ei). exact Rc. }
        destruct (fdouble width N) as (D1 & D2). destruct (Rlt_le_dec (Rabs (fval width * 2)) top) as [L|L].
        * destruct (D1 L) as (N' & V'). destruct (IH (fmul width f_two) N' ltac:(lra)) as [(result & j & A & B & C & D & F)|(A & F)].
          { rewrite V'. replace (fval width * 2 * 2 ^ r) with (fval width * 2 ^ S r) by (cbn [pow]; ring). exact T. }
          { left. exists result, (S j). split; [intros [|m] fuel Lm Lf; [lia|]; cbn [loop]; rewrite Hb by exact Lf; apply A; lia|].
            split; [exact B|]. split; [rewrite C, V'; cbn [pow]; ring|]. split; [exact D|]. intros [|i] wi Li Ni Ei; [apply Self; assumption|].
            apply (F i wi); [lia|exact Ni|]. rewrite Ei, V'. cbn [pow]. ring. }
          { right. split; [intros [|m] fuel Lm Lf; [lia|]; cbn [loop]; rewrite Hb by exact Lf; apply A; lia|].
            intros [|i] wi Ni Ei; [apply Self; assumption|]. apply (F i wi); [exact Ni|]. rewrite Ei, V'. cbn [pow]. ring. }
        * right. specialize (D2 L). split.
          { intros [|[|m]] fuel Lm Lf; try lia.
            cbn [loop]. rewrite Hb by exact Lf. cbn [loop]. rewrite (fbody_panic fuel _ D2). reflexivity. }
          intros [|i] wi Ni Ei; [apply Self; assumption|]. exfalso. pose proof (number_top wi Ni) as B. rewrite Ei in B. cbn [pow] in B.
          pose proof (pow_R1_Rle 2 i ltac:(lra)). rewrite Rabs_pos_eq in B, L by nra. nra.
  Qed.

  (** a width so large that every projection falls in the first bucket *)
  Definition calm (i : nat) : Prop := forall k, (k < 8)%nat -> exists y, fznormalized_value s (fsum z (nth k vectors [])) i (sdp (nth k vectors []) i) = Ret y /\ number y /\ Rabs (fval y) <= bp 900.
  Lemma zero_entry width i row : (i < n)%nat -> number width -> bp 960 <= fval width -> (forall x, In x (shifts width) -> number x /\ 0 <= fval x < fval width) -> calm i ->
    raw_row z s (FHasher vectors (shifts width) width) sdp 8 i row -> fst row = 0%N /\ snd row = (N.of_nat i mod 2 ^ 32)%N.
  Proof.
    intros Li N W Hs C (R1 & _ & R3).
    assert (Hy : exists y : nat -> f64, forall k, (k < 8)%nat -> fznormalized_value s (fsum z (nth k vectors [])) i (sdp (nth k vectors []) i) = Ret (y k) /\ number (y k) /\ Rabs (fval (y k)) <= bp 900).
    { exists (fun k => match fznormalized_value s (fsum z (nth k vectors [])) i (sdp (nth k vectors []) i) with Ret y => y | _ => f_zero end).
      intros k Lk. destruct (C k Lk) as (y & -> & H). auto. }
    destruct Hy as (y & Hy). destruct (R3 y ltac:(lia)) as (R4 & R5).
    { intros k Lk. destruct (Hy k Lk) as (H & H' & _). split; [exact H|]. destruct H' as (_ & F). destruct (y k); (discriminate F || reflexivity). }
    split; [|exact R4]. apply agree_full; [exact R1|unfold is_u64; lia|]. intros k Lk. rewrite R5 by exact Lk. cbn [fh_shifts fh_width].
    destruct (Hy k Lk) as (_ & Ny & By). destruct (Hs (nth k (shifts width) f_zero)) as (Ns & Bs); [apply nth_In; rewrite H3; exact Lk|].
    rewrite (wide_zero _ _ _ Ns N Ny W Bs By). reflexivity.
  Qed.
  Lemma fest_wide width i j x0 : number width -> bp 960 <= fval width -> (forall x, In x (shifts width) -> number x /\ 0 <= fval x < fval width) ->
    i <> j -> (i < n)%nat -> (j < n)%nat -> (x0 < n)%nat -> (N.of_nat n <= 2 ^ 32)%N -> calm i -> calm j -> below_limit s x0 -> ~ too_close ez i j ->
    exists c, (0 < c)%nat /\ returns (est width) c.
  Proof.
    intros N W Hs Dij Li Lj Lx L32 Ci Cj Bx Nt. assert (P : 0 < fval width) by (pose proof (bpow_gt_0 radix2 960); lra).
    destruct (ftable_raw z ts w precise s (FHasher vectors (shifts width) width) sdp Mo U E H1 H2 (H3 width) (arrange width) (So width)) as (hashes & indices & Et & T & L & Hw & _).
    destruct (c81_estimate hashes indices 8 ez T ltac:(intros ->; cbn in L; lia) ltac:(lia)) as (c & l & Rc & _ & Hl & Lc & _).
    exists c. split.
    - destruct (Hw i Li) as (xi & ri & Hi1 & Hi2 & Hi3). destruct (Hw j Lj) as (xj & rj & Hj1 & Hj2 & Hj3). destruct (Hw x0 Lx) as (xx & rx & Hx1 & Hx2 & Hx3).
      destruct (zero_entry width i ri Li N W Hs Ci Hi3) as (Z1 & Z2). destruct (zero_entry width j rj Lj N W Hs Cj Hj3) as (Z3 & Z4).
      rewrite N.mod_small in Z2, Z4 by lia. rewrite Z1 in Hi1. rewrite Z3 in Hj1. rewrite Z2 in Hi2. rewrite Z4 in Hj2.
      destruct Hx3 as (_ & Hx3 & _). rewrite (proj2 (Hx3 ltac:(lia)) Bx) in Hx1. cbn [fst] in Hx1.
      assert (Nij : xi <> xj) by (intros ->; rewrite Hi2 in Hj2; injection Hj2 as Hj2; apply Nat2N.inj in Hj2; auto).
      assert (Last : nth_error hashes (length hashes - 1) = Some u64_max).
      { destruct (nth_error hashes (length hashes - 1)) as [hl|] eqn:El; [|apply nth_error_None in El; lia]. f_equal.
        assert (xx < length hashes)%nat by (apply nth_error_Some; congruence). destruct T as (_ & T1 & T2).
        pose proof (T2 xx (length hashes - 1)%nat _ _ ltac:(lia) Hx1 El). pose proof (T1 hl (nth_error_In _ _ El)). unfold is_u64, u64_max in *. lia. }
      assert (NL : forall x, nth_error hashes x = Some 0%N -> ~ in_last_bucket hashes 8 x).
      { intros x Ex (h1 & h2 & E1 & E2 & Ag). rewrite Ex in E1. rewrite Last in E2. injection E1 as <-. injection E2 as <-. specialize (Ag 0%nat ltac:(lia)). vm_compute in Ag. discriminate Ag. }
      assert (Pr : exists a b, (a < b)%nat /\ nth_error hashes a = Some 0%N /\ nth_error hashes b = Some 0%N /\ ~ trivial indices ez a b).
      { destruct (Nat.lt_trichotomy xi xj) as [Lt|[Eq|Gt]]; [exists xi, xj|contradiction|exists xj, xi]; (split; [assumption|]); (split; [assumption|]); (split; [assumption|]).
        - intros (p & q & Ep & Eq & Tc). rewrite Hi2 in Ep. rewrite Hj2 in Eq. injection Ep as <-. injection Eq as <-. rewrite !Nat2N.id in Tc. contradiction.
        - intros (p & q & Ep & Eq & Tc). rewrite Hj2 in Ep. rewrite Hi2 in Eq. injection Ep as <-. injection Eq as <-. rewrite !Nat2N.id in Tc.
          apply Nt. unfold too_close in *. lia. }
      destruct Pr as (a & b & Lab & Ha & Hb' & Ntr).
      assert (Hin : In (a, b) l) by (apply Hl; split; [split; [exact Lab|exists 0%N, 0%N; repeat split; auto]|split; [apply NL, Ha|exact Ntr]]).
      destruct l; [destruct Hin|cbn [length] in Lc; lia].
    - destruct Rc as (g0 & Hg). exists g0. intros g Lg. unfold festimate_for. rewrite (fhasher_ret width N P). cbn [bind]. rewrite Et. cbn [bind]. apply Hg, Lg.
  Qed.
  (** all the windows in the same bucket *)
  Lemma fest_same width (y : nat -> f64) : number width -> 0 < fval width ->
    (forall k i, (k < 8)%nat -> (i < n)%nat -> fznormalized_value s (fsum z (nth k vectors [])) i (sdp (nth k vectors []) i) = Ret (y k) /\ is_nan (y k) = false) ->
    returns (est width) 0%nat.
  Proof.
    intros N P Hy.
    destruct (ftable_raw z ts w precise s (FHasher vectors (shifts width) width) sdp Mo U E H1 H2 (H3 width) (arrange width) (So width)) as (hashes & indices & Et & T & L & _ & Hw).
    destruct (c81_estimate hashes indices 8 ez T ltac:(intros ->; cbn in L; lia) ltac:(lia)) as (c & l & Rc & _ & Hl & _ & Hc & _).
    assert (Eq : forall x x' h h', nth_error hashes x = Some h -> nth_error hashes x' = Some h' -> h = h').
    { intros x x' h h' Ex Ex'. destruct (Hw x h Ex) as (i & row & Li & <- & R1 & _ & R3). destruct (Hw x' h' Ex') as (i' & row' & Li' & <- & R1' & _ & R3').
      apply agree_full; [exact R1|exact R1'|]. intros k Lk. destruct (R3 y ltac:(lia)) as (_ & B); [intros k0 Lk0; apply Hy; assumption|].
      destruct (R3' y ltac:(lia)) as (_ & B'); [intros k0 Lk0; apply Hy; assumption|]. rewrite B, B' by exact Lk. reflexivity. }
    assert (Al : forall x h, nth_error hashes x = Some h -> in_last_bucket hashes 8 x).
    { intros x h Ex. destruct (nth_error hashes (length hashes - 1)) as [hl|] eqn:El; [|apply nth_error_None in El; lia].
      exists h, hl. split; [exact Ex|]. split; [exact El|]. rewrite (Eq _ _ _ _ Ex El). intros k _. reflexivity. }
    assert (c = 0%nat).
    { rewrite Hc.
      - destruct l as [|(a, b) l]; [reflexivity|exfalso]. destruct (proj1 (Hl a b) (or_introl eq_refl)) as ((_ & h & _ & Ea & _) & Nl & _). apply Nl, (Al a h Ea).
      - intros (group & _ & Lg & Ha & Hn'). destruct group as [|x group]; [cbn in Lg; lia|]. destruct (Ha x x (or_introl eq_refl) (or_introl eq_refl)) as (h & _ & Ex & _).
        apply (Hn' x (or_introl eq_refl)), (Al x h Ex). }
    subst c. destruct Rc as (g0 & Hg). exists g0. intros g Lg. unfold festimate_for. rewrite (fhasher_ret width N P). cbn [bind]. rewrite Et. cbn [bind]. apply Hg, Lg.
  Qed.
End Loop.
