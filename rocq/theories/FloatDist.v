(** The distances of FloatSeries.v: no overflow, no NaN, and what the threshold does. *)
From Coq Require Import Reals Lra Lia Floats.SpecFloat.
From Flocq Require Import Core BinarySingleNaN.
From Verif Require Import Base F64 Iterator F64Arith FpOps FloatSeries FloatProofs FloatRoll FloatBound.
Local Open Scope R_scope.

(** ** A series made by the constructor *)
Section New.
  Variables (z : zeros) (ts : list f64) (w : nat) (e : Z).
  Hypothesis He : (-400 <= e <= 450)%Z.
  Hypothesis Lw : (1 <= w)%nat.
  Hypothesis Hw : (Z.of_nat w <= 2 ^ 52)%Z.
  Hypothesis L : (w <= length ts)%nat.
  Hypothesis Data : forall x, In x ts -> bnd x e.

  Lemma fchunk_size_Z : (Z.of_nat fchunk_size = 1000000)%Z.
  Proof. unfold fchunk_size. lia. Qed.
  Lemma new_returns precise : exists s, fseries_new z ts w precise = Ret s /\ fs_data s = ts /\ fs_w s = w /\
    length (fs_avg s) = (length ts - w)%nat /\ length (fs_sd s) = (length ts - w)%nat /\
    forall i, (i < length ts - w)%nat -> exists m sd, fwindow s i m sd (win ts w i) /\ bnd m (e + 21) /\ bnd sd (e + 28) /\ is_sign_negative sd = false.
  Proof.
    unfold fseries_new, assert_. rewrite (proj2 (Nat.leb_le _ _) L). pose proof fchunk_size_Z as Cs. destruct precise.
    - rewrite slow_ok; [|exact L|].
      2: { intros i Hi. destruct (slow_stats z ts w e He Lw Hw Data i ltac:(lia)) as ((N1 & _) & (N2 & _) & _). split; [apply N1|apply N2]. }
      cbn [bind]. eexists. split; [reflexivity|]. cbn [fs_data fs_w fs_avg fs_sd]. split; [reflexivity|]. split; [reflexivity|].
      unfold slow_avgs, slow_sds. rewrite !map_length, !seq_length. split; [reflexivity|]. split; [reflexivity|]. intros i Hi.
      destruct (slow_stats z ts w e He Lw Hw Data i ltac:(lia)) as (B1 & B2 & S2).
      exists (mean0 z ts w i), (sd_from w (squares0 z ts w i)). split; [|auto].
      unfold fwindow, fmean, fsd, fsubsequence. cbn [fs_data fs_w fs_avg fs_sd]. rewrite cut_win by lia.
      split; [|split; [|reflexivity]]; apply get_some; rewrite nth_error_map; rewrite (nth_error_nth' _ 0%nat) by (rewrite seq_length; lia); rewrite seq_nth by lia; reflexivity.
    - unfold frolling_stat. rewrite chunked_ok; [|lia|exact Lw|exact L|].
      2: { intros i n Hn Hi j Hj. destruct (roll_stats z ts w e He Lw Hw Data (i * fchunk_size) j ltac:(lia) ltac:(lia)) as ((N1 & _) & (N2 & _) & _). split; [apply N1|apply N2]. }
      cbn [bind]. eexists. split; [reflexivity|]. cbn [fs_data fs_w fs_avg fs_sd]. split; [reflexivity|]. split; [reflexivity|].
      unfold chunk_avgs, chunk_sds. rewrite !map_length, !seq_length. split; [reflexivity|]. split; [reflexivity|]. intros i Hi.
      pose proof (Nat.div_mod i fchunk_size ltac:(lia)) as Dm. pose proof (Nat.mod_upper_bound i fchunk_size ltac:(lia)) as Mb.
      destruct (roll_stats z ts w e He Lw Hw Data (i / fchunk_size * fchunk_size) (i mod fchunk_size) ltac:(lia) ltac:(lia)) as (B1 & B2 & S2).
      eexists _, _. split; [|split; [exact B1|split; [exact B2|exact S2]]].
      unfold fwindow, fmean, fsd, fsubsequence. cbn [fs_data fs_w fs_avg fs_sd]. rewrite cut_win by lia.
      split; [|split; [|reflexivity]]; apply get_some; rewrite nth_error_map; rewrite (nth_error_nth' _ 0%nat) by (rewrite seq_length; lia); rewrite seq_nth by lia; reflexivity.
  Qed.
End New.

(** ** Dot products *)
Lemma simd_sum_bound k l : (-1074 <= k <= 970)%Z -> forall n acc, length acc = 4%nat ->
  (forall x, In x acc -> number x /\ Rabs (fval x) <= INR n * bp k) -> (Z.of_nat (n + length l) <= 2 ^ 53)%Z ->
  (forall c, In c l -> length c = 4%nat /\ forall x, In x c -> bnd x k) ->
  length (fold_left (zip_with fadd) l acc) = 4%nat /\
  forall x, In x (fold_left (zip_with fadd) l acc) -> number x /\ Rabs (fval x) <= INR (n + length l) * bp k.
Proof.
  intros K. induction l as [|c l IH]; intros n acc La A Ln H; cbn [fold_left length] in *; [rewrite Nat.add_0_r; auto|].
  destruct (H c (or_introl eq_refl)) as (Lc & Hc).
  replace (n + S (length l))%nat with (S n + length l)%nat by lia. apply IH.
  - unfold zip_with. rewrite map_length, combine_length. lia.
  - intros x Hx. apply in_zip_with in Hx as (u & v & Hu & Hv & ->). destruct (A u Hu) as (Nu & Bu). destruct (Hc v Hv) as (Nv & Bv).
    destruct (fadd_le u v (INR (S n) * bp k) Nu Nv) as (R1 & _ & R2).
    + rewrite INR_IZR_INZ. apply fmt_int; lia.
    + apply Rle_lt_trans with (bp (53 + k)); [|apply bp_top; lia]. rewrite bpow_plus. apply Rmult_le_compat_r; [apply bpow_ge_0|].
      rewrite INR_IZR_INZ. change (bp 53) with (IZR (2 ^ 53)). apply IZR_le. lia.
    + eapply Rle_trans; [apply Rabs_triang|]. rewrite S_INR. lra.
    + auto.
  - lia.
  - intros d Hd. apply H. right. exact Hd.
Qed.
Lemma chunks_length {A} k (l : list A) : length (whole_chunks k l) = (length l / k)%nat.
Proof. unfold whole_chunks. rewrite map_length, seq_length. reflexivity. Qed.
Lemma rest_length {A} k (l : list A) : (0 < k)%nat -> length (rest k l) = (length l mod k)%nat.
Proof. intros K. unfold rest. rewrite skipn_length. pose proof (Nat.div_mod (length l) k ltac:(lia)). lia. Qed.
Lemma INR_bnd n k l x : (Z.of_nat n <= 2 ^ l)%Z -> (0 <= l)%Z -> number x -> Rabs (fval x) <= INR n * bp k -> bnd x (l + k).
Proof.
  intros Hn Hl N B. split; [exact N|]. eapply Rle_trans; [exact B|]. rewrite bpow_plus. apply Rmult_le_compat_r; [apply bpow_ge_0|].
  rewrite INR_IZR_INZ. rewrite <- IZR_Zpower by exact Hl. apply IZR_le. exact Hn.
Qed.
(** the two sums of [zdot]: for any product of size [2^k] *)
Lemma dot_bnd z (f : f64 -> f64 -> f64) a b k : (-1074 <= k <= 900)%Z -> (Z.of_nat (length a) <= 2 ^ 52)%Z ->
  (forall x y, In x a -> In y b -> bnd (f x y) k) ->
  bnd (fadd (fsum z (fsimd_sum z 4 (zip_with (zip_with f) (whole_chunks 4 a) (whole_chunks 4 b)))) (fsum z (zip_with f (rest 4 a) (rest 4 b)))) (k + 55).
Proof.
  intros K La H. replace (k + 55)%Z with (k + 54 + 1)%Z by lia. apply add_bnd; try lia.
  - destruct (simd_sum_bound k (zip_with (zip_with f) (whole_chunks 4 a) (whole_chunks 4 b)) ltac:(lia) 0 (repeat (S754_zero (z_simd z)) 4)) as (S1 & S2).
    + apply repeat_length.
    + intros x Hx. apply repeat_spec in Hx. subst x. split; [apply zero_number|]. cbn. rewrite Rabs_R0. lra.
    + unfold zip_with at 1. rewrite map_length, combine_length, chunks_length. pose proof (Nat.div_le_upper_bound (length a) 4 (length a) ltac:(lia) ltac:(lia)). lia.
    + intros c Hc. apply in_zip_with in Hc as (u & v & Hu & Hv & ->). destruct (in_chunk 4 a u ltac:(lia) Hu) as (Lu & Iu). destruct (in_chunk 4 b v ltac:(lia) Hv) as (Lv & Iv).
      split; [unfold zip_with; rewrite map_length, combine_length; lia|]. intros x Hx. apply in_zip_with in Hx as (p & q & Hp & Hq & ->). auto.
    + fold (fsimd_sum z 4 (zip_with (zip_with f) (whole_chunks 4 a) (whole_chunks 4 b))) in S1, S2.
      set (lanes := fsimd_sum z 4 _) in *.
      assert (B : forall x, In x lanes -> bnd x (52 + k)).
      { intros x Hx. destruct (S2 x Hx) as (N & B). apply INR_bnd with (n := (0 + length (zip_with (zip_with f) (whole_chunks 4 a) (whole_chunks 4 b)))%nat); auto; try lia.
        unfold zip_with at 1. rewrite map_length, combine_length, chunks_length. pose proof (Nat.div_le_upper_bound (length a) 4 (length a) ltac:(lia) ltac:(lia)). lia. }
      destruct (fsum_bound z (52 + k) lanes ltac:(lia)) as (N & R); [rewrite S1; lia|exact B|]. rewrite S1 in R.
      replace (k + 54)%Z with (2 + (52 + k))%Z by lia. apply INR_bnd with (n := 4%nat); auto; lia.
  - destruct (fsum_bound z k (zip_with f (rest 4 a) (rest 4 b)) ltac:(lia)) as (N & R).
    + unfold zip_with. rewrite map_length, combine_length, rest_length by lia. pose proof (Nat.mod_upper_bound (length a) 4 ltac:(lia)). lia.
    + intros x Hx. apply in_zip_with in Hx as (u & v & Hu & Hv & ->). apply H; eapply in_rest; eauto.
    + apply bnd_le with (52 + k)%Z; [lia|]. eapply INR_bnd; [| |exact N|exact R]; [|lia].
      unfold zip_with. rewrite map_length, combine_length, rest_length by lia. pose proof (Nat.mod_upper_bound (length a) 4 ltac:(lia)). lia.
Qed.

(** ** Distances between two windows that are not flat *)
Definition not_flat (sd : f64) : Prop := fle sd fflat_threshold = false.
Lemma threshold_number : number fflat_threshold. Proof. split; reflexivity. Qed.
Lemma threshold_val : bp (-14) <= fval fflat_threshold.
Proof.
  unfold fval, fflat_threshold. cbn [SF2R SpecFloat.cond_Zopp]. unfold F2R. cbn [Fnum Fexp].
  replace (-14)%Z with (52 + -66)%Z by lia. rewrite bpow_plus. apply Rmult_le_compat_r; [apply bpow_ge_0|].
  change (bp 52) with (IZR (2 ^ 52)). apply IZR_le. vm_compute. discriminate.
Qed.
Lemma not_flat_val sd : number sd -> not_flat sd -> bp (-14) <= fval sd.
Proof.
  intros N F. unfold not_flat in F. rewrite (fle_val sd fflat_threshold N threshold_number) in F.
  unfold Rle_bool in F. destruct (Rcompare_spec (fval sd) (fval fflat_threshold)); try discriminate F. pose proof threshold_val. lra.
Qed.
Lemma prod_ge a b k l : number a -> number b -> bp k <= fval a -> bp l <= fval b -> (-1074 <= k + l)%Z ->
  Rabs (rnd (fval a * fval b)) < top -> bp (k + l) <= fval (fmul a b).
Proof.
  intros Na Nb A B K T. destruct (fmul_val a b Na Nb T) as (_ & ->). apply rnd_ge; [apply fmt_bpow, K|].
  rewrite bpow_plus. apply Rmult_le_compat; auto using bpow_ge_0.
Qed.
Lemma prod_ge' a b k l p q : bnd a p -> bnd b q -> (-1074 <= p + q < 1024)%Z -> bp k <= fval a -> bp l <= fval b -> (-1074 <= k + l)%Z -> bp (k + l) <= fval (fmul a b).
Proof.
  intros (Na & A) (Nb & B) PQ Ka Kb K. apply prod_ge; auto.
  apply Rle_lt_trans with (bp (p + q)); [|apply bp_top; lia]. apply rnd_abs_le; [apply fmt_bpow; lia|].
  rewrite Rabs_mult, bpow_plus. apply Rmult_le_compat; auto using Rabs_pos.
Qed.

Section Pair.
  Variables (z : zeros) (e : Z) (mi si mj sj : f64) (a b : list f64).
  Hypothesis He : (0 <= e <= 400)%Z.
  Hypothesis Mi : bnd mi (e + 21).
  Hypothesis Mj : bnd mj (e + 21).
  Hypothesis Si : bnd si (e + 28).
  Hypothesis Sj : bnd sj (e + 28).
  Hypothesis Fi : not_flat si.
  Hypothesis Fj : not_flat sj.
  Hypothesis A : forall x, In x a -> bnd x e.
  Hypothesis B : forall x, In x b -> bnd x e.
  Hypothesis La : (Z.of_nat (length a) <= 2 ^ 52)%Z.

  Lemma si_ge : bp (-14) <= fval si. Proof. apply not_flat_val; [apply Si|exact Fi]. Qed.
  Lemma sj_ge : bp (-14) <= fval sj. Proof. apply not_flat_val; [apply Sj|exact Fj]. Qed.
  Lemma centered_bnd x m : bnd x e -> bnd m (e + 21) -> bnd (fsub x m) (e + 22).
  Proof. intros X M. replace (e + 22)%Z with (e + 21 + 1)%Z by lia. apply sub_bnd; auto; try lia. apply bnd_le with e; [lia|exact X]. Qed.
  Lemma zdot_bnd : bnd (fzdot z a mi si b mj sj) (2 * e + 127).
  Proof.
    unfold fzdot. pose proof (bpow_gt_0 radix2 (-14)) as P. pose proof si_ge as Gi. pose proof sj_ge as Gj.
    rewrite (feq_val si f_zero), (feq_val sj f_zero) by (try apply Si; try apply Sj; apply zero_number). change (fval f_zero) with 0.
    rewrite (Req_bool_false (fval si)), (Req_bool_false (fval sj)) by lra. cbn [orb].
    replace (2 * e + 127)%Z with (2 * e + 99 - -28)%Z by lia. apply div_bnd; try lia.
    - replace (2 * e + 99)%Z with (2 * e + 44 + 55)%Z by lia. apply dot_bnd; [lia|exact La|].
      intros x y Hx Hy. replace (2 * e + 44)%Z with (e + 22 + (e + 22))%Z by lia. apply mul_bnd; try lia; apply centered_bnd; auto.
    - apply (mul_bnd si sj (e + 28) (e + 28)); auto; lia.
    - pose proof (prod_ge' si sj (-14) (-14) (e + 28) (e + 28) Si Sj ltac:(lia) Gi Gj ltac:(lia)) as G. change (-14 + -14)%Z with (-28)%Z in G.
      rewrite Rabs_right; [exact G|]. pose proof (bpow_ge_0 radix2 (-28)). lra.
  Qed.
  Lemma fterm_bnd x y : bnd x e -> bnd y e -> bnd (fterm mi si mj sj x y) (2 * e + 74).
  Proof.
    intros X Y. unfold fterm. cbv zeta. pose proof si_ge as Gi. pose proof sj_ge as Gj. pose proof (bpow_gt_0 radix2 (-14)) as P.
    assert (D : bnd (fsub (fdiv (fsub x mi) si) (fdiv (fsub y mj) sj)) (e + 37)).
    { replace (e + 37)%Z with (e + 36 + 1)%Z by lia. apply sub_bnd; try lia; replace (e + 36)%Z with (e + 22 - -14)%Z by lia; apply div_bnd; try lia;
      try (apply centered_bnd; assumption); try apply Si; try apply Sj; rewrite Rabs_right; lra. }
    replace (2 * e + 74)%Z with (e + 37 + (e + 37))%Z by lia. apply mul_bnd; auto; lia.
  Qed.
  Lemma slow_fold : fold_left (fun acc xy => let d := fsub (fdiv (fsub (fst xy) mi) si) (fdiv (fsub (snd xy) mj) sj) in fadd acc (fmul d d)) (combine a b) f_zero =
    fold_left fadd (zip_with (fterm mi si mj sj) a b) f_zero.
  Proof. unfold zip_with. generalize f_zero. induction (combine a b) as [|[x y] l IH]; intros acc; cbn [fold_left map]; [reflexivity|]. apply IH. Qed.
  Lemma slow_bnd : let d := fsqrt64 (fold_left fadd (zip_with (fterm mi si mj sj) a b) f_zero) in number d /\ 0 <= fval d.
  Proof.
    cbv zeta. set (l := zip_with (fterm mi si mj sj) a b).
    assert (Ll : (length l <= length a)%nat) by (unfold l, zip_with; rewrite map_length, combine_length; lia).
    assert (T : forall x, In x l -> bnd x (2 * e + 74)) by (intros x Hx; apply in_zip_with in Hx as (u & v & Hu & Hv & ->); apply fterm_bnd; auto).
    destruct (fold_bound (2 * e + 74) l ltac:(lia) 0 f_zero) as (N & R); [apply zero_number|cbn; rewrite Rabs_R0; lra|lia|exact T|].
    assert (S : is_sign_negative (fold_left fadd l f_zero) = false).
    { apply fold_sign; [reflexivity|]. intros x Hx. apply in_zip_with in Hx as (u & v & _ & _ & ->). apply fterm_sign. }
    assert (P : 0 <= fval (fold_left fadd l f_zero)) by (apply sign_val; [apply N|exact S]).
    destruct (fsqrt_val _ N P) as (R1 & R2). split; [exact R1|]. rewrite R2, <- rnd0. apply rnd_le, sqrt_pos.
  Qed.
  Lemma two_number : number f_two /\ fval f_two = 2.
  Proof.
    split; [split; reflexivity|]. unfold fval, f_two. cbn [SF2R SpecFloat.cond_Zopp]. unfold F2R. cbn [Fnum Fexp].
    change 4503599627370496%Z with (2 ^ 52)%Z. change (IZR (2 ^ 52)) with (bp 52). rewrite <- bpow_plus. reflexivity.
  Qed.
  (** [(2w - 2 dotp).sqrt()] when [dotp <= w] *)
  Lemma fast_bnd (w : nat) dotp k : (Z.of_nat w <= 2 ^ 52)%Z -> bnd dotp k -> (53 <= k < 1022)%Z -> flt (f_of_nat w) dotp = false ->
    let d := fsqrt64 (fsub (fmul f_two (f_of_nat w)) (fmul f_two dotp)) in number d /\ 0 <= fval d.
  Proof.
    intros Hw D K F. destruct (of_nat_exact w ltac:(lia)) as (Nw & Vw). destruct two_number as (N2 & V2).
    assert (B2 : bnd f_two 1) by (split; [exact N2|rewrite V2; change (bp 1) with 2; rewrite Rabs_right; lra]).
    assert (Bw : bnd (f_of_nat w) 52).
    { split; [exact Nw|]. rewrite Vw, Rabs_right by (apply Rle_ge, pos_INR). rewrite INR_IZR_INZ. change (bp 52) with (IZR (2 ^ 52)). apply IZR_le, Hw. }
    assert (B2w : bnd (fmul f_two (f_of_nat w)) (1 + 52)) by (apply mul_bnd; auto; lia).
    assert (B2d : bnd (fmul f_two dotp) (1 + k)) by (apply mul_bnd; auto; lia).
    assert (Le : fval dotp <= INR w).
    { rewrite (flt_val _ _ Nw (bnd_number _ _ D)) in F. unfold Rlt_bool in F. rewrite Vw in F. destruct (Rcompare_spec (INR w) (fval dotp)); try discriminate; lra. }
    assert (E1 : fval (fmul f_two (f_of_nat w)) = rnd (2 * INR w)).
    { destruct (fmul_val f_two (f_of_nat w) N2 Nw) as (_ & ->); [|rewrite V2, Vw; reflexivity].
      apply Rle_lt_trans with (bp (1 + 52)); [|apply bp_top; lia]. apply rnd_abs_le; [apply fmt_bpow; lia|]. rewrite Rabs_mult, bpow_plus.
      apply Rmult_le_compat; auto using Rabs_pos; [apply B2|apply Bw]. }
    assert (E2 : fval (fmul f_two dotp) = rnd (2 * fval dotp)).
    { destruct (fmul_val f_two dotp N2 (bnd_number _ _ D)) as (_ & ->); [|rewrite V2; reflexivity].
      apply Rle_lt_trans with (bp (1 + k)); [|apply bp_top; lia]. apply rnd_abs_le; [apply fmt_bpow; lia|]. rewrite Rabs_mult, bpow_plus.
      apply Rmult_le_compat; auto using Rabs_pos; [apply B2|apply D]. }
    assert (Bs : bnd (fsub (fmul f_two (f_of_nat w)) (fmul f_two dotp)) (1 + k + 1)) by (apply sub_bnd; auto; try lia; apply bnd_le with (1 + 52)%Z; [lia|exact B2w]).
    assert (P : 0 <= fval (fsub (fmul f_two (f_of_nat w)) (fmul f_two dotp))).
    { destruct (fsub_val (fmul f_two (f_of_nat w)) (fmul f_two dotp) (bnd_number _ _ B2w) (bnd_number _ _ B2d)) as (_ & ->).
      - apply Rle_lt_trans with (bp (1 + k + 1)); [|apply bp_top; lia]. apply rnd_abs_le; [apply fmt_bpow; lia|]. rewrite bp_double.
        unfold Rminus. eapply Rle_trans; [apply Rabs_triang|]. rewrite Rabs_Ropp. destruct B2w as (_ & X), B2d as (_ & Y).
        assert (bp (1 + 52) <= bp (1 + k)) by (apply bpow_le; lia). lra.
      - rewrite <- rnd0 at 1. apply rnd_le. rewrite E1, E2. assert (rnd (2 * fval dotp) <= rnd (2 * INR w)) by (apply rnd_le; lra). lra. }
    cbv zeta. destruct (fsqrt_val _ (bnd_number _ _ Bs) P) as (R1 & R2). split; [exact R1|]. rewrite R2, <- rnd0. apply rnd_le, sqrt_pos.
  Qed.
  Lemma chunk_term_bnd x y : (e <= 200)%Z -> length x = 4%nat -> length y = 4%nat -> incl x a -> incl y b -> bnd (fchunk_term z mi si mj sj x y) (4 * e + 160).
  Proof.
    intros E Lx Ly Ix Iy. unfold fchunk_term. cbv zeta. pose proof si_ge as Gi. pose proof sj_ge as Gj. pose proof (bpow_gt_0 radix2 (-14)) as P.
    set (off := fsub (fmul mi sj) (fmul mj si)).
    assert (Off : bnd off (2 * e + 50)).
    { replace (2 * e + 50)%Z with (e + 21 + (e + 28) + 1)%Z by lia. apply sub_bnd; try lia; apply mul_bnd; auto; lia. }
    set (l := map (fun d => fmul d d) _).
    assert (T : forall t, In t l -> bnd t (4 * e + 102)).
    { intros t Ht. apply in_map_iff in Ht as (d & <- & Hd). apply in_zip_with in Hd as (u & v & Hu & Hv & ->).
      assert (D : bnd (fsub (fsub (fmul u sj) (fmul v si)) off) (2 * e + 51)).
      { replace (2 * e + 51)%Z with (2 * e + 50 + 1)%Z by lia. apply sub_bnd; try lia; [|exact Off]. apply bnd_le with (e + (e + 28) + 1)%Z; [lia|].
        apply sub_bnd; try lia; apply mul_bnd; auto; lia. }
      replace (4 * e + 102)%Z with (2 * e + 51 + (2 * e + 51))%Z by lia. apply mul_bnd; auto; lia. }
    assert (Ll : length l = 4%nat) by (unfold l, zip_with; rewrite !map_length, combine_length; lia).
    destruct (fsum_bound z (4 * e + 102) l ltac:(lia) ltac:(rewrite Ll; lia) T) as (N & R). rewrite Ll in R.
    assert (B1 : bnd (fmul si sj) (e + 28 + (e + 28))) by (apply mul_bnd; auto; lia).
    assert (G1 : bp (-28) <= fval (fmul si sj)) by (apply (prod_ge' si sj (-14) (-14) (e + 28) (e + 28)); auto; lia).
    assert (B2 : bnd (fmul (fmul si sj) si) (e + 28 + (e + 28) + (e + 28))) by (apply mul_bnd; auto; lia).
    assert (G2 : bp (-42) <= fval (fmul (fmul si sj) si)) by (apply (prod_ge' (fmul si sj) si (-28) (-14) (e + 28 + (e + 28)) (e + 28)); auto; lia).
    assert (B3 : bnd (fmul (fmul (fmul si sj) si) sj) (e + 28 + (e + 28) + (e + 28) + (e + 28))) by (apply mul_bnd; auto; lia).
    assert (G3 : bp (-56) <= fval (fmul (fmul (fmul si sj) si) sj)) by (apply (prod_ge' (fmul (fmul si sj) si) sj (-42) (-14) (e + 28 + (e + 28) + (e + 28)) (e + 28)); auto; lia).
    replace (4 * e + 160)%Z with (2 + (4 * e + 102) - -56)%Z by lia. apply div_bnd; try lia; [|apply B3|].
    - apply INR_bnd with (n := 4%nat); auto; lia.
    - pose proof (bpow_gt_0 radix2 (-56)). rewrite Rabs_right by lra. exact G3.
  Qed.
  Lemma terms_bnd x : (e <= 200)%Z -> In x (fterms z mi si mj sj a b) -> bnd x (4 * e + 160).
  Proof.
    intros E H. unfold fterms in H. apply in_app_or in H as [H|H]; apply in_zip_with in H as (u & v & Hu & Hv & ->).
    - apply bnd_le with (2 * e + 74)%Z; [lia|]. apply fterm_bnd; [apply A|apply B]; eapply in_rest; eauto.
    - destruct (in_chunk 4 a u ltac:(lia) Hu), (in_chunk 4 b v ltac:(lia) Hv). apply chunk_term_bnd; auto.
  Qed.
  Lemma terms_length : (length (fterms z mi si mj sj a b) <= length a)%nat.
  Proof.
    unfold fterms. rewrite app_length. unfold zip_with at 1. rewrite map_length, combine_length, rest_length by lia.
    unfold zip_with. rewrite map_length, combine_length, chunks_length. pose proof (Nat.div_mod (length a) 4 ltac:(lia)). lia.
  Qed.
  Lemma threshold_bnd : (e <= 200)%Z -> let s := fold_left fadd (fterms z mi si mj sj a b) f_zero in
    number s /\ 0 <= fval s /\ number (fsqrt64 s) /\ 0 <= fval (fsqrt64 s).
  Proof.
    intros E. cbv zeta. pose proof terms_length as Lt.
    destruct (fold_bound (4 * e + 160) (fterms z mi si mj sj a b) ltac:(lia) 0 f_zero) as (N & _); [apply zero_number|cbn; rewrite Rabs_R0; lra|lia|intros x; apply terms_bnd, E|].
    assert (S : is_sign_negative (fold_left fadd (fterms z mi si mj sj a b) f_zero) = false) by (apply fold_sign; [reflexivity|apply fterms_sign]).
    assert (P : 0 <= fval (fold_left fadd (fterms z mi si mj sj a b) f_zero)) by (apply sign_val; [apply N|exact S]).
    destruct (fsqrt_val _ N P) as (R1 & R2). split; [exact N|]. split; [exact P|]. split; [exact R1|]. rewrite R2, <- rnd0. apply rnd_le, sqrt_pos.
  Qed.
End Pair.
