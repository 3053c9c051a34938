(** C129: the average distance and the relative contrast in floating point. *)
From Coq Require Import Reals Lra Lia Floats.SpecFloat.
From Flocq Require Import Core BinarySingleNaN.
From Verif Require Import Base Overlaps OverlapsSpec OverlapsProofs F64 RSpec RealProofs SeriesProofs FFT FFTProofs SamplingSpec Sampling SamplingProofs TopK Iterator IteratorSpec FpOps FloatSeries FloatSpec FloatProofs FloatRoll FloatBound FloatDist FloatDist2 FloatThr FloatErr FloatMean FloatSd FloatVar FloatSum FloatTerm FloatPair FloatProj FloatProf
  P_Float P_Float2 P_Acc P_Acc2 AccSpec P_Acc3 P_Acc4 P_Acc5 FloatHash ProjSpec P_Proj P_Prof P_Brute64 P_Hashing BruteSpec FloatRun P_Run64 FloatSample P_Seed64 P_Sampling.
Local Open Scope R_scope.

(** two windows that may be compared, as the code sees them *)
Definition comparable (s : fseries) (zone : nat) (ij : nat * nat) : bool :=
  alive s (fst ij) && alive s (snd ij) && apart zone (fst ij) (snd ij).
(** the average of the exact distances of the pairs in [l] *)
Definition exact_average (ts : list f64) (w : nat) (l : list (nat * nat)) : R :=
  total (map (fun ij => exact_distance ts w (fst ij) (snd ij)) l) / INR (length l).

Section Average.
  Variables (z : zeros) (ts : list f64) (w : nat) (precise : bool) (s : fseries) (e : Z) (eps : R).
  Hypothesis Mo : moderate ts.
  Hypothesis U : usable ts w.
  Hypothesis E : fseries_new z ts w precise = Ret s.
  Hypothesis He : 0 < eps <= / 64.
  Hypothesis Ac : accurate s (length ts - w) e eps.
  Variables (samples zone : nat) (draw : nat -> nat * nat).
  Hypothesis Hdr : forall t, (fst (draw t) < length ts - w)%nat /\ (snd (draw t) < length ts - w)%nat.
  Notation n := (length ts - w)%nat.

  Lemma w_ge1 : 1 <= INR w.
  Proof. change 1 with (INR 1). apply le_INR. apply U. Qed.
  Lemma exact_sd_pos i : (i < n)%nat -> lively s i -> 0 < sd_of (exact_window ts w i).
  Proof.
    intros Li Fi. destruct (at_window z ts w precise s i i e eps Mo U E Li Li i Li Fi (Ac i Li Fi)) as (m & sd & _ & _ & _ & _ & _ & _ & _ & _ & _ & R).
    unfold exact_window. fold (win ts w i). pose proof w_ge1. pose proof u_pos. pose proof (bpow_gt_0 radix2 e) as Pe.
    assert (0 < (INR w + 16) * (u * bp e)) by (apply Rmult_lt_0_compat; [lra|apply Rmult_lt_0_compat; assumption]).
    destruct (Rle_lt_dec (sd_of (vals (win ts w i))) 0) as [C|C]; [|exact C]. exfalso.
    assert (eps * sd_of (vals (win ts w i)) <= 0) by (rewrite <- (Rmult_0_r eps); apply Rmult_le_compat_l; lra). unfold win in *. lra.
  Qed.
  Lemma exact_le i j : (i < n)%nat -> (j < n)%nat -> lively s i -> lively s j -> 0 <= exact_distance ts w i j <= 2 * sqrt (INR w).
  Proof.
    intros Li Lj Fi Fj. split; [apply sqrt_pos|]. unfold exact_distance.
    assert (L : forall k, (k < n)%nat -> length (exact_window ts w k) = w) by (intros k Lk; unfold exact_window; rewrite map_length, firstn_length, skipn_length; lia).
    rewrite <- (L i Li) at 3. apply zdistance_bound; [rewrite !L by assumption; reflexivity|apply exact_sd_pos; assumption|apply exact_sd_pos; assumption].
  Qed.
  Lemma root_gap a b c : 0 <= a -> 0 <= b -> 0 <= c -> Rabs (a ^ 2 - b ^ 2) <= c -> Rabs (a - b) <= sqrt c.
  Proof.
    intros A B C H. rewrite <- (sqrt_square (Rabs (a - b))) by apply Rabs_pos. apply sqrt_le_1_alt. rewrite <- Rabs_mult.
    apply Rle_trans with (Rabs (a ^ 2 - b ^ 2)); [|exact H]. replace (a ^ 2 - b ^ 2) with ((a - b) * (a + b)) by ring. rewrite !Rabs_mult.
    apply Rmult_le_compat_l; [apply Rabs_pos|]. rewrite (Rabs_right (a + b)) by lra. apply Rabs_le. lra.
  Qed.
  Definition slack : R := sqrt (10 * INR w * eps).
  Lemma comparable_pair ij : (fst ij < n)%nat -> (snd ij < n)%nat -> comparable s zone ij = true ->
    exists d, fzeucl z s (fst ij) (snd ij) = Ret d /\ distance_value d /\ Rabs (fval d - exact_distance ts w (fst ij) (snd ij)) <= slack /\ fval d <= 3 * sqrt (INR w).
  Proof.
    intros Li Lj C. unfold comparable in C. apply andb_true_iff in C. destruct C as (C & _). apply andb_true_iff in C. destruct C as (Fi & Fj). apply alive_lively in Fi, Fj.
    destruct (pair_distance z ts w precise s (fst ij) (snd ij) e eps Mo U E Li Lj Fi Fj He (Ac _ Li Fi) (Ac _ Lj Fj)) as (d & Ed & Dv & Cd). fold (exact_distance ts w (fst ij) (snd ij)) in Cd.
    destruct (exact_le _ _ Li Lj Fi Fj) as (P & B). exists d. split; [exact Ed|]. split; [exact Dv|]. pose proof w_ge1 as W1.
    assert (S : Rabs (fval d - exact_distance ts w (fst ij) (snd ij)) <= slack).
    { apply root_gap; [apply Dv|exact P| |exact Cd]. apply Rmult_le_pos; lra. }
    split; [exact S|]. assert (Sl : slack <= sqrt (INR w)).
    { unfold slack. apply sqrt_le_1_alt. apply Rle_trans with (10 * INR w * / 64); [apply Rmult_le_compat_l; lra|lra]. }
    apply abs_between in S. lra.
  Qed.
  Lemma root_bp : 3 * sqrt (INR w) <= bp 28.
  Proof.
    destruct U as (_ & Hw). assert (sqrt (INR w) <= bp 26).
    { replace (bp 26) with (sqrt (bp 52)). - apply sqrt_le_1_alt. rewrite INR_IZR_INZ. change (bp 52) with (IZR (2 ^ 52)). apply IZR_le, Hw.
      - replace (bp 52) with (bp 26 * bp 26) by (rewrite <- bpow_plus; reflexivity). apply sqrt_square, bpow_ge_0. }
    replace (bp 28) with (4 * bp 26); [pose proof (bpow_gt_0 radix2 26); lra|]. change (bp 28) with (bp (2 + 26)). rewrite bpow_plus. reflexivity.
  Qed.

  (** what the loop has added up: the computed distances of the pairs used so far *)
  Definition added (l : list (nat * nat)) (sum : f64) : Prop :=
    exists ds, length ds = length l /\ sum = fold_left fadd ds f_zero /\
      (forall d, In d ds -> distance_value d /\ fval d <= 3 * sqrt (INR w)) /\
      Rabs (total (vals ds) - total (map (fun ij => exact_distance ts w (fst ij) (snd ij)) l)) <= INR (length l) * slack.

  Lemma body_facts : exists body : nat * nat * f64 -> res ((nat * nat * f64) + f64),
    (forall fuel, faverage_pairwise_distance samples z s zone draw fuel = loop fuel body (O, O, f_zero)) /\
    (forall t k x, (samples <= k)%nat -> body (t, k, x) = Ret (inr (fdiv x (f_of_nat samples)))) /\
    (forall t k x, (k < samples)%nat -> comparable s zone (draw t) = false -> body (t, k, x) = Ret (inl (S t, k, x))) /\
    (forall t k x l, (k < samples)%nat -> comparable s zone (draw t) = true -> added l x ->
      exists x', body (t, k, x) = Ret (inl (S t, S k, x')) /\ added (l ++ [draw t]) x').
  Proof.
    destruct (made z ts w precise s Mo U E) as (_ & _ & En & _).
    eexists. split.
    { intros fuel. unfold faverage_pairwise_distance, assert_. replace (0 <? fnum_subsequences s)%nat with true by (symmetry; apply Nat.ltb_lt; rewrite En; specialize (Hdr 0%nat); lia). reflexivity. }
    split. { intros t k x L. cbv beta iota. replace (k <? samples)%nat with false by lia. reflexivity. }
    split.
    - intros t k x L G. cbv beta iota. replace (k <? samples)%nat with true by lia. destruct (Hdr t) as (L1 & L2). unfold comparable in G. destruct (draw t) as (i & j). cbn [fst snd] in *.
      destruct (flat_cases z ts w precise s Mo U E i L1) as [(F & _ & A)|(F & _ & A)]; rewrite F; cbn [bind]; [|reflexivity].
      destruct (flat_cases z ts w precise s Mo U E j L2) as [(F' & _ & A')|(F' & _ & A')]; rewrite F'; cbn [bind]; [|reflexivity].
      rewrite A, A' in G. cbn [andb] in G. rewrite apart_overlaps, G. reflexivity.
    - intros t k x l L G (ds & Ll & Es & Hds & Hs). cbv beta iota. replace (k <? samples)%nat with true by lia. destruct (Hdr t) as (L1 & L2).
      destruct (comparable_pair (draw t) L1 L2 G) as (d & Ed & Dv & Cd & Bd). unfold comparable in G. destruct (draw t) as (i & j). cbn [fst snd] in *.
      apply andb_true_iff in G. destruct G as (G & Ap). apply andb_true_iff in G. destruct G as (A & A').
      destruct (flat_cases z ts w precise s Mo U E i L1) as [(F & _ & _)|(F & _ & C)]; [|congruence]. rewrite F. cbn [bind].
      destruct (flat_cases z ts w precise s Mo U E j L2) as [(F' & _ & _)|(F' & _ & C)]; [|congruence]. rewrite F'. cbn [bind].
      rewrite apart_overlaps, Ap. cbn [negb]. rewrite Ed. cbn [bind]. eexists. split; [reflexivity|].
      exists (ds ++ [d]). split; [rewrite !app_length, Ll; reflexivity|]. split; [rewrite fold_left_app, <- Es; reflexivity|]. split.
      { intros d' Hd'. apply in_app_or in Hd'. destruct Hd' as [Hd'|[<-|[]]]; [apply Hds, Hd'|split; assumption]. }
      rewrite !map_app, !total_app, app_length, plus_INR. cbn [map fst snd length]. rewrite !total_cons. change (total []) with 0. change (INR 1) with 1. rewrite !Rplus_0_r.
      match goal with |- Rabs (?a + ?b - (?c + ?f)) <= _ => replace (a + b - (c + f)) with ((a - c) + (b - f)) by ring end. eapply Rle_trans; [apply Rabs_triang|]. lra.
  Qed.
  Lemma added_nil : added [] f_zero.
  Proof. exists []. split; [reflexivity|]. split; [reflexivity|]. split; [intros d []|]. cbn. replace (0 - 0) with 0 by ring. rewrite Rabs_R0. lra. Qed.

  Lemma divided l sum : length l = samples -> (1 <= samples)%nat -> (Z.of_nat samples <= 2 ^ 40)%Z -> added l sum ->
    let v := fdiv sum (f_of_nat samples) in
    distance_value v /\ Rabs (fval v - exact_average ts w l) <= slack + 7 * INR (samples + 1) * u * sqrt (INR w).
  Proof.
    intros Ll L1 L2 (ds & Ld & Es & Hds & Hs) v. set (m := INR samples).
    assert (M1 : 1 <= m) by (unfold m; change 1 with (INR 1); apply le_INR; lia).
    assert (M2 : m <= bp 40) by (unfold m; rewrite INR_IZR_INZ; change (bp 40) with (IZR (2 ^ 40)); apply IZR_le, L2).
    set (q := sqrt (INR w)) in *. assert (Q1 : 1 <= q) by (unfold q; rewrite <- sqrt_1; apply sqrt_le_1_alt, w_ge1).
    assert (Q2 : 3 * q <= bp 28) by apply root_bp. pose proof u_pos as UP.
    assert (Bd : forall x, In x ds -> bnd x 28).
    { intros x Hx. destruct (Hds x Hx) as ((Nx & Px) & Bx). split; [exact Nx|]. rewrite Rabs_right by lra. lra. }
    assert (Lz : (Z.of_nat (0 + length ds) <= 2 ^ 53)%Z) by (cbn [Nat.add]; rewrite Ld, Ll; lia).
    assert (Z0 : Rabs (fval f_zero) <= INR 0 * bp 28) by (change (fval f_zero) with 0; rewrite Rabs_R0; cbn; lra).
    pose proof (fold_grow 28 ds ltac:(lia) 0 f_zero (zero_number false) Z0 Lz Bd) as G. rewrite <- Es in G. change (fval f_zero) with 0 in G. rewrite Rabs_R0, !Rplus_0_l in G.
    destruct (fold_bound 28 ds ltac:(lia) 0 f_zero (zero_number false) Z0 Lz Bd) as (Ns & Bs). rewrite <- Es in Ns, Bs. cbn [Nat.add] in Bs. rewrite Ld, Ll in Bs. fold m in Bs.
    assert (Ew : weight ds = total (vals ds)).
    { clear - Hds. unfold weight. induction ds as [|d ds IH]; [reflexivity|]. cbn [map]. rewrite !total_cons, IH by (intros x Hx; apply Hds; right; exact Hx). rewrite Rabs_right; [reflexivity|]. apply Rle_ge. apply (Hds d). left; reflexivity. }
    assert (Tb : 0 <= total (vals ds) <= m * (3 * q)).
    { unfold m. rewrite <- Ll, <- Ld. clear - Hds. unfold q in Hds. fold q in Hds. induction ds as [|d ds IH]; [cbn; lra|]. cbn [map length]. rewrite total_cons, S_INR.
      destruct (Hds d ltac:(left; reflexivity)) as ((_ & P) & B). destruct IH as (I1 & I2); [intros x Hx; apply Hds; right; exact Hx|]. lra. }
    rewrite Ew, Ld, Ll in G. set (T := total (vals ds)) in *.
    assert (Gs : grow samples <= 2 * (m * u)).
    { apply grow_small. fold m. apply Rle_trans with (bp 40 * u); [apply Rmult_le_compat_r; lra|]. change u with (bp (-53)). rewrite <- bpow_plus. change (bp (40 + -53)) with (/ 8192). lra. }
    assert (G' : Rabs (fval sum - T) <= 2 * (m * u) * T) by (eapply Rle_trans; [exact G|]; apply Rmult_le_compat_r; lra).
    assert (MU : 2 * (m * u) <= / 4096).
    { apply Rle_trans with (2 * (bp 40 * u)); [apply Rmult_le_compat_l; [lra|]; apply Rmult_le_compat_r; lra|]. change u with (bp (-53)). rewrite <- bpow_plus. change (bp (40 + -53)) with (/ 8192). lra. }
    assert (MP : 0 <= m * u) by (apply Rmult_le_pos; lra).
    assert (Sp : 0 <= fval sum <= 31 / 10 * (m * q)).
    { apply abs_between in G'. assert (A : 2 * (m * u) * T <= / 4096 * T) by (apply Rmult_le_compat_r; lra). replace (m * (3 * q)) with (3 * (m * q)) in Tb by ring. lra. }
    destruct (of_nat_exact samples ltac:(lia)) as (Nm & Vm). fold m in Vm.
    assert (Qb : 0 <= fval sum / m <= 31 / 10 * q).
    { split; [apply Rmult_le_pos; [lra|apply Rlt_le, Rinv_0_lt_compat; lra]|]. apply Rmult_le_reg_r with m; [lra|]. unfold Rdiv. rewrite Rmult_assoc, Rinv_l by lra. lra. }
    assert (P29 : bp 29 = 2 * bp 28) by (change (bp 29) with (bp (1 + 28)); rewrite bpow_plus; reflexivity).
    destruct (div_err sum (f_of_nat samples) 29 Ns Nm) as (Nv & Ev); [rewrite Vm; lra|lia|rewrite Vm, Rabs_right by lra; lra|].
    rewrite Vm in Ev. fold v in Nv, Ev. rewrite (Rabs_right (fval sum / m)) in Ev by lra.
    split.
    { split; [exact Nv|]. destruct (fdiv_le sum (f_of_nat samples) (bp 29) Ns Nm) as (_ & V & _); [rewrite Vm; lra|apply fmt_bpow; lia|apply bp_top; lia|rewrite Vm, Rabs_right by lra; lra|].
      fold v in V. rewrite V, Vm. rewrite <- rnd0 at 1. apply rnd_le. apply Qb. }
    assert (Ty : tiny <= u * q).
    { apply Rle_trans with (u * 1); [|apply Rmult_le_compat_l; lra]. rewrite Rmult_1_r. apply bpow_le. lia. }
    assert (D1 : Rabs (fval sum / m - T / m) <= 6 * (m * u) * q).
    { unfold Rdiv. rewrite <- Rmult_minus_distr_r, Rabs_mult, (Rabs_right (/ m)) by (apply Rle_ge, Rlt_le, Rinv_0_lt_compat; lra).
      apply Rle_trans with (2 * (m * u) * (m * (3 * q)) * / m).
      - apply Rmult_le_compat_r; [apply Rlt_le, Rinv_0_lt_compat; lra|]. eapply Rle_trans; [exact G'|]. apply Rmult_le_compat_l; lra.
      - apply Req_le. field. lra. }
    assert (D2 : Rabs (T / m - exact_average ts w l) <= slack).
    { unfold exact_average. rewrite Ll in *. fold m in Hs |- *. unfold Rdiv. rewrite <- Rmult_minus_distr_r, Rabs_mult, (Rabs_right (/ m)) by (apply Rle_ge, Rlt_le, Rinv_0_lt_compat; lra).
      apply Rle_trans with (m * slack * / m); [apply Rmult_le_compat_r; [apply Rlt_le, Rinv_0_lt_compat; lra|exact Hs]|apply Req_le; field; lra]. }
    rewrite plus_INR. fold m. change (INR 1) with 1.
    replace (fval v - exact_average ts w l) with ((fval v - fval sum / m) + (fval sum / m - T / m) + (T / m - exact_average ts w l)) by ring.
    eapply Rle_trans; [apply Rabs_triang|]. eapply Rle_trans; [apply Rplus_le_compat_r, Rabs_triang|].
    assert (A1 : u * (fval sum / m) <= 31 / 10 * (u * q)) by (apply Rle_trans with (u * (31 / 10 * q)); [apply Rmult_le_compat_l; lra|lra]).
    replace (7 * (m + 1) * u * q) with (7 * (m * u * q) + 7 * (u * q)) by ring. replace (6 * (m * u) * q) with (6 * (m * u * q)) in D1 by ring.
    assert (0 <= m * u * q) by (apply Rmult_le_pos; lra). assert (0 <= u * q) by (apply Rmult_le_pos; lra). lra.
  Qed.
End Average.

(** * C129: the average distance *)
(** Once as many comparable pairs as wanted have been drawn, the sampling returns a finite
    number that is not negative: the average of their exact distances, up to the error of the
    distances and that of adding them up.  Missing: streams with fewer such pairs (below). *)
Theorem c129_average_partial :
  forall (z : zeros) (ts : list f64) (w : nat) (precise : bool) (s : fseries) (e : Z) (eps : R)
         (samples zone : nat) (draw : nat -> nat * nat) (T : nat),
    moderate ts -> usable ts w -> fseries_new z ts w precise = Ret s -> 0 < eps <= / 64 -> accurate s (length ts - w) e eps ->
    (forall t, (fst (draw t) < length ts - w)%nat /\ (snd (draw t) < length ts - w)%nat) ->
    (1 <= samples)%nat -> (Z.of_nat samples <= 2 ^ 40)%Z ->
    let pairs := filter (comparable s zone) (draws draw T) in
    length pairs = samples ->
    exists average, returns (faverage_pairwise_distance samples z s zone draw) average /\ distance_value average /\
      Rabs (fval average - exact_average ts w pairs) <= sqrt (10 * INR w * eps) + 7 * INR (samples + 1) * powerRZ 2 (-53) * sqrt (INR w).
Proof.
  intros z ts w precise s e eps samples zone draw T Mo U E He Ac Hdr L1 L2 pairs Lp.
  destruct (body_facts z ts w precise s e eps Mo U E He Ac samples zone draw Hdr) as (body & Eb & H1 & H2 & H3).
  destruct (sample_returns samples draw (comparable s zone) body (added ts w eps) (fun x => fdiv x (f_of_nat samples)) f_zero H1 H2 H3 (added_nil ts w eps) T Lp) as (x & (F & Hr) & Ha).
  exists (fdiv x (f_of_nat samples)). split; [exists F; intros m Lm; rewrite Eb; apply Hr, Lm|].
  rewrite power_bp. eapply divided; eassumption.
Qed.
Print Assumptions c129_average_partial.
(** With fewer it never ends. *)
Theorem c129_never_refuted :
  forall (z : zeros) (ts : list f64) (w : nat) (precise : bool) (s : fseries) (e : Z) (eps : R)
         (samples zone : nat) (draw : nat -> nat * nat),
    moderate ts -> usable ts w -> fseries_new z ts w precise = Ret s -> 0 < eps <= / 64 -> accurate s (length ts - w) e eps ->
    (forall t, (fst (draw t) < length ts - w)%nat /\ (snd (draw t) < length ts - w)%nat) ->
    (forall T, (length (filter (comparable s zone) (draws draw T)) < samples)%nat) ->
    diverges (faverage_pairwise_distance samples z s zone draw).
Proof.
  intros z ts w precise s e eps samples zone draw Mo U E He Ac Hdr Lp.
  destruct (body_facts z ts w precise s e eps Mo U E He Ac samples zone draw Hdr) as (body & Eb & H1 & H2 & H3).
  intros fuel. rewrite Eb. apply (sample_diverges samples draw (comparable s zone) body (added ts w eps) (fun x => fdiv x (f_of_nat samples)) f_zero H1 H2 H3 (added_nil ts w eps) Lp).
Qed.
Print Assumptions c129_never_refuted.
(** With independent uniform draws it ends with probability one, if the series has a single
    comparable pair. *)
Theorem c129_almost_surely :
  forall (z : zeros) (ts : list f64) (w : nat) (precise : bool) (s : fseries) (e : Z) (eps : R) (samples zone i j : nat) (small : R),
    moderate ts -> usable ts w -> fseries_new z ts w precise = Ret s -> 0 < eps <= / 64 -> accurate s (length ts - w) e eps ->
    (1 <= samples)%nat -> (Z.of_nat samples <= 2 ^ 40)%Z ->
    (i < length ts - w)%nat -> (j < length ts - w)%nat -> lively s i -> lively s j -> ~ too_close zone i j -> 0 < small ->
    let positions := seq 0 (length ts - w) in
    exists (T0 : nat) (slow : list (nat * nat) -> bool),
      (forall T, (T0 <= T)%nat -> chance (list_prod positions positions) T slow <= small) /\
      forall (T : nat) (draw : nat -> nat * nat),
        (forall t, In (draw t) (list_prod positions positions)) -> slow (draws draw T) = false ->
        exists average, returns (faverage_pairwise_distance samples z s zone draw) average.
Proof.
  intros z ts w precise s e eps samples zone i j small Mo U E He Ac L1 L2 Li Lj Fi Fj Nij Hs positions.
  destruct (few_vanishes (comparable s zone) (list_prod positions positions)) with (k := samples) (eps := small) as (T0 & H0); [|exact Hs|].
  { exists (i, j). split; [apply in_prod; apply in_seq; lia|]. unfold comparable. cbn [fst snd]. rewrite !(proj2 (alive_lively s _)) by assumption. unfold too_close in Nij. unfold apart. lia. }
  exists T0, (fun x => (length (filter (comparable s zone) x) <? samples)%nat). split; [exact H0|].
  intros T draw Hd Hl. destruct (exact_hits (comparable s zone) draw samples T ltac:(lia)) as (T' & E').
  destruct (c129_average_partial z ts w precise s e eps samples zone draw T' Mo U E He Ac) as (v & Hv & _); [|exact L1|exact L2|exact E'|eauto].
  intros t. specialize (Hd t). destruct (draw t) as (a & b). apply in_prod_iff in Hd. destruct Hd as (Ha & Hb). apply in_seq in Ha, Hb. cbn [fst snd]. lia.
Qed.
Print Assumptions c129_almost_surely.

(** * C129: the relative contrast *)
(** Of a motiflet with an extent that is not negligible, it is the average over the extent,
    correctly rounded. *)
Theorem c129_contrast :
  forall average extent : f64,
    distance_value average -> distance_value extent -> / 2 ^ 400 <= fval extent -> fval average <= 2 ^ 400 ->
    distance_value (relative_contrast average extent) /\
    Rabs (fval (relative_contrast average extent) - fval average / fval extent) <= powerRZ 2 (-53) * (fval average / fval extent) + powerRZ 2 (-1075).
Proof.
  intros v x (Nv & Pv) (Nx & Px) Lx Lv. unfold relative_contrast. rewrite !power_bp. change (bp (-53)) with u.
  assert (P4 : 2 ^ 400 = bp 400) by (rewrite pow_powerRZ, power_bp; f_equal).
  rewrite P4 in *. pose proof (bpow_gt_0 radix2 400) as PB. assert (Ix : 0 < fval x) by (pose proof (Rinv_0_lt_compat _ PB); lra).
  assert (Q : 0 <= fval v / fval x <= bp 800).
  { split; [apply Rmult_le_pos; [lra|apply Rlt_le, Rinv_0_lt_compat, Ix]|]. change (bp 800) with (bp (400 + 400)). rewrite bpow_plus. unfold Rdiv. apply Rmult_le_compat; [lra|apply Rlt_le, Rinv_0_lt_compat, Ix|exact Lv|].
    rewrite <- (Rinv_inv (bp 400)). apply Rinv_le; [apply Rinv_0_lt_compat, PB|exact Lx]. }
  destruct (div_err v x 800 Nv Nx) as (N & Er); [lra|lia|rewrite Rabs_right by lra; lra|]. rewrite (Rabs_right (fval v / fval x)) in Er by lra.
  split; [split; [exact N|]|exact Er].
  destruct (fdiv_le v x (bp 800) Nv Nx) as (_ & V & _); [lra|apply fmt_bpow; lia|apply bp_top; lia|rewrite Rabs_right by lra; lra|].
  rewrite V, <- rnd0 at 1. apply rnd_le, Q.
Qed.
Print Assumptions c129_contrast.
(** Of a motiflet with extent 0, copies of a window, it is infinite, unless the average is 0
    too: then it is not a number. *)
Theorem c129_contrast_of_copies :
  forall average : f64, distance_value average ->
    (0 < fval average -> relative_contrast average f_zero = f_inf) /\ (fval average = 0 -> relative_contrast average f_zero = f_nan).
Proof.
  intros v ((Bv & Fv) & Pv). unfold relative_contrast. split; intros P.
  - destruct v as [b|b| |b m k]; try discriminate Fv; [unfold fval in P; cbn in P; lra|]. destruct b; [|reflexivity]. exfalso. unfold fval in P. cbn in P. unfold F2R in P. cbn in P.
    pose proof (bpow_gt_0 radix2 k). assert (IZR (Z.neg m) < 0) by (apply IZR_lt; lia). assert (IZR (Z.neg m) * bp k < 0) by nra. lra.
  - destruct v as [b|b| |b m k]; try discriminate Fv; [destruct b; reflexivity|]. exfalso. unfold fval in P. cbn in P. apply eq_0_F2R in P. destruct b; discriminate P.
Qed.
Print Assumptions c129_contrast_of_copies.
(** The zigzag of C125: six of the sixteen pairs of its windows are comparable. *)
Definition all_pairs (t : nat) : nat * nat := (t mod 4, (t / 4) mod 4)%nat.
Lemma all_pairs_below t : (fst (all_pairs t) < length zigzag_data - 2)%nat /\ (snd (all_pairs t) < length zigzag_data - 2)%nat.
Proof. split; apply Nat.mod_upper_bound; discriminate. Qed.
Example c129_average_case : exists average, moderate zigzag_data /\ usable zigzag_data 2 /\ fseries_new z_ex zigzag_data 2 true = Ret zigzag_series /\ 0 < / 2 ^ 36 <= / 64 /\
  accurate zigzag_series (length zigzag_data - 2) 0 (/ 2 ^ 36) /\ (forall t, (fst (all_pairs t) < length zigzag_data - 2)%nat /\ (snd (all_pairs t) < length zigzag_data - 2)%nat) /\
  filter (comparable zigzag_series 2) (draws all_pairs 16) = [(2, 0); (3, 0); (3, 1); (0, 2); (0, 3); (1, 3)]%nat /\
  faverage_pairwise_distance 6 z_ex zigzag_series 2 all_pairs 20 = Ret average /\ flt f_zero average = true /\
  relative_contrast average f_zero = f_inf.
Proof.
  eexists. split; [apply zigzag_moderate|]. split; [apply zigzag_usable|]. split; [apply zigzag_new|]. split; [apply eps_ok|]. split; [apply zigzag_accurate|].
  split; [apply all_pairs_below|]. split; [vm_compute; reflexivity|]. split; [vm_compute; reflexivity|]. split; vm_compute; reflexivity.
Qed.
Example c129_never_case : forall T, (length (filter (comparable zigzag_series 4) (draws all_pairs T)) < 1)%nat.
Proof.
  intros T. replace (filter _ _) with (@nil (nat * nat)); [cbn; lia|]. symmetry. unfold draws. generalize (seq 0 T) as q. induction q as [|t q IH]; [reflexivity|]. cbn [map filter]. rewrite IH. unfold comparable.
  pose proof (all_pairs_below t) as (L1 & L2). change (length zigzag_data - 2)%nat with 4%nat in L1, L2. replace (apart 4 (fst (all_pairs t)) (snd (all_pairs t))) with false by (unfold apart; lia). rewrite andb_false_r. reflexivity.
Qed.
Example c129_almost_surely_case : lively zigzag_series 0 /\ lively zigzag_series 2 /\ ~ too_close 2 0 2.
Proof. split; [vm_compute; reflexivity|]. split; [vm_compute; reflexivity|unfold too_close; lia]. Qed.
Example c129_contrast_case : distance_value (f_of_nat 3) /\ distance_value (f_of_nat 2) /\ / 2 ^ 400 <= fval (f_of_nat 2) /\ fval (f_of_nat 3) <= 2 ^ 400.
Proof.
  destruct (of_nat_exact 3) as (N3 & V3); [cbn; lia|]. destruct (of_nat_exact 2) as (N2 & V2); [cbn; lia|].
  assert (P : 4 <= 2 ^ 400) by (apply Rle_trans with (2 ^ 2); [lra|apply Rle_pow; [lra|lia]]).
  unfold distance_value. rewrite V2, V3. cbn [INR]. repeat split; try apply N3; try apply N2; try lra.
  all: apply Rle_trans with (/ 4); [apply Rinv_le; lra|lra].
Qed.
