(** C126: the quantisation width, with every operation rounded. *)
From Coq Require Import Reals Lra Lia Permutation Floats.SpecFloat.
From Flocq Require Import Core BinarySingleNaN.
From Verif Require Import Base F64 RSpec RealProofs SortSpec OverlapsSpec EnumSpec Enumerator EnumProofs EstimateProofs SeriesProofs FFT FFTProofs HashSpec HashValue HashProofs Hashing HashingSpec HashingProofs WidthProofs
  Iterator FpOps FloatSeries FloatSpec FloatProofs FloatRoll FloatBound FloatDist FloatDist2 FloatThr FloatErr FloatMean FloatSd FloatVar FloatSum FloatTerm FloatPair FloatProj P_Float P_Float2 P_Acc P_Acc2
  Quantise P_Quantise FloatHash ProjSpec P_Proj P_Hashing P_Acc4 P_Width FloatWidth FloatWidthP.
Local Open Scope R_scope.

(** * Widening *)
(** What is asked of the random numbers: eight vectors as long as the windows, and eight
    shifts whatever the width. *)
Definition vectors64_ok (vectors : list (list f64)) (w : nat) : Prop := length vectors = 8%nat /\ forall v, In v vectors -> length v = w.
Definition eight (shifts : f64 -> list f64) : Prop := forall width, length (shifts width) = 8%nat.
(** The search for the width never runs forever.  Either it returns the first width, among
    the given one and its doublings, for which the estimate of the number of collisions
    ([festimate_for]) is positive; the doublings are exact.  Or there is no such width among
    the finite numbers, and it aborts when the width overflows. *)
Theorem c126_outcome :
  forall (z : zeros) (ts : list f64) (w : nat) (precise : bool) (s : fseries) (sdp : list f64 -> nat -> f64) (ez : nat)
         (shifts : f64 -> list f64) (vectors : list (list f64)) (arrange : f64 -> list (N * N) -> list (N * N)) (width : f64),
    moderate ts -> usable ts w -> fseries_new z ts w precise = Ret s -> (w < length ts)%nat ->
    vectors64_ok vectors w -> eight shifts -> (forall width, sorts (arrange width)) ->
    number width -> 0 < fval width ->
    (exists result j, returns (ffind_width z arrange s sdp ez shifts vectors width) result /\
       number result /\ fval result = fval width * 2 ^ j /\
       (exists c, (0 < c)%nat /\ returns (festimate_for z arrange s sdp ez shifts vectors result) c) /\
       forall i wi, (i < j)%nat -> number wi -> fval wi = fval width * 2 ^ i ->
         returns (festimate_for z arrange s sdp ez shifts vectors wi) 0%nat) \/
    (panics (ffind_width z arrange s sdp ez shifts vectors width) /\
       forall i wi, number wi -> fval wi = fval width * 2 ^ i ->
         returns (festimate_for z arrange s sdp ez shifts vectors wi) 0%nat).
Proof.
  intros z ts w precise s sdp ez shifts vectors arrange width Mo U E Hn (H1 & H2) H3 So N P.
  destruct (doubling (fval width) top P) as (r & Hr).
  destruct (find_outcome z ts w precise s sdp ez shifts vectors arrange Mo U E Hn H1 H2 H3 So r width N P Hr) as [(result & j & A & B)|(A & B)].
  - left. exists result, j. split; [|exact B]. exists (r + S (length ts - w))%nat. intros g Lg. apply (A g g); lia.
  - right. split; [|exact B]. exists (r + S (length ts - w))%nat. intros g Lg. apply (A g g); lia.
Qed.
Print Assumptions c126_outcome.
(** A width that is not a positive number aborts. *)
Theorem c126_positive :
  forall (z : zeros) (s : fseries) (sdp : list f64 -> nat -> f64) (ez : nat)
         (shifts : f64 -> list f64) (vectors : list (list f64)) (arrange : f64 -> list (N * N) -> list (N * N)) (width : f64),
    is_f64 width -> ~ (number width /\ 0 < fval width) -> panics (ffind_width z arrange s sdp ez shifts vectors width).
Proof.
  intros z s sdp ez shifts vectors arrange width V H. exists 1%nat. intros g Lg. destruct g as [|g]; [lia|]. unfold ffind_width. cbn [loop].
  unfold fhasher_new, assert_. destruct (is_finite width) eqn:F; [|destruct (flt f_zero width); reflexivity].
  assert (N : number width) by (split; assumption). rewrite flt_val by (apply zero_number || exact N). change (fval f_zero) with 0.
  rewrite Rlt_bool_false by (apply Rnot_lt_le; intros C; apply H; auto). reflexivity.
Qed.
Print Assumptions c126_positive.

(** The search ends well when some window is flat and two others are not trivial matches. *)
Theorem c126_returns_partial :
  forall (z : zeros) (ts : list f64) (w : nat) (precise : bool) (s : fseries) (sdp : list f64 -> nat -> f64) (ez : nat)
         (shifts : f64 -> list f64) (vectors : list (list f64)) (arrange : f64 -> list (N * N) -> list (N * N)) (width : f64)
         (i j x : nat) (e : Z) (eps err : R),
    moderate ts -> usable ts w -> fseries_new z ts w precise = Ret s -> (N.of_nat (length ts) <= 2 ^ 32)%N ->
    vectors64_ok vectors w -> (forall v, In v vectors -> moderate v) -> eight shifts ->
    (forall width y, number width -> 0 < fval width -> In y (shifts width) -> number y /\ 0 <= fval y < fval width) ->
    (forall width, sorts (arrange width)) -> number width -> 0 < fval width ->
    (i < length ts - w)%nat -> (j < length ts - w)%nat -> (x < length ts - w)%nat -> i <> j -> ~ too_close ez i j ->
    lively s i -> lively s j -> below_limit s x ->
    0 < eps <= / 64 -> accurate_at s i e eps -> accurate_at s j e eps -> err <= 2 ^ 500 ->
    (forall q v, (q = i \/ q = j) -> In v vectors -> dot_within ts w v q err (sdp v q)) ->
    exists result, returns (ffind_width z arrange s sdp ez shifts vectors width) result.
Proof.
  intros z ts w precise s sdp ez shifts vectors arrange width i j x e eps err Mo U E L32 (H1 & H2) Mv H3 Hs So N P Li Lj Lx D Nt Fi Fj Bx He Ai Aj Er Hd.
  assert (Hn : (w < length ts)%nat) by lia.
  destruct (c126_outcome z ts w precise s sdp ez shifts vectors arrange width Mo U E Hn (conj H1 H2) H3 So N P) as [(result & k & R & _)|(_ & Hz)]; [exists result; exact R|exfalso].
  assert (C : forall q, (q = i \/ q = j) -> calm z s sdp vectors q).
  { intros q Hq k Lk. assert (Iv : In (nth k vectors []) vectors) by (apply nth_In; lia).
    assert (Lq : (q < length ts - w)%nat) by (destruct Hq; subst; assumption). assert (Fq : lively s q) by (destruct Hq; subst; assumption).
    assert (Aq : accurate_at s q e eps) by (destruct Hq; subst; assumption).
    destruct (c119_projection z ts w precise s (nth k vectors []) q e eps err _ Mo U E Lq Fq He Aq (H2 _ Iv) (Mv _ Iv) (Hd q _ Hq Iv) Er) as (y & Ey & Ny & By & _).
    rewrite power_bp in By. exists y. auto. }
  destruct (doubling (fval width) (bp 960) P) as (r & Hr). destruct (doublings r width N P Hr) as (k & wk & Nk & Vk & Bk). assert (Pk : 0 < fval wk) by (pose proof (bpow_gt_0 radix2 960); lra).
  destruct (fest_wide z ts w precise s sdp ez shifts vectors arrange Mo U E Hn H1 H2 H3 So wk i j x Nk Bk (fun y => Hs wk y Nk Pk) D Li Lj Lx ltac:(lia) (C i (or_introl eq_refl)) (C j (or_intror eq_refl)) Bx Nt) as (c & Pc & Rc).
  pose proof (Hz k wk Nk Vk) as Rz. assert (c = 0%nat).
  { destruct Rc as (g1 & G1), Rz as (g2 & G2). specialize (G1 (g1 + g2)%nat ltac:(lia)). specialize (G2 (g1 + g2)%nat ltac:(lia)). rewrite G1 in G2. apply Ret_inj in G2. exact G2. }
  lia.
Qed.
Print Assumptions c126_returns_partial.

(** When the computed projections of all the windows are the same, as they are for a straight
    line, no width will do: it aborts, whatever the shifts. *)
Theorem c126_aborts :
  forall (z : zeros) (ts : list f64) (w : nat) (precise : bool) (s : fseries) (sdp : list f64 -> nat -> f64) (ez : nat)
         (shifts : f64 -> list f64) (vectors : list (list f64)) (arrange : f64 -> list (N * N) -> list (N * N)) (width : f64) (y : list f64 -> f64),
    moderate ts -> usable ts w -> fseries_new z ts w precise = Ret s -> (w < length ts)%nat ->
    vectors64_ok vectors w -> eight shifts -> (forall width, sorts (arrange width)) ->
    number width -> 0 < fval width ->
    (forall v, In v vectors -> is_nan (y v) = false /\ fprojections z s sdp v = Ret (repeat (y v) (length ts - w))) ->
    panics (ffind_width z arrange s sdp ez shifts vectors width).
Proof.
  intros z ts w precise s sdp ez shifts vectors arrange width y Mo U E Hn (H1 & H2) H3 So N P Hy.
  destruct (c126_outcome z ts w precise s sdp ez shifts vectors arrange width Mo U E Hn (conj H1 H2) H3 So N P) as [(result & k & _ & Nr & Vr & (c & Pc & Rc) & _)|(R & _)]; [exfalso|exact R].
  assert (Rz : returns (festimate_for z arrange s sdp ez shifts vectors result) 0%nat).
  { apply (fest_same z ts w precise s sdp ez shifts vectors arrange Mo U E Hn H1 H2 H3 So result (fun k => y (nth k vectors []))); [exact Nr|rewrite Vr; apply Rmult_lt_0_compat; [exact P|apply pow_lt; lra]|].
    intros k' q Lk Lq. assert (Iv : In (nth k' vectors []) vectors) by (apply nth_In; lia). destruct (Hy _ Iv) as (Hn1 & Hp). split; [|exact Hn1].
    destruct (projections_return z ts w precise s sdp Mo U E (nth k' vectors []) (H2 _ Iv)) as (r & Er & _ & Hr). rewrite Hp in Er. apply Ret_inj in Er. subst r.
    destruct (Hr q Lq) as (y' & Ey & Fy). rewrite Fy. f_equal. apply nth_error_In, repeat_spec in Ey. exact Ey. }
  assert (c = 0%nat).
  { destruct Rc as (g1 & G1), Rz as (g2 & G2). specialize (G1 (g1 + g2)%nat ltac:(lia)). specialize (G2 (g1 + g2)%nat ltac:(lia)). rewrite G1 in G2. apply Ret_inj in G2. exact G2. }
  lia.
Qed.
Print Assumptions c126_aborts.

(** * The first width *)
(** sorted by [f64::total_cmp] *)
Definition sorts_total (nan_first : bool) (arrange : list f64 -> list f64) : Prop :=
  forall l, Permutation l (arrange l) /\
    forall i j x y, (i < j)%nat -> nth_error (arrange l) i = Some x -> nth_error (arrange l) j = Some y -> total_lt nan_first y x = false.
(** [hashed_windows]: the windows that are not below the limit, without repetitions. *)
Definition hashed_windows (s : fseries) (n : nat) (l : list nat) : Prop :=
  NoDup l /\ forall i, In i l <-> (i < n)%nat /\ ~ below_limit s i.

(** numbers and positive infinities, as in WidthProofs *)
Definition opt (x : f64) : option R := if is_infinite x then None else Some (fval x).
Definition entry (x : f64) : Prop := number x \/ x = S754_infinity false.
Lemma opt_number x : number x -> opt x = Some (fval x).
Proof. intros (_ & F). unfold opt. destruct x; (discriminate F || reflexivity). Qed.
Lemma total_opt nf x y : entry x -> entry y -> total_lt nf y x = false -> number_le (opt x) (opt y).
Proof.
  intros Hx Hy T. destruct Hy as [Ny| ->]; [|unfold opt; cbn; destruct (is_infinite x); exact I]. destruct Hx as [Nx| ->].
  - rewrite !opt_number by assumption. cbn. unfold total_lt in T. rewrite compare_val in T by assumption. destruct (Rcompare_spec (fval y) (fval x)); [discriminate| |]; lra.
  - exfalso. unfold total_lt in T. destruct Ny as (_ & F). destruct y; try discriminate F; cbn in T; discriminate T.
Qed.
Lemma pop_opt l : (forall x, In x l -> entry x) -> map opt (fpop_infinite l) = pop_infinite (map opt l).
Proof.
  intros H. unfold fpop_infinite, pop_infinite. rewrite map_rev, <- (map_rev opt l). f_equal.
  assert (H' : forall x, In x (rev l) -> entry x) by (intros x Hx; apply H, in_rev, Hx). clear H. induction (rev l) as [|x m IH]; [reflexivity|]. cbn [fdrop_infinite map drop_infinite].
  destruct (is_infinite x) eqn:F.
  - assert (Eo : opt x = None) by (unfold opt; rewrite F; reflexivity). rewrite Eo. apply IH. intros y Hy. apply H'. right. exact Hy.
  - assert (Eo : opt x = Some (fval x)) by (unfold opt; rewrite F; reflexivity). cbn [map]. rewrite Eo. reflexivity.
Qed.
Lemma drop_incl l x : In x (fdrop_infinite l) -> In x l.
Proof. induction l as [|y l IH]; [auto|]. cbn [fdrop_infinite]. destruct (is_infinite y); [intros H; right; auto|auto]. Qed.
Lemma pop_incl l x : In x (fpop_infinite l) -> In x l.
Proof. unfold fpop_infinite. rewrite <- in_rev. intros H. apply drop_incl in H. apply in_rev, H. Qed.
Lemma get_opt l x r : (forall y, In y l -> entry y) -> map opt l = map Some r -> (x < length r)%nat -> exists y, get l x = Ret y /\ number y /\ fval y = nth x r 0.
Proof.
  intros H Eq L. assert (Ll : length l = length r) by (rewrite <- (map_length opt l), Eq, map_length; reflexivity).
  destruct (nth_error l x) as [y|] eqn:Ey; [|apply nth_error_None in Ey; lia]. exists y. unfold get. rewrite Ey. split; [reflexivity|].
  assert (Eo : nth_error (map opt l) x = Some (opt y)) by (rewrite nth_error_map, Ey; reflexivity). rewrite Eq, nth_error_map, (nth_error_nth' r 0 L) in Eo. cbn [option_map] in Eo.
  destruct (H y (nth_error_In _ _ Ey)) as [N| ->]; [|discriminate Eo]. rewrite (opt_number y N) in Eo. injection Eo as Eo. auto.
Qed.

Lemma div_pow2 x : number x -> exists eta, Rabs eta <= bp (-1075) /\ rnd (fval x / 128) = fval x / 128 + eta.
Proof.
  intros (V & _). exists (rnd (fval x / 128) - fval x / 128). split; [|ring]. pose proof (bpow_ge_0 radix2 (-1075)) as P.
  pose proof (FLT_format_generic radix2 (SpecFloat.emin prec emax) prec (fval x) (fmt_val x V)) as [f Ef H1 H2]. change (SpecFloat.emin prec emax) with (-1074)%Z in H2.
  assert (D : fval x / 128 = F2R (Float radix2 (Fnum f) (Fexp f - 7))).
  { rewrite Ef. unfold F2R. cbn [Fnum Fexp]. unfold Zminus. rewrite bpow_plus. change (bpow radix2 (-(7))) with (/ 128). field. }
  destruct (Z_le_dec (-1067) (Fexp f)) as [L|L].
  - rewrite rnd_id; [unfold Rminus; rewrite Rplus_opp_r, Rabs_R0; exact P|]. apply (generic_format_FLT radix2 (SpecFloat.emin prec emax) prec).
    exists (Float radix2 (Fnum f) (Fexp f - 7)); [exact D|exact H1|]. cbn [Fexp]. change (SpecFloat.emin prec emax) with (-1074)%Z. lia.
  - eapply Rle_trans; [apply (error_le_half_ulp radix2 (FLT_exp (-1074) 53))|].
    rewrite (ulp_FLT_small radix2 (-1074) 53 (prec_gt_0_ := Hprec)); [right; change (-1074)%Z with (-1075 + 1)%Z; rewrite bp_double; field|].
    rewrite D. eapply Rlt_trans; [apply (F2R_lt_bpow radix2 _ (53 + (Fexp f - 7)))|apply bpow_lt; lia]. cbn [Fnum Fexp]. replace (53 + (Fexp f - 7) - (Fexp f - 7))%Z with 53%Z by lia. exact H1.
Qed.
Lemma div_128 x q : number x -> fval q = rnd (fval x / 128) -> Rabs (128 * fval q - fval x) <= bp (-1068).
Proof.
  intros N V. rewrite V. destruct (div_pow2 x) as (eta & He & ->); [exact N|]. replace (128 * (fval x / 128 + eta) - fval x) with (128 * eta) by field.
  rewrite Rabs_mult, (Rabs_pos_eq 128) by lra. change (bp (-1068)) with (bp (7 + -1075)). rewrite bpow_plus. change (bp 7) with 128. apply Rmult_le_compat_l; [lra|exact He].
Qed.

(** Without any window to hash it aborts.  Otherwise let there be [m] of them: the width is a
    number that is not negative, at least [99 m / 100 - m / 100 + 1] of the exact projections
    are at most 128 widths away from 0, and one is exactly that far, all up to the error of
    the computed projections and the rounding of the quotient. *)
Theorem c126_first_width :
  forall (z : zeros) (ts : list f64) (w : nat) (precise : bool) (s : fseries) (sdp : list f64 -> nat -> f64) (v : list f64)
         (nan_first : bool) (arrange : list f64 -> list f64) (windows : list nat) (e : Z) (eps err : R),
    moderate ts -> usable ts w -> fseries_new z ts w precise = Ret s ->
    length v = w -> moderate v -> sorts_total nan_first arrange -> hashed_windows s (length ts - w) windows ->
    0 < eps <= / 64 -> err <= 2 ^ 500 ->
    (forall i, In i windows -> lively s i /\ accurate_at s i e eps /\ dot_within ts w v i err (sdp v i)) ->
    let m := length windows in
    (m = 0%nat -> fcompute_width z arrange s sdp v = Panic) /\
    ((1 <= m)%nat -> exists width fitting,
       fcompute_width z arrange s sdp v = Ret width /\ number width /\ 0 <= fval width /\
       NoDup fitting /\ incl fitting windows /\ (99 * m / 100 - m / 100 + 1 <= length fitting)%nat /\
       (forall i, In i fitting -> Rabs (exact_projection ts w v i) <= 128 * fval width + slack ts w v i eps err + powerRZ 2 (-1068)) /\
       exists i, In i windows /\ Rabs (Rabs (exact_projection ts w v i) - 128 * fval width) <= slack ts w v i eps err + powerRZ 2 (-1068)).
Proof.
  intros z ts w precise s sdp v nf arrange windows e eps err Mo U E Lv Mv So (ND & Hw) He Er Hyp m. set (n := (length ts - w)%nat) in *.
  destruct (projections_return z ts w precise s sdp Mo U E v Lv) as (dotps & Ed & Ld & Hd). fold n in Ld, Hd.
  set (g := fun x : f64 => if is_nan x then S754_infinity false else x). set (l := arrange (map g dotps)).
  destruct (So (map g dotps)) as (Pl & Sl). fold l in Pl, Sl.
  (* what each entry is *)
  assert (Val : forall i, (i < n)%nat -> exists y, nth_error dotps i = Some y /\ (below_limit s i -> g y = S754_infinity false) /\
            (~ below_limit s i -> g y = y /\ number y /\ Rabs (fval y) <= bp 900 /\ Rabs (fval y - exact_projection ts w v i) <= slack ts w v i eps err)).
  { intros i Li. destruct (Hd i Li) as (y & Ey & Fy). exists y. split; [exact Ey|]. split.
    - intros (sd & Esd & Lsd). destruct (made z ts w precise s Mo U E) as (_ & _ & _ & Hm). destruct (Hm i Li) as (m0 & sd' & _ & Es & Nsd & _).
      rewrite Esd in Es. injection Es as <-. unfold fznormalized_value, fsd, get in Fy. rewrite Esd in Fy. cbn [bind] in Fy.
      rewrite flt_val, Rlt_bool_true in Fy by (assumption || apply threshold_number). apply Ret_inj in Fy. subst y. reflexivity.
    - intros Nb. assert (Iw : In i windows) by (apply Hw; auto). destruct (Hyp i Iw) as (Fi & Ai & Di).
      destruct (c119_projection z ts w precise s v i e eps err _ Mo U E Li Fi He Ai Lv Mv Di Er) as (y' & Ey' & Ny & By & Cy). rewrite Fy in Ey'. apply Ret_inj in Ey'. subst y'.
      rewrite power_bp in By. unfold g. destruct Ny as (Ny1 & Ny2). destruct y; try discriminate Ny2; (split; [reflexivity|]); (split; [split; assumption|]); auto. }
  assert (Bl : forall i, (i < n)%nat -> below_limit s i \/ ~ below_limit s i) by (intros; apply Classical_Prop.classic).
  assert (Ent : forall x, In x l -> entry x).
  { intros x Hx. apply (Permutation_in _ (Permutation_sym Pl)) in Hx. apply in_map_iff in Hx. destruct Hx as (y & <- & Hy). apply In_nth_error in Hy. destruct Hy as (i & Hi).
    assert (Li : (i < n)%nat) by (rewrite <- Ld; apply nth_error_Some; congruence). destruct (Val i Li) as (y' & Hi' & V1 & V2). rewrite Hi in Hi'. injection Hi' as <-.
    destruct (Bl i Li) as [B|B]; [right; apply V1, B|left]. destruct (V2 B) as (-> & N & _). exact N. }
  destruct (HashingProofs.arranged f_zero _ _ Pl) as (order & Po & Eo). rewrite map_length, Ld in Po.
  assert (Sd : numbers_sorted (map opt l)).
  { intros i j x y Lij Hx Hy. rewrite nth_error_map in Hx, Hy. destruct (nth_error l i) as [x'|] eqn:Ex; [|discriminate]. destruct (nth_error l j) as [y'|] eqn:Ey; [|discriminate].
    cbn [option_map] in Hx, Hy. injection Hx as <-. injection Hy as <-. destruct (Nat.eq_dec i j) as [->|D].
    - rewrite Ex in Ey. injection Ey as <-. destruct (opt x'); cbn; [lra|exact I].
    - apply (total_opt nf); [apply Ent, (nth_error_In _ _ Ex)|apply Ent, (nth_error_In _ _ Ey)|]. apply (Sl i j); [lia|assumption|assumption]. }
  destruct (sorted_split _ Sd) as (r & c & Esp & Sr0).
  assert (Epop : map opt (fpop_infinite l) = map Some r) by (rewrite (pop_opt l Ent), Esp; apply pop_ok).
  assert (Lo : length order = n) by (rewrite <- (Permutation_length Po); apply seq_length).
  assert (NDo : NoDup order) by (apply (Permutation_NoDup Po), seq_NoDup).
  assert (Hin : forall i, In i order <-> (i < n)%nat).
  { intros i. split; intros H; [apply (Permutation_in _ (Permutation_sym Po)), in_seq in H; lia|apply (Permutation_in _ Po), in_seq; lia]. }
  assert (Ll : length l = n) by (rewrite <- (Permutation_length Pl), map_length; exact Ld).
  assert (Lr : (length r <= n)%nat) by (rewrite <- Ll, <- (map_length opt l), Esp, app_length, map_length; lia).
  assert (Ho : forall x i, nth_error order x = Some i -> ((x < length r)%nat -> ~ below_limit s i /\ Rabs (nth x r 0 - exact_projection ts w v i) <= slack ts w v i eps err /\ Rabs (nth x r 0) <= bp 900) /\
                                                       ((length r <= x)%nat -> below_limit s i)).
  { intros x i Ex. assert (Li : (i < n)%nat) by (apply Hin, (nth_error_In _ _ Ex)). rewrite Eo, map_map in Esp.
    destruct (some_prefix _ _ _ _ Esp x i Ex) as (S1 & S2). cbv beta in S1, S2.
    destruct (Val i Li) as (y & Ey & V1 & V2). assert (Eg : nth i (map g dotps) f_zero = g y) by (apply nth_error_nth; rewrite nth_error_map, Ey; reflexivity).
    rewrite Eg in S1, S2. destruct (Bl i Li) as [B|B].
    - split; [|auto]. intros L. specialize (S1 L). rewrite (V1 B) in S1. discriminate S1.
    - destruct (V2 B) as (E1 & N & Bd & C). rewrite E1, (opt_number y N) in S1, S2. split; [|intros L; discriminate (S2 L)]. intros L. specialize (S1 L). injection S1 as S1. rewrite <- S1. auto. }
  assert (Lm : m = length r).
  { assert (P : Permutation windows (firstn (length r) order)).
    { apply NoDup_Permutation; [exact ND| |].
      - rewrite <- (firstn_skipn (length r) order) in NDo. apply NoDup_app_l in NDo. exact NDo.
      - intros i. rewrite Hw. split.
        + intros (Li & Ni). apply Hin in Li. apply In_nth_error in Li. destruct Li as (x & Ex). destruct (Ho x i Ex) as (H1 & H2).
          destruct (Nat.lt_ge_cases x (length r)) as [Lx|Lx]; [|specialize (H2 Lx); contradiction]. apply (nth_error_In _ x). rewrite nth_error_firstn by exact Lx. exact Ex.
        + intros Hi. apply In_nth_error in Hi. destruct Hi as (x & Ex). assert (Lx : (x < length (firstn (length r) order))%nat) by (apply nth_error_Some; congruence).
          rewrite firstn_length in Lx. rewrite nth_error_firstn in Ex by lia. destruct (Ho x i Ex) as (H1 & _). split; [apply Hin, (nth_error_In _ x), Ex|apply H1; lia]. }
    unfold m. rewrite (Permutation_length P), firstn_length. lia. }
  assert (Lp : length (fpop_infinite l) = m) by (rewrite <- (map_length opt), Epop, map_length; symmetry; exact Lm).
  unfold fcompute_width. rewrite Ed. cbn [bind]. fold g. fold l. rewrite Lp.
  assert (Sr : forall a b, (a <= b)%nat -> (b < m)%nat -> nth a r 0 <= nth b r 0).
  { intros a b L1 L2. apply (Sr0 a b (Some (nth a r 0)) (Some (nth b r 0))); [exact L1| |]; rewrite nth_error_map, (nth_error_nth' r 0) by lia; reflexivity. }
  split.
  - intros Hm. rewrite Hm in *. destruct (fpop_infinite l); [reflexivity|discriminate Lp].
  - intros Hm. set (a := (m / 100)%nat). set (b := (99 * m / 100)%nat).
    assert (Lb : (b < m)%nat) by (unfold b; apply Nat.div_lt_upper_bound; lia).
    assert (La : (a <= b)%nat).
    { unfold a, b. pose proof (Nat.div_mod m 100 ltac:(lia)) as D. pose proof (Nat.mod_upper_bound m 100 ltac:(lia)). apply Nat.div_le_lower_bound; [lia|]. 
      destruct (Nat.eq_dec (m / 100) 0) as [Z|Z]; lia. }
    assert (Entp : forall y, In y (fpop_infinite l) -> entry y) by (intros y Hy; apply Ent, pop_incl, Hy).
    destruct (get_opt _ a r Entp Epop ltac:(lia)) as (ya & Ga & Na & Va). destruct (get_opt _ b r Entp Epop ltac:(lia)) as (yb & Gb & Nb & Vb).
    rewrite Ga. cbn [bind]. rewrite Gb. cbn [bind]. destruct (fabs_val ya Na) as (Na' & Va'). destruct (fabs_val yb Nb) as (Nb' & Vb'). rewrite Va in Va'. rewrite Vb in Vb'.
    set (top_one := f_max (SFabs ya) (SFabs yb)).
    assert (Mx : number top_one /\ Rabs (nth a r 0) <= fval top_one /\ Rabs (nth b r 0) <= fval top_one /\ exists x, (x < m)%nat /\ fval top_one = Rabs (nth x r 0)).
    { unfold top_one, f_max. rewrite flt_val by assumption. rewrite Va', Vb'. destruct (Rlt_bool_spec (Rabs (nth a r 0)) (Rabs (nth b r 0))).
      - rewrite Vb'. split; [exact Nb'|]. split; [lra|]. split; [lra|]. exists b. split; [exact Lb|reflexivity].
      - rewrite Va'. split; [exact Na'|]. split; [lra|]. split; [lra|]. exists a. split; [lia|reflexivity]. }
    destruct Mx as (Nt & Ml & Mr & xt & Lxt & Et). clearbody top_one.
    destruct (of_nat_exact 128) as (N128 & V128); [cbn; lia|]. replace (INR 128) with 128 in V128 by (rewrite INR_IZR_INZ; reflexivity).
    assert (Hx : forall x, (x < m)%nat -> exists i, nth_error order x = Some i /\ In i windows /\ Rabs (nth x r 0 - exact_projection ts w v i) <= slack ts w v i eps err /\ Rabs (nth x r 0) <= bp 900).
    { intros x Lx. destruct (nth_error order x) as [i|] eqn:Ex; [|apply nth_error_None in Ex; lia]. exists i. split; [reflexivity|]. destruct (proj1 (Ho x i Ex) ltac:(lia)) as (N1 & N2).
      split; [apply Hw; split; [apply Hin, (nth_error_In _ x), Ex|exact N1]|exact N2]. }
    assert (Bt : 0 <= fval top_one <= bp 900) by (rewrite Et; destruct (Hx xt Lxt) as (_ & _ & _ & _ & Hb); split; [apply Rabs_pos|exact Hb]).
    assert (Q : 0 <= rnd (fval top_one / fval (f_of_nat 128)) <= bp 900).
    { rewrite V128. split; [apply rnd_ge; [apply generic_format_0|lra]|apply rnd_le_fmt; [apply fmt_bpow; lia|lra]]. }
    destruct (fdiv_val top_one (f_of_nat 128) Nt N128) as (Nq & Vq); [rewrite V128; lra|rewrite Rabs_pos_eq by apply Q; apply Rle_lt_trans with (bp 900); [apply Q|apply bp_top; lia]|].
    set (width := fdiv top_one (f_of_nat 128)) in *.
    assert (Ew : Rabs (128 * fval width - fval top_one) <= bp (-1068)) by (apply (div_128 top_one width Nt); rewrite Vq, V128; reflexivity).
    exists width, (firstn (b - a + 1) (skipn a order)). split; [reflexivity|]. split; [exact Nq|]. split; [rewrite Vq; apply Q|]. rewrite power_bp. apply Rabs_le_inv in Ew.
    assert (NDf : NoDup (firstn (b - a + 1) (skipn a order))).
    { rewrite <- (firstn_skipn a order) in NDo. apply NoDup_app_r in NDo. rewrite <- (firstn_skipn (b - a + 1) (skipn a order)) in NDo. apply NoDup_app_l in NDo. exact NDo. }
    assert (Hf : forall i, In i (firstn (b - a + 1) (skipn a order)) -> exists x, (a <= x <= b)%nat /\ nth_error order x = Some i).
    { intros i Hi. apply In_nth_error in Hi. destruct Hi as (x & Ex). assert (Lx : (x < length (firstn (b - a + 1) (skipn a order)))%nat) by (apply nth_error_Some; congruence).
      rewrite firstn_length in Lx. rewrite nth_error_firstn in Ex by lia. exists (a + x)%nat. split; [lia|]. rewrite <- Ex. clear. revert order. induction a as [|a IH]; intros order; [reflexivity|].
      destruct order as [|o order]; [destruct x; reflexivity|]. cbn [skipn plus nth_error]. apply IH. }
    split; [exact NDf|]. split; [|split; [|split]].
    + intros i Hi. destruct (Hf i Hi) as (x & Lx & Ex). apply Hw. split; [apply Hin, (nth_error_In _ x), Ex|]. apply (Ho x i Ex). lia.
    + rewrite firstn_length, skipn_length. lia.
    + intros i Hi. destruct (Hf i Hi) as (x & Lx & Ex). destruct (proj1 (Ho x i Ex) ltac:(lia)) as (_ & C & _).
      pose proof (Sr a x ltac:(lia) ltac:(lia)) as S1. pose proof (Sr x b ltac:(lia) ltac:(lia)) as S2.
      assert (Rabs (nth x r 0) <= fval top_one).
      { destruct (Rle_dec 0 (nth x r 0)) as [P|P].
        - rewrite Rabs_pos_eq by exact P. apply Rle_trans with (Rabs (nth b r 0)); [|exact Mr]. apply Rle_trans with (nth b r 0); [exact S2|apply Rle_abs].
        - rewrite Rabs_left by lra. apply Rle_trans with (Rabs (nth a r 0)); [|exact Ml]. rewrite Rabs_left by lra. lra. }
      pose proof (Rabs_triang_inv (exact_projection ts w v i) (nth x r 0)) as T. rewrite (Rabs_minus_sym (exact_projection ts w v i)) in T. lra.
    + destruct (Hx xt Lxt) as (i & _ & Iw & C & _). exists i. split; [exact Iw|]. rewrite Et in Ew.
      pose proof (Rabs_triang_inv2 (nth xt r 0) (exact_projection ts w v i)) as T. apply Rabs_le_inv in T. apply Rabs_le. lra.
Qed.
Print Assumptions c126_first_width.

(** ** Examples *)
Definition key (nan_first : bool) (x : f64) : Z * Z * Z :=
  match x with
  | S754_nan => (if nan_first then -9 else 9, 0, 0)%Z
  | S754_infinity s => (if s then -3 else 2, 0, 0)%Z
  | S754_zero s => (if s then -1 else 0, 0, 0)%Z
  | S754_finite true m e => (-2, - e, Zneg m)%Z
  | S754_finite false m e => (1, e, Zpos m)%Z
  end.
Definition lex_lt (p q : Z * Z * Z) : bool :=
  let '(a, b, c) := p in let '(a', b', c') := q in
  ((a <? a') || ((a =? a') && ((b <? b') || ((b =? b') && (c <? c')))))%Z.
Lemma total_key nf x y : total_lt nf x y = lex_lt (key nf x) (key nf y).
Proof.
  unfold total_lt, lex_lt, key. destruct x as [[]|[]| |[] m e], y as [[]|[]| |[] m' e']; cbn; try reflexivity; try (destruct nf; reflexivity).
  - destruct (Z.compare_spec e e') as [->|L|L]; cbn.
    + change (Pos.compare_cont Eq m m') with (Pos.compare m m'). rewrite Z.ltb_irrefl, Z.eqb_refl. cbn. unfold Z.ltb. cbn. rewrite Pos.compare_antisym. destruct (Pos.compare m' m); reflexivity.
    + destruct (Z.ltb_spec (- e) (- e')); [lia|]. destruct (Z.eqb_spec (- e) (- e')); [lia|]. reflexivity.
    + destruct (Z.ltb_spec (- e) (- e')); [reflexivity|lia].
  - destruct (Z.compare_spec e e') as [->|L|L]; cbn.
    + change (Pos.compare_cont Eq m m') with (Pos.compare m m'). rewrite Z.ltb_irrefl, Z.eqb_refl. cbn. unfold Z.ltb. cbn. destruct (Pos.compare m m'); reflexivity.
    + destruct (Z.ltb_spec e e'); [reflexivity|lia].
    + destruct (Z.ltb_spec e e'); [lia|]. destruct (Z.eqb_spec e e'); [lia|]. reflexivity.
Qed.
Definition total_leb (nf : bool) (x y : f64) : bool := negb (total_lt nf y x).
Lemma isort_total nf : sorts_total nf (isort (total_leb nf)).
Proof.
  intros l. split; [apply isort_perm|]. intros i j x y L Ex Ey.
  assert (T1 : forall x y, total_leb nf x y = false -> total_leb nf y x = true).
  { intros a b. unfold total_leb. rewrite !total_key. destruct (key nf a) as ((a1, a2), a3), (key nf b) as ((b1, b2), b3). unfold lex_lt. lia. }
  assert (T2 : forall x y z, total_leb nf x y = true -> total_leb nf y z = true -> total_leb nf x z = true).
  { intros a b c. unfold total_leb. rewrite !total_key. destruct (key nf a) as ((a1, a2), a3), (key nf b) as ((b1, b2), b3), (key nf c) as ((c1, c2), c3). unfold lex_lt. lia. }
  assert (G : total_leb nf x y = true) by (apply (chain_nth (total_leb nf) T1 T2 _ (isort_chain (total_leb nf) T1 T2 l) i j); assumption).
  unfold total_leb in G. destruct (total_lt nf y x); [discriminate G|reflexivity].
Qed.

(** Four windows, the last of them flat. *)
Definition bump_ints : list nat := [0; 1; 0; 1; 1; 1]%nat.
Definition bump_data : list f64 := nums bump_ints.
Definition bump_series : fseries := match fseries_new z_ex bump_data 2 true with Ret s => s | _ => FSeries [] 0 [] [] end.
Definition bump_dot (v : list f64) (i : nat) : f64 := fsum z_ex (map (fun ab => fmul (fst ab) (snd ab)) (combine v (firstn 2 (skipn i bump_data)))).
Definition bump_vectors : list (list f64) := repeat (nums [1; 0]%nat) 8.
Definition no_shifts (width : f64) : list f64 := repeat f_zero 8.
Lemma bump_moderate : moderate bump_data.
Proof. apply nums_moderate. intros n Hn. cbn in Hn. lia. Qed.
Lemma bump_usable : usable bump_data 2.
Proof. unfold usable, bump_data, nums. rewrite map_length. cbn [length bump_ints]. lia. Qed.
Lemma bump_new : fseries_new z_ex bump_data 2 true = Ret bump_series.
Proof. vm_compute. reflexivity. Qed.
Lemma bump_exact : map fval bump_data = [0; 1; 0; 1; 1; 1].
Proof. unfold bump_data. rewrite exact_nums by (intros n Hn; cbn in Hn; lia). reflexivity. Qed.
Lemma bump_accurate i : (i < 3)%nat -> accurate_at bump_series i 0 (/ 2 ^ 36).
Proof.
  intros Hi. apply (c100_precise z_ex bump_data 2); [apply bump_moderate|apply bump_usable|apply bump_new|unfold bump_data, nums; rewrite map_length; cbn; lia|lia| |].
  - intros x Hx. apply (nums_at_most 0 bump_ints); [intros n Hn; cbn in Hn; lia|lia|]. eapply win_incl; exact Hx.
  - assert (P51 : bp (-51) = / 2251799813685248) by reflexivity. assert (P36 : / 2 ^ 36 = / 68719476736) by (rewrite (pow_IZR 2 36); reflexivity).
    assert (S : / 2 <= sd_of (exact_window bump_data 2 i)).
    { rewrite <- window_exact, bump_exact. rewrite <- (sqrt_square (/ 2)) by lra. unfold sd_of, window. apply sqrt_le_1_alt.
      do 3 (destruct i as [|i]; [unfold mean_of, total; cbn [firstn skipn map fold_right length INR]; lra|]). lia. }
    rewrite !power_bp, P51, P36. change (bp 0) with 1. cbn [INR]. lra.
Qed.
Lemma bump_within i : (i < 3)%nat -> dot_within bump_data 2 (nums [1; 0]%nat) i 0 (bump_dot (nums [1; 0]%nat) i).
Proof.
  intros Hi. unfold dot_within. rewrite <- window_exact, bump_exact, exact_nums by (intros n Hn; cbn in Hn; lia).
  assert (V0 : fval f_zero = 0) by reflexivity. assert (V1 : fval (f_of_nat 1) = 1) by apply (of_nat_exact 1 ltac:(cbn; lia)).
  destruct i as [|[|[|i]]]; [| | |lia].
  - replace (bump_dot (nums [1; 0]%nat) 0) with f_zero by (vm_compute; reflexivity). split; [split; reflexivity|]. rewrite V0. unfold window, inner, total. cbn [firstn skipn combine map fold_right fst snd INR]. rewrite Rabs_pos_eq; lra.
  - replace (bump_dot (nums [1; 0]%nat) 1) with (f_of_nat 1) by (vm_compute; reflexivity). split; [split; reflexivity|]. rewrite V1. unfold window, inner, total. cbn [firstn skipn combine map fold_right fst snd INR]. rewrite Rabs_pos_eq; lra.
  - replace (bump_dot (nums [1; 0]%nat) 2) with f_zero by (vm_compute; reflexivity). split; [split; reflexivity|]. rewrite V0. unfold window, inner, total. cbn [firstn skipn combine map fold_right fst snd INR]. rewrite Rabs_pos_eq; lra.
Qed.
Lemma bump_flat : below_limit bump_series 3.
Proof.
  exists f_zero. split; [vm_compute; reflexivity|]. pose proof threshold_val as T. pose proof (bpow_gt_0 radix2 (-14)). change (fval f_zero) with 0. lra.
Qed.
Lemma bump_lively i : (i < 3)%nat -> lively bump_series i.
Proof. intros L. do 3 (destruct i as [|i]; [vm_compute; reflexivity|]). lia. Qed.
Lemma bump_vectors_ok : vectors64_ok bump_vectors 2.
Proof. split; [reflexivity|]. intros v Hv. apply repeat_spec in Hv. subst v. reflexivity. Qed.
Example c126_returns_case : moderate bump_data /\ usable bump_data 2 /\ fseries_new z_ex bump_data 2 true = Ret bump_series /\ vectors64_ok bump_vectors 2 /\
  (forall v, In v bump_vectors -> moderate v) /\ eight no_shifts /\
  (forall width y, number width -> 0 < fval width -> In y (no_shifts width) -> number y /\ 0 <= fval y < fval width) /\
  (forall width : f64, sorts by_hash) /\ ~ too_close 1 0 2 /\ lively bump_series 0 /\ lively bump_series 2 /\ below_limit bump_series 3 /\
  accurate_at bump_series 0 0 (/ 2 ^ 36) /\ accurate_at bump_series 2 0 (/ 2 ^ 36) /\
  (forall q v, (q = 0 \/ q = 2)%nat -> In v bump_vectors -> dot_within bump_data 2 v q 0 (bump_dot v q)) /\
  ffind_width z_ex (fun _ => by_hash) bump_series bump_dot 1 no_shifts bump_vectors f_two 30 = Ret f_two.
Proof.
  split; [apply bump_moderate|]. split; [apply bump_usable|]. split; [apply bump_new|]. split; [apply bump_vectors_ok|].
  split; [intros v Hv; apply repeat_spec in Hv; subst v; apply nums_moderate; intros n Hn; cbn in Hn; lia|]. split; [intros width; reflexivity|].
  split; [intros width y _ P Hy; apply repeat_spec in Hy; subst y; split; [split; reflexivity|]; change (fval f_zero) with 0; lra|].
  split; [intros _; apply by_hash_sorts|]. split; [unfold too_close; lia|]. split; [apply bump_lively; lia|]. split; [apply bump_lively; lia|]. split; [apply bump_flat|].
  split; [apply bump_accurate; lia|]. split; [apply bump_accurate; lia|].
  split; [intros q v Hq Hv; apply repeat_spec in Hv; subst v; apply bump_within; lia|]. vm_compute. reflexivity.
Qed.
Example c126_first_width_case : length (nums [1; 0]%nat) = 2%nat /\ moderate (nums [1; 0]%nat) /\ sorts_total true (isort (total_leb true)) /\ hashed_windows bump_series 4 [0; 1; 2]%nat /\
  (forall i, In i [0; 1; 2]%nat -> lively bump_series i /\ accurate_at bump_series i 0 (/ 2 ^ 36) /\ dot_within bump_data 2 (nums [1; 0]%nat) i 0 (bump_dot (nums [1; 0]%nat) i)) /\
  exists width, fcompute_width z_ex (isort (total_leb true)) bump_series bump_dot (nums [1; 0]%nat) = Ret width /\ flt f_zero width = true.
Proof.
  split; [reflexivity|]. split; [apply nums_moderate; intros n Hn; cbn in Hn; lia|]. split; [apply isort_total|]. split.
  - split; [repeat constructor; cbn; lia|]. intros i. split.
    + intros Hi. assert (Li : (i < 3)%nat) by (cbn in Hi; lia). split; [lia|]. intros (sd & Es & Ls). destruct (bump_accurate i Li) as (m & sd' & _ & Es' & _).
      assert (G : flt sd fflat_threshold = false) by (clear - Li Es; do 3 (destruct i as [|i]; [vm_compute in Es; injection Es as <-; vm_compute; reflexivity|]); lia).
      assert (N : number sd) by (clear - Li Es; do 3 (destruct i as [|i]; [vm_compute in Es; injection Es as <-; split; reflexivity|]); lia).
      rewrite flt_val, Rlt_bool_true in G by (exact Ls || exact N || apply threshold_number). discriminate G.
    + intros (L & H). do 3 (destruct i as [|i]; [cbn; auto|]). destruct i as [|i]; [exfalso; apply H, bump_flat|lia].
  - split; [intros i Hi; assert (Li : (i < 3)%nat) by (cbn in Hi; lia); split; [apply bump_lively, Li|]; split; [apply bump_accurate, Li|apply bump_within, Li]|].
    eexists. split; vm_compute; reflexivity.
Qed.
(** A straight line. *)
Definition line_data : list f64 := nums [0; 1; 2; 3; 4]%nat.
Definition line_series : fseries := match fseries_new z_ex line_data 2 true with Ret s => s | _ => FSeries [] 0 [] [] end.
Definition line_dot (v : list f64) (i : nat) : f64 := fsum z_ex (map (fun ab => fmul (fst ab) (snd ab)) (combine v (firstn 2 (skipn i line_data)))).
(** The full property would be that a width comes out whenever two windows that are not flat
    are not trivial matches.  It does not hold. *)
Theorem c126_returns_refuted :
  exists (z : zeros) (ts : list f64) (w : nat) (s : fseries) (sdp : list f64 -> nat -> f64) (ez : nat) (vectors : list (list f64)),
    moderate ts /\ usable ts w /\ fseries_new z ts w true = Ret s /\ vectors64_ok vectors w /\
    (exists i j, (i < length ts - w)%nat /\ (j < length ts - w)%nat /\ lively s i /\ lively s j /\ ~ too_close ez i j) /\
    forall shifts arrange width, eight shifts -> (forall width, sorts (arrange width)) -> number width -> 0 < fval width ->
      panics (ffind_width z arrange s sdp ez shifts vectors width).
Proof.
  assert (Ml : moderate line_data) by (apply nums_moderate; intros n Hn; cbn in Hn; lia).
  assert (Ul : usable line_data 2) by (unfold usable, line_data, nums; rewrite map_length; cbn [length]; lia).
  assert (El : fseries_new z_ex line_data 2 true = Ret line_series) by (vm_compute; reflexivity).
  exists z_ex, line_data, 2%nat, line_series, line_dot, 1%nat, bump_vectors.
  split; [exact Ml|]. split; [exact Ul|]. split; [exact El|]. split; [apply bump_vectors_ok|]. split.
  - exists 0%nat, 2%nat. unfold line_data, nums. rewrite map_length. cbn [length]. split; [lia|]. split; [lia|]. split; [vm_compute; reflexivity|]. split; [vm_compute; reflexivity|]. unfold too_close. lia.
  - intros shifts arrange width H3 So N P.
    apply (c126_aborts z_ex line_data 2 true line_series line_dot 1 shifts bump_vectors arrange width (fun v => match fprojections z_ex line_series line_dot v with Ret (y :: _) => y | _ => f_nan end) Ml Ul El);
      [unfold line_data, nums; rewrite map_length; cbn; lia|apply bump_vectors_ok|exact H3|exact So|exact N|exact P|].
    intros v Hv. apply repeat_spec in Hv. subst v. split; vm_compute; reflexivity.
Qed.
Print Assumptions c126_returns_refuted.
Example c126_outcome_case : (2 < length line_data)%nat /\ number f_two /\ 0 < fval f_two /\ eight no_shifts /\
  festimate_for z_ex (fun _ => by_hash) line_series line_dot 1 no_shifts bump_vectors f_two 30 = Ret 0%nat /\
  festimate_for z_ex (fun _ => by_hash) bump_series bump_dot 1 no_shifts bump_vectors f_two 30 = Ret 9%nat.
Proof.
  split; [unfold line_data, nums; rewrite map_length; cbn; lia|]. destruct two_val as (N & V). split; [exact N|]. split; [rewrite V; lra|]. split; [intros width; reflexivity|].
  split; vm_compute; reflexivity.
Qed.
