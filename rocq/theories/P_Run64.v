(** C127: a whole search over floating point numbers, with its own tables and probabilities. *)
From Coq Require Import Reals Lra Lia Permutation Floats.SpecFloat.
From Flocq Require Import Core BinarySingleNaN.
From Verif Require Import Base F64 RSpec RealProofs SeriesProofs SortSpec HashSpec HashValue HashProofs Hashing HashingSpec HashingProofs P_Hashing OverlapsSpec EnumSpec Moves Profile BruteSpec TopK Iterator IteratorSpec IteratorSteps P_Iterator P_Iterator2 GuaranteeSpec P_Guarantee
  Collision CollisionSpec ChanceSpec ErfSpec Powi P_Powi FpOps FloatSeries FloatSpec FloatProofs FloatRoll FloatBound FloatDist FloatDist2 FloatThr FloatErr FloatMean FloatSd FloatVar FloatSum FloatTerm FloatPair FloatProj P_Float P_Float2 P_Acc P_Acc2 AccSpec P_Acc3
  FloatErf FloatErfSpec P_Coll64 Quantise P_Quantise FloatHash ProjSpec P_Proj P_Acc4 P_Acc5 FloatWidth FloatWidthP P_Width64 FloatRun.
Local Open Scope R_scope.
Notation moderate := FloatSpec.moderate.

(** ** What is asked of the input *)
(** no standard deviation on record is the limit for flat windows itself *)
Definition off_limit (s : fseries) (n : nat) : Prop :=
  forall i sd, (i < n)%nat -> nth_error (fs_sd s) i = Some sd -> fval sd <> fval fflat_threshold.
(** eight vectors as long as the windows and eight shifts in every repetition *)
Definition hashers_shaped (hs : nat -> fhasher) (w : nat) : Prop :=
  forall r, vectors64_ok (fh_vectors (hs r)) w /\ length (fh_shifts (hs r)) = 8%nat.
(** the rest of the configuration *)
Definition configured (rest : problem) : Prop :=
  (0 < p_ez rest)%nat /\ (0 < p_buffer rest)%nat /\ length (p_expected rest) = (K + 1)%nat.

Section Whole.
  Variables (z : zeros) (ts : list f64) (w : nat) (precise : bool) (s : fseries) (sdp : list f64 -> nat -> f64) (fexp : f64 -> f64)
    (arrange : nat -> nat -> list (N * N) -> list (N * N)) (hs : nat -> fhasher) (rest : problem).
  Hypothesis Mo : moderate ts.
  Hypothesis U : usable ts w.
  Hypothesis E : fseries_new z ts w precise = Ret s.
  Hypothesis Ln : (w < length ts)%nat.
  Hypothesis L32 : (N.of_nat (length ts) <= 2 ^ 32)%N.
  Hypothesis Of : off_limit s (length ts - w).
  Hypothesis Hh : hashers_shaped hs w.
  Hypothesis Sa : forall r k, sorts (arrange r k).
  Hypothesis Co : configured rest.
  Notation n := (length ts - w)%nat.
  Notation p := (fsearch z s sdp fexp arrange hs rest).

  Lemma whole_tables r k : (1 <= k <= 8)%nat -> exists hashes indices,
    frepetition_table z (arrange r k) (hs r) s sdp k = Ret (hashes, indices) /\ p_table p r k = (hashes, indices) /\
    table_ok hashes indices /\ length hashes = n /\
    forall x h i, nth_error hashes x = Some h -> nth_error indices x = Some i ->
      (h, i) = (u64_max, u32_max) \/ exists v, (v < n)%nat /\ i = N.of_nat v /\ lively s v.
  Proof.
    intros Lk. destruct (Hh r) as ((V1 & V2) & V3).
    destruct (ftable_rows z ts w precise s (hs r) sdp Mo U E V1 V2 V3 (arrange r k) k ltac:(lia) (Sa r k)) as (hashes & indices & Et & T & L & _ & Hw).
    exists hashes, indices. split; [exact Et|]. split; [cbn [p_table fsearch]; unfold findex_table; rewrite Et; reflexivity|]. split; [exact T|]. split; [exact L|].
    intros x h i Hx Hi. destruct (Hw x h Hx) as (v & row & Lv & <- & Hr & _ & R & _). rewrite Hi in Hr. injection Hr as ->.
    destruct (R ltac:(lia)) as (R1 & R2).
    destruct (made z ts w precise s Mo U E) as (_ & _ & _ & Hm). destruct (Hm v Lv) as (mu & sd & _ & Esd & Nsd & _).
    destruct (Rtotal_order (fval sd) (fval fflat_threshold)) as [H|[H|H]].
    - left. rewrite <- surjective_pairing. apply R2. exists sd. auto.
    - exfalso. exact (Of v sd Lv Esd H).
    - destruct R1 as [->|Ri]; [left; reflexivity|right]. exists v. split; [exact Lv|]. rewrite N.mod_small in Ri by lia. split; [exact Ri|].
      unfold lively, fis_flat, fsd, get. rewrite Esd. cbn [bind]. f_equal. rewrite fle_val by (exact Nsd || apply threshold_number). apply Rle_bool_false. exact H.
  Qed.
  Lemma whole_indexed v : indexed p v -> lively s v.
  Proof.
    intros (Lv & r & k & Lk & Hin). destruct (whole_tables r k Lk) as (hashes & indices & _ & Et & T & L & Hr). rewrite Et in Hin. cbn [snd] in Hin.
    destruct (In_nth_error _ _ Hin) as (x & Hx). destruct T as (Ls & _).
    destruct (nth_error hashes x) as [h|] eqn:Ex; [|exfalso; apply nth_error_None in Ex; assert (x < length indices)%nat by (apply nth_error_Some; congruence); lia].
    destruct (Hr x h _ Ex Hx) as [C|(v' & _ & Ev & F)].
    - exfalso. injection C as _ C. cbn [p_n fsearch] in Lv. destruct (made z ts w precise s Mo U E) as (_ & _ & En & _). rewrite En in Lv. destruct U as (U1 & _). unfold u32_max in C. lia.
    - apply Nat2N.inj in Ev. subst v'. exact F.
  Qed.
  Lemma whole_over : search_over z ts w s p.
  Proof. destruct (made z ts w precise s Mo U E) as (_ & _ & En & _). constructor; [exact En|reflexivity|reflexivity|exact whole_indexed]. Qed.
  Lemma whole_sound : sound p.
  Proof.
    destruct Co as (C1 & C2 & C3). destruct whole_over as [O1 O2 O3 O4].
    apply (c95_search z ts w precise s p Mo U E O1 O2 O3 O4 C1 C2 C3).
    - intros r k Lk. destruct (whole_tables r k Lk) as (hashes & indices & _ & -> & T & L & _). split; [exact T|]. cbn [fst]. intros ->. cbn in L. lia.
    - intros r k x i Lk Hx. destruct (whole_tables r k Lk) as (hashes & indices & _ & Et & T & L & Hr). rewrite Et in Hx |- *. cbn [fst snd] in *.
      destruct T as (Ls & _). destruct (nth_error hashes x) as [h|] eqn:Ex; [|exfalso; apply nth_error_None in Ex; assert (x < length indices)%nat by (apply nth_error_Some; congruence); lia].
      destruct (Hr x h i Ex Hx) as [C|(v & Lv & -> & _)]; [right; injection C as -> _; reflexivity|left; rewrite O1; lia].
  Qed.
End Whole.

(** ** What is assumed of a search *)
(** A series of moderate numbers, at least two windows of a length that can be used and at most [2^32] values, hash
    functions of the right shape, tables that are sorted by hash value, and a configuration. *)
Record whole_search (z : zeros) (ts : list f64) (w : nat) (precise : bool) (s : fseries) (arrange : nat -> nat -> list (N * N) -> list (N * N))
    (hs : nat -> fhasher) (rest : problem) : Prop := {
  ws_moderate : moderate ts;
  ws_usable : usable ts w;
  ws_series : fseries_new z ts w precise = Ret s;
  ws_windows : (w < length ts)%nat;
  ws_indices : (N.of_nat (length ts) <= 2 ^ 32)%N;
  ws_limit : off_limit s (length ts - w);
  ws_hashers : hashers_shaped hs w;
  ws_sorts : forall r k, sorts (arrange r k);
  ws_configured : configured rest
}.

(** * C127: the tables *)
(** Every table is computed without a panic.  It is sorted and has an entry for every window;
    an entry is that of a window which is not flat, or has the largest hash value and the
    largest index; and a window all of whose projections are numbers is there. *)
Theorem c127_tables :
  forall (z : zeros) (ts : list f64) (w : nat) (precise : bool) (s : fseries) (sdp : list f64 -> nat -> f64) (fexp : f64 -> f64)
         (arrange : nat -> nat -> list (N * N) -> list (N * N)) (hs : nat -> fhasher) (rest : problem) (r k : nat),
    whole_search z ts w precise s arrange hs rest -> (1 <= k <= 8)%nat ->
    exists hashes indices,
      frepetition_table z (arrange r k) (hs r) s sdp k = Ret (hashes, indices) /\
      p_table (fsearch z s sdp fexp arrange hs rest) r k = (hashes, indices) /\
      table_ok hashes indices /\ length hashes = (length ts - w)%nat /\
      (forall x h i, nth_error hashes x = Some h -> nth_error indices x = Some i ->
         (h, i) = (u64_max, u32_max) \/ exists v, (v < length ts - w)%nat /\ i = N.of_nat v /\ lively s v) /\
      (forall v, (v < length ts - w)%nat ->
         (forall k', (k' < k)%nat -> exists y, fznormalized_value s (fsum z (vector (hs r) k')) v (sdp (vector (hs r) k') v) = Ret y /\ is_nan y = false) ->
         In (N.of_nat v) indices).
Proof.
  intros z ts w precise s sdp fexp arrange hs rest r k [Mo U E Ln L32 Of Hh Sa Co] Lk.
  destruct (whole_tables z ts w precise s sdp fexp arrange hs rest Mo U E Ln L32 Of Hh Sa r k Lk) as (hashes & indices & Et & Ep & T & L & Hr).
  exists hashes, indices. repeat (split; [assumption|]). intros v Lv Hy. destruct (Hh r) as ((V1 & V2) & V3).
  destruct (ftable_rows z ts w precise s (hs r) sdp Mo U E V1 V2 V3 (arrange r k) k ltac:(lia) (Sa r k)) as (hashes' & indices' & Et' & _ & _ & Hv & _).
  rewrite Et in Et'. injection Et' as <- <-. destruct (Hv v Lv) as (x & row & _ & Hx & _ & _ & R3).
  destruct (R3 (fun k' => match fznormalized_value s (fsum z (vector (hs r) k')) v (sdp (vector (hs r) k') v) with Ret y => y | _ => f_zero end) ltac:(lia)) as (Ri & _).
  { intros k' Lk'. destruct (Hy k' Lk') as (y & -> & Ny). auto. }
  rewrite Ri, N.mod_small in Hx by lia. eapply nth_error_In, Hx.
Qed.
Print Assumptions c127_tables.

(** * C127: the search *)
(** The search meets what C16 to C30, C82 to C88 and C101 to C106 assume of the distances and of the tables. *)
Theorem c127_search :
  forall (z : zeros) (ts : list f64) (w : nat) (precise : bool) (s : fseries) (sdp : list f64 -> nat -> f64) (fexp : f64 -> f64)
         (arrange : nat -> nat -> list (N * N) -> list (N * N)) (hs : nat -> fhasher) (rest : problem),
    whole_search z ts w precise s arrange hs rest ->
    sound (fsearch z s sdp fexp arrange hs rest) /\ search_over z ts w s (fsearch z s sdp fexp arrange hs rest).
Proof.
  intros z ts w precise s sdp fexp arrange hs rest [Mo U E Ln L32 Of Hh Sa Co]. split; [apply (whole_sound z ts w precise); assumption|apply (whole_over z ts w precise); assumption].
Qed.
Print Assumptions c127_search.

(** The pair found by sampling: two windows that do not overlap and are not flat, and a number
    whose square is that of their exact distance up to [gap] (see [c120_profile_partial]). *)
Definition sampled (s : fseries) (ts : list f64) (w ez : nat) (gap : R) (a b : nat) (d : f64) : Prop :=
  (a < length ts - w)%nat /\ (b < length ts - w)%nat /\ ~ too_close ez a b /\ lively s a /\ lively s b /\ seed_within ts w gap a b d.

(** * C127: the answers *)
(** A motiflet returned has between two and [max_k] windows of the series, none of them flat,
    no two of them overlapping, and its extent is the largest exact distance between them up
    to rounding: the sampled pair is as accurate as the sampling, and all others are within
    [10 w eps]. *)
Theorem c127_answers :
  forall (z : zeros) (ts : list f64) (w : nat) (precise : bool) (s : fseries) (sdp : list f64 -> nat -> f64) (fexp : f64 -> f64)
         (arrange : nat -> nat -> list (N * N) -> list (N * N)) (hs : nat -> fhasher) (rest : problem) (e : Z) (eps gap : R)
         (a b : nat) (d : f64) (cbs : list (nat -> bool)) (fuel : nat) (st : iter) (answers : list answer) (m : motiflet),
    whole_search z ts w precise s arrange hs rest -> 0 < eps <= / 64 -> accurate s (length ts - w) e eps ->
    sampled s ts w (p_ez rest) gap a b d ->
    session (fsearch z s sdp fexp arrange hs rest) a b d cbs fuel = Ret (st, answers) -> In (Item m) answers ->
    (2 <= length (ml_indices m) <= p_max_k rest)%nat /\
    (forall v, In v (ml_indices m) -> (v < length ts - w)%nat /\ lively s v) /\
    pairwise_apart (p_ez rest) (ml_indices m) /\
    distance_value (ml_extent m) /\
    exists exact, widest (exact_distance ts w) (ml_indices m) exact /\
      (Rabs (fval (ml_extent m) ^ 2 - exact ^ 2) <= 10 * INR w * eps \/
       m = Motiflet [a; b] d /\ Rabs (fval (ml_extent m) ^ 2 - exact ^ 2) <= gap).
Proof.
  intros z ts w precise s sdp fexp arrange hs rest e eps gap a b d cbs fuel st answers m Ws He Ac (La & Lb & Na & Fa & Fb & Vd & Gd) Es Hm.
  destruct (c127_search z ts w precise s sdp fexp arrange hs rest Ws) as (Sd & So). destruct Ws as [Mo U E Ln L32 Of Hh Sa Co].
  set (p := fsearch z s sdp fexp arrange hs rest) in *. pose proof (so_n _ _ _ _ _ So) as Hn.
  assert (Sk : seed_ok p a b d) by (split; [rewrite Hn; exact La|]; split; [rewrite Hn; exact Lb|]; split; [exact Na|]; apply number_not_nan, Vd).
  destruct (c35_returned_motiflets_are_valid p a b d cbs fuel st answers m Sd Sk Es Hm) as (V1 & V2 & V3 & V4).
  split; [exact V1|].
  assert (Lv : forall v, In v (ml_indices m) -> (v < length ts - w)%nat /\ lively s v).
  { intros v Hv. split; [rewrite <- Hn; apply V2, Hv|]. destruct V4 as [(V4 & _)|V4]; [apply (so_lively _ _ _ _ _ So), V4, Hv|]. subst m. cbn [ml_indices] in Hv. destruct Hv as [<-|[<-|[]]]; assumption. }
  split; [exact Lv|]. split; [exact V3|].
  apply (returned_close z ts w precise s p e eps Mo U E So He Ac gap a b d cbs fuel st answers m Sd Sk Fa Fb (conj Vd Gd) Es Hm).
Qed.
Print Assumptions c127_answers.

(** * C127: the guarantee *)
(** A motiflet is returned when the computed failure probability is below [delta]; then so is
    the exact one, up to the errors of C121.  Or the search is cut short. *)
Theorem c127_confirmed :
  forall (z : zeros) (ts : list f64) (w : nat) (precise : bool) (s : fseries) (sdp : list f64 -> nat -> f64) (fexp : f64 -> f64)
         (arrange : nat -> nat -> list (N * N) -> list (N * N)) (hs : nat -> fhasher) (rest : problem) (width : f64) (gap : R)
         (a b : nat) (d : f64) (cbs : list (nat -> bool)) (fuel : nat) (st : iter) (answers : list answer) (m : motiflet),
    whole_search z ts w precise s arrange hs rest -> (forall r, fh_width (hs r) = width) ->
    sampled s ts w (p_ez rest) gap a b d ->
    exp_within fexp -> FloatErfSpec.moderate width -> number (p_delta rest) ->
    distance64 (ml_extent m) -> fval (ml_extent m) <= powerRZ 2 20 * fval width ->
    session (fsearch z s sdp fexp arrange hs rest) a b d cbs fuel = Ret (st, answers) -> In (Item m) answers ->
    (exists s1, (exists h, trace (fsearch z s sdp fexp arrange hs rest) a b d (s1 :: h)) /\
       let reps := (c_rep (it_conf s1) + 1)%nat in let prefix := c_prefix (it_conf s1) in
       let prev := c_prev (it_conf s1) in let prev_reps := c_prev_reps (it_conf s1) in
       failure_probability (fval width) (fval (ml_extent m)) reps prefix prev prev_reps <
         fval (p_delta rest) + INR (bytes_compared reps prefix prev prev_reps) * probability_gap width (ml_extent m) +
         INR (roundings reps prefix prev prev_reps) * powerRZ 2 (-54)) \/
    (exists s1, stop_of (fsearch z s sdp fexp arrange hs rest) a b d s1).
Proof.
  intros z ts w precise s sdp fexp arrange hs rest width gap a b d cbs fuel st answers m Ws Hw (La & Lb & Na & Fa & Fb & Vd & Gd) X Mw Nd De Le Es Hm.
  destruct (c127_search z ts w precise s sdp fexp arrange hs rest Ws) as (Sd & So). set (p := fsearch z s sdp fexp arrange hs rest) in *. pose proof (so_n _ _ _ _ _ So) as Hn.
  assert (Sk : seed_ok p a b d) by (split; [rewrite Hn; exact La|]; split; [rewrite Hn; exact Lb|]; split; [exact Na|]; apply number_not_nan, Vd).
  destruct (c82_returned_only_when_confirmed p a b d cbs fuel st answers m Sd Sk Es Hm) as [(s1 & s2 & T & _ & F)|(s1 & _ & _ & T & _)]; [left|right; exists s1; exact T].
  exists s1. split.
  - destruct T as (h & f & T & _). inversion T as [|x1 x2 x3 T' St]; subst. exists h. exact T'.
  - cbv zeta. unfold failure_after in F. change (p_failure p) with (findex_failure fexp hs) in F. unfold findex_failure in F. rewrite Hw in F. change (p_delta p) with (p_delta rest) in F.
    destruct (c121_failure fexp width (ml_extent m) (c_rep (it_conf s1) + 1) (c_prefix (it_conf s1)) (c_prev (it_conf s1)) (c_prev_reps (it_conf s1)) X Mw De Le) as (Cf & Ef). cbv zeta in Cf, Ef.
    rewrite flt_val in F; [|apply Cf|exact Nd]. revert F. unfold Rlt_bool. match goal with |- context [Rcompare ?x ?y] => destruct (Rcompare_spec x y) as [H|H|H] end; intros F; try discriminate F.
    unfold within in Ef. apply Rabs_le_inv in Ef. lra.
Qed.
Print Assumptions c127_confirmed.

(** * C127: nothing aborts *)
(** What the measured costs and the profile have to be. *)
Record measured (rest : problem) : Prop := {
  me_start : forall p0, first_meaningful_prefix (p_expected rest) = Ret p0 -> (p0 < K)%nat;
  me_delta : flt (p_delta rest) f_one = true;
  me_first : nth_error (p_expected rest) 0 = Some f_inf;
  me_collision : flt f_zero (p_collision_cost rest) = true;
  me_setup : fle f_zero (p_setup_cost rest) = true /\ is_finite (p_setup_cost rest) = true;
  me_repetitions : (Z.of_nat (p_max_repetitions rest) < 2 ^ 53)%Z
}.
Theorem c127_no_abort_partial :
  forall (z : zeros) (ts : list f64) (w : nat) (precise : bool) (s : fseries) (sdp : list f64 -> nat -> f64) (fexp : f64 -> f64)
         (arrange : nat -> nat -> list (N * N) -> list (N * N)) (hs : nat -> fhasher) (rest : problem) (gap : R)
         (a b : nat) (d : f64) (s0 : iter) (cbs : list (nat -> bool)) (fuel : nat),
    whole_search z ts w precise s arrange hs rest -> measured rest -> sampled s ts w (p_ez rest) gap a b d ->
    iter_new (fsearch z s sdp fexp arrange hs rest) a b d = Ret s0 ->
    session (fsearch z s sdp fexp arrange hs rest) a b d cbs fuel <> Panic.
Proof.
  intros z ts w precise s sdp fexp arrange hs rest gap a b d s0 cbs fuel Ws [M1 M2 M3 M4 M5 M6] (La & Lb & Na & Fa & Fb & Vd & Gd) E0.
  destruct (c127_search z ts w precise s sdp fexp arrange hs rest Ws) as (Sd & So). destruct Ws as [Mo U E Ln L32 Of Hh Sa Co].
  set (p := fsearch z s sdp fexp arrange hs rest) in *. pose proof (so_n _ _ _ _ _ So) as Hn.
  assert (Sk : seed_ok p a b d) by (split; [rewrite Hn; exact La|]; split; [rewrite Hn; exact Lb|]; split; [exact Na|]; apply number_not_nan, Vd).
  apply (c40_no_abort_partial p a b d s0 cbs fuel Sd Sk); [|exact E0]. split; try assumption; [|apply (proj1 Vd)].
  intros i j Ii Ij. rewrite (so_zeucl _ _ _ _ _ So). pose proof (proj1 Ii) as Li. pose proof (proj1 Ij) as Lj. rewrite Hn in Li, Lj.
  destruct (c95_distances z ts w precise s i j Mo U E Li Lj (so_lively _ _ _ _ _ So i Ii) (so_lively _ _ _ _ _ So j Ij)) as ((x & -> & (_ & Fx) & _) & _).
  destruct x; try discriminate Fx; reflexivity.
Qed.
Print Assumptions c127_no_abort_partial.

(** * C127: a repeat is found *)
(** Windows [i], [j] are the same up to a positive scale and an offset; the dot products are
    within [err] of the exact ones; their projections are further than the error from the
    borders of the buckets; and [i] is not in the last bucket of the first table.  The pair
    returned is then a repeat as well, up to rounding. *)
Theorem c127_repeat :
  forall (z : zeros) (ts : list f64) (w : nat) (precise : bool) (s : fseries) (sdp : list f64 -> nat -> f64) (fexp : f64 -> f64)
         (arrange : nat -> nat -> list (N * N) -> list (N * N)) (hs : nat -> fhasher) (rest : problem) (e : Z) (eps err gap : R) (i j : nat) (scale offset : R)
         (hashes indices : list N)
         (a b : nat) (d : f64) (cbs : list (nat -> bool)) (fuel : nat) (st : iter) (answers : list answer) (m : motiflet) (exact : R),
    whole_search z ts w precise s arrange hs rest -> 0 < eps <= / 64 -> accurate s (length ts - w) e eps ->
    fhasher_ok (hs 0%nat) w -> sampled s ts w (p_ez rest) gap a b d ->
    (forall c i j, p_coin rest c i j = true) -> p_top_k rest = 1%nat ->
    (* the repeat *)
    (i < j)%nat -> (j < length ts - w)%nat -> ~ too_close (p_ez rest) i j -> lively s i -> lively s j ->
    0 < sd_of (exact_window ts w i) -> 0 < scale -> exact_window ts w j = map (fun x => scale * x + offset) (exact_window ts w i) ->
    err <= 2 ^ 500 ->
    (forall v k, (v = i \/ v = j) -> (k < 8)%nat -> dot_within ts w (vector (hs 0%nat) k) v err (sdp (vector (hs 0%nat) k) v)) ->
    (forall v k m, (v = i \/ v = j) -> (k < 8)%nat -> (-128 <= m <= 128)%Z ->
       bucket_slack (hs 0%nat) ts w k v eps err < Rabs (exact_bucket (hs 0%nat) ts w k v - IZR m)) ->
    frepetition_table z (arrange 0%nat 8%nat) (hs 0%nat) s sdp 8 = Ret (hashes, indices) ->
    (forall x, nth_error indices x = Some (N.of_nat i) -> ~ in_last_bucket hashes 1 x) ->
    (* what is returned *)
    session (fsearch z s sdp fexp arrange hs rest) a b d cbs fuel = Ret (st, answers) -> In (Item m) answers ->
    length (ml_indices m) = 2%nat -> widest (exact_distance ts w) (ml_indices m) exact ->
    fval (ml_extent m) ^ 2 <= 400 * INR w * eps ^ 2 + 10 * INR w * eps /\
    exact ^ 2 <= 400 * INR w * eps ^ 2 + 10 * INR w * eps + Rmax (10 * INR w * eps) gap.
Proof.
  intros z ts w precise s sdp fexp arrange hs rest e eps err gap i j scale offset hashes indices a b d cbs fuel st answers m exact Ws He Ac Hk (La & Lb & Na & Fa & Fb & Ed) Hc H1
    Lij Lj Nij Fi Fj Psd Ps Ew Er Hd Hb Et Nl Es Hm L2 Wd.
  destruct (c127_search z ts w precise s sdp fexp arrange hs rest Ws) as (Sd & So). destruct Ws as [Mo U E Ln L32 Of Hh Sa Co].
  set (p := fsearch z s sdp fexp arrange hs rest) in *. pose proof (so_n _ _ _ _ _ So) as Hn.
  assert (Sk : seed_ok p a b d) by (split; [rewrite Hn; exact La|]; split; [rewrite Hn; exact Lb|]; split; [exact Na|]; apply number_not_nan, Ed).
  assert (Ep : p_table p 0 K = (hashes, indices)) by (unfold p; cbn [p_table fsearch]; unfold findex_table, K; rewrite Et; reflexivity).
  apply (c125_repeat z ts w precise s p e eps err gap (hs 0%nat) sdp (arrange 0%nat 8%nat) i j scale offset a b d cbs fuel st answers m exact); auto.
  - rewrite Ep. exact Et.
  - rewrite Hn. exact Lj.
  - rewrite Ep. exact Nl.
Qed.
Print Assumptions c127_repeat.

(** ** The zigzag of C125, all of it computed *)
Definition zigzag_hs : nat -> fhasher := fhashers (fun _ => repeat (nums [1; 0]%nat) 8) (fun _ => repeat f_zero 8) three_quarters.
Definition zigzag_whole (fexp : f64 -> f64) : problem := fsearch z_ex zigzag_series zigzag_dot fexp (fun _ _ => by_hash) zigzag_hs zigzag_search.
Lemma zigzag_off_limit : off_limit zigzag_series (length zigzag_data - 2).
Proof.
  intros i sd Li Hi. assert (Fl : fle sd fflat_threshold = false /\ number sd).
  { change (length zigzag_data - 2)%nat with 4%nat in Li. do 4 (destruct i as [|i]; [vm_compute in Hi; injection Hi as <-; repeat split; vm_compute; reflexivity|]). lia. }
  destruct Fl as (Fl & N). rewrite fle_val in Fl by (exact N || apply threshold_number). revert Fl. unfold Rle_bool. destruct (Rcompare_spec (fval sd) (fval fflat_threshold)); intros Fl; try discriminate Fl; lra.
Qed.
Lemma zigzag_is_whole : whole_search z_ex zigzag_data 2 true zigzag_series (fun _ _ => by_hash) zigzag_hs zigzag_search.
Proof.
  split.
  - apply zigzag_moderate.
  - apply zigzag_usable.
  - apply zigzag_new.
  - vm_compute. lia.
  - vm_compute. discriminate.
  - apply zigzag_off_limit.
  - intros r. change (zigzag_hs r) with zigzag_hasher. destruct zigzag_hasher_ok as (A & B & C & _). split; [split; [exact A|intros v Hv; apply B, Hv]|exact C].
  - intros _ _. apply by_hash_sorts.
  - vm_compute. repeat split; lia.
Qed.
Lemma zigzag_sampled : sampled zigzag_series zigzag_data 2 (p_ez zigzag_search) (20 * / 2 ^ 36) 0 3 zigzag_seed.
Proof.
  split; [vm_compute; lia|]. split; [vm_compute; lia|]. split; [unfold too_close; cbn [p_ez zigzag_search]; lia|]. split; [vm_compute; reflexivity|]. split; [vm_compute; reflexivity|]. apply zigzag_seed_within.
Qed.
Lemma down_distance : exact_distance zigzag_data 2 1 3 = 0.
Proof. unfold exact_distance, zdistance. rewrite !zigzag_down by auto. apply euclid_refl. Qed.
Lemma zigzag_sampled' : sampled zigzag_series zigzag_data 2 (p_ez zigzag_search) 0 1 3 f_zero.
Proof.
  split; [vm_compute; lia|]. split; [vm_compute; lia|]. split; [unfold too_close; cbn [p_ez zigzag_search]; lia|]. split; [vm_compute; reflexivity|]. split; [vm_compute; reflexivity|].
  split; [split; [split; reflexivity|change (fval f_zero) with 0; lra]|]. rewrite down_distance. change (fval f_zero) with 0. match goal with |- Rabs ?x <= 0 => replace x with 0 by ring end. rewrite Rabs_R0. lra.
Qed.
Lemma eps_ok : 0 < / 2 ^ 36 <= / 64.
Proof. split; [apply Rinv_0_lt_compat, pow_lt; lra|apply Rinv_le; [lra|rewrite (pow_IZR 2 36); change (2 ^ Z.of_nat 36)%Z with 68719476736%Z; lra]]. Qed.
Example c127_tables_case : exists hashes indices,
  whole_search z_ex zigzag_data 2 true zigzag_series (fun _ _ => by_hash) zigzag_hs zigzag_search /\
  frepetition_table z_ex by_hash (zigzag_hs 3) zigzag_series zigzag_dot 6 = Ret (hashes, indices) /\ indices = [1; 3; 0; 2]%N /\
  (forall k v, (k < 6)%nat -> (v < 4)%nat -> exists y, fznormalized_value zigzag_series (fsum z_ex (vector (zigzag_hs 3) k)) v (zigzag_dot (vector (zigzag_hs 3) k) v) = Ret y /\ is_nan y = false).
Proof.
  eexists. eexists. split; [apply zigzag_is_whole|]. split; [vm_compute; reflexivity|]. split; [reflexivity|].
  intros k v Lk Lv. change (zigzag_hs 3) with zigzag_hasher. rewrite zigzag_vector by lia. do 4 (destruct v as [|v]; [eexists; split; vm_compute; reflexivity|]). lia.
Qed.
(** The exponential function is replaced by one that is always 0, so that it can be run. *)
Example c127_answers_case : exists st answers,
  whole_search z_ex zigzag_data 2 true zigzag_series (fun _ _ => by_hash) zigzag_hs zigzag_search /\
  0 < / 2 ^ 36 <= / 64 /\ accurate zigzag_series (length zigzag_data - 2) 0 (/ 2 ^ 36) /\ sampled zigzag_series zigzag_data 2 (p_ez zigzag_search) (20 * / 2 ^ 36) 0 3 zigzag_seed /\
  session (zigzag_whole (fun _ => f_zero)) 0 3 zigzag_seed [always] 30 = Ret (st, answers) /\ In (Item (Motiflet [1; 3]%nat f_zero)) answers.
Proof.
  eexists. eexists. split; [apply zigzag_is_whole|]. split; [apply eps_ok|]. split; [apply zigzag_accurate|]. split; [apply zigzag_sampled|]. split; [vm_compute; reflexivity|left; reflexivity].
Qed.
Example c127_confirmed_case : exists st answers,
  whole_search z_ex zigzag_data 2 true zigzag_series (fun _ _ => by_hash) zigzag_hs zigzag_search /\ (forall r, fh_width (zigzag_hs r) = three_quarters) /\
  sampled zigzag_series zigzag_data 2 (p_ez zigzag_search) 0 1 3 f_zero /\ exp_within best_exp /\ FloatErfSpec.moderate three_quarters /\ number (p_delta zigzag_search) /\
  distance64 f_zero /\ fval f_zero <= powerRZ 2 20 * fval three_quarters /\
  session (zigzag_whole best_exp) 1 3 f_zero [always] 30 = Ret (st, answers) /\ In (Item (Motiflet [1; 3]%nat f_zero)) answers.
Proof.
  eexists. eexists. split; [apply zigzag_is_whole|]. split; [reflexivity|]. split; [apply zigzag_sampled'|]. split; [apply best_exp_within|].
  split. { split; [split; reflexivity|]. rewrite width_val, !power_bp. assert (bp (-200) <= bp (-1)) by (apply bpow_le; lia). assert (bp 0 <= bp 200) by (apply bpow_le; lia). change (bp 0) with 1 in *. change (bp (-1)) with (/ 2) in *. lra. }
  split; [split; reflexivity|]. split; [left; reflexivity|]. split; [change (fval f_zero) with 0; rewrite width_val, power_bp; pose proof (bpow_gt_0 radix2 20); lra|].
  split; [vm_compute; reflexivity|left; reflexivity].
Qed.
Example c127_no_abort_case : exists s0,
  whole_search z_ex zigzag_data 2 true zigzag_series (fun _ _ => by_hash) zigzag_hs zigzag_search /\ measured zigzag_search /\
  sampled zigzag_series zigzag_data 2 (p_ez zigzag_search) 0 1 3 f_zero /\ iter_new (zigzag_whole best_exp) 1 3 f_zero = Ret s0.
Proof.
  eexists. split; [apply zigzag_is_whole|]. split.
  { split; try (vm_compute; reflexivity).
    - intros p0 H. vm_compute in H. injection H as <-. unfold K. lia.
    - split; vm_compute; reflexivity. }
  split; [apply zigzag_sampled'|vm_compute; reflexivity].
Qed.
Example c127_repeat_case : exists hashes indices st answers,
  whole_search z_ex zigzag_data 2 true zigzag_series (fun _ _ => by_hash) zigzag_hs zigzag_search /\
  accurate zigzag_series (length zigzag_data - 2) 0 (/ 2 ^ 36) /\ fhasher_ok (zigzag_hs 0%nat) 2 /\ sampled zigzag_series zigzag_data 2 (p_ez zigzag_search) (20 * / 2 ^ 36) 0 3 zigzag_seed /\
  (forall c i j, p_coin zigzag_search c i j = true) /\ p_top_k zigzag_search = 1%nat /\ ~ too_close (p_ez zigzag_search) 1 3 /\ lively zigzag_series 1 /\ lively zigzag_series 3 /\
  (forall v k m, (v = 1 \/ v = 3)%nat -> (k < 8)%nat -> (-128 <= m <= 128)%Z ->
     bucket_slack (zigzag_hs 0%nat) zigzag_data 2 k v (/ 2 ^ 36) 0 < Rabs (exact_bucket (zigzag_hs 0%nat) zigzag_data 2 k v - IZR m)) /\
  frepetition_table z_ex by_hash (zigzag_hs 0%nat) zigzag_series zigzag_dot 8 = Ret (hashes, indices) /\
  (forall x, nth_error indices x = Some (N.of_nat 1) -> ~ in_last_bucket hashes 1 x) /\
  session (zigzag_whole (fun _ => f_zero)) 0 3 zigzag_seed [always] 30 = Ret (st, answers) /\ In (Item (Motiflet [1; 3]%nat f_zero)) answers.
Proof.
  eexists. eexists. eexists. eexists. split; [apply zigzag_is_whole|]. split; [apply zigzag_accurate|]. split; [apply zigzag_hasher_ok|]. split; [apply zigzag_sampled|].
  split; [reflexivity|]. split; [reflexivity|]. split; [unfold too_close; cbn [p_ez zigzag_search]; lia|]. split; [vm_compute; reflexivity|]. split; [vm_compute; reflexivity|].
  split; [intros v k m Hv Lk _; apply zigzag_margin; assumption|]. split; [vm_compute; reflexivity|]. split.
  { intros x Hx. destruct x as [|[|[|[|x]]]]; cbn in Hx; try discriminate; [|destruct x; discriminate].
    intros (hx & hl & H1 & H2 & A). cbn in H1, H2. injection H1 as <-. injection H2 as <-. specialize (A 0%nat ltac:(lia)). vm_compute in A. discriminate. }
  split; [vm_compute; reflexivity|left; reflexivity].
Qed.
