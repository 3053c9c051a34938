(** C140: the Python classes from a list of numbers to the motiflets they hand out. *)
From Coq Require Import String.
From Coq Require Import Reals Lra Lia Floats.SpecFloat.
From Flocq Require Import Core BinarySingleNaN.
From Verif Require Import Base Overlaps OverlapsSpec OverlapsProofs F64 RSpec RealProofs SeriesProofs FFT FFTProofs SamplingSpec Sampling SamplingProofs TopK Iterator IteratorSpec IteratorSteps Hashing HashingSpec HashValue HashSpec EnumSpec Brute BruteSpec Text TextSpec P_Text Python Main MainSpec P_Main P_Brute P_Python P_Iterator GuaranteeSpec P_Guarantee
  FpOps FloatSeries FloatSpec FloatProofs FloatBound FloatErr FloatMean FloatTerm FloatRoll FloatPair P_Float P_Float2 P_Acc P_Acc2 AccSpec P_Acc3 P_Acc4 P_Acc5 FloatHash ProjSpec P_Proj P_Prof FloatBrute BruteAccSpec P_Brute64 P_Hashing P_Width64 FloatRun P_Run64 FloatSample P_Seed64 P_Avg64 FloatWidth FloatStart FloatMain Decimal P_Decimal P_Whole P_Whole2
  Profile ProfileProofs P_Start P_Starts P_Own FloatPython.
From Verif Require P_PythonReal.
Import FpOps.
Local Open Scope list_scope.
Local Open Scope R_scope.

(** The series the class is given: values of ordinary size, windows that the code does not
    find nearly flat, and means and standard deviations accurate to [eps]; at most 2^32
    windows, and an exclusion zone of at least one. *)
Record python_series (a : arguments) (n_w : world) (ts : list f64) (s : fseries) (e : Z) (eps : R) : Prop := {
  py_series : fseries_new (n_zeros n_w) ts (a_w a) false = Ret s;
  py_usable : usable ts (a_w a);
  py_windows : (a_w a < length ts)%nat;
  py_zone : (1 <= a_zone a)%nat;
  py_length : (N.of_nat (length ts) <= 2 ^ 32)%N;
  py_moderate : moderate ts;
  py_eps : 0 < eps <= / 64;
  py_accurate : accurate s (length ts - a_w a) e eps;
  py_sensible : sensible n_w ts (a_w a) s
}.
(** for the search: the dot products are within [err] of the exact ones, which makes the
    sampled distances accurate to [gap], and every window has another to be compared with *)
Record python_search (a : arguments) (n_w : world) (ts : list f64) (s : fseries) (eps err gap : R) : Prop := {
  py_limit : off_limit s (length ts - a_w a);
  py_err : err <= 2 ^ 500;
  py_dots : P_Seed64.dots_within s ts (a_w a) (n_sdp n_w) err;
  py_gap : profile_gap s ts (a_w a) eps err gap;
  py_samples : (1 <= n_nearest_samples n_w)%nat;
  py_partner : forall i, (i < length ts - a_w a)%nat -> lively s i -> exists j, (j < length ts - a_w a)%nat /\ lively s j /\ ~ too_close (a_zone a) i j
}.

Section Python.
  Variables (checks : bool) (a : arguments) (n_w : world) (ts : list f64) (s : fseries) (e : Z) (eps err gap : R) (fuel : nat).
  Hypothesis Ps : python_series a n_w ts s e eps.
  Notation w := (a_w a).
  Notation hs width := (fhashers (n_vectors n_w) (n_shifts n_w width) width).

  Lemma py_n : fnum_subsequences s = (length ts - w)%nat.
  Proof. apply (bs_n (n_zeros n_w) ts w false s (n_sdp n_w)); apply Ps. Qed.
  Lemma py_whole width memory limit : python_search a n_w ts s eps err gap -> whole_search (n_zeros n_w) ts w false s (n_sort n_w) (hs width) (fpy_rest a n_w memory limit).
  Proof.
    intros Pq. pose proof Ps as [E U Lw Z L32 Md He Ac [So Ve Sh Dr Re Or Sl]]. split; try assumption; try apply Pq.
    - intros r. split; [apply Ve|apply Sh].
    - split; [exact Z|apply (Re memory)].
  Qed.
  Lemma py_seed minimum av x y : python_search a n_w ts s eps err gap ->
    fnearest_neighbor_distance_stats (n_nearest_samples n_w) (n_zeros n_w) s (n_sdp n_w) (a_zone a) (n_draws n_w) fuel = Ret (minimum, av, (x, y)) ->
    sampled s ts w (a_zone a) gap x y minimum.
  Proof.
    intros [Of Er Hd Hg Sm Pt] En. pose proof Ps as [E U Lw Z L32 Md He Ac [So Ve Sh Dr Re Or Sl]].
    destruct (c128_seed (n_zeros n_w) ts w false s (n_sdp n_w) e eps err gap (n_nearest_samples n_w) (a_zone a) (n_draws n_w) fuel minimum av x y) as (used & T & Eu & Lu & C); try assumption.
    destruct C as [(_ & _ & _ & C)|(C & _)]; [exfalso|exact C]. destruct used as [|i used]; [cbn in Lu; lia|].
    assert (Hi : In i (filter (alive s) (draws (n_draws n_w) T))) by (rewrite <- Eu; left; reflexivity).
    apply filter_In in Hi. destruct Hi as (Hi & Fi). apply alive_lively in Fi. unfold draws in Hi. apply in_map_iff in Hi. destruct Hi as (t & <- & _).
    destruct (Pt _ (Dr t) Fi) as (j & Lj & Fj & Nj). apply Nj, (C _ j); [left; reflexivity|exact Lj|exact Fj].
  Qed.
  (** what a search that could be constructed is made of *)
  Lemma py_started y : (a_brute_force_threshold a < length ts - w)%nat -> fpy_new checks a n_w ts fuel = Ret y ->
    exists width memory limit minimum av u v i, o_series y = s /\ o_problem y = fpy_search a n_w s width memory limit /\ o_iter y = Enumerator i /\
      findex_width (n_given n_w) (n_zeros n_w) (n_sort_all n_w) (n_sort_trial n_w) s (n_sdp n_w) (a_zone a) (n_vector n_w) (fun width => n_shifts n_w width 0%nat) (n_vectors n_w 0%nat) fuel = Ret width /\
      fnearest_neighbor_distance_stats (n_nearest_samples n_w) (n_zeros n_w) s (n_sdp n_w) (a_zone a) (n_draws n_w) fuel = Ret (minimum, av, (u, v)) /\
      iter_new (fpy_search a n_w s width memory limit) u v minimum = Ret i.
  Proof.
    intros Big. unfold fpy_new. rewrite (py_series _ _ _ _ _ _ Ps). cbn [bind]. unfold assert_. destruct (_ <=? _)%nat; [|discriminate].
    destruct (flimit _ _ _) as [limit| |]; cbn [bind]; try discriminate. rewrite py_n. destruct (Nat.ltb_spec (a_brute_force_threshold a) (length ts - w)) as [_|X]; [|lia].
    destruct (fpy_memory _ _ _) as [memory| |]; cbn [bind]; try discriminate. destruct (ffft_new _ _ _) as [[]| |]; cbn [bind]; try discriminate.
    destruct (findex_width _ _ _ _ _ _ _ _ _ _ _) as [width| |] eqn:Ew; cbn [bind]; try discriminate.
    destruct (faverage_pairwise_distance _ _ _ _ _ _) as [average| |]; cbn [bind]; try discriminate.
    destruct (fnearest_neighbor_distance_stats _ _ _ _ _ _ _) as [((minimum & av) & (u & v))| |] eqn:En; cbn [bind]; try discriminate.
    destruct (iter_new _ _ _ _) as [i| |] eqn:Ei; cbn [bind]; try discriminate. intros X. apply Ret_inj in X. subst y.
    exists width, memory, limit, minimum, av, u, v, i. cbn [o_series o_problem o_iter]. repeat (split; [reflexivity|]). exact Ei.
  Qed.
End Python.

(** * C140: above the threshold *)
(** With more windows than [brute_force_threshold] every motiflet handed out has between two
    and [support] windows of the series, none of them flat and no two of them within the
    exclusion zone; its squared extent is the exact largest squared distance up to rounding;
    and its relative contrast is the average distance divided by the extent. *)
Theorem c140_search :
  forall (checks : bool) (a : arguments) (n_w : world) (ts : list f64) (s : fseries) (e : Z) (eps err gap : R) (fuel : nat)
         (y : pyobject) (cbs : list (nat -> bool)) (i : pyiter) (answers : list (pyanswer kmotiflet)) (m : kmotiflet),
    python_series a n_w ts s e eps -> python_search a n_w ts s eps err gap ->
    (a_brute_force_threshold a < length ts - a_w a)%nat ->
    fpy_new checks a n_w ts fuel = Ret y -> fpy_calls y cbs fuel = Ret (i, answers) -> In (PyItem m) answers ->
    km_support m = length (km_indices m) /\ (2 <= length (km_indices m) <= a_support a)%nat /\
    (forall v, In v (km_indices m) -> (v < length ts - a_w a)%nat /\ lively s v) /\
    pairwise_apart (a_zone a) (km_indices m) /\
    distance_value (km_extent m) /\
    km_relative_contrast m = relative_contrast (o_average y) (km_extent m) /\
    exists exact, widest (exact_distance ts (a_w a)) (km_indices m) exact /\
      Rabs (fval (km_extent m) ^ 2 - exact ^ 2) <= Rmax (10 * INR (a_w a) * eps) gap.
Proof.
  intros checks a n_w ts s e eps err gap fuel y cbs i answers m Ps Pq Big Ey Ec Hm.
  destruct (py_started checks a n_w ts s e eps fuel Ps y Big Ey) as (width & memory & limit & minimum & av & u & v & it & _ & Ep & Ei & _ & En & Eit).
  unfold fpy_calls in Ec. rewrite Ei in Ec. destruct (py_calls_enumerator _ _ _ _ _ _ _ Ec) as (s' & l & El & _ & ->). apply in_map_iff in Hm. destruct Hm as (x & Ex & Hx).
  destruct x as [|q|]; try discriminate. injection Ex as <-. rewrite Ep in El.
  destruct (c127_answers (n_zeros n_w) ts (a_w a) false s (n_sdp n_w) (n_exp n_w) (n_sort n_w) _ (fpy_rest a n_w memory limit) e eps gap u v minimum cbs fuel s' l q
    (py_whole a n_w ts s e eps err gap Ps width memory limit Pq) (py_eps _ _ _ _ _ _ Ps) (py_accurate _ _ _ _ _ _ Ps) (py_seed a n_w ts s e eps err gap fuel Ps minimum av u v Pq En)) as (V1 & V2 & V3 & V4 & ex & W & V5).
  { unfold session. unfold fpy_search in Eit, El. rewrite Eit. exact El. }
  { exact Hx. }
  cbn [km_support km_indices km_extent km_relative_contrast with_context contrasted_new cm_indices cm_extent cm_relative_contrast].
  split; [reflexivity|]. split; [exact V1|]. split; [exact V2|]. split; [exact V3|]. split; [exact V4|]. split; [reflexivity|].
  exists ex. split; [exact W|]. destruct V5 as [V5|(_ & V5)]; eapply Rle_trans; [exact V5|apply Rmax_l|exact V5|apply Rmax_r].
Qed.
Print Assumptions c140_search.

(** * C140: short series above the threshold *)
(** If the profile of the search is that of its own tables, then it cannot be constructed for
    45 windows or fewer. *)
Theorem c140_short :
  forall (checks : bool) (a : arguments) (n_w : world) (ts : list f64) (s : fseries) (e : Z) (eps err gap : R) (fuel : nat) (width : f64) (y : pyobject),
    python_series a n_w ts s e eps -> python_search a n_w ts s eps err gap ->
    findex_width (n_given n_w) (n_zeros n_w) (n_sort_all n_w) (n_sort_trial n_w) s (n_sdp n_w) (a_zone a) (n_vector n_w) (fun width => n_shifts n_w width 0%nat) (n_vectors n_w 0%nat) fuel = Ret width ->
    (forall memory limit, exists pl, own_profile (fpy_search a n_w s width memory limit) pl) ->
    (a_brute_force_threshold a < length ts - a_w a <= 45)%nat ->
    fpy_new checks a n_w ts fuel <> Ret y.
Proof.
  intros checks a n_w ts s e eps err gap fuel width y Ps Pq Ew Own Big Ey.
  destruct (py_started checks a n_w ts s e eps fuel Ps y ltac:(lia) Ey) as (width' & memory & limit & minimum & av & u & v & it & _ & Ep & Ei & Ew' & En & Eit). rewrite Ew in Ew'. apply Ret_inj in Ew'. subst width'.
  pose proof (py_whole a n_w ts s e eps err gap Ps width memory limit Pq) as Ws. destruct (Own memory limit) as (pl & Op).
  destruct (c127_search _ ts _ false _ (n_sdp n_w) (n_exp n_w) _ _ _ Ws) as (Sd & So). change (fsearch _ _ _ _ _ _ _) with (fpy_search a n_w s width memory limit) in Sd, So.
  assert (Sk : seed_ok (fpy_search a n_w s width memory limit) u v minimum).
  { destruct (py_seed a n_w ts s e eps err gap fuel Ps minimum av u v Pq En) as (La & Lb & Na & _ & _ & ((Nd & _) & _)).
    unfold seed_ok. rewrite (so_n _ _ _ _ _ So). split; [exact La|]. split; [exact Lb|]. split; [exact Na|]. apply number_not_nan, Nd. }
  rewrite (c136_short _ pl u v minimum Sd Sk Op) in Eit; [discriminate Eit|].
  intros r _. destruct (c127_tables _ ts _ false _ (n_sdp n_w) (n_exp n_w) _ _ _ r 8 Ws ltac:(lia)) as (hashes & indices & _ & Eq & _ & L & _).
  change (p_table (fpy_search a n_w s width memory limit) r K = (hashes, indices)) in Eq. rewrite Eq. cbn [fst]. lia.
Qed.
Print Assumptions c140_short.

(** * C140: up to the threshold *)
(** With at most [brute_force_threshold] windows, all of them neither flat nor nearer to one
    another than the rounding errors, the class can be constructed as soon as enough pairs of
    windows that can be compared have been drawn, and the length of a window is not one of
    those for which the transform is not computed.  It does not matter how many windows there
    are.  The calls hand out the motiflets one after the other and then [None], whatever
    signals arrive and however many are made, in order of their numbers of windows, which are
    all different; there is one with two windows, and its distance
    is that of the closest two, up to rounding. *)
Theorem c140_exact_partial :
  forall (checks : bool) (a : arguments) (n_w : world) (ts : list f64) (s : fseries) (e : Z) (eps err gap : R) (T : nat),
    python_series a n_w ts s e eps ->
    (length ts - a_w a <= a_brute_force_threshold a)%nat -> (2 <= a_support a)%nat -> (a_support a * a_zone a <= length ts - a_w a)%nat ->
    (forall k, N.of_nat (a_w a) <> 2 ^ k)%N \/ (N.of_nat (a_w a) < 2 ^ 14)%N ->
    (forall i, (i < length ts - a_w a)%nat -> lively s i) ->
    err <= 2 ^ 500 -> BruteAccSpec.dots_within ts (a_w a) s (n_sdp n_w) eps err gap ->
    (forall t, (fst (n_pairs n_w t) < length ts - a_w a)%nat /\ (snd (n_pairs n_w t) < length ts - a_w a)%nat) ->
    (1 <= n_average_samples n_w)%nat -> (Z.of_nat (n_average_samples n_w) <= 2 ^ 40)%Z ->
    length (filter (comparable s (a_zone a)) (draws (n_pairs n_w) T)) = n_average_samples n_w ->
    exists y motiflets, returns (fpy_new checks a n_w ts) y /\ o_series y = s /\
      (forall cbs fuel, exists i, fpy_calls y cbs fuel = Ret (i, firstn (length cbs) (map PyItem motiflets ++ repeat PyEnd (length cbs)))) /\
      (forall m, In m motiflets ->
         km_support m = length (km_indices m) /\ (2 <= length (km_indices m) <= a_support a)%nat /\
         (forall v, In v (km_indices m) -> (v < length ts - a_w a)%nat) /\
         pairwise_apart (a_zone a) (km_indices m) /\
         distance_value (km_extent m) /\
         km_relative_contrast m = relative_contrast (o_average y) (km_extent m) /\
         exists exact, widest (exact_distance ts (a_w a)) (km_indices m) exact /\
           Rabs (fval (km_extent m) ^ 2 - exact ^ 2) <= 10 * INR (a_w a) * eps) /\
      (forall x y m m', (x < y)%nat -> nth_error motiflets x = Some m -> nth_error motiflets y = Some m' -> (km_support m < km_support m')%nat /\ fle (km_extent m) (km_extent m') = true) /\
      exists m i j, In m motiflets /\ km_indices m = [i; j] /\
        forall u v, (u < length ts - a_w a)%nat -> (v < length ts - a_w a)%nat -> ~ too_close (a_zone a) u v ->
          exact_distance ts (a_w a) i j ^ 2 <= exact_distance ts (a_w a) u v ^ 2 + 2 * gap + 20 * INR (a_w a) * eps.
Proof.
  intros checks a n_w ts s e eps err gap T Ps Small S2 Room Hw Fl Er Hd Hdr L1 L2 Lp. pose proof (py_n a n_w ts s e eps Ps) as Hn. pose proof Ps as [E U Lw Z L32 Md He Ac [So Ve Sh Dr Re Or Sl]].
  destruct (c129_average_partial (n_zeros n_w) ts (a_w a) false s e eps (n_average_samples n_w) (a_zone a) (n_pairs n_w) T Md U E He Ac Hdr L1 L2 Lp) as (av & (F1 & Ea) & _).
  destruct (series_data _ _ _ _ _ E) as (Ed & _).
  destruct (ffft_returns (length ts) (a_w a)) as (F2 & Ef). { apply fft_length64_gt; [lia|]. destruct Hw as [Hw|Hw]; [left; exact Hw|right; split; [exact Hw|exact Lw]]. }
  destruct (c124_motiflets_partial (n_zeros n_w) ts (a_w a) false s (n_sdp n_w) e eps err gap (n_order n_w) (a_support a) (a_zone a) (n_split n_w) Md U E He Ac Fl Er Hd Or Sl) as (ms & Em & V).
  assert (Li : exists limit, flimit checks (fnum_subsequences s) (a_fraction_threshold a) = Ret limit).
  { rewrite Hn. unfold flimit, Counts.usize_sub, Counts.usize_mul. set (k := (length ts - a_w a)%nat) in *. assert (K1 : (1 <= N.of_nat k <= 2 ^ 32)%N) by lia.
    destruct (N.leb_spec 1 (N.of_nat k)) as [_|X]; [|lia]. cbn [bind].
    assert (Kk : (N.of_nat k * (N.of_nat k - 1) < 2 ^ 64)%N). { apply N.le_lt_trans with (2 ^ 32 * (2 ^ 32 - 1))%N; [apply N.mul_le_mono; lia|vm_compute; reflexivity]. }
    destruct (N.leb_spec (2 ^ 64) (N.of_nat k * (N.of_nat k - 1))) as [X|_]; [lia|]. rewrite Bool.andb_false_r. eexists. reflexivity. }
  destruct Li as (limit & Li).
  set (found := map (fun '(extent, indices) => KMotiflet (length indices) indices extent (SFdiv prec emax av extent)) ms).
  exists (PyObject s (fpy_search a n_w s f_zero 0 limit) av (BruteForce 0 found)), found. split.
  { exists (Nat.max F1 F2). intros n Ln. unfold fpy_new. rewrite E. cbn [bind]. unfold assert_. rewrite Li. rewrite Hn. destruct (Nat.leb_spec (a_support a * a_zone a) (length ts - a_w a)) as [_|X]; [|lia]. cbn [bind].
    destruct (Nat.ltb_spec (a_brute_force_threshold a) (length ts - a_w a)) as [X|_]; [lia|]. rewrite Ea by lia. cbn [bind]. rewrite Ed, Ef by lia. cbn [bind]. rewrite Em. reflexivity. }
  split; [reflexivity|]. split; [intros cbs fuel; apply c60_protocol|]. split.
  { intros m Hm. unfold found in Hm. apply in_map_iff in Hm. destruct Hm as ((x & l) & <- & Hin). destruct (V x l Hin) as (A & B & C & D & X). rewrite Forall_forall in B.
    cbn [km_support km_indices km_extent km_relative_contrast o_average]. split; [reflexivity|]. split; [exact A|]. split; [exact B|]. split; [exact C|]. split; [exact D|]. split; [reflexivity|exact X]. }
  split.
  { intros x y m m' L Ex Ey. unfold found in Ex, Ey. rewrite nth_error_map in Ex, Ey.
    destruct (nth_error ms x) as [(e1 & l1)|] eqn:E1; [|discriminate Ex]. destruct (nth_error ms y) as [(e2 & l2)|] eqn:E2; [|discriminate Ey]. injection Ex as <-. injection Ey as <-. cbn [km_support km_extent].
    pose proof (bs_n (n_zeros n_w) ts (a_w a) false s (n_sdp n_w) Md U E) as En.
    destruct (c19_motiflets_valid (brute_series (n_zeros n_w) s (n_sdp n_w)) (n_order n_w) (a_support a) (a_zone a) (n_split n_w) ms) as (_ & O); cbn [s_n brute_series]; rewrite ?Hn; [apply bs_pos|exact Or|exact Sl|exact Em|].
    apply (O x y e1 e2 l1 l2 L E1 E2). }
  destruct (c124_pair_partial (n_zeros n_w) ts (a_w a) false s (n_sdp n_w) e eps err gap (n_order n_w) (a_support a) (a_zone a) (n_split n_w) ms Md U E He Ac Fl Er Hd Or Sl ltac:(lia) S2 Em 0 (a_zone a)) as (x & i & j & Hin & B).
  { lia. } { nia. } { unfold too_close. lia. }
  exists (KMotiflet 2 [i; j] x (SFdiv prec emax av x)), i, j. split; [apply in_map_iff; exists (x, [i; j]); split; [reflexivity|exact Hin]|]. split; [reflexivity|]. intros u v Lu Lv Nuv. apply (B u v Lu Lv Nuv).
Qed.
Print Assumptions c140_exact_partial.

(** * C140: the values of a window *)
(** [values] are those of the series from the position on, and [zvalues] are within rounding
    of the exact z-normalised ones, for every position of a window that is not flat.  An
    argument that is not the number of a position is an error. *)
Theorem c140_values :
  forall (a : arguments) (n_w : world) (ts : list f64) (s : fseries) (e : Z) (eps : R) (m : kmotiflet) (k : nat),
    python_series a n_w ts s e eps ->
    (forall v, In v (km_indices m) -> (v < length ts - a_w a)%nat /\ lively s v) ->
    (forall p, nth_error (km_indices m) k = Some p ->
       exists values normal, fvalues s m k = Ret values /\ fzvalues s m k = Ret normal /\
         length values = a_w a /\ length normal = a_w a /\
         (forall t, (t < a_w a)%nat -> nth_error values t = nth_error ts (p + t)) /\
         forall t x z, nth_error (znorm (exact_window ts (a_w a) p)) t = Some x -> nth_error normal t = Some z ->
           number z /\ Rabs (fval z - x) <= 115 / 100 * eps * (1 + Rabs x)) /\
    (nth_error (km_indices m) k = None -> fvalues s m k = Panic /\ fzvalues s m k = Panic).
Proof.
  intros a n_w ts s e eps m k Ps Hm. pose proof Ps as [E U Lw Z L32 Md He Ac _]. split; [intros p Hp|intros Hp; unfold fvalues, fzvalues, get; rewrite Hp; split; reflexivity].
  destruct (Hm p (nth_error_In _ _ Hp)) as (Lp & Fp).
  destruct (at_window (n_zeros n_w) ts (a_w a) false s p p e eps Md U E Lp Lp p Lp Fp (Ac p Lp Fp)) as (ma & sa & Wa & Ln & Ba & Ma & Sa & Na & Cm & Cs & Ha & Ra).
  exists (win ts (a_w a) p), (map (fun x => fdiv (fsub x ma) sa) (win ts (a_w a) p)). pose proof Wa as (Em & Esd & Esub).
  unfold fvalues, fzvalues, get. rewrite Hp. cbn [bind]. unfold fznormalized. rewrite Em, Esd, Esub. cbn [bind].
  split; [reflexivity|]. split; [reflexivity|]. split; [exact Ln|]. split; [rewrite map_length; exact Ln|]. split.
  { intros t Lt. unfold win. rewrite nth_error_firstn by exact Lt. rewrite P_PythonReal.nth_error_skip. reflexivity. }
  intros t x z Hx Hz. rewrite nth_error_map in Hz. destruct (nth_error (win ts (a_w a) p) t) as [v|] eqn:Ev; [|discriminate Hz]. injection Hz as <-.
  unfold znorm, exact_window in Hx. change (firstn (a_w a) (skipn p ts)) with (win ts (a_w a) p) in Hx. rewrite !nth_error_map, Ev in Hx. cbn [option_map] in Hx. injection Hx as <-.
  pose proof (nth_error_In _ _ Ev) as Iv. destruct U as ((Lw1 & _) & _).
  assert (G1 : bp (-15) <= fval sa) by (eapply sd_ge; eassumption).
  assert (G2 : bp (-15) <= sd_of (vals (win ts (a_w a) p))) by (eapply sd_ge; eassumption).
  assert (Pg : 0 < sd_of (vals (win ts (a_w a) p))) by (pose proof (bpow_gt_0 radix2 (-15)); lra).
  assert (Ue : u <= eps / 17) by (eapply u_eps with (a := win ts (a_w a) p) (M := bp e); eassumption).
  destruct (normal_err v ma sa _ _ eps (Ba _ Iv) Ma Sa G1 Pg He Ue Cm Cs) as (Bz & Ez). split; [apply Bz|exact Ez].
Qed.
Print Assumptions c140_values.

(** ** The zigzag of seventy values again, searched with a threshold of ten windows *)
Definition one_tenth : f64 := S754_finite false 7205759403792794 (-56).
Definition long_arguments : arguments := Arguments 2 2 1 (Some (codes "1g")) (Some 1%nat) 10 one_tenth false.
Lemma long_default : fseries_new z_ex long_data 2 false = Ret long_series.
Proof. vm_compute. reflexivity. Qed.
Lemma long_python : python_series long_arguments long_world long_data long_series 0 (/ 2 ^ 36) /\
  python_search long_arguments long_world long_data long_series (/ 2 ^ 36) 0 (40 * / 2 ^ 36).
Proof.
  pose proof (long_searching 2 1) as [A B C D E F G I J L M N O Q]. split.
  - exact (Build_python_series long_arguments long_world long_data long_series 0 (/ 2 ^ 36) long_default long_usable (proj2 C) (Nat.le_refl 1) D E G I N).
  - exact (Build_python_search long_arguments long_world long_data long_series (/ 2 ^ 36) 0 (40 * / 2 ^ 36) F J L M O Q).
Qed.
Example c140_search_case :
  python_series long_arguments long_world long_data long_series 0 (/ 2 ^ 36) /\
  python_search long_arguments long_world long_data long_series (/ 2 ^ 36) 0 (40 * / 2 ^ 36) /\
  (a_brute_force_threshold long_arguments < length long_data - a_w long_arguments)%nat /\
  exists y i m, fpy_new true long_arguments long_world long_data 200 = Ret y /\ fpy_calls y [(fun _ => true); (fun _ => true)] 200 = Ret (i, [PyItem m; PyEnd]) /\
    km_indices m = [0; 2]%nat /\ km_extent m = f_zero /\
    fvalues long_series m 1 = Ret (nums [0; 1]%nat) /\ fzvalues long_series m 1 = Ret [minus_one; S754_finite false 4503599627370496 (-52)] /\ fvalues long_series m 2 = Panic.
Proof.
  split; [apply long_python|]. split; [apply long_python|]. split; [rewrite long_length; cbn; lia|].
  assert (G : match fpy_new true long_arguments long_world long_data 200 with
    | Ret y => match fpy_calls y [(fun _ => true); (fun _ => true)] 200 with
      | Ret (_, [PyItem m; PyEnd]) => km_indices m = [0; 2]%nat /\ km_extent m = f_zero /\
          fvalues long_series m 1 = Ret (nums [0; 1]%nat) /\ fzvalues long_series m 1 = Ret [minus_one; S754_finite false 4503599627370496 (-52)] /\ fvalues long_series m 2 = Panic
      | _ => False end
    | _ => False end) by (vm_compute; repeat split; reflexivity).
  destruct (fpy_new true long_arguments long_world long_data 200) as [y| |]; try contradiction.
  destruct (fpy_calls y _ 200) as [(i & [|[|m|] [|[| |] [|]]])| |] eqn:Ec; try contradiction. exists y, i, m. split; [reflexivity|]. split; [exact Ec|exact G].
Qed.

(** ** The zigzag of six values: with a threshold of three windows it cannot be searched *)
Definition short_arguments : arguments := Arguments 2 2 1 (Some (codes "1g")) (Some 1%nat) 3 one_tenth false.
Lemma short_default : fseries_new z_ex zigzag_data 2 false = Ret zigzag_series.
Proof. vm_compute. reflexivity. Qed.
Lemma short_usable : usable zigzag_data 2.
Proof. split; [cbn; lia|vm_compute; discriminate]. Qed.
Lemma short_python : python_series short_arguments short_world zigzag_data zigzag_series 0 (/ 2 ^ 36) /\
  python_search short_arguments short_world zigzag_data zigzag_series (/ 2 ^ 36) 0 (40 * / 2 ^ 36).
Proof.
  pose proof (short_searching 2 1) as [A B C D E F G I J L M N O Q]. split.
  - exact (Build_python_series short_arguments short_world zigzag_data zigzag_series 0 (/ 2 ^ 36) short_default short_usable (proj2 C) (Nat.le_refl 1) D E G I N).
  - exact (Build_python_search short_arguments short_world zigzag_data zigzag_series (/ 2 ^ 36) 0 (40 * / 2 ^ 36) F J L M O Q).
Qed.
Example c140_short_case :
  python_series short_arguments short_world zigzag_data zigzag_series 0 (/ 2 ^ 36) /\
  python_search short_arguments short_world zigzag_data zigzag_series (/ 2 ^ 36) 0 (40 * / 2 ^ 36) /\
  findex_width (n_given short_world) (n_zeros short_world) (n_sort_all short_world) (n_sort_trial short_world) zigzag_series (n_sdp short_world) 1 (n_vector short_world)
    (fun width => n_shifts short_world width 0%nat) (n_vectors short_world 0%nat) 60 = Ret three_quarters /\
  (forall memory limit, exists pl, own_profile (fpy_search short_arguments short_world zigzag_series three_quarters memory limit) pl) /\
  fpy_new true short_arguments short_world zigzag_data 60 = Panic.
Proof.
  split; [apply short_python|]. split; [apply short_python|]. split; [vm_compute; reflexivity|]. split; [|vm_compute; reflexivity].
  intros memory limit. destruct (short_own 2 1 memory) as (pl & Op). exists pl. exact Op.
Qed.

(** ** The series of C124, three windows: the exact search, with the default threshold *)
Definition br_arguments : arguments := Arguments 3 3 1 None (Some 1%nat) 1000 one_tenth false.
Lemma br_default : fseries_new z_ex data_br 3 false = Ret series_br.
Proof. vm_compute. reflexivity. Qed.
Example c140_exact_case :
  python_series br_arguments br_world data_br series_br 2 (/ 2 ^ 40) /\
  (length data_br - 3 <= a_brute_force_threshold br_arguments)%nat /\ (a_support br_arguments * a_zone br_arguments <= length data_br - 3)%nat /\ (N.of_nat (a_w br_arguments) < 2 ^ 14)%N /\
  (forall i, (i < length data_br - 3)%nat -> lively series_br i) /\
  / 2 ^ 40 <= 2 ^ 500 /\ BruteAccSpec.dots_within data_br 3 series_br (n_sdp br_world) (/ 2 ^ 40) (/ 2 ^ 40) (/ 2 ^ 20) /\
  (forall t, (fst (n_pairs br_world t) < length data_br - 3)%nat /\ (snd (n_pairs br_world t) < length data_br - 3)%nat) /\
  length (filter (comparable series_br 1) (draws (n_pairs br_world) 5)) = n_average_samples br_world /\
  exists y i m m', fpy_new true br_arguments br_world data_br 60 = Ret y /\ fpy_calls y (repeat (fun _ => true) 4) 60 = Ret (i, [PyItem m; PyItem m'; PyEnd; PyEnd]) /\
    km_indices m = [1; 2]%nat /\ km_indices m' = [0; 1; 2]%nat.
Proof.
  destruct c131_exact_case as (_ & _ & A3 & A4 & A5 & A6 & A7 & A8 & A9 & A10 & A11 & A12 & A13 & A14 & A15 & _).
  split. { assert (L : (N.of_nat (length data_br) <= 2 ^ 32)%N) by (vm_compute; discriminate).
    exact (Build_python_series br_arguments br_world data_br series_br 2 (/ 2 ^ 40) br_default A4 A5 (Nat.le_refl 1) L A6 A8 A9 A13). }
  split; [cbn; lia|]. split; [cbn; lia|]. split; [exact A7|]. split; [exact A10|]. split; [exact A11|]. split; [exact A12|]. split; [exact A14|]. split; [exact A15|].
  assert (G : match fpy_new true br_arguments br_world data_br 60 with
    | Ret y => match fpy_calls y (repeat (fun _ => true) 4) 60 with
      | Ret (_, [PyItem m; PyItem m'; PyEnd; PyEnd]) => km_indices m = [1; 2]%nat /\ km_indices m' = [0; 1; 2]%nat
      | _ => False end
    | _ => False end) by (vm_compute; split; reflexivity).
  destruct (fpy_new true br_arguments br_world data_br 60) as [y| |]; try contradiction.
  destruct (fpy_calls y _ 60) as [(i & [|[|m|] [|[|m'|] [|[| |] [|[| |] [|]]]]])| |] eqn:Ec; try contradiction. exists y, i, m, m'. split; [reflexivity|]. split; [exact Ec|exact G].
Qed.
