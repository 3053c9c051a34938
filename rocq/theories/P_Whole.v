(** C131: from the text of the input file to the text of the output file. *)
From Coq Require Import String.
From Coq Require Import Reals Lra Lia Floats.SpecFloat.
From Flocq Require Import Core BinarySingleNaN.
From Verif Require Import Base Overlaps OverlapsSpec OverlapsProofs F64 RSpec RealProofs SeriesProofs FFT FFTProofs SamplingSpec Sampling SamplingProofs TopK Iterator IteratorSpec IteratorSteps Hashing HashingSpec HashValue Brute BruteSpec Text TextSpec P_Text Python Main MainSpec P_Main P_Brute P_Iterator GuaranteeSpec P_Guarantee
  FpOps FloatSeries FloatSpec FloatProofs P_Float P_Float2 P_Acc P_Acc2 AccSpec P_Acc3 P_Acc4 P_Acc5 FloatHash ProjSpec P_Proj P_Prof FloatBrute BruteAccSpec P_Brute64 P_Hashing P_Width64 FloatRun P_Run64 FloatSample P_Seed64 P_Avg64 FloatWidth FloatStart FloatMain Decimal P_Decimal.
Import FpOps.
Local Open Scope list_scope.
Local Open Scope R_scope.

(** What is assumed of libraries and random numbers: sorting sorts, hash functions have the
    right shape, windows are drawn among those there are, the exact search visits them all. *)
Record sensible (n_w : world) (ts : list f64) (w : nat) (s : fseries) : Prop := {
  sb_sorts : forall r k, sorts (n_sort n_w r k);
  sb_vectors : forall r, vectors64_ok (n_vectors n_w r) w;
  sb_shifts : forall width r, length (n_shifts n_w width r) = 8%nat;
  sb_draws : forall t, (n_draws n_w t < length ts - w)%nat;
  sb_rest : forall memory, (0 < p_buffer (n_rest n_w memory))%nat /\ length (p_expected (n_rest n_w memory)) = (K + 1)%nat;
  sb_order : forall from d, (from < length ts - w)%nat -> distance_profile (brute_series (n_zeros n_w) s (n_sdp n_w)) from = Ret d -> sort_outcome d (n_order n_w from);
  sb_split : leaves (n_split n_w) = seq 0 (length ts - w)
}.
(** the pieces of a run of the program *)
Lemma program_run checks show o w precise prefix n_w file ts s fuel out :
  load_from (n_parse n_w) prefix file fuel = Ret (Some ts) -> fseries_new (n_zeros n_w) ts w precise = Ret s ->
  fprogram checks show o w precise prefix n_w file fuel = Ret (Some out) ->
  exists width, fprepare checks o n_w w s fuel = Ret (Some width) /\ run checks show o (fsetting o n_w w s width) fuel = Ret (Some out).
Proof.
  intros El Es H. unfold fprogram in H. rewrite El in H. cbn [bind] in H. rewrite Es in H. cbn [bind] in H.
  destruct (fprepare checks o n_w w s fuel) as [[width|]| |]; cbn [bind] in H; try discriminate H. exists width. split; [reflexivity|exact H].
Qed.

(** * C131: the search *)
(** Every line of the output is the extent and the positions of a motiflet: between two and
    [support] positions of windows that are not flat, more than half a window apart, and the
    squared extent is that of the exact widest distance up to the rounding errors. *)
Theorem c131_search :
  forall (checks : bool) (show : f64 -> list N) (o : options) (w : nat) (precise : bool) (prefix : option nat) (n_w : world) (file : list N)
         (ts : list f64) (s : fseries) (e : Z) (eps err gap : R) (fuel : nat) (out : list N),
    plain show -> o_exact o = false ->
    (* the series in the file *)
    load_from (n_parse n_w) prefix file fuel = Ret (Some ts) -> fseries_new (n_zeros n_w) ts w precise = Ret s ->
    (2 <= w < length ts)%nat -> (N.of_nat (length ts) <= 2 ^ 32)%N -> moderate ts -> off_limit s (length ts - w) ->
    0 < eps <= / 64 -> accurate s (length ts - w) e eps ->
    (* the dot products, and the gap they leave *)
    err <= 2 ^ 500 -> P_Seed64.dots_within s ts w (n_sdp n_w) err -> profile_gap s ts w eps err gap ->
    sensible n_w ts w s -> (1 <= n_nearest_samples n_w)%nat ->
    (* every window has another to be compared with *)
    (forall i, (i < length ts - w)%nat -> lively s i -> exists j, (j < length ts - w)%nat /\ lively s j /\ ~ too_close (w / 2) i j) ->
    fprogram checks show o w precise prefix n_w file fuel = Ret (Some out) ->
    exists motiflets, rows out = Some (reading show motiflets) /\
      forall extent positions, In (extent, positions) motiflets ->
        (2 <= length positions <= o_support o)%nat /\
        (forall i, In i positions -> (i < length ts - w)%nat /\ lively s i) /\
        pairwise_apart (w / 2) positions /\
        distance_value extent /\
        exists exact, widest (exact_distance ts w) positions exact /\
          Rabs (fval extent ^ 2 - exact ^ 2) <= Rmax (10 * INR w * eps) gap.
Proof.
  intros checks show o w precise prefix n_w file ts s e eps err gap fuel out Hp Ho El Es Lw L32 Mo Of He Ac Er Hd Hg Sb Ls Hs H.
  destruct (program_run _ _ _ _ _ _ _ _ _ _ _ _ El Es H) as (width & _ & Hr). clear H.
  destruct (run_found _ _ _ _ _ _ Hr) as (found & Hf & ->).
  destruct (run_search _ _ _ _ _ Ho Hf) as (memory & a & b & d & n & st & l & Hse & Q & Hl).
  destruct Sb as [So Ve Sh Dr Re _ _].
  set (rest := with_arguments (n_rest n_w memory) (o_support o) (o_topk o) (w / 2) false).
  set (hs := fhashers (n_vectors n_w) (n_shifts n_w width) width).
  assert (Es' : MainSpec.searched o (fsetting o n_w w s width) memory = fsearch (n_zeros n_w) s (n_sdp n_w) (n_exp n_w) (n_sort n_w) hs rest) by reflexivity.
  rewrite Es' in Q.
  cbn [e_seed fsetting] in Hse.
  destruct (fnearest_neighbor_distance_stats _ _ _ _ _ _ _) as [((mn & av) & (a' & b'))| |] eqn:En in Hse; cbn [bind] in Hse; try discriminate Hse.
  apply Ret_inj in Hse. injection Hse as -> -> ->.
  assert (U : usable ts w).
  { split; [lia|]. assert (N.of_nat w <= 2 ^ 32)%N by lia. apply Z.le_trans with (2 ^ 32)%Z; [|vm_compute; discriminate]. lia. }
  assert (Z1 : (1 <= w / 2)%nat) by (apply Nat.div_le_lower_bound; lia).
  assert (Ws : whole_search (n_zeros n_w) ts w precise s (n_sort n_w) hs rest).
  { split; try assumption; try lia.
    - intros r. split; [apply Ve|apply Sh].
    - split; [exact Z1|apply Re]. }
  assert (Nd : d <> f_inf).
  { destruct (c128_seed (n_zeros n_w) ts w precise s (n_sdp n_w) e eps err gap (n_nearest_samples n_w) (w / 2) (n_draws n_w) fuel d av a b) as (used & T & Eu & Lu & C); try assumption.
    destruct C as [(_ & _ & _ & C)|(C & _)].
    - exfalso. destruct used as [|i used]; [cbn in Lu; lia|].
      assert (Hi : In i (filter (alive s) (draws (n_draws n_w) T))) by (rewrite <- Eu; left; reflexivity).
      apply filter_In in Hi. destruct Hi as (Hi & Fi). apply alive_lively in Fi. unfold draws in Hi. apply in_map_iff in Hi. destruct Hi as (t & <- & _).
      destruct (Hs _ (Dr t) Fi) as (j & Lj & Fj & Nj). apply Nj, (C _ j); [left; reflexivity|exact Lj|exact Fj].
    - intros ->. destruct C as (_ & _ & _ & _ & _ & ((Nb & _) & _)). vm_compute in Nb. destruct Nb; discriminate. }
  assert (V : forall m, In m found ->
    (2 <= length (cm_indices m) <= o_support o)%nat /\ (forall i, In i (cm_indices m) -> (i < length ts - w)%nat /\ lively s i) /\
    pairwise_apart (w / 2) (cm_indices m) /\ distance_value (cm_extent m) /\
    exists exact, widest (exact_distance ts w) (cm_indices m) exact /\ Rabs (fval (cm_extent m) ^ 2 - exact ^ 2) <= Rmax (10 * INR w * eps) gap).
  { intros c Hc. assert (Hin : In (plainly c) (map (fun m => (ml_extent m, ml_indices m)) l)) by (rewrite <- Hl; apply in_map; exact Hc).
    apply in_map_iff in Hin. destruct Hin as (m & Em & Hm). unfold plainly in Em. injection Em as <- <-.
    destruct (c128_answers (n_zeros n_w) ts w precise s (n_sdp n_w) (n_exp n_w) (n_sort n_w) hs rest e eps err gap (n_nearest_samples n_w) (n_draws n_w) fuel av a b d _ fuel st _ m Ws He Ac Er Hd Hg Dr En Nd Q) as (A & B & C & D & ex & W & X).
    { apply in_or_app. left. apply in_map. exact Hm. }
    split; [exact A|]. split; [exact B|]. split; [exact C|]. split; [exact D|]. exists ex. split; [exact W|].
    destruct X as [X|(_ & X)]; eapply Rle_trans; [exact X|apply Rmax_l|exact X|apply Rmax_r]. }
  exists (map plainly found). split.
  - apply c107_reads_back; [exact Hp|]. intros m Hm. apply found_nonempty, (V m Hm).
  - intros x p Hin. apply in_map_iff in Hin. destruct Hin as (m & Em & Hm). unfold plainly in Em. injection Em as <- <-. exact (V m Hm).
Qed.
Print Assumptions c131_search.

(** * C131: the exact search *)
(** the loop over the chunks *)
Definition step_forward (n w : nat) (begin : N) : res (N + unit) :=
  if (begin <? N.of_nat n)%N then
    assert_ (N.of_nat w <=? fft_length64 n w)%N (Ret (inl (begin + (fft_length64 n w - N.of_nat w))%N))
  else Ret (inr tt).
Lemma ffft_loop n w fuel : ffft_new n w fuel = loop fuel (step_forward n w) 0%N.
Proof. reflexivity. Qed.
Lemma power_above a : (a <= 2 ^ N.log2_up a)%N.
Proof. destruct (N.le_gt_cases a 1) as [L|L]; [|apply N.log2_up_spec, L]. replace (N.log2_up a) with 0%N by (symmetry; apply N.log2_up_eqn0; exact L). exact L. Qed.
Lemma fft_length64_ge n w : (w <= n)%nat -> (N.of_nat w <= fft_length64 n w)%N.
Proof. intros L. unfold fft_length64. pose proof (power_above (N.of_nat w)). pose proof (power_above (N.of_nat n)). lia. Qed.
(** The chunks are longer than a window unless the length of a window is a power of two and
    either at least 2^14 or the length of the series. *)
Lemma fft_length64_gt n w : (w <= n)%nat -> (forall k, N.of_nat w <> 2 ^ k)%N \/ (N.of_nat w < 2 ^ 14)%N /\ (w < n)%nat -> (N.of_nat w < fft_length64 n w)%N.
Proof.
  intros L H. pose proof (fft_length64_ge n w L) as G. apply N.lt_eq_cases in G. destruct G as [G|G]; [exact G|exfalso].
  unfold fft_length64 in G. pose proof (power_above (N.of_nat w)). pose proof (power_above (N.of_nat n)).
  destruct H as [H|(Hs & Hl)]; [|change (2 ^ 14)%N with 16384%N in Hs; lia].
  destruct (N.min_spec (N.max 16384 (2 ^ N.log2_up (N.of_nat w))) (2 ^ N.log2_up (N.of_nat n))) as [(_ & E)|(_ & E)]; rewrite E in G; [|exact (H _ G)].
  destruct (N.max_spec 16384 (2 ^ N.log2_up (N.of_nat w))) as [(_ & F)|(_ & F)]; rewrite F in G; [exact (H _ G)|]. apply (H 14%N). exact G.
Qed.
Lemma ffft_returns n w : (N.of_nat w < fft_length64 n w)%N -> returns (ffft_new n w) tt.
Proof.
  intros L. destruct (loop_measure (step_forward n w) (fun _ => True) (fun r => r = tt) (fun b => (n - N.to_nat b)%nat)) with (s := 0%N) (fuel := S n) as (r & El & ->).
  - intros b _. unfold step_forward. destruct (N.ltb_spec b (N.of_nat n)) as [Lb|Lb]; [left|right; eauto].
    unfold assert_. destruct (N.leb_spec (N.of_nat w) (fft_length64 n w)) as [_|X]; [|lia]. eexists. split; [reflexivity|]. split; [exact I|]. lia.
  - exact I.
  - lia.
  - exists (S n). intros m Hm. rewrite ffft_loop, (loop_mono _ (S n)); [exact El|exact Hm|]. rewrite El. discriminate.
Qed.
Lemma ffft_diverges n w : (1 <= n)%nat -> N.of_nat w = fft_length64 n w -> diverges (ffft_new n w).
Proof.
  intros L E fuel. rewrite ffft_loop. apply (loop_diverges _ (fun b => b = 0%N)); [|reflexivity].
  intros b ->. exists 0%N. split; [|reflexivity]. unfold step_forward. destruct (N.ltb_spec 0 (N.of_nat n)); [|lia]. unfold assert_. rewrite E, N.leb_refl, N.sub_diag. reflexivity.
Qed.
(** The program ends, provided that windows are not flat and further from each other than the
    rounding errors, that enough comparable pairs are drawn and that the length of a window is
    not one of those for which the transform is not computed (see below).  Every line of the
    output is then a motiflet as above.  Missing: the other series; see C22, C124 and C129. *)
Theorem c131_exact_partial :
  forall (checks : bool) (show : f64 -> list N) (o : options) (w : nat) (precise : bool) (prefix : option nat) (n_w : world) (file : list N)
         (ts : list f64) (s : fseries) (e : Z) (eps err gap : R) (T : nat),
    plain show -> o_exact o = true ->
    (* the series in the file *)
    returns (load_from (n_parse n_w) prefix file) (Some ts) -> fseries_new (n_zeros n_w) ts w precise = Ret s ->
    usable ts w -> (w < length ts)%nat -> moderate ts -> (forall k, N.of_nat w <> 2 ^ k)%N \/ (N.of_nat w < 2 ^ 14)%N ->
    0 < eps <= / 64 -> accurate s (length ts - w) e eps -> (forall i, (i < length ts - w)%nat -> lively s i) ->
    (* the dot products, and the gap between windows *)
    err <= 2 ^ 500 -> BruteAccSpec.dots_within ts w s (n_sdp n_w) eps err gap ->
    sensible n_w ts w s ->
    (* the pairs drawn *)
    (forall t, (fst (n_pairs n_w t) < length ts - w)%nat /\ (snd (n_pairs n_w t) < length ts - w)%nat) ->
    (1 <= n_average_samples n_w)%nat -> (Z.of_nat (n_average_samples n_w) <= 2 ^ 40)%Z ->
    length (filter (comparable s (w / 2)) (draws (n_pairs n_w) T)) = n_average_samples n_w ->
    exists out motiflets, returns (fprogram checks show o w precise prefix n_w file) (Some out) /\
      rows out = Some (reading show motiflets) /\
      forall extent positions, In (extent, positions) motiflets ->
        (2 <= length positions <= o_support o)%nat /\
        (forall i, In i positions -> (i < length ts - w)%nat) /\
        pairwise_apart (w / 2) positions /\
        distance_value extent /\
        exists exact, widest (exact_distance ts w) positions exact /\ Rabs (fval extent ^ 2 - exact ^ 2) <= 10 * INR w * eps.
Proof.
  intros checks show o w precise prefix n_w file ts s e eps err gap T Hp Ho (F0 & El) Es U Lw Mo Hw He Ac Fl Er Hd Sb Hdr L1 L2 Lp.
  destruct (c129_average_partial (n_zeros n_w) ts w precise s e eps (n_average_samples n_w) (w / 2) (n_pairs n_w) T Mo U Es He Ac Hdr L1 L2 Lp) as (av & (F1 & Ea) & _).
  assert (Ed : fs_data s = ts).
  { revert Es. unfold fseries_new, assert_. destruct (w <=? length ts)%nat; [|discriminate]. destruct (if precise then _ else _) as [(x & y)| |]; cbn [bind]; intros X; try discriminate X. apply Ret_inj in X. subst s. reflexivity. }
  destruct (ffft_returns (length ts) w) as (F2 & Ef). { apply fft_length64_gt; [lia|]. destruct Hw as [Hw|Hw]; [left; exact Hw|right; split; [exact Hw|exact Lw]]. }
  destruct (c124_motiflets_partial (n_zeros n_w) ts w precise s (n_sdp n_w) e eps err gap (n_order n_w) (o_support o) (w / 2) (n_split n_w) Mo U Es He Ac Fl Er Hd (sb_order _ _ _ _ Sb) (sb_split _ _ _ _ Sb)) as (ms & Em & V).
  set (found := map (fun '(extent, indices) => contrasted_new indices extent av) ms).
  assert (Epl : map plainly found = ms). { unfold found. rewrite map_map. rewrite <- (map_id ms) at 2. apply map_ext. intros (x & l). reflexivity. }
  exists (output_csv show found), ms. split.
  { exists (Nat.max F0 (Nat.max F1 F2)). intros n Hn. unfold fprogram. rewrite El by lia. cbn [bind]. rewrite Es. cbn [bind]. unfold fprepare. rewrite Ho. cbn [bind].
    unfold run, find_motiflets. rewrite Ho. cbn [e_average e_series e_order e_split e_w fsetting]. rewrite Ea by lia. cbn [bind]. rewrite Ho, Ed, Ef by lia. cbn [bind]. rewrite Em. reflexivity. }
  split.
  - rewrite <- Epl. apply c107_reads_back; [exact Hp|]. intros m Hm. apply found_nonempty. apply (in_map plainly) in Hm. rewrite Epl in Hm. apply (V _ _ Hm).
  - intros x l Hin. destruct (V x l Hin) as (A & B & C & D & X). rewrite Forall_forall in B. auto.
Qed.
Print Assumptions c131_exact_partial.

(** If the length of a window is a power of two and not below 2^14, or equal to that of the
    series, then there is never any output, and the search runs forever (see C50). *)
Lemma fft_length64_eq n w k : (w <= n)%nat -> N.of_nat w = (2 ^ k)%N -> (2 ^ 14 <= N.of_nat w)%N \/ n = w -> N.of_nat w = fft_length64 n w.
Proof.
  intros L E H. unfold fft_length64. rewrite E, N.log2_up_pow2 by lia. pose proof (power_above (N.of_nat n)). change (2 ^ 14)%N with 16384%N in H. destruct H as [H| ->]; [lia|].
  rewrite E, N.log2_up_pow2 by lia. lia.
Qed.
Lemma series_data z ts w precise s : fseries_new z ts w precise = Ret s -> fs_data s = ts /\ (w <= length ts)%nat.
Proof.
  unfold fseries_new, assert_. destruct (Nat.leb_spec w (length ts)); [|discriminate]. destruct (if precise then _ else _) as [(x & y)| |]; cbn [bind]; intros X; try discriminate X.
  apply Ret_inj in X. subst s. split; [reflexivity|assumption].
Qed.
Theorem c131_ends_refuted :
  forall (checks : bool) (show : f64 -> list N) (o : options) (w : nat) (k : N) (precise : bool) (prefix : option nat) (n_w : world) (file : list N)
         (ts : list f64) (s : fseries),
    returns (load_from (n_parse n_w) prefix file) (Some ts) -> fseries_new (n_zeros n_w) ts w precise = Ret s ->
    N.of_nat w = (2 ^ k)%N -> (2 ^ 14 <= N.of_nat w)%N \/ length ts = w ->
    (forall fuel out, fprogram checks show o w precise prefix n_w file fuel <> Ret (Some out)) /\
    (o_exact o = false -> (forall text, o_max_memory o = Some text -> exists memory, from_str checks text = Ret (Some memory)) ->
     diverges (fprogram checks show o w precise prefix n_w file)).
Proof.
  intros checks show o w k precise prefix n_w file ts s (F0 & El) Es Ew Hw. destruct (series_data _ _ _ _ _ Es) as (Ed & Lw).
  assert (W1 : (1 <= w)%nat). { assert (2 ^ k <> 0)%N by (apply N.pow_nonzero; discriminate). lia. }
  pose proof (ffft_diverges (length ts) w ltac:(lia) (fft_length64_eq _ _ k Lw Ew Hw)) as Df.
  assert (Ld : forall fuel, load_from (n_parse n_w) prefix file fuel = Spin \/ load_from (n_parse n_w) prefix file fuel = Ret (Some ts)).
  { intros fuel. destruct (load_from (n_parse n_w) prefix file fuel) eqn:E0; [right|right|left; reflexivity]; rewrite <- (El (Nat.max F0 fuel)) by lia; rewrite <- E0; symmetry; unfold load_from in *; apply loop_mono; try lia; rewrite E0; discriminate. }
  split.
  - intros fuel out H. unfold fprogram in H. destruct (Ld fuel) as [E|E]; rewrite E in H; cbn [bind] in H; [discriminate H|]. rewrite Es in H. cbn [bind] in H. unfold fprepare in H. destruct (o_exact o) eqn:Ho; cbn [bind] in H.
    + unfold run, find_motiflets in H. rewrite Ho in H. cbn [e_average fsetting] in H. rewrite Ho, Ed, Df in H. destruct (faverage_pairwise_distance _ _ _ _ _ _) in H; cbn [bind] in H; discriminate H.
    + destruct (match o_max_memory o with Some text => _ | None => _ end) as [[m|]| |]; cbn [bind] in H; try discriminate H. rewrite Ed, Df in H. discriminate H.
  - intros Ho Hm fuel. unfold fprogram. destruct (Ld fuel) as [E|E]; rewrite E; cbn [bind]; [reflexivity|]. rewrite Es. cbn [bind]. unfold fprepare. rewrite Ho.
    assert (Em : exists m, match o_max_memory o with Some text => from_str checks text | None => Ret (Some (n_memory n_w / 2)%N) end = Ret (Some m)) by (destruct (o_max_memory o); eauto).
    destruct Em as (m & ->). cbn [bind]. rewrite Ed, Df. reflexivity.
Qed.
Print Assumptions c131_ends_refuted.

(** A file with a line that is not a number is an error, whatever the options; and the
    program panics on a series shorter than a window. *)
Theorem c131_refused :
  forall (checks : bool) (show : f64 -> list N) (o : options) (w : nat) (precise : bool) (n_w : world) (file : list N) (lines : list (list N)),
    (forall text x n, n_parse n_w text = Some (x, n) -> (n <= length text)%nat) -> lines_are file lines ->
    (numbers (n_parse n_w) lines = None -> returns (fprogram checks show o w precise None n_w file) None) /\
    (forall ts, numbers (n_parse n_w) lines = Some ts -> (length ts < w)%nat -> panics (fprogram checks show o w precise None n_w file)).
Proof.
  intros checks show o w precise n_w file lines Hc Hl. destruct (c55_load f64 (n_parse n_w) file lines Hc Hl) as (F & E). split.
  - intros N. rewrite N in E. exists F. intros n Hn. unfold fprogram. rewrite E by exact Hn. reflexivity.
  - intros ts N L. rewrite N in E. exists F. intros n Hn. unfold fprogram. rewrite E by exact Hn. cbn [bind]. unfold fseries_new, assert_. destruct (Nat.leb_spec w (length ts)); [lia|reflexivity].
Qed.
Print Assumptions c131_refused.

(** ** The zigzag of C125 and the series of C124, from their files *)
Definition text_file (l : list String.string) : list N := concat (map (fun s => codes s ++ [10%N]) l).
Definition zigzag_file : list N := text_file ["0"; "1"; "0"; "1"; "0"; "1"]%string.
Definition zigzag_world : world := {|
  n_parse := word_parser; n_zeros := z_ex; n_sdp := zigzag_dot; n_exp := fun _ => f_zero;
  n_sort_all := fun l => l; n_sort_trial := fun _ => by_hash; n_sort := fun _ _ => by_hash;
  n_order := fun from => Some match from with 0 => [0; 2; 1; 3] | 1 => [1; 3; 0; 2] | 2 => [2; 0; 1; 3] | _ => [3; 1; 0; 2] end%nat;
  n_split := Leaf (seq 0 4); n_given := Some (codes "0.75"); n_vector := [];
  n_shifts := fun _ _ => repeat f_zero 8; n_vectors := fun _ => repeat (nums [1; 0]%nat) 8;
  n_pairs := all_pairs; n_draws := by_turns 4; n_average_samples := 6; n_nearest_samples := 7;
  n_rest := fun _ => zigzag_search; n_memory := 4096%N |}.
Definition br_file : list N := text_file ["1"; "0"; "0"; "1"; "3"; "0"]%string.
Definition br_pairs (t : nat) : nat * nat := ((t mod 3)%nat, ((t + 1) mod 3)%nat).
Definition br_world : world := {|
  n_parse := word_parser; n_zeros := z_ex; n_sdp := dot_br; n_exp := fun _ => f_zero;
  n_sort_all := fun l => l; n_sort_trial := fun _ => by_hash; n_sort := fun _ _ => by_hash;
  n_order := order_br; n_split := Node (Leaf [0%nat]) (Leaf [1; 2]%nat); n_given := None; n_vector := [];
  n_shifts := fun _ _ => repeat f_zero 8; n_vectors := fun _ => repeat (nums [1; 0; 0]%nat) 8;
  n_pairs := br_pairs; n_draws := by_turns 3; n_average_samples := 5; n_nearest_samples := 7;
  n_rest := fun _ => zigzag_search; n_memory := 4096%N |}.

Lemma zigzag_sensible : sensible zigzag_world zigzag_data 2 zigzag_series.
Proof.
  split.
  - intros r k. apply by_hash_sorts.
  - intros r. split; [reflexivity|]. intros v Hv. apply repeat_spec in Hv. subst v. reflexivity.
  - reflexivity.
  - intros t. apply Nat.mod_upper_bound. discriminate.
  - intros memory. vm_compute. split; [lia|reflexivity].
  - intros from d Lf. change (length zigzag_data - 2)%nat with 4%nat in Lf. do 4 (destruct from as [|from]; [intros Hd; vm_compute in Hd; apply Ret_inj in Hd; subst d; apply sort_outcome_check; vm_compute; reflexivity|]). lia.
  - reflexivity.
Qed.
(** The program finds the repeat in the zigzag: the text of its output is "0, 0, 2". *)
Example c131_search_case :
  let o := Options false (Some (codes "1g")) 2 1 in
  plain plain_show /\ o_exact o = false /\
  load_from (n_parse zigzag_world) None zigzag_file 60 = Ret (Some zigzag_data) /\ fseries_new (n_zeros zigzag_world) zigzag_data 2 true = Ret zigzag_series /\
  (2 <= 2 < length zigzag_data)%nat /\ (N.of_nat (length zigzag_data) <= 2 ^ 32)%N /\ moderate zigzag_data /\ off_limit zigzag_series (length zigzag_data - 2) /\
  0 < / 2 ^ 36 <= / 64 /\ accurate zigzag_series (length zigzag_data - 2) 0 (/ 2 ^ 36) /\
  0 <= 2 ^ 500 /\ P_Seed64.dots_within zigzag_series zigzag_data 2 (n_sdp zigzag_world) 0 /\ profile_gap zigzag_series zigzag_data 2 (/ 2 ^ 36) 0 (40 * / 2 ^ 36) /\
  sensible zigzag_world zigzag_data 2 zigzag_series /\ (1 <= n_nearest_samples zigzag_world)%nat /\
  (forall i, (i < length zigzag_data - 2)%nat -> lively zigzag_series i -> exists j, (j < length zigzag_data - 2)%nat /\ lively zigzag_series j /\ ~ too_close (2 / 2) i j) /\
  fprogram true plain_show o 2 true None zigzag_world zigzag_file 60 = Ret (Some (codes "0, 0, 2" ++ [10%N])).
Proof.
  split; [apply plain_show_plain|]. split; [reflexivity|]. split; [vm_compute; reflexivity|]. split; [apply zigzag_new|].
  split; [change (length zigzag_data) with 6%nat; lia|]. split; [vm_compute; discriminate|]. split; [apply zigzag_moderate|]. split; [apply zigzag_off_limit|].
  split; [apply eps_ok|]. split; [apply zigzag_accurate|]. split; [apply pow_le; lra|]. split; [apply zigzag_dots|]. split; [apply zigzag_gap|]. split; [apply zigzag_sensible|].
  split; [vm_compute; lia|]. split; [|vm_compute; reflexivity].
  intros i Li _. change (length zigzag_data - 2)%nat with 4%nat in *. change (2 / 2)%nat with 1%nat. unfold too_close.
  destruct i as [|i]; [exists 2%nat|exists 0%nat]; (split; [lia|]); (split; [vm_compute; reflexivity|lia]).
Qed.
Example c131_exact_case :
  let o := Options true None 3 1 in
  plain plain_show /\ returns (load_from (n_parse br_world) None br_file) (Some data_br) /\ fseries_new (n_zeros br_world) data_br 3 true = Ret series_br /\
  usable data_br 3 /\ (3 < length data_br)%nat /\ moderate data_br /\ (N.of_nat 3 < 2 ^ 14)%N /\
  0 < / 2 ^ 40 <= / 64 /\ accurate series_br (length data_br - 3) 2 (/ 2 ^ 40) /\ (forall i, (i < length data_br - 3)%nat -> lively series_br i) /\
  / 2 ^ 40 <= 2 ^ 500 /\ BruteAccSpec.dots_within data_br 3 series_br (n_sdp br_world) (/ 2 ^ 40) (/ 2 ^ 40) (/ 2 ^ 20) /\
  sensible br_world data_br 3 series_br /\
  (forall t, (fst (n_pairs br_world t) < length data_br - 3)%nat /\ (snd (n_pairs br_world t) < length data_br - 3)%nat) /\
  length (filter (comparable series_br (3 / 2)) (draws (n_pairs br_world) 5)) = n_average_samples br_world /\
  option_map (map snd) (match fprogram true plain_show o 3 true None br_world br_file 60 with Ret (Some out) => rows out | _ => None end) = Some [[1; 2]; [0; 1; 2]]%N.
Proof.
  destruct c124_case as (A1 & A2 & A3 & A4 & A5 & A6 & A7 & A8 & _). rewrite A4.
  assert (P : 64 <= 2 ^ 40) by (rewrite (pow_IZR 2 40); change (2 ^ Z.of_nat 40)%Z with 1099511627776%Z; lra).
  assert (Q : / 2 ^ 40 <= / 64) by (apply Rinv_le; lra).
  split; [apply plain_show_plain|]. split. { apply (fmono_returns _ 60); [|vm_compute; reflexivity]. apply fmono_loop. intros; apply fmono_const. }
  split; [exact A3|]. split; [exact A2|]. split; [vm_compute; lia|]. split; [exact A1|]. split; [vm_compute; reflexivity|].
  split; [split; [apply Rinv_0_lt_compat; lra|exact Q]|]. split; [exact A5|]. split; [exact A6|]. split. { apply Rle_trans with 1; [lra|]. apply pow_R1_Rle. lra. }
  split; [exact A7|]. split.
  { split.
    - intros r k. apply by_hash_sorts.
    - intros r. split; [reflexivity|]. intros v Hv. apply repeat_spec in Hv. subst v. reflexivity.
    - reflexivity.
    - intros t. apply Nat.mod_upper_bound. discriminate.
    - intros memory. vm_compute. split; [lia|reflexivity].
    - rewrite A4. exact A8.
    - reflexivity. }
  split; [intros t; split; apply Nat.mod_upper_bound; discriminate|]. split; vm_compute; reflexivity.
Qed.
(** four numbers and a window of four *)
Example c131_ends_case : exists ts s, returns (load_from word_parser None (text_file ["1"; "2"; "2"; "5"]%string)) (Some ts) /\ fseries_new z_ex ts 4 true = Ret s /\
  N.of_nat 4 = (2 ^ 2)%N /\ length ts = 4%nat /\ from_str true (codes "1g") = Ret (Some 1073741824%N).
Proof.
  eexists. eexists. split. { apply (fmono_returns _ 60); [|vm_compute; reflexivity]. apply fmono_loop. intros; apply fmono_const. }
  split; [vm_compute; reflexivity|]. split; [reflexivity|]. split; vm_compute; reflexivity.
Qed.
Example c131_refused_case :
  let bad := [codes "1" ++ [10%N]; codes "two" ++ [10%N]] in let short := [codes "1" ++ [10%N]; codes "2"] in
  lines_are (concat bad) bad /\ numbers word_parser bad = None /\ lines_are (concat short) short /\ option_map (@length f64) (numbers word_parser short) = Some 2%nat.
Proof.
  split. { exists [codes "1"; codes "two"], []. split; [intros []|]. split; [repeat constructor; vm_compute; intuition discriminate|]. split; reflexivity. }
  split; [vm_compute; reflexivity|]. split; [|vm_compute; reflexivity].
  exists [codes "1"], (codes "2"). split; [vm_compute; intuition discriminate|]. split; [repeat constructor; vm_compute; intuition discriminate|]. split; reflexivity.
Qed.
