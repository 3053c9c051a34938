(** C53, C54: sampled distance statistics. *)
From Coq Require Import Reals Lra.
From Verif Require Import Base RSpec RealProofs Series SeriesProofs FFT FFTProofs Sampling SamplingSpec SamplingProofs P_Series P_FFT.
Local Open Scope R_scope.

(** * C53: the average pairwise distance *)
(** It is not computed at all for some series without any flat window: whatever is drawn,
    the sampling never ends. *)
Theorem c53_terminates_refuted :
  exists (ts : list R) (w : nat) (s : series),
    series_new ts w false = Ret s /\ (0 < num_subsequences s)%nat /\
    (forall i, (i < num_subsequences s)%nat -> is_flat s i = Ret false) /\
    forall draw : nat -> nat * nat,
      (forall t, (fst (draw t) < num_subsequences s)%nat /\ (snd (draw t) < num_subsequences s)%nat) ->
      diverges (average_pairwise_distance average_samples s w draw).
Proof.
  destruct (wave_made false) as (s & E & N & _). destruct (wave_not_flat false s E) as (F0 & F1).
  exists wave, 2%nat, s. split; [exact E|]. split; [lia|]. split.
  { intros i L. rewrite N in L. destruct i as [|[|i]]; [exact F0|exact F1|lia]. }
  intros draw Hd. pose proof (series_new_made wave 2 false s ltac:(lia) E) as M.
  apply (proj2 (average_cases s wave 2 M average_samples 2 draw ltac:(lia) Hd)). intros T.
  replace (usable_pairs wave 2 2 draw T) with (@nil (nat * nat)); [cbn; unfold average_samples; lia|]. symmetry. unfold usable_pairs, draws.
  generalize (seq 0 T) as q. induction q as [|t q IH]; [reflexivity|]. cbn [map filter]. rewrite IH. unfold usable_pair.
  destruct (Hd t) as (L1 & L2). rewrite N in L1, L2. replace (apart 2 (fst (draw t)) (snd (draw t))) with false by (unfold apart; lia).
  rewrite andb_false_r. reflexivity.
Qed.
Print Assumptions c53_terminates_refuted.
(** It ends as soon as as many usable pairs as wanted have been drawn, with their average
    distance.  Missing: streams that draw fewer. *)
Theorem c53_terminates_partial :
  forall (ts : list R) (w : nat) (precise : bool) (s : series) (samples zone : nat) (draw : nat -> nat * nat) (T : nat),
    (1 <= w)%nat -> series_new ts w precise = Ret s -> (0 < num_subsequences s)%nat ->
    (forall t, (fst (draw t) < num_subsequences s)%nat /\ (snd (draw t) < num_subsequences s)%nat) ->
    length (usable_pairs ts w zone draw T) = samples ->
    returns (average_pairwise_distance samples s zone draw)
      (total (map (fun ij => euclid (znorm (window ts w (fst ij))) (znorm (window ts w (snd ij)))) (usable_pairs ts w zone draw T)) / INR samples).
Proof.
  intros ts w precise s samples zone draw T Lw E Ln Hd ET. pose proof (series_new_made _ _ _ _ Lw E) as M.
  exact (proj1 (average_cases s ts w M samples zone draw Ln Hd) T ET).
Qed.
Print Assumptions c53_terminates_partial.
(** For streams that draw fewer it never ends; with no window at all it aborts. *)
Theorem c53_otherwise_refuted :
  forall (ts : list R) (w : nat) (precise : bool) (s : series) (samples zone : nat) (draw : nat -> nat * nat),
    (1 <= w)%nat -> series_new ts w precise = Ret s ->
    (num_subsequences s = 0%nat -> panics (average_pairwise_distance samples s zone draw)) /\
    ((0 < num_subsequences s)%nat ->
     (forall t, (fst (draw t) < num_subsequences s)%nat /\ (snd (draw t) < num_subsequences s)%nat) ->
     (forall T, (length (usable_pairs ts w zone draw T) < samples)%nat) ->
     diverges (average_pairwise_distance samples s zone draw)).
Proof.
  intros ts w precise s samples zone draw Lw E. pose proof (series_new_made _ _ _ _ Lw E) as M. split.
  - intros N. exists O. intros m _. unfold average_pairwise_distance. rewrite N. reflexivity.
  - intros Ln Hd H. exact (proj2 (average_cases s ts w M samples zone draw Ln Hd) H).
Qed.
Print Assumptions c53_otherwise_refuted.
(** With independent uniform draws it ends with probability one, if a single usable pair
    exists: the chance of not being done after [T] draws vanishes.  Missing: series without
    a usable pair. *)
Theorem c53_almost_surely_partial :
  forall (ts : list R) (w : nat) (precise : bool) (s : series) (samples zone i j : nat) (eps : R),
    (1 <= w)%nat -> series_new ts w precise = Ret s ->
    (i < num_subsequences s)%nat -> (j < num_subsequences s)%nat -> usable_pair ts w zone (i, j) = true -> 0 < eps ->
    let positions := seq 0 (num_subsequences s) in
    exists (T0 : nat) (slow : list (nat * nat) -> bool),
      (forall T, (T0 <= T)%nat -> chance (list_prod positions positions) T slow <= eps) /\
      forall (T : nat) (draw : nat -> nat * nat),
        (forall t, In (draw t) (list_prod positions positions)) -> slow (draws draw T) = false ->
        exists average, returns (average_pairwise_distance samples s zone draw) average.
Proof.
  intros ts w precise s samples zone i j eps Lw E Li Lj U He positions. pose proof (series_new_made _ _ _ _ Lw E) as M.
  destruct (few_vanishes (usable_pair ts w zone) (list_prod positions positions)) with (k := samples) (eps := eps) as (T0 & H0); [|exact He|].
  { exists (i, j). split; [|exact U]. apply in_prod; apply in_seq; lia. }
  exists T0, (fun x => (length (filter (usable_pair ts w zone) x) <? samples)%nat). split; [exact H0|].
  intros T draw Hd Hs. destruct (exact_hits (usable_pair ts w zone) draw samples T ltac:(lia)) as (T' & E').
  eexists. apply (c53_terminates_partial ts w precise s samples zone draw T' Lw E); [lia| |exact E'].
  intros t. specialize (Hd t). destruct (draw t) as (a & b). apply in_prod_iff in Hd. destruct Hd as (Ha & Hb). apply in_seq in Ha, Hb. cbn [fst snd]. lia.
Qed.
Print Assumptions c53_almost_surely_partial.
Example c53_case : exists s, series_new wave 2 false = Ret s /\ num_subsequences s = 2%nat /\ usable_pair wave 2 1 (0, 1)%nat = true /\
  returns (average_pairwise_distance 3 s 1 (fun t => if Nat.even t then (0, 1) else (1, 1))%nat) 0.
Proof.
  destruct c46_case as (s & s0 & E & N & F0 & F1 & _ & Ed). exists s. split; [exact E|]. split; [exact N|].
  pose proof (series_new_made wave 2 false s ltac:(lia) E) as M.
  rewrite (is_flat_made s wave 2 M) in F0, F1 by lia. apply Ret_inj in F0, F1.
  split; [unfold usable_pair; cbn [fst snd]; rewrite F0, F1; reflexivity|].
  set (draw := fun t : nat => if Nat.even t then (0, 1)%nat else (1, 1)%nat).
  assert (Hu : usable_pairs wave 2 1 draw 5 = [(0, 1); (0, 1); (0, 1)]%nat).
  { unfold usable_pairs, draws, draw. cbn [map seq Nat.even filter]. unfold usable_pair. cbn [fst snd]. rewrite F0, F1. reflexivity. }
  pose proof (c53_terminates_partial wave 2 false s 3 1 draw 5 ltac:(lia) E ltac:(lia)) as H. rewrite Hu in H.
  destruct (c46_distance wave 2 false s 0 1 ltac:(lia) E ltac:(lia) ltac:(lia)) as (Hz & _); [rewrite (is_flat_made s wave 2 M) by lia; congruence..|].
  rewrite Ed in Hz. apply Ret_inj in Hz. cbn [map fst snd] in H. rewrite <- Hz in H. rewrite !total_cons, total_nil in H.
  replace ((0 + (0 + (0 + 0))) / INR 3) with 0 in H by lra. apply H; [|reflexivity].
  intros t. rewrite N. unfold draw. destruct (Nat.even t); cbn; lia.
Qed.

(** * C54: the seed pair *)
(** Every position has a partner it does not overlap. *)
Theorem c54_partner :
  forall n zone i : nat, (2 * zone <= n)%nat -> (i < n)%nat -> exists j, (j < n)%nat /\ (i + zone <= j \/ j + zone <= i)%nat.
Proof.
  intros n zone i Hn Hi. destruct (Nat.lt_ge_cases (i + zone) n) as [L|L]; [exists (i + zone)%nat; lia|exists (i - zone)%nat; lia].
Qed.
Print Assumptions c54_partner.
(** The sampling does not abort: it returns once enough windows that are not flat have been
    drawn and otherwise goes on for ever. *)
Theorem c54_no_abort :
  forall (ts : list R) (w : nat) (precise : bool) (s : series) (fuel : nat) (f : fftdata) (samples zone : nat) (draw : nat -> nat),
    (1 <= w)%nat -> series_new ts w precise = Ret s -> fft_new fuel s = Ret f ->
    (1 <= zone)%nat -> (2 * zone <= num_subsequences s)%nat -> (forall t, (draw t < num_subsequences s)%nat) ->
    (forall T, length (usable_positions ts w draw T) = samples -> exists r, returns (nearest_neighbor_distance_stats samples s f zone draw) r) /\
    ((forall T, (length (usable_positions ts w draw T) < samples)%nat) -> diverges (nearest_neighbor_distance_stats samples s f zone draw)).
Proof.
  intros ts w precise s fuel f samples zone draw Lw E Ef Lz Ln Hd. destruct (new_fft_ok _ _ _ _ _ _ Lw E Ef) as (M & F).
  destruct (nearest_cases s ts w f M F samples zone draw Lz Ln Hd) as (H1 & H2). split; [|exact H2].
  intros T ET. destruct (H1 T ET) as (m & a & p & Hr & _). eexists. exact Hr.
Qed.
Print Assumptions c54_no_abort.
(** With independent uniform draws and one window that is not flat it returns with
    probability one. *)
Theorem c54_almost_surely :
  forall (ts : list R) (w : nat) (precise : bool) (s : series) (fuel : nat) (f : fftdata) (samples zone i : nat) (eps : R),
    (1 <= w)%nat -> series_new ts w precise = Ret s -> fft_new fuel s = Ret f ->
    (1 <= zone)%nat -> (2 * zone <= num_subsequences s)%nat ->
    (i < num_subsequences s)%nat -> flat ts w i = false -> 0 < eps ->
    exists (T0 : nat) (slow : list nat -> bool),
      (forall T, (T0 <= T)%nat -> chance (seq 0 (num_subsequences s)) T slow <= eps) /\
      forall (T : nat) (draw : nat -> nat),
        (forall t, In (draw t) (seq 0 (num_subsequences s))) -> slow (draws draw T) = false ->
        exists r, returns (nearest_neighbor_distance_stats samples s f zone draw) r.
Proof.
  intros ts w precise s fuel f samples zone i eps Lw E Ef Lz Ln Li Fi He.
  destruct (few_vanishes (fun i => negb (flat ts w i)) (seq 0 (num_subsequences s))) with (k := samples) (eps := eps) as (T0 & H0); [|exact He|].
  { exists i. split; [apply in_seq; lia|rewrite Fi; reflexivity]. }
  exists T0, (fun x => (length (filter (fun i => negb (flat ts w i)) x) <? samples)%nat). split; [exact H0|].
  intros T draw Hd Hs. destruct (exact_hits (fun i => negb (flat ts w i)) draw samples T ltac:(lia)) as (T' & E').
  apply (c54_no_abort ts w precise s fuel f samples zone draw Lw E Ef Lz Ln) with (T := T'); [|exact E'].
  intros t. specialize (Hd t). apply in_seq in Hd. lia.
Qed.
Print Assumptions c54_almost_surely.
(** A flat window is no partner.  If some sampled window has a partner that is not flat,
    the result is the closest such pair. *)
Theorem c54_seed_partial :
  forall (ts : list R) (w : nat) (precise : bool) (s : series) (fuel : nat) (f : fftdata) (samples zone : nat) (draw : nat -> nat) (T : nat)
         (minimum average : option R) (a b : nat),
    (1 <= w)%nat -> series_new ts w precise = Ret s -> fft_new fuel s = Ret f ->
    (1 <= zone)%nat -> (2 * zone <= num_subsequences s)%nat -> (forall t, (draw t < num_subsequences s)%nat) ->
    length (usable_positions ts w draw T) = samples ->
    returns (nearest_neighbor_distance_stats samples s f zone draw) (minimum, average, (a, b)) ->
    (exists i j, In i (usable_positions ts w draw T) /\ (j < num_subsequences s)%nat /\ usable_pair ts w zone (i, j) = true) ->
    (a + zone <= b)%nat /\ (b < num_subsequences s)%nat /\
    (In a (usable_positions ts w draw T) \/ In b (usable_positions ts w draw T)) /\
    minimum = Some (euclid (znorm (window ts w a)) (znorm (window ts w b))) /\
    forall i j, In i (usable_positions ts w draw T) -> (j < num_subsequences s)%nat -> usable_pair ts w zone (i, j) = true ->
      euclid (znorm (window ts w a)) (znorm (window ts w b)) <= euclid (znorm (window ts w i)) (znorm (window ts w j)).
Proof.
  intros ts w precise s fuel f samples zone draw T minimum average a b Lw E Ef Lz Ln Hd ET Hr (i & j & Hi & Lj & U).
  destruct (new_fft_ok _ _ _ _ _ _ Lw E Ef) as (M & F).
  destruct (nearest_cases s ts w f M F samples zone draw Lz Ln Hd) as (H1 & _). destruct (H1 T ET) as (m' & a' & p' & Hr' & Hs).
  pose proof (returns_det _ _ _ Hr Hr') as Ee. injection Ee as <- <- <-.
  assert (Hc : forall i j, (j < num_subsequences s)%nat -> usable_pair ts w zone (i, j) = true ->
    (j < num_subsequences s)%nat /\ apart zone i j = true /\ flat ts w j = false).
  { clear. intros i j L U. unfold usable_pair in U. cbn [fst snd] in U. apply andb_true_iff in U. destruct U as (U & U3).
    apply andb_true_iff in U. destruct U as (_ & U2). apply negb_true_iff in U2. auto. }
  destruct minimum as [d|]; cbn [seed_ok fst snd] in Hs.
  - destruct Hs as (S1 & S2 & _ & _ & S5 & S6 & S7). split; [exact S1|]. split; [exact S2|]. split; [exact S5|]. split; [rewrite S6; reflexivity|].
    intros i0 j0 Hi0 Lj0 U0. specialize (S7 i0 j0 Hi0 (Hc _ _ Lj0 U0)). rewrite S6 in S7. exact S7.
  - destruct Hs as (_ & Hs). destruct (Hs i j Hi (Hc _ _ Lj U)).
Qed.
Print Assumptions c54_seed_partial.
(** Otherwise it is no pair at all, although the series may well have usable pairs. *)
Definition corner : list R := [0; 1; 0; 1; 1; 1].
Lemma corner_flat : flat corner 2 0 = false /\ flat corner 2 1 = false /\ flat corner 2 2 = false /\ flat corner 2 3 = true.
Proof.
  unfold flat, window, corner. cbn [firstn skipn]. rewrite !sd_pair.
  replace (Rabs (0 - 1)) with 1 by (unfold Rabs; destruct (Rcase_abs _); lra). replace (Rabs (1 - 0)) with 1 by (unfold Rabs; destruct (Rcase_abs _); lra).
  replace (Rabs (1 - 1)) with 0 by (unfold Rabs; destruct (Rcase_abs _); lra).
  repeat split; destruct (Rle_dec _ _); try reflexivity; exfalso; lra.
Qed.
Theorem c54_seed_refuted :
  exists (ts : list R) (w zone : nat) (s : series) (f : fftdata) (fuel : nat) (draw : nat -> nat),
    series_new ts w false = Ret s /\ fft_new fuel s = Ret f /\ (1 <= zone)%nat /\ (2 * zone <= num_subsequences s)%nat /\
    (forall t, (draw t < num_subsequences s)%nat) /\
    (exists i j, (i < num_subsequences s)%nat /\ (j < num_subsequences s)%nat /\ usable_pair ts w zone (i, j) = true) /\
    forall samples, exists average, returns (nearest_neighbor_distance_stats samples s f zone draw) (None, average, (0, 0)%nat).
Proof.
  destruct corner_flat as (F0 & F1 & F2 & F3).
  assert (E : exists s, series_new corner 2 false = Ret s /\ num_subsequences s = 4%nat) by (eexists; split; [apply series_new_ok; cbn; lia|reflexivity]).
  destruct E as (s & E & N). destruct (c50_terminates_partial corner 2 false s ltac:(lia) E) as (f & n & Hf).
  { right. split; [|cbn; lia]. change 2%nat with (2 ^ 1)%nat at 1. apply Nat.pow_lt_mono_r; lia. }
  exists corner, 2%nat, 2%nat, s, f, n, (fun _ => 1%nat). split; [exact E|]. split; [apply Hf; lia|]. split; [lia|]. split; [lia|]. split; [intros t; lia|].
  split. { exists 0%nat, 2%nat. split; [lia|]. split; [lia|]. unfold usable_pair. cbn [fst snd]. rewrite F0, F2. reflexivity. }
  assert (Hn4 : (2 * 2 <= num_subsequences s)%nat) by lia. assert (Hd1 : forall t : nat, (1 < num_subsequences s)%nat) by (intros; lia).
  intros samples. destruct (new_fft_ok corner 2 false s n f ltac:(lia) E (Hf n ltac:(lia))) as (M & F).
  destruct (nearest_cases s corner 2 f M F samples 2 (fun _ => 1%nat) ltac:(lia) Hn4 Hd1) as (H1 & _).
  assert (Hu : forall T, usable_positions corner 2 (fun _ => 1%nat) T = repeat 1%nat T).
  { intros T. unfold usable_positions, draws. transitivity (map (fun _ : nat => 1%nat) (seq 0 T)).
    - generalize (seq 0 T). intros q. induction q as [|t q IH]; [reflexivity|]. cbn [map filter]. rewrite F1. cbn [negb]. rewrite IH. reflexivity.
    - clear. assert (G : forall c T k : nat, map (fun _ : nat => c) (seq k T) = repeat c T); [|apply G].
      intros c T0. induction T0 as [|T0 IH]; intros k; cbn [seq map repeat]; [reflexivity|]. f_equal. apply IH. }
  destruct (H1 samples) as (m & av & p & Hr & Hs); [rewrite Hu; apply repeat_length|]. exists av. rewrite Hu in Hs.
  destruct m as [d|]; cbn [seed_ok] in Hs.
  - exfalso. destruct Hs as (S1 & S2 & S3 & S4 & S5 & _). rewrite N in S2.
    destruct p as (a & b). cbn [fst snd] in *. assert (A1 : a = 1%nat \/ b = 1%nat) by (destruct S5 as [S5|S5]; apply repeat_spec in S5; auto).
    assert (b = 3%nat \/ (a = 0%nat /\ b = 2%nat)) as [->|(-> & ->)] by lia; [congruence|lia].
  - destruct Hs as (-> & _). exact Hr.
Qed.
Print Assumptions c54_seed_refuted.
Example c54_case : exists s f fuel, series_new corner 2 false = Ret s /\ fft_new fuel s = Ret f /\ num_subsequences s = 4%nat /\
  usable_pair corner 2 2 (0, 2)%nat = true /\
  exists minimum average, returns (nearest_neighbor_distance_stats 3 s f 2 (fun t => (t mod 4)%nat)) (minimum, average, (0, 2)%nat).
Proof.
  destruct corner_flat as (F0 & F1 & F2 & F3).
  assert (E : exists s, series_new corner 2 false = Ret s /\ num_subsequences s = 4%nat) by (eexists; split; [apply series_new_ok; cbn; lia|reflexivity]).
  destruct E as (s & E & N). destruct (c50_terminates_partial corner 2 false s ltac:(lia) E) as (f & n & Hf).
  { right. split; [|cbn; lia]. change 2%nat with (2 ^ 1)%nat at 1. apply Nat.pow_lt_mono_r; lia. }
  exists s, f, n. split; [exact E|]. split; [apply Hf; lia|]. split; [exact N|].
  assert (U : usable_pair corner 2 2 (0, 2)%nat = true) by (unfold usable_pair; cbn [fst snd]; rewrite F0, F2; reflexivity). split; [exact U|].
  assert (Hu : usable_positions corner 2 (fun t => (t mod 4)%nat) 3 = [0; 1; 2]%nat).
  { unfold usable_positions, draws. cbn [map seq]. change (0 mod 4)%nat with 0%nat. change (1 mod 4)%nat with 1%nat. change (2 mod 4)%nat with 2%nat.
    cbn [filter]. rewrite F0, F1, F2. reflexivity. }
  assert (Hd : forall t, (t mod 4 < num_subsequences s)%nat) by (intros t; rewrite N; apply Nat.mod_upper_bound; lia).
  destruct (proj1 (c54_no_abort corner 2 false s n f 3 2 (fun t => (t mod 4)%nat) ltac:(lia) E (Hf n ltac:(lia)) ltac:(lia) ltac:(lia) Hd) 3%nat) as (((m & av) & (a & b)) & Hr); [rewrite Hu; reflexivity|].
  exists m, av. destruct (c54_seed_partial corner 2 false s n f 3 2 (fun t => (t mod 4)%nat) 3 m av a b) as (A1 & A2 & A3 & A4 & _); try lia; try assumption; [apply Hf; lia|rewrite Hu; reflexivity|..].
  { exists 0%nat, 2%nat. rewrite Hu, N. split; [left; reflexivity|]. split; [lia|exact U]. }
  destruct (new_fft_ok corner 2 false s n f ltac:(lia) E (Hf n ltac:(lia))) as (M & F).
  destruct (nearest_cases s corner 2 f M F 3 2 (fun t => (t mod 4)%nat) ltac:(lia) ltac:(lia) Hd) as (H1 & _). destruct (H1 3%nat ltac:(rewrite Hu; reflexivity)) as (m' & av' & p' & Hr' & Hs).
  pose proof (returns_det _ _ _ Hr Hr') as Ee. injection Ee as <- <- <-. rewrite A4 in Hs. cbn [seed_ok fst snd] in Hs. destruct Hs as (_ & S2 & S3 & S4 & _).
  rewrite N in S2. assert (a = 0%nat /\ b = 2%nat) as (-> & ->); [|exact Hr].
  destruct (Nat.eq_dec b 3) as [->|]; [congruence|]. lia.
Qed.
