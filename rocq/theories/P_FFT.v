(** C49, C50, C52: sliding dot products and distance profiles. *)
From Coq Require Import Reals Lra.
From Verif Require Import Base RSpec RealProofs Series SeriesProofs FFT FFTProofs P_Series.
Local Open Scope R_scope.

Lemma new_fft_ok ts w precise s fuel f : (1 <= w)%nat -> series_new ts w precise = Ret s -> fft_new fuel s = Ret f -> made s ts w /\ fft_ok s f.
Proof.
  intros Lw E Ef. pose proof (series_new_made _ _ _ _ Lw E) as M. split; [exact M|]. destruct M as (Es & L1 & L2).
  apply (fft_new_ok s fuel f); [apply fft_length_ge|..]; try exact Ef; rewrite Es; cbn [s_w s_data]; lia.
Qed.

(** * C50: preparing the transforms terminates *)
(** It does not for a window that is a power of two, if it is at least [2 ^ 14] or as long
    as the series. *)
Theorem c50_terminates_refuted :
  forall (ts : list R) (w k : nat) (precise : bool) (s : series),
    series_new ts w precise = Ret s -> w = (2 ^ k)%nat ->
    (2 ^ 14 <= w)%nat \/ length ts = w ->
    diverges (fun fuel => fft_new fuel s).
Proof.
  intros ts w k precise s E Ew H. assert (Lw : (1 <= w)%nat) by (rewrite Ew; pose proof (Nat.pow_nonzero 2 k ltac:(lia)); lia).
  pose proof (series_new_made _ _ _ _ Lw E) as (Es & _ & L2). apply fft_new_diverges.
  - symmetry. apply fft_length_eq; rewrite Es; cbn [s_w s_data]; [exact L2|]. split; [exists k; exact Ew|exact H].
  - rewrite Es. cbn [s_data]. lia.
Qed.
Print Assumptions c50_terminates_refuted.
(** It does for all other windows.  Missing: those above. *)
Theorem c50_terminates_partial :
  forall (ts : list R) (w : nat) (precise : bool) (s : series),
    (1 <= w)%nat -> series_new ts w precise = Ret s ->
    ((forall k, w <> 2 ^ k) \/ (w < 2 ^ 14 /\ w < length ts))%nat ->
    exists f, returns (fun fuel => fft_new fuel s) f.
Proof.
  intros ts w precise s Lw E H. pose proof (series_new_made _ _ _ _ Lw E) as (Es & _ & L2). apply fft_new_returns.
  assert (Ls : (s_w s <= length (s_data s))%nat) by (rewrite Es; cbn [s_w s_data]; exact L2).
  pose proof (fft_length_ge s Ls). destruct (Nat.eq_dec (fft_length_of s) (s_w s)) as [Ee|]; [|lia]. exfalso.
  apply (fft_length_eq s Ls) in Ee. rewrite Es in Ee. cbn [s_w s_data] in Ee. destruct Ee as ((k & Ek) & Ee).
  destruct H as [H|H]; [exact (H k Ek)|]. lia.
Qed.
Print Assumptions c50_terminates_partial.
Example c50_case : exists s, series_new wave 2 false = Ret s /\ exists f, returns (fun fuel => fft_new fuel s) f.
Proof.
  destruct (wave_made false) as (s & E & _). exists s. split; [exact E|]. apply (c50_terminates_partial wave 2 false s); [lia|exact E|].
  right. split; [|cbn; lia]. change 2%nat with (2 ^ 1)%nat at 1. apply Nat.pow_lt_mono_r; lia.
Qed.
Example c50_case_refuted : exists s, series_new wave 4 false = Ret s /\ diverges (fun fuel => fft_new fuel s).
Proof.
  eexists. split; [apply series_new_ok; cbn; lia|]. apply (c50_terminates_refuted wave 4 2 false); [apply series_new_ok; cbn; lia|reflexivity|right; reflexivity].
Qed.

(** * C49: the sliding dot product *)
(** The callback is run once for each position, in order, with the dot product of the
    query and the window there. *)
Theorem c49_for_each :
  forall (ts : list R) (w : nat) (precise : bool) (s : series) (fuel : nat) (f : fftdata) (v : list R)
         (T : Type) (action : nat -> R -> T -> res T) (st : T),
    (1 <= w)%nat -> series_new ts w precise = Ret s -> fft_new fuel s = Ret f -> length v = w ->
    sliding_dot_product_for_each s f v action st =
    foreach (seq 0 (num_subsequences s)) (fun i st => action i (inner v (window ts w i)) st) st.
Proof. intros ts w precise s fuel f v T action st Lw E Ef Ev. destruct (new_fft_ok _ _ _ _ _ _ Lw E Ef) as (M & F). apply (for_each_ok s ts w f v M F Ev). Qed.
Print Assumptions c49_for_each.
Theorem c49_sliding_dot_product :
  forall (ts : list R) (w : nat) (precise : bool) (s : series) (fuel : nat) (f : fftdata) (v output : list R),
    (1 <= w)%nat -> series_new ts w precise = Ret s -> fft_new fuel s = Ret f -> length v = w ->
    length output = num_subsequences s ->
    sliding_dot_product s f v output = Ret (map (fun i => inner v (window ts w i)) (seq 0 (num_subsequences s))).
Proof.
  intros ts w precise s fuel f v output Lw E Ef Ev Lo. unfold sliding_dot_product. rewrite (c49_for_each _ _ _ _ _ _ _ _ _ _ Lw E Ef Ev).
  rewrite <- Lo. apply (update_loop _ (fun i _ => Ret (inner v (window ts w i))) (fun i => inner v (window ts w i))); reflexivity.
Qed.
Print Assumptions c49_sliding_dot_product.
(** The parallel version hands every entry of the output, with its position and dot product,
    to the callback. *)
Theorem c49_write :
  forall (ts : list R) (w : nat) (precise : bool) (s : series) (fuel : nat) (f : fftdata) (v : list R)
         (O : Type) (out : list O) (func : nat -> R -> O -> O),
    (1 <= w)%nat -> series_new ts w precise = Ret s -> fft_new fuel s = Ret f -> length v = w ->
    length out = num_subsequences s ->
    exists out', sliding_dot_product_write s f v out (fun i x o => Ret (func i x o)) = Ret out' /\
      length out' = length out /\
      forall i o, nth_error out i = Some o -> nth_error out' i = Some (func i (inner v (window ts w i)) o).
Proof.
  intros ts w precise s fuel f v O out func Lw E Ef Ev Lo. destruct (new_fft_ok _ _ _ _ _ _ Lw E Ef) as (M & F).
  destruct (write_ok s ts w f v M F Ev out (fun i x o => Ret (func i x o)) Lo) as (out' & E1 & L & H); [intros i o _; eexists; reflexivity|].
  exists out'. split; [exact E1|]. split; [exact L|]. intros i o Eo. destruct (H i o Eo) as (o' & E2 & E3). apply Ret_inj in E2. congruence.
Qed.
Print Assumptions c49_write.
Example c49_case : exists s fuel f, series_new wave 2 false = Ret s /\ fft_new fuel s = Ret f /\
  sliding_dot_product s f [1; 2] [0; 0] = Ret [2; 7] /\
  sliding_dot_product_write s f [1; 2] [10; 20] (fun i x o => Ret (o + x)) = Ret [12; 27].
Proof.
  destruct c50_case as (s & E & f & n & Hf). exists s, n, f. split; [exact E|]. split; [apply Hf; lia|].
  destruct (wave_made false) as (s' & E' & N & _). rewrite E in E'. apply Ret_inj in E'. subst s'. split.
  - rewrite (c49_sliding_dot_product wave 2 false s n f) by (try apply Hf; try rewrite N; auto). rewrite N. cbn. f_equal. f_equal; [lra|]. f_equal. lra.
  - destruct (c49_write wave 2 false s n f [1; 2] R [10; 20] (fun i x o => o + x) ltac:(lia) E (Hf n ltac:(lia)) eq_refl ltac:(rewrite N; reflexivity)) as (out' & E1 & L & H).
    rewrite E1. f_equal. destruct out' as [|a [|b [|]]]; try discriminate L. pose proof (H 0%nat 10 eq_refl) as H0. pose proof (H 1%nat 20 eq_refl) as H1. cbn in H0, H1.
    injection H0 as ->. injection H1 as ->. f_equal; [lra|]. f_equal. lra.
Qed.

(** * C52: distance profiles *)
Theorem c52_distance_profile :
  forall (ts : list R) (w : nat) (precise : bool) (s : series) (fuel : nat) (f : fftdata) (from : nat) (out : list (option R)),
    (1 <= w)%nat -> series_new ts w precise = Ret s -> fft_new fuel s = Ret f ->
    (from < num_subsequences s)%nat -> is_flat s from = Ret false -> length out = num_subsequences s ->
    exists profile, distance_profile s f from out = Ret profile /\ length profile = num_subsequences s /\
      forall i, (i < num_subsequences s)%nat ->
        exists flat, is_flat s i = Ret flat /\
          nth_error profile i =
            Some (if (i =? from)%nat then Some 0 else if flat then None else Some (euclid (znorm (window ts w from)) (znorm (window ts w i)))).
Proof.
  intros ts w precise s fuel f from out Lw E Ef Lf Ff Lo. destruct (new_fft_ok _ _ _ _ _ _ Lw E Ef) as (M & F).
  rewrite (profile_ok s ts w f M F from out Lf Ff Lo). eexists. split; [reflexivity|]. split; [rewrite map_length, seq_length; reflexivity|].
  intros i Hi. unfold is_flat. rewrite (made_sd _ _ _ M i Hi). cbn [bind]. eexists. split; [reflexivity|].
  rewrite nth_error_map, (nth_error_nth' _ 0%nat), seq_nth by (rewrite ?seq_length; lia). cbn [option_map Nat.add]. f_equal.
  destruct (i =? from)%nat; [reflexivity|]. destruct (Rle_dec _ _); reflexivity.
Qed.
Print Assumptions c52_distance_profile.
Theorem c52_znormalized_dot_product :
  forall (ts : list R) (w : nat) (precise : bool) (s : series) (fuel : nat) (f : fftdata) (v : list R)
         (T : Type) (action : nat -> option R -> T -> res T) (st : T),
    (1 <= w)%nat -> series_new ts w precise = Ret s -> fft_new fuel s = Ret f -> length v = w ->
    znormalized_sliding_dot_product_for_each s f v action st =
    foreach (seq 0 (num_subsequences s))
      (fun i st => action i (if Rlt_dec (sd_of (window ts w i)) (/ 10000) then None else Some (inner v (znorm (window ts w i)))) st) st.
Proof. intros ts w precise s fuel f v T action st Lw E Ef Ev. destruct (new_fft_ok _ _ _ _ _ _ Lw E Ef) as (M & F). apply (zfor_each_ok s ts w f M F v action st Ev). Qed.
Print Assumptions c52_znormalized_dot_product.
Theorem c52_znormalized_dot_product_write :
  forall (ts : list R) (w : nat) (precise : bool) (s : series) (fuel : nat) (f : fftdata) (v : list R)
         (O : Type) (out : list O) (func : nat -> option R -> O -> O),
    (1 <= w)%nat -> series_new ts w precise = Ret s -> fft_new fuel s = Ret f -> length v = w ->
    length out = num_subsequences s ->
    exists out', znormalized_sliding_dot_product_write s f v out (fun i x o => Ret (func i x o)) = Ret out' /\
      length out' = length out /\
      forall i o, nth_error out i = Some o -> nth_error out' i =
        Some (func i (if Rlt_dec (sd_of (window ts w i)) (/ 10000) then None else Some (inner v (znorm (window ts w i)))) o).
Proof.
  intros ts w precise s fuel f v O out func Lw E Ef Ev Lo. destruct (new_fft_ok _ _ _ _ _ _ Lw E Ef) as (M & F).
  destruct (zwrite_ok s ts w f M F v out (fun i x o => Ret (func i x o)) Ev Lo) as (out' & E1 & L & H); [intros i o _; eexists; reflexivity|].
  exists out'. split; [exact E1|]. split; [exact L|]. intros i o Eo. destruct (H i o Eo) as (o' & E2 & E3). apply Ret_inj in E2. rewrite E3, <- E2. reflexivity.
Qed.
Print Assumptions c52_znormalized_dot_product_write.
Example c52_case : exists s fuel f, series_new bump 2 false = Ret s /\ fft_new fuel s = Ret f /\ num_subsequences s = 2%nat /\ is_flat s 0 = Ret false /\
  distance_profile s f 0 [None; None] = Ret [Some 0; Some (sqrt 8)].
Proof.
  destruct c47_case as (s & d & E & N & F0 & F1 & Ed & _).
  destruct (c50_terminates_partial bump 2 false s ltac:(lia) E) as (f & n & Hf).
  { right. split; [|cbn; lia]. change 2%nat with (2 ^ 1)%nat at 1. apply Nat.pow_lt_mono_r; lia. }
  exists s, n, f. split; [exact E|]. split; [apply Hf; lia|]. split; [exact N|]. split; [exact F0|].
  destruct (c52_distance_profile bump 2 false s n f 0 [None; None] ltac:(lia) E (Hf n ltac:(lia)) ltac:(lia) F0 ltac:(rewrite N; reflexivity)) as (p & Ep & Lp & Hp).
  rewrite Ep. f_equal. rewrite N in Lp. destruct p as [|a [|b [|]]]; try discriminate Lp.
  destruct (Hp 0%nat ltac:(lia)) as (fl0 & _ & H0). destruct (Hp 1%nat ltac:(lia)) as (fl1 & Efl & H1). rewrite F1 in Efl. apply Ret_inj in Efl. subst fl1.
  cbn [nth_error Nat.eqb] in H0, H1. injection H0 as ->. injection H1 as ->. do 2 f_equal. f_equal.
  unfold window, znorm. cbn [firstn skipn bump map]. rewrite !sd_pair. unfold mean_of. cbn [length]. rewrite !total_cons, total_nil. cbn [INR].
  replace (Rabs (0 - 1)) with 1 by (unfold Rabs; destruct (Rcase_abs _); lra). replace (Rabs (1 - 0)) with 1 by (unfold Rabs; destruct (Rcase_abs _); lra).
  unfold euclid. cbn [combine map fst snd]. rewrite !total_cons, total_nil. f_equal. field.
Qed.
