(** C45-C48, C51, C64: statistics and distances in exact arithmetic. *)
From Coq Require Import Reals Lra.
From Verif Require Import Base RSpec RealProofs Series SeriesProofs.
Local Open Scope R_scope.

(** The series used as example: 0, 1, 3, 0, with windows of length 2. *)
Definition wave : list R := [0; 1; 3; 0].
Lemma sd_pair x y : sd_of [x; y] = Rabs (x - y) / 2.
Proof.
  unfold sd_of, mean_of. cbn [map length]. rewrite !total_cons, total_nil. cbn [INR].
  replace (((x - (x + (y + 0)) / (1 + 1)) * (x - (x + (y + 0)) / (1 + 1)) + ((y - (x + (y + 0)) / (1 + 1)) * (y - (x + (y + 0)) / (1 + 1)) + 0)) / (1 + 1))
    with (Rsqr ((x - y) / 2)) by (unfold Rsqr; field).
  rewrite sqrt_Rsqr_abs. unfold Rdiv. rewrite Rabs_mult. f_equal. apply Rabs_pos_eq. lra.
Qed.
Lemma wave_made precise : exists s, series_new wave 2 precise = Ret s /\ num_subsequences s = 2%nat /\
  sd s 0 = Ret (sd_of [0; 1]) /\ sd s 1 = Ret (sd_of [1; 3]).
Proof.
  eexists. split; [apply series_new_ok; cbn; lia|]. split; [reflexivity|]. split; reflexivity.
Qed.
Lemma wave_not_flat precise s : series_new wave 2 precise = Ret s -> is_flat s 0 = Ret false /\ is_flat s 1 = Ret false.
Proof.
  intros E. destruct (wave_made precise) as (s' & E' & _ & H0 & H1). rewrite E in E'. apply Ret_inj in E'. subst s'.
  unfold is_flat. rewrite H0, H1. cbn [bind]. rewrite !sd_pair. unfold flat_sd_threshold.
  replace (Rabs (0 - 1)) with 1 by (unfold Rabs; destruct (Rcase_abs _); lra). replace (Rabs (1 - 3)) with 2 by (unfold Rabs; destruct (Rcase_abs _); lra).
  split; (destruct (Rle_dec _ _); [lra|reflexivity]).
Qed.
Lemma not_flat_sd s ts w i : made s ts w -> (i < num_subsequences s)%nat -> is_flat s i = Ret false -> 0 < sd_of (window ts w i).
Proof.
  intros M L. unfold is_flat. rewrite (made_sd _ _ _ M i L). cbn [bind]. intros E. apply Ret_inj in E. unfold flat_sd_threshold in E.
  destruct (Rle_dec _ _); [discriminate|lra].
Qed.

(** * C45: rolling statistics *)
(** The constructor accepts every window that is not longer than the series; the mean and
    the standard deviation it records are those of each window, in both modes. *)
Theorem c45_rolling_statistics :
  forall (ts : list R) (w : nat) (precise : bool),
    (1 <= w <= length ts)%nat ->
    exists s, series_new ts w precise = Ret s /\
      forall i, (i < num_subsequences s)%nat ->
        mean s i = Ret (mean_of (window ts w i)) /\ sd s i = Ret (sd_of (window ts w i)).
Proof.
  intros ts w precise (L1 & L2). eexists. split; [apply series_new_ok; assumption|].
  set (s := Series _ _ _ _). assert (M : made s ts w) by (split; auto).
  intros i Hi. rewrite (made_mean _ _ _ M i Hi), (made_sd _ _ _ M i Hi). auto.
Qed.
Print Assumptions c45_rolling_statistics.
(** Splitting the series in chunks of any size makes no difference. *)
Theorem c45_chunks :
  forall (ts : list R) (w chunk : nat),
    (1 <= w <= length ts)%nat -> (1 <= chunk)%nat ->
    rolling_stat_chunked chunk ts w = rolling_stat_slow ts w.
Proof.
  intros ts w chunk (L1 & L2) Lc. rewrite rolling_chunked_ok, rolling_slow_ok by assumption. reflexivity.
Qed.
Print Assumptions c45_chunks.
Theorem c45_modes_agree :
  forall (ts : list R) (w : nat), (1 <= w <= length ts)%nat -> series_new ts w false = series_new ts w true.
Proof. intros ts w (L1 & L2). rewrite !series_new_ok by assumption. reflexivity. Qed.
Print Assumptions c45_modes_agree.
Example c45_case : exists s, series_new wave 2 false = Ret s /\ (1 < num_subsequences s)%nat /\ mean s 1 = Ret 2 /\ sd s 1 = Ret 1.
Proof.
  destruct (wave_made false) as (s & E & N & _ & H1). exists s. split; [exact E|]. split; [lia|].
  destruct (c45_rolling_statistics wave 2 false ltac:(cbn; lia)) as (s' & E' & H). rewrite E in E'. apply Ret_inj in E'. subst s'.
  destruct (H 1%nat ltac:(lia)) as (Hm & _). rewrite Hm, H1. split.
  - f_equal. unfold mean_of. cbn. lra.
  - f_equal. rewrite sd_pair. replace (Rabs (1 - 3)) with 2 by (unfold Rabs; destruct (Rcase_abs _); lra). lra.
Qed.

(** * C46: the z-normalised distance *)
Theorem c46_distance :
  forall (ts : list R) (w : nat) (precise : bool) (s : series) (i j : nat),
    (1 <= w)%nat -> series_new ts w precise = Ret s ->
    (i < num_subsequences s)%nat -> (j < num_subsequences s)%nat ->
    is_flat s i = Ret false -> is_flat s j = Ret false ->
    zeucl s i j = Ret (euclid (znorm (window ts w i)) (znorm (window ts w j))) /\
    zeucl_slow s i j = zeucl s i j /\
    znormalized s i = Ret (znorm (window ts w i)).
Proof.
  intros ts w precise s i j Lw E Li Lj Fi Fj. pose proof (series_new_made _ _ _ _ Lw E) as M.
  pose proof (not_flat_sd s ts w i M Li Fi). pose proof (not_flat_sd s ts w j M Lj Fj).
  rewrite (zeucl_ok s ts w), (zeucl_slow_ok s ts w), (made_znorm _ _ _ M) by assumption. auto.
Qed.
Print Assumptions c46_distance.
Theorem c46_metric :
  forall (ts : list R) (w : nat) (precise : bool) (s : series) (i j k : nat),
    (1 <= w)%nat -> series_new ts w precise = Ret s ->
    (i < num_subsequences s)%nat -> (j < num_subsequences s)%nat -> (k < num_subsequences s)%nat ->
    is_flat s i = Ret false -> is_flat s j = Ret false -> is_flat s k = Ret false ->
    exists dij djk dik,
      zeucl s i j = Ret dij /\ zeucl s j k = Ret djk /\ zeucl s i k = Ret dik /\
      zeucl s j i = Ret dij /\
      0 <= dij <= maximum_distance s /\
      (window ts w i = window ts w j -> dij = 0) /\
      dik <= dij + djk.
Proof.
  intros ts w precise s i j k Lw E Li Lj Lk Fi Fj Fk. pose proof (series_new_made _ _ _ _ Lw E) as M.
  pose proof (not_flat_sd s ts w i M Li Fi). pose proof (not_flat_sd s ts w j M Lj Fj). pose proof (not_flat_sd s ts w k M Lk Fk).
  pose proof (made_len _ _ _ M i Li) as Ei. pose proof (made_len _ _ _ M j Lj) as Ej. pose proof (made_len _ _ _ M k Lk) as Ek.
  eexists. eexists. eexists. split; [apply (zeucl_ok s ts w); assumption|]. split; [apply (zeucl_ok s ts w); assumption|]. split; [apply (zeucl_ok s ts w); assumption|].
  rewrite (zeucl_ok s ts w j i) by assumption. split; [f_equal; apply euclid_sym; rewrite !znorm_length; congruence|].
  split; [split; [apply euclid_nonneg|]|split].
  - unfold maximum_distance. rewrite (made_w _ _ _ M). rewrite <- Ei at 3. apply zdistance_bound; [congruence|assumption|assumption].
  - intros ->. unfold zdistance. apply euclid_refl.
  - unfold zdistance. apply euclid_triangle; rewrite !znorm_length; congruence.
Qed.
Print Assumptions c46_metric.
(** Scaling by a positive factor and adding a constant changes no distance. *)
Lemma window_map f ts w i : window (map f ts) w i = map f (window ts w i).
Proof. unfold window. rewrite skipn_map, firstn_map. reflexivity. Qed.
Theorem c46_scale_and_offset :
  forall (ts : list R) (w : nat) (precise precise' : bool) (s s' : series) (scale offset : R) (i j : nat),
    (1 <= w)%nat -> 0 < scale ->
    series_new ts w precise = Ret s ->
    series_new (map (fun x => scale * x + offset) ts) w precise' = Ret s' ->
    (i < num_subsequences s)%nat -> (j < num_subsequences s)%nat ->
    is_flat s i = Ret false -> is_flat s j = Ret false ->
    zeucl s' i j = zeucl s i j.
Proof.
  intros ts w precise precise' s s' a b i j Lw Ha E E' Li Lj Fi Fj.
  pose proof (series_new_made _ _ _ _ Lw E) as M. pose proof (series_new_made _ _ _ _ Lw E') as M'.
  pose proof (not_flat_sd s ts w i M Li Fi) as Hi. pose proof (not_flat_sd s ts w j M Lj Fj) as Hj.
  assert (N : num_subsequences s' = num_subsequences s) by (rewrite (made_num _ _ _ M), (made_num _ _ _ M'), map_length; reflexivity).
  destruct (sd_pos_var _ Hi) as (_ & Pi). destruct (sd_pos_var _ Hj) as (_ & Pj).
  rewrite (zeucl_ok s ts w) by assumption. rewrite (zeucl_ok s' _ w i j M') by
    (rewrite ?N, ?window_map, ?sd_affine by assumption; try assumption; apply Rmult_lt_0_compat; assumption).
  unfold zdistance. rewrite !window_map, !znorm_affine by assumption. reflexivity.
Qed.
Print Assumptions c46_scale_and_offset.
Example c46_case : exists s s', series_new wave 2 false = Ret s /\ num_subsequences s = 2%nat /\ is_flat s 0 = Ret false /\ is_flat s 1 = Ret false /\
  series_new (map (fun x => 3 * x + 7) wave) 2 true = Ret s' /\ zeucl s 0 1 = Ret 0.
Proof.
  destruct (wave_made false) as (s & E & N & _). destruct (wave_not_flat _ _ E) as (F0 & F1). exists s. eexists. split; [exact E|]. split; [exact N|].
  split; [exact F0|]. split; [exact F1|]. split; [apply series_new_ok; cbn; lia|].
  destruct (c46_distance wave 2 false s 0 1 ltac:(lia) E ltac:(lia) ltac:(lia) F0 F1) as (-> & _). f_equal.
  replace (znorm (window wave 2 1)) with (znorm (window wave 2 0)); [apply euclid_refl|].
  unfold window, znorm. cbn [firstn skipn wave map]. rewrite !sd_pair. unfold mean_of. cbn [length]. rewrite !total_cons, total_nil. cbn [INR].
  replace (Rabs (0 - 1)) with 1 by (unfold Rabs; destruct (Rcase_abs _); lra). replace (Rabs (1 - 3)) with 2 by (unfold Rabs; destruct (Rcase_abs _); lra).
  f_equal; [field|]. f_equal. field.
Qed.

(** * C47: the distance with early exit *)
(** [None] as a threshold is infinity. *)
Theorem c47_early_exit :
  forall (ts : list R) (w : nat) (precise : bool) (s : series) (i j : nat) (threshold : option R) (d : R),
    (1 <= w)%nat -> series_new ts w precise = Ret s ->
    (i < num_subsequences s)%nat -> (j < num_subsequences s)%nat ->
    is_flat s i = Ret false -> is_flat s j = Ret false ->
    (forall t, threshold = Some t -> 0 <= t) ->
    zeucl s i j = Ret d ->
    ((match threshold with Some t => d <= t | None => True end) -> zeucl_threshold s i j threshold = Ret (Some d)) /\
    ((match threshold with Some t => t < d | None => False end) -> zeucl_threshold s i j threshold = Ret None).
Proof.
  intros ts w precise s i j threshold d Lw E Li Lj Fi Fj Ht Ed. pose proof (series_new_made _ _ _ _ Lw E) as M.
  pose proof (not_flat_sd s ts w i M Li Fi). pose proof (not_flat_sd s ts w j M Lj Fj).
  rewrite (zeucl_ok s ts w) in Ed by assumption. apply Ret_inj in Ed. subst d.
  rewrite (zeucl_threshold_ok s ts w) by assumption. destruct threshold as [t|].
  - rewrite (Rabs_pos_eq t) by (apply Ht; reflexivity). split; intros Hd; destruct (Rle_dec _ t); try reflexivity; lra.
  - split; [reflexivity|intros []].
Qed.
Print Assumptions c47_early_exit.
Theorem c47_negative :
  forall (s : series) (i j : nat) (t : R), zeucl_threshold s i j (Some (- t)) = zeucl_threshold s i j (Some t).
Proof. intros s i j t. unfold zeucl_threshold. cbn [option_map]. replace (- t * - t) with (t * t) by ring. reflexivity. Qed.
Print Assumptions c47_negative.
(** The two windows of the example are at distance 0; in this series, where the windows
    are 0, 1 and 1, 0, the distance is positive. *)
Definition bump : list R := [0; 1; 0; 5].
Example c47_case : exists s d, series_new bump 2 false = Ret s /\ num_subsequences s = 2%nat /\ is_flat s 0 = Ret false /\ is_flat s 1 = Ret false /\
  zeucl s 0 1 = Ret d /\ 0 < d /\ zeucl_threshold s 0 1 (Some 0) = Ret None /\ zeucl_threshold s 0 1 None = Ret (Some d).
Proof.
  eexists. exists (sqrt 8). split; [apply series_new_ok; cbn; lia|]. set (s := Series _ _ _ _).
  assert (E : series_new bump 2 false = Ret s) by (apply series_new_ok; cbn; lia).
  assert (F : is_flat s 0 = Ret false /\ is_flat s 1 = Ret false).
  { unfold is_flat. change (sd s 0) with (@Ret R (sd_of [0; 1])). change (sd s 1) with (@Ret R (sd_of [1; 0])). cbn [bind]. rewrite !sd_pair. unfold flat_sd_threshold.
    replace (Rabs (0 - 1)) with 1 by (unfold Rabs; destruct (Rcase_abs _); lra). replace (Rabs (1 - 0)) with 1 by (unfold Rabs; destruct (Rcase_abs _); lra).
    split; (destruct (Rle_dec _ _); [lra|reflexivity]). }
  destruct F as (F0 & F1). split; [reflexivity|]. split; [exact F0|]. split; [exact F1|].
  assert (Ed : zeucl s 0 1 = Ret (sqrt 8)).
  { destruct (c46_distance bump 2 false s 0 1 ltac:(lia) E ltac:(cbn; lia) ltac:(cbn; lia) F0 F1) as (-> & _). f_equal.
    unfold window, znorm. cbn [firstn skipn bump map]. rewrite !sd_pair. unfold mean_of. cbn [length]. rewrite !total_cons, total_nil. cbn [INR].
    replace (Rabs (0 - 1)) with 1 by (unfold Rabs; destruct (Rcase_abs _); lra). replace (Rabs (1 - 0)) with 1 by (unfold Rabs; destruct (Rcase_abs _); lra).
    unfold euclid. cbn [combine map fst snd]. rewrite !total_cons, total_nil. f_equal. field. }
  assert (0 < sqrt 8) by (apply sqrt_lt_R0; lra).
  split; [exact Ed|]. split; [assumption|].
  split.
  - destruct (c47_early_exit bump 2 false s 0 1 (Some 0) (sqrt 8) ltac:(lia) E ltac:(cbn; lia) ltac:(cbn; lia) F0 F1 ltac:(intros t Ht; injection Ht as <-; lra) Ed) as (_ & H1). apply H1. assumption.
  - destruct (c47_early_exit bump 2 false s 0 1 None (sqrt 8) ltac:(lia) E ltac:(cbn; lia) ltac:(cbn; lia) F0 F1 ltac:(discriminate) Ed) as (H1 & _). apply H1. exact I.
Qed.

(** * C48: dot products by lanes *)
Theorem c48_dot :
  forall a b : list R, length a = length b ->
    dot a b = total (map (fun i => nth i a 0 * nth i b 0) (seq 0 (length a))) /\
    norm a = sqrt (total (map (fun i => nth i a 0 * nth i a 0) (seq 0 (length a)))).
Proof. intros a b E. unfold norm. rewrite !dot_inner, !(inner_seq _ _ (length a)) by auto. auto. Qed.
Print Assumptions c48_dot.
Theorem c48_zdot :
  forall (a b : list R) (ma sda mb sdb : R), length a = length b ->
    zdot a ma sda b mb sdb =
      (if Req_EM_T sda 0 then None else if Req_EM_T sdb 0 then None
       else Some (total (map (fun i => (nth i a 0 - ma) * (nth i b 0 - mb)) (seq 0 (length a))) / (sda * sdb))).
Proof.
  intros a b ma sda mb sdb E. unfold zdot. destruct (Req_EM_T sda 0); [reflexivity|]. destruct (Req_EM_T sdb 0); [reflexivity|].
  do 2 f_equal. rewrite simd_chunks by (auto; lia). unfold lanes2. rewrite (combine_seq a b 0 0 (length a)), map_map by auto. reflexivity.
Qed.
Print Assumptions c48_zdot.
(** nine values: one chunk of eight and a remainder of one *)
Example c48_case : dot [1; 2; 3; 4; 5; 6; 7; 8; 9] [1; 1; 1; 1; 1; 1; 1; 1; 2] = 54.
Proof. rewrite (proj1 (c48_dot [1; 2; 3; 4; 5; 6; 7; 8; 9] [1; 1; 1; 1; 1; 1; 1; 1; 2] eq_refl)). cbn. lra. Qed.

(** * C51: every window is considered *)
(** The windows of length [w] are those that fit; they are one more than
    [num_subsequences], for every series. *)
Theorem c51_every_window_refuted :
  forall (ts : list R) (w : nat) (precise : bool) (s : series),
    (1 <= w)%nat -> series_new ts w precise = Ret s ->
    length (filter (fun i => i + w <=? length ts)%nat (seq 0 (length ts))) = (num_subsequences s + 1)%nat.
Proof.
  intros ts w precise s Lw E. pose proof (series_new_made _ _ _ _ Lw E) as M. rewrite (made_num _ _ _ M). destruct M as (_ & _ & L).
  assert (Q : seq 0 (length ts) = seq 0 (length ts - w + 1) ++ seq (0 + (length ts - w + 1)) (w - 1)) by (rewrite <- seq_app; f_equal; lia).
  rewrite Q, filter_app, app_length.
  assert (T : forall l, (forall i, In i l -> (i + w <=? length ts)%nat = true) -> filter (fun i => (i + w <=? length ts)%nat) l = l).
  { induction l as [|x l IH]; intros H; [reflexivity|]. cbn [filter]. rewrite (H x (or_introl eq_refl)). f_equal. apply IH. intros; apply H; right; auto. }
  assert (F : forall l, (forall i, In i l -> (i + w <=? length ts)%nat = false) -> filter (fun i => (i + w <=? length ts)%nat) l = []).
  { induction l as [|x l IH]; intros H; [reflexivity|]. cbn [filter]. rewrite (H x (or_introl eq_refl)). apply IH. intros; apply H; right; auto. }
  rewrite T by (intros i Hi; apply in_seq in Hi; apply Nat.leb_le; lia). rewrite F by (intros i Hi; apply in_seq in Hi; apply Nat.leb_gt; lia).
  rewrite seq_length. cbn. lia.
Qed.
Print Assumptions c51_every_window_refuted.
(** Those that are considered are windows of the series.  Missing: the last one. *)
Lemma nth_error_first_n {A} k : forall w (l : list A), (k < w)%nat -> nth_error (firstn w l) k = nth_error l k.
Proof.
  induction k as [|k IH]; intros [|w] [|x l] L; try lia; try reflexivity. cbn [firstn nth_error]. apply IH. lia.
Qed.
Theorem c51_windows_partial :
  forall (ts : list R) (w : nat) (precise : bool) (s : series) (i : nat),
    (1 <= w)%nat -> series_new ts w precise = Ret s -> (i < num_subsequences s)%nat ->
    exists v, subsequence s i = Ret v /\ length v = w /\ forall k, (k < w)%nat -> nth_error v k = nth_error ts (i + k).
Proof.
  intros ts w precise s i Lw E Li. pose proof (series_new_made _ _ _ _ Lw E) as M.
  exists (window ts w i). rewrite (made_sub _ _ _ M i Li). split; [reflexivity|]. split; [apply (made_len _ _ _ M i Li)|].
  intros k Lk. unfold window. rewrite (nth_error_first_n k w) by exact Lk. clear. revert ts. induction i as [|i IH]; intros ts; [reflexivity|].
  destruct ts as [|x ts]; [cbn; destruct k; reflexivity|]. cbn [skipn Nat.add nth_error]. apply IH.
Qed.
Print Assumptions c51_windows_partial.
Example c51_case : exists s, series_new wave 2 true = Ret s /\ (1 < num_subsequences s)%nat.
Proof. destruct (wave_made true) as (s & E & N & _). exists s. split; [exact E|lia]. Qed.

(** * C64: polynomials *)
Theorem c64_polynomial :
  forall (z : R) (coeff : list R),
    polynomial z coeff = total (map (fun i => nth i coeff 0 * z ^ i) (seq 0 (length coeff))).
Proof. exact polynomial_ok. Qed.
Print Assumptions c64_polynomial.
Example c64_case : polynomial 2 [3; -1; 2] = 9 /\ polynomial 2 [] = 0.
Proof. rewrite !c64_polynomial. cbn. split; lra. Qed.
