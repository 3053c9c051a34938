(** C115: which windows a series has, and how many. *)
From Coq Require Import Reals Lra.
From Verif Require Import Base RSpec RealProofs Series SeriesProofs P_Series Counts.
Local Open Scope R_scope.

(** the pairs of different windows among the first [n], each once *)
Definition window_pairs (n : nat) : list (nat * nat) :=
  filter (fun ij => fst ij <? snd ij)%nat (list_prod (seq 0 n) (seq 0 n)).

(** * C115: windows *)
(** Window [i] is the [w] values from position [i]; a window that is not wholly inside the
    series is refused, never shortened. *)
Theorem c115_windows :
  forall (ts : list R) (w : nat) (precise : bool) (s : series) (i : nat),
    (1 <= w)%nat -> series_new ts w precise = Ret s ->
    (forall v, subsequence s i = Ret v <->
       length v = w /\ forall k, (k < w)%nat -> exists x, nth_error v k = Some x /\ nth_error ts (i + k) = Some x) /\
    (subsequence s i = Panic <-> (length ts < i + w)%nat).
Proof.
  intros ts w precise s i Lw E. pose proof (series_new_made _ _ _ _ Lw E) as M.
  unfold subsequence, slice, assert_. rewrite (made_w _ _ _ M), (made_data _ _ _ M).
  destruct (Nat.leb_spec i (i + w)) as [_|]; [|lia]. cbn [andb].
  destruct (Nat.leb_spec (i + w) (length ts)) as [L|L].
  - split; [|split; [discriminate|lia]]. intros v. replace (i + w - i)%nat with w by lia.
    assert (A : forall k, (k < w)%nat -> nth_error (firstn w (skipn i ts)) k = nth_error ts (i + k)).
    { intros k Hk. rewrite <- (firstn_skipn i ts) at 2. rewrite nth_error_app2 by (rewrite firstn_length; lia).
      rewrite firstn_length. replace (i + k - Nat.min i (length ts))%nat with k by lia.
      rewrite <- (firstn_skipn w (skipn i ts)) at 2. rewrite nth_error_app1; [reflexivity|rewrite firstn_length, skipn_length; lia]. }
    split.
    + intros H. apply Ret_inj in H. subst v. split; [rewrite firstn_length, skipn_length; lia|]. intros k Hk. rewrite (A k Hk).
      destruct (nth_error ts (i + k)) as [x|] eqn:Ex; [exists x; auto|]. apply nth_error_None in Ex. lia.
    + intros (Hl & H). f_equal. apply (nth_ext _ _ 0 0); [rewrite Hl, firstn_length, skipn_length; lia|].
      intros k Hk. rewrite firstn_length, skipn_length in Hk. assert (Hk' : (k < w)%nat) by lia. specialize (A k Hk').
      destruct (H k Hk') as (x & E1 & E2). rewrite E2 in A. rewrite (nth_error_nth _ _ _ A), (nth_error_nth _ _ _ E1). reflexivity.
  - split; [|split; [intros _; exact L|reflexivity]]. intros v. split; [discriminate|]. intros (Hl & H).
    destruct (H (w - 1)%nat ltac:(lia)) as (x & _ & Hx).
    assert (i + (w - 1) < length ts)%nat by (apply nth_error_Some; congruence). lia.
Qed.
Print Assumptions c115_windows.

(** Statistics, z-normalised values and flatness are known for the windows counted by
    [num_subsequences] and for no other. *)
Theorem c115_known :
  forall (ts : list R) (w : nat) (precise : bool) (s : series) (i : nat),
    (1 <= w)%nat -> series_new ts w precise = Ret s ->
    if (i <? num_subsequences s)%nat then
      mean s i = Ret (mean_of (window ts w i)) /\ sd s i = Ret (sd_of (window ts w i)) /\
      znormalized s i = Ret (znorm (window ts w i)) /\
      (exists flat, is_flat s i = Ret flat /\ (flat = true <-> sd_of (window ts w i) <= / 10000))
    else mean s i = Panic /\ sd s i = Panic /\ znormalized s i = Panic /\ is_flat s i = Panic.
Proof.
  intros ts w precise s i Lw E. pose proof (series_new_made _ _ _ _ Lw E) as M.
  destruct (Nat.ltb_spec i (num_subsequences s)) as [L|L].
  - split; [apply (made_mean _ _ _ M i L)|]. split; [apply (made_sd _ _ _ M i L)|]. split; [apply (made_znorm _ _ _ M i L)|].
    unfold is_flat. rewrite (made_sd _ _ _ M i L). cbn [bind]. eexists. split; [reflexivity|]. unfold flat_sd_threshold.
    destruct (Rle_dec _ _); [tauto|]. split; [discriminate|tauto].
  - rewrite (made_num _ _ _ M) in L. destruct M as (-> & _).
    assert (A : mean (Series ts w (means ts w 0 (length ts - w)) (sds ts w 0 (length ts - w))) i = Panic).
    { unfold mean, get. cbn [s_avg]. destruct (nth_error _ i) eqn:X; [|reflexivity].
      assert (H : nth_error (means ts w 0 (length ts - w)) i <> None) by congruence. apply nth_error_Some in H.
      unfold means in H. rewrite map_length, seq_length in H. lia. }
    assert (B : sd (Series ts w (means ts w 0 (length ts - w)) (sds ts w 0 (length ts - w))) i = Panic).
    { unfold sd, get. cbn [s_sd]. destruct (nth_error _ i) eqn:X; [|reflexivity].
      assert (H : nth_error (sds ts w 0 (length ts - w)) i <> None) by congruence. apply nth_error_Some in H.
      unfold sds in H. rewrite map_length, seq_length in H. lia. }
    unfold znormalized, is_flat. rewrite A, B. auto.
Qed.
Print Assumptions c115_known.

(** The last window is inside the series, but nothing is known of it. *)
Theorem c115_all_known_refuted :
  forall (ts : list R) (w : nat) (precise : bool) (s : series),
    (1 <= w)%nat -> series_new ts w precise = Ret s ->
    exists i v, subsequence s i = Ret v /\ (i + w)%nat = length ts /\ mean s i = Panic /\ sd s i = Panic /\ is_flat s i = Panic.
Proof.
  intros ts w precise s Lw E. pose proof (series_new_made _ _ _ _ Lw E) as M. assert (L : (w <= length ts)%nat) by apply M.
  exists (length ts - w)%nat, (window ts w (length ts - w)). split.
  - unfold subsequence. rewrite (made_w _ _ _ M), (made_data _ _ _ M). apply slice_window. lia.
  - split; [lia|]. pose proof (c115_known ts w precise s (length ts - w) Lw E) as K. rewrite (made_num _ _ _ M), Nat.ltb_irrefl in K.
    intuition.
Qed.
Print Assumptions c115_all_known_refuted.

(** The number of flat windows. *)
Theorem c115_flat :
  forall (ts : list R) (w : nat) (precise : bool) (s : series),
    (1 <= w)%nat -> series_new ts w precise = Ret s ->
    exists flat, NoDup flat /\ length flat = count_flat s /\
      forall i, In i flat <-> (i < num_subsequences s)%nat /\ sd_of (window ts w i) <= / 10000.
Proof.
  intros ts w precise s Lw E. pose proof (series_new_made _ _ _ _ Lw E) as M.
  set (test := fun x => if Rle_dec x flat_sd_threshold then true else false).
  exists (filter (fun i => test (sd_of (window ts w i))) (seq 0 (length ts - w))).
  split; [apply NoDup_filter, seq_NoDup|]. split.
  - unfold count_flat. destruct M as (-> & _). cbn [s_sd]. unfold sds. fold test. generalize (seq 0 (length ts - w)) as l.
    induction l as [|i l IH]; [reflexivity|]. cbn [map filter]. destruct (test _); cbn [length]; rewrite IH; reflexivity.
  - intros i. rewrite filter_In, in_seq, (made_num _ _ _ M). unfold test, flat_sd_threshold.
    destruct (Rle_dec _ _); [intuition lia|]. intuition discriminate.
Qed.
Print Assumptions c115_flat.

(** ** The number of pairs *)
Lemma row_pairs i a n : length (filter (fun ij => fst ij <? snd ij)%nat (map (fun y => (i, y)) (seq a n))) = (n - (i + 1 - a))%nat.
Proof.
  revert a. induction n as [|n IH]; intros a; [reflexivity|]. cbn [seq map filter fst snd].
  destruct (Nat.ltb_spec i a); cbn [length]; rewrite IH; lia.
Qed.
Lemma rows_pairs n : forall b a, (a + b <= n)%nat ->
  (2 * length (filter (fun ij => fst ij <? snd ij) (list_prod (seq a b) (seq 0 n))) + b * (2 * a + b + 1) = b * (2 * n))%nat.
Proof.
  induction b as [|b IH]; intros a L; [reflexivity|]. cbn [seq list_prod]. rewrite filter_app, app_length, row_pairs.
  specialize (IH (S a) ltac:(lia)). nia.
Qed.
Lemma window_pairs_length n : (2 * length (window_pairs n) = n * (n - 1))%nat.
Proof. pose proof (rows_pairs n n 0 ltac:(lia)) as H. unfold window_pairs. nia. Qed.

(** The number of pairs is that of the pairs of different windows, as long as the product
    computed on the way fits; with no window at all, it does not count as overflow only in
    optimised builds. *)
Theorem c115_pairs :
  forall (ts : list R) (w : nat) (precise : bool) (s : series) (checks : bool),
    (1 <= w)%nat -> series_new ts w precise = Ret s ->
    (N.of_nat (num_subsequences s) <= 2 ^ 32)%N ->
    num_subsequences s = (length ts - w)%nat /\
    memory s = (8 * N.of_nat (length ts + 2 * num_subsequences s))%N /\
    (num_subsequence_pairs checks s = Ret (N.of_nat (length (window_pairs (num_subsequences s))))
     \/ checks = true /\ num_subsequences s = 0%nat /\ num_subsequence_pairs checks s = Panic).
Proof.
  intros ts w precise s checks Lw E B. pose proof (series_new_made _ _ _ _ Lw E) as M.
  split; [apply (made_num _ _ _ M)|]. split.
  { unfold memory. rewrite (made_num _ _ _ M). destruct M as (-> & _). cbn [s_data s_sd s_avg]. unfold means, sds. rewrite !map_length, seq_length. lia. }
  pose proof (window_pairs_length (num_subsequences s)) as P. unfold num_subsequence_pairs.
  set (n := num_subsequences s) in *. clearbody n.
  unfold usize_sub. destruct (N.leb_spec 1 (N.of_nat n)) as [L|L].
  - left. cbn [bind]. unfold usize_mul.
    assert (O : (N.of_nat n * (N.of_nat n - 1) < 2 ^ 64)%N).
    { apply N.le_lt_trans with (2 ^ 32 * (2 ^ 32 - 1))%N; [|reflexivity]. apply N.mul_le_mono; lia. }
    destruct (N.leb_spec (2 ^ 64) (N.of_nat n * (N.of_nat n - 1))); [lia|]. rewrite andb_false_r. cbn [bind]. rewrite N.mod_small by exact O.
    f_equal. symmetry. apply (N.div_unique _ _ _ 0); [reflexivity|]. nia.
  - assert (n = 0%nat) by lia. subst n. destruct checks; [right; auto|left]. reflexivity.
Qed.
Print Assumptions c115_pairs.

(** Above, the number reported is wrong (or the program panics, if overflow is checked). *)
Theorem c115_pairs_refuted :
  forall (s : series), N.of_nat (num_subsequences s) = (2 ^ 32 + 1)%N ->
    num_subsequence_pairs true s = Panic /\ num_subsequence_pairs false s = Ret (2 ^ 31)%N.
Proof. intros s H. unfold num_subsequence_pairs. rewrite H. split; reflexivity. Qed.
Print Assumptions c115_pairs_refuted.

(** The series 0, 1, 3, 0 with windows of length 2: three windows fit, two are known. *)
Example c115_case : exists s, series_new wave 2 true = Ret s /\ num_subsequences s = 2%nat /\
  subsequence s 2 = Ret [3; 0] /\ subsequence s 3 = Panic /\ mean s 2 = Panic /\ count_flat s = 0%nat /\
  num_subsequence_pairs true s = Ret 1%N /\ memory s = 64%N.
Proof.
  destruct (wave_made true) as (s & E & N & _). exists s. split; [exact E|]. split; [exact N|].
  pose proof (c115_known wave 2 true s 2 ltac:(lia) E) as K. rewrite N in K. cbn [Nat.ltb Nat.leb] in K. destruct K as (K & _).
  rewrite series_new_ok in E by (cbn; lia). apply Ret_inj in E.
  split; [subst s; reflexivity|]. split; [subst s; reflexivity|]. split; [exact K|].
  destruct (wave_not_flat true s) as (F0 & F1); [subst s; apply series_new_ok; cbn; lia|].
  split; [|subst s; split; reflexivity].
  subst s. unfold is_flat in F0, F1. unfold count_flat. cbn [s_sd]. change (length wave - 2)%nat with 2%nat. unfold sds. cbn [seq map filter].
  apply Ret_inj in F0. apply Ret_inj in F1. change (sd_of (window wave 2 (0 + 0))) with (sd_of (window wave 2 0)) in *. 
  rewrite F0, F1. reflexivity.
Qed.
Example c115_empty : exists s, series_new wave 4 true = Ret s /\ num_subsequence_pairs true s = Panic /\ num_subsequence_pairs false s = Ret 0%N.
Proof. eexists. split; [apply series_new_ok; cbn; lia|]. split; reflexivity. Qed.
(** a series with [2^32 + 1] windows *)
Example c115_large : exists s, N.of_nat (num_subsequences s) = (2 ^ 32 + 1)%N /\ exists ts, series_new ts 1 true = Ret s.
Proof.
  set (n := N.to_nat (2 ^ 32 + 2)). assert (Hn : N.of_nat n = (2 ^ 32 + 2)%N) by apply N2Nat.id. clearbody n.
  eexists. split; [|exists (repeat 0 n); apply series_new_ok; rewrite ?repeat_length; lia].
  unfold num_subsequences. cbn [s_data s_w]. rewrite repeat_length. lia.
Qed.
