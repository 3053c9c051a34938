From Coq Require Import Reals Lra Psatz.
From Verif Require Import Base RSpec RealProofs Series.
Local Open Scope R_scope.

Lemma rsum_total l : rsum l = total l.
Proof.
  unfold rsum. rewrite <- (Rplus_0_r (total l)). generalize 0 as a. induction l as [|x l IH]; intros a; cbn [fold_left]; [rewrite total_nil; lra|].
  rewrite IH, total_cons. lra.
Qed.
Lemma rsum_acc {A} (f : A -> R) l a : fold_left (fun acc x => acc + f x) l a = a + total (map f l).
Proof. revert a. induction l as [|x l IH]; intros a; cbn [fold_left map]; rewrite ?total_nil, ?total_cons; [lra|]. rewrite IH. lra. Qed.
Lemma slice_ret l a b : (a <= b)%nat -> (b <= length l)%nat -> slice l a b = Ret (firstn (b - a) (skipn a l)).
Proof. intros H1 H2. unfold slice, assert_. rewrite (proj2 (Nat.leb_le a b) H1), (proj2 (Nat.leb_le b _) H2). reflexivity. Qed.
Lemma slice_window ts w i : (i + w <= length ts)%nat -> slice ts i (i + w) = Ret (window ts w i).
Proof. intros H. rewrite slice_ret by lia. unfold window. do 2 f_equal. lia. Qed.
Lemma window_length ts w i : (i + w <= length ts)%nat -> length (window ts w i) = w.
Proof. intros H. unfold window. rewrite firstn_length, skipn_length. lia. Qed.
Lemma gtb_true a b : gtb a b = true <-> b < a.
Proof. unfold gtb. destruct (Rlt_dec b a); split; intros; auto; discriminate || contradiction. Qed.
Lemma gtb_false a b : gtb a b = false <-> a <= b.
Proof. unfold gtb. destruct (Rlt_dec b a); split; intros; auto; try discriminate; lra. Qed.

Lemma foreach_seq_total {S} (body : nat -> S -> res S) (I : nat -> S -> Prop) n : forall a s,
  I a s -> (forall i s, (a <= i < a + n)%nat -> I i s -> exists s', body i s = Ret s' /\ I (Datatypes.S i) s') ->
  exists r, foreach (seq a n) body s = Ret r /\ I (a + n)%nat r.
Proof.
  induction n as [|n IH]; intros a s H0 Hs; cbn [seq foreach].
  - exists s. rewrite Nat.add_0_r. auto.
  - destruct (Hs a s ltac:(lia) H0) as (s1 & E & H1). rewrite E. cbn [bind].
    destruct (IH (Datatypes.S a) s1 H1) as (r & E' & Hr); [intros i s' L; apply Hs; lia|]. exists r. split; [exact E'|].
    replace (a + Datatypes.S n)%nat with (Datatypes.S a + n)%nat by lia. exact Hr.
Qed.
Lemma put_append {A} (l r : list A) x y i : length l = i -> put (l ++ x :: r) i y = Ret (l ++ y :: r).
Proof.
  intros <-. unfold put. rewrite set_nth_spec by (rewrite app_length; cbn; lia).
  rewrite firstn_app, firstn_all, Nat.sub_diag, skipn_app, skipn_all2 by lia.
  replace (Datatypes.S (length l) - length l)%nat with 1%nat by lia. cbn. rewrite app_nil_r. reflexivity.
Qed.

Lemma put_0 {A} (l : list A) x y : put (x :: l) 0 y = Ret (y :: l).
Proof. reflexivity. Qed.

(** ** Rolling statistics *)
Lemma var_squares l : (0 < length l)%nat -> var_sum l = total (map (fun x => x * x) l) - INR (length l) * (mean_of l * mean_of l).
Proof.
  intros L. unfold var_sum. rewrite (total_ext _ (fun x => x * x - ((2 * mean_of l) * x - mean_of l * mean_of l))) by (intros; ring).
  rewrite total_minus, total_minus, total_scale, total_const, total_map_id, (mean_total l) by exact L. ring.
Qed.
Lemma roll_mean x l y : mean_of (l ++ [y]) = mean_of (x :: l) + (y - x) / INR (length (x :: l)).
Proof.
  unfold mean_of. rewrite app_length, total_app, total_cons. cbn [length]. rewrite Nat.add_1_r, (total_cons x). cbn [total fold_right]. fold (total l).
  field. apply not_0_INR. lia.
Qed.
Lemma roll_var x l y : var_sum (l ++ [y]) = var_sum (x :: l) + (y - x) * (y - mean_of (l ++ [y]) + x - mean_of (x :: l)).
Proof.
  rewrite !var_squares by (rewrite ?app_length; cbn; lia). rewrite map_app, total_app. cbn [map]. rewrite !total_cons, total_nil, app_length. cbn [length].
  rewrite Nat.add_1_r, (roll_mean x l y). cbn [length].
  assert (INR (S (length l)) <> 0) by (apply not_0_INR; lia).
  field. assumption.
Qed.
Lemma window_shift ts w i : (1 <= w)%nat -> (i + 1 + w <= length ts)%nat ->
  exists l, window ts w i = nth i ts 0 :: l /\ window ts w (i + 1) = l ++ [nth (i + w) ts 0].
Proof.
  intros Lw L. exists (firstn (w - 1) (skipn (i + 1) ts)). unfold window. split.
  - destruct w as [|w]; [lia|]. destruct (nth_split ts 0 (n := i) ltac:(lia)) as (l1 & l2 & E & E1).
    rewrite E at 1. rewrite skipn_app, skipn_all2, E1, Nat.sub_diag by lia. cbn [skipn app firstn]. f_equal. replace (S w - 1)%nat with w by lia.
    rewrite E at 1. rewrite skipn_app, skipn_all2, E1 by lia. replace (i + 1 - i)%nat with 1%nat by lia. reflexivity.
  - destruct w as [|w]; [lia|]. replace (S w - 1)%nat with w by lia.
    destruct (nth_split (skipn (i + 1) ts) 0 (n := w) ltac:(rewrite skipn_length; lia)) as (l1 & l2 & E & E1).
    assert (En : nth (i + S w) ts 0 = nth w (skipn (i + 1) ts) 0).
    { rewrite <- (firstn_skipn (i + 1) ts) at 1. rewrite app_nth2 by (rewrite firstn_length; lia). f_equal. rewrite firstn_length. lia. }
    rewrite En. rewrite E at 1 2. rewrite !firstn_app, E1. rewrite (firstn_all2 l1) by lia. rewrite (firstn_all2 (n := w) l1) by lia.
    replace (S w - w)%nat with 1%nat by lia. rewrite Nat.sub_diag. cbn [firstn]. rewrite app_nil_r. reflexivity.
Qed.

Definition means (ts : list R) (w a n : nat) : list R := map (fun i => mean_of (window ts w i)) (seq a n).
Definition sds (ts : list R) (w a n : nat) : list R := map (fun i => sd_of (window ts w i)) (seq a n).
Lemma var_of ts w i : (i + w <= length ts)%nat ->
  rsum (map (fun x => sq (x - rsum (window ts w i) / INR w)) (window ts w i)) = var_sum (window ts w i).
Proof. intros L. rewrite !rsum_total. unfold var_sum, mean_of, sq. rewrite (window_length ts w i L). reflexivity. Qed.
Lemma mean_window ts w i : (i + w <= length ts)%nat -> rsum (window ts w i) / INR w = mean_of (window ts w i).
Proof. intros L. rewrite rsum_total. unfold mean_of. rewrite (window_length ts w i L). reflexivity. Qed.
Lemma sd_window ts w i : (i + w <= length ts)%nat -> sqrt (var_sum (window ts w i) / INR w) = sd_of (window ts w i).
Proof. intros L. rewrite sd_var, (window_length ts w i L). reflexivity. Qed.
Lemma seq_snoc (f : nat -> R) a n : map f (seq a (n + 1)) = map f (seq a n) ++ [f (a + n)%nat].
Proof. rewrite Nat.add_1_r, seq_S, map_app. reflexivity. Qed.

Lemma rolling_part_ok ts w n : (1 <= w)%nat -> (1 <= n)%nat -> (n + w = length ts)%nat ->
  rolling_stat_part ts w (repeat 0 n) (repeat 0 n) = Ret (means ts w 0 n, sds ts w 0 n).
Proof.
  intros Lw Ln L. unfold rolling_stat_part. replace (length ts - w)%nat with n by lia.
  change w with (0 + w)%nat at 1. rewrite slice_window by lia. cbn [bind].
  destruct n as [|n]; [lia|]. cbn [repeat].
  rewrite put_0. cbn [bind]. rewrite put_0. cbn [bind].
  rewrite var_of, mean_window, sd_window by lia. replace (S n - 1)%nat with n by lia.
  match goal with |- context [foreach _ ?b ?s0] =>
    destruct (foreach_seq_total b (fun i (s : R * R * list R * list R) =>
      let '(m, d, avg, sd) := s in m = mean_of (window ts w (i - 1)) /\ d = var_sum (window ts w (i - 1)) /\
        avg = means ts w 0 i ++ repeat 0 (S n - i) /\ sd = sds ts w 0 i ++ repeat 0 (S n - i)) n 1%nat s0) as ([[[m d] avg] sd] & E & Em & Ed & Ea & Es)
  end.
  - cbn [Nat.sub]. rewrite Nat.sub_0_r. auto.
  - intros i [[[m d] avg] sd] Li (-> & -> & -> & ->).
    destruct (window_shift ts w (i - 1) Lw ltac:(lia)) as (l & E1 & E2). replace (i - 1 + 1)%nat with i in E2 by lia.
    rewrite (get_ret ts (i + w - 1) 0) by lia. rewrite (get_ret ts (i - 1) 0) by lia. cbn [bind].
    replace (i + w - 1)%nat with (i - 1 + w)%nat by lia.
    assert (Lx : length (nth (i - 1) ts 0 :: l) = w) by (rewrite <- E1; apply window_length; lia).
    assert (Hm : mean_of (window ts w (i - 1)) + (nth (i - 1 + w) ts 0 - nth (i - 1) ts 0) / INR w = mean_of (window ts w i)).
    { rewrite E1, E2. rewrite (roll_mean (nth (i - 1) ts 0) l), Lx. reflexivity. }
    rewrite Hm. set (nd := var_sum _ + _).
    assert (Hd : nd = var_sum (window ts w i)).
    { unfold nd. rewrite E1, E2. rewrite (roll_var (nth (i - 1) ts 0) l). reflexivity. }
    assert (Hc : comp_d_squared ts w i = Ret nd).
    { unfold comp_d_squared. rewrite slice_window by lia. cbn [bind]. rewrite Hd, var_of by lia. reflexivity. }
    rewrite Hc. replace (if gtb nd 0 then Ret nd else Ret nd) with (@Ret R nd) by (destruct (gtb nd 0); reflexivity). cbn [bind].
    replace (S n - i)%nat with (S (S n - S i)) by lia. cbn [repeat].
    rewrite (put_append (means ts w 0 i)), (put_append (sds ts w 0 i)) by (unfold means, sds; rewrite map_length, seq_length; reflexivity). cbn [bind].
    eexists. split; [reflexivity|]. replace (S i - 1)%nat with i by lia. split; [reflexivity|]. split; [exact Hd|].
    rewrite Hd, sd_window by lia. unfold means, sds. rewrite !seq_S, !map_app, <- !app_assoc. split; reflexivity.
  - rewrite E. cbn [bind]. replace (1 + n)%nat with (S n) in Ea, Es by lia. rewrite Ea, Es, Nat.sub_diag. cbn [repeat]. rewrite !app_nil_r. reflexivity.
Qed.

Lemma window_slice ts w a b j : (b <= length ts)%nat -> (a + j + w <= b)%nat -> window (firstn (b - a) (skipn a ts)) w j = window ts w (a + j).
Proof.
  intros L H. unfold window. rewrite skipn_firstn_comm, firstn_firstn, skipn_skipn, Nat.min_l by lia. do 2 f_equal. lia.
Qed.
Lemma seq_from n a : map (fun j => a + j)%nat (seq 0 n) = seq a n.
Proof.
  revert a. induction n as [|n IH]; intros a; [reflexivity|]. cbn [seq map]. f_equal; [lia|]. rewrite <- seq_shift, map_map. rewrite <- (IH (S a)). apply map_ext. intros; lia.
Qed.
Lemma means_slice ts w a b n : (b <= length ts)%nat -> (a + n + w <= b)%nat -> means (firstn (b - a) (skipn a ts)) w 0 n = means ts w a n.
Proof.
  intros L H. unfold means. replace (seq a n) with (map (fun j => a + j)%nat (seq 0 n)).
  - rewrite map_map. apply map_ext_in. intros j Hj. apply in_seq in Hj. rewrite window_slice by lia. reflexivity.
  - apply seq_from.
Qed.
Lemma sds_slice ts w a b n : (b <= length ts)%nat -> (a + n + w <= b)%nat -> sds (firstn (b - a) (skipn a ts)) w 0 n = sds ts w a n.
Proof.
  intros L H. unfold sds. replace (seq a n) with (map (fun j => a + j)%nat (seq 0 n)).
  - rewrite map_map. apply map_ext_in. intros j Hj. apply in_seq in Hj. rewrite window_slice by lia. reflexivity.
  - apply seq_from.
Qed.
Lemma part_of ts w a n : (1 <= w)%nat -> (1 <= n)%nat -> (a + n + w <= length ts)%nat ->
  (let! part := slice ts a (a + n + w) in rolling_stat_part part w (repeat 0 n) (repeat 0 n)) = Ret (means ts w a n, sds ts w a n).
Proof.
  intros Lw Ln L. rewrite slice_ret by lia. cbn [bind]. rewrite rolling_part_ok; auto.
  - rewrite means_slice, sds_slice by lia. reflexivity.
  - rewrite firstn_length, skipn_length. lia.
Qed.
Lemma means_app ts w a n m : means ts w a n ++ means ts w (a + n) m = means ts w a (n + m).
Proof. unfold means. rewrite seq_app, map_app. reflexivity. Qed.
Lemma sds_app ts w a n m : sds ts w a n ++ sds ts w (a + n) m = sds ts w a (n + m).
Proof. unfold sds. rewrite seq_app, map_app. reflexivity. Qed.

Lemma rolling_chunked_ok cs ts w : (1 <= cs)%nat -> (1 <= w)%nat -> (w <= length ts)%nat ->
  rolling_stat_chunked cs ts w = Ret (means ts w 0 (length ts - w), sds ts w 0 (length ts - w)).
Proof.
  intros Lc Lw L. unfold rolling_stat_chunked. set (n := (length ts - w)%nat).
  pose proof (Nat.div_mod n cs ltac:(lia)) as Dm. pose proof (Nat.mod_upper_bound n cs ltac:(lia)) as Mb.
  match goal with |- context [foreach _ ?b ?s0] =>
    destruct (foreach_seq_total b (fun i (s : list R * list R) => s = (means ts w 0 (i * cs), sds ts w 0 (i * cs))) (n / cs) 0%nat s0) as (r & E & Er)
  end.
  - reflexivity.
  - intros i s Li ->. cbn [Nat.add] in Li. assert (((i + 1) * cs <= n / cs * cs)%nat) by (apply Nat.mul_le_mono_r; lia).
    rewrite Nat.mul_add_distr_r, Nat.mul_1_l. rewrite Nat.mul_add_distr_r, Nat.mul_1_l in H.
    pose proof (part_of ts w (i * cs) cs Lw Lc ltac:(lia)) as P.
    destruct (slice ts (i * cs) (i * cs + cs + w)) as [part| |]; cbn [bind] in P |- *; try discriminate. rewrite P. cbn [bind fst snd].
    eexists. split; [reflexivity|]. rewrite means_app, sds_app. replace (S i * cs)%nat with (i * cs + cs)%nat by lia. reflexivity.
  - rewrite E. cbn [bind]. cbn [Nat.add] in Er. subst r. destruct (Nat.ltb_spec 0 (n mod cs)) as [Lm|Lm].
    + pose proof (part_of ts w (n / cs * cs) (n - n / cs * cs) Lw ltac:(lia) ltac:(lia)) as P.
      replace (n / cs * cs + (n - n / cs * cs) + w)%nat with (n + w)%nat in P by lia.
      destruct (slice ts (n / cs * cs) (n + w)) as [part| |]; cbn [bind] in P |- *; try discriminate. rewrite P. cbn [bind].
      rewrite means_app, sds_app. replace (n / cs * cs + (n - n / cs * cs))%nat with n by lia. reflexivity.
    + replace (n / cs * cs)%nat with n by lia. reflexivity.
Qed.
Lemma rolling_slow_ok ts w : (w <= length ts)%nat ->
  rolling_stat_slow ts w = Ret (means ts w 0 (length ts - w), sds ts w 0 (length ts - w)).
Proof.
  intros L. unfold rolling_stat_slow.
  match goal with |- foreach _ ?b ?s0 = _ =>
    destruct (foreach_seq_total b (fun i (s : list R * list R) => s = (means ts w 0 i, sds ts w 0 i)) (length ts - w) 0%nat s0) as (r & E & Er)
  end.
  - reflexivity.
  - intros i s Li ->. rewrite slice_window by lia. cbn [bind fst snd]. eexists. split; [reflexivity|].
    rewrite var_of, mean_window, sd_window by lia. unfold means, sds. rewrite !seq_S, !map_app. reflexivity.
  - rewrite E, Er. reflexivity.
Qed.
Lemma chunk_size_pos : (1 <= chunk_size)%nat.
Proof. unfold chunk_size. lia. Qed.
Lemma series_new_ok ts w precise : (1 <= w)%nat -> (w <= length ts)%nat ->
  series_new ts w precise = Ret (Series ts w (means ts w 0 (length ts - w)) (sds ts w 0 (length ts - w))).
Proof.
  intros Lw L. unfold series_new, assert_. rewrite (proj2 (Nat.leb_le w _) L). destruct precise.
  - rewrite rolling_slow_ok by exact L. reflexivity.
  - unfold rolling_stat. rewrite rolling_chunked_ok; auto. apply chunk_size_pos.
Qed.

(** what a series made by the constructor knows of window [i] *)
Definition made (s : series) (ts : list R) (w : nat) : Prop :=
  s = Series ts w (means ts w 0 (length ts - w)) (sds ts w 0 (length ts - w)) /\ (1 <= w)%nat /\ (w <= length ts)%nat.
Lemma series_new_made ts w precise s : (1 <= w)%nat -> series_new ts w precise = Ret s -> made s ts w.
Proof.
  intros Lw E. assert (L : (w <= length ts)%nat).
  { unfold series_new, assert_ in E. destruct (Nat.leb_spec w (length ts)); [assumption|discriminate]. }
  rewrite (series_new_ok ts w precise Lw L) in E. apply Ret_inj in E. subst s. split; auto.
Qed.
Section Made.
  Variables (s : series) (ts : list R) (w : nat).
  Hypothesis M : made s ts w.
  Lemma made_num : num_subsequences s = (length ts - w)%nat.
  Proof. destruct M as (-> & _). reflexivity. Qed.
  Lemma made_w : s_w s = w.
  Proof. destruct M as (-> & _). reflexivity. Qed.
  Lemma made_data : s_data s = ts.
  Proof. destruct M as (-> & _). reflexivity. Qed.
  Lemma made_sub i : (i < num_subsequences s)%nat -> subsequence s i = Ret (window ts w i).
  Proof. rewrite made_num. destruct M as (-> & L1 & L2). intros L. unfold subsequence. cbn [s_data s_w]. apply slice_window. lia. Qed.
  Lemma made_len i : (i < num_subsequences s)%nat -> length (window ts w i) = w.
  Proof. rewrite made_num. intros L. apply window_length. lia. Qed.
  Lemma made_mean i : (i < num_subsequences s)%nat -> mean s i = Ret (mean_of (window ts w i)).
  Proof.
    rewrite made_num. destruct M as (-> & L1 & L2). intros L. unfold mean. cbn [s_avg]. apply get_some. unfold means.
    rewrite nth_error_map, (nth_error_nth' _ 0%nat), seq_nth by (rewrite ?seq_length; lia). reflexivity.
  Qed.
  Lemma made_sd i : (i < num_subsequences s)%nat -> sd s i = Ret (sd_of (window ts w i)).
  Proof.
    rewrite made_num. destruct M as (-> & L1 & L2). intros L. unfold sd. cbn [s_sd]. apply get_some. unfold sds.
    rewrite nth_error_map, (nth_error_nth' _ 0%nat), seq_nth by (rewrite ?seq_length; lia). reflexivity.
  Qed.
  Lemma made_znorm i : (i < num_subsequences s)%nat -> znormalized s i = Ret (znorm (window ts w i)).
  Proof. intros L. unfold znormalized. rewrite made_mean, made_sd, made_sub by exact L. reflexivity. Qed.
End Made.

(** ** Lanes *)
Lemma lanes2_length f a b : length a = length b -> length (lanes2 f a b) = length a.
Proof. intros E. unfold lanes2. rewrite map_length, combine_length, E. lia. Qed.
Lemma chunks_cons k l : (1 <= k)%nat -> (k <= length l)%nat -> chunks_exact k l = firstn k l :: chunks_exact k (skipn k l).
Proof.
  intros Lk L. unfold chunks_exact. rewrite skipn_length.
  assert (E : (length l / k = S ((length l - k) / k))%nat).
  { replace (length l) with (length l - k + 1 * k)%nat at 1 by lia. rewrite Nat.div_add by lia. lia. }
  rewrite E. cbn [seq map]. f_equal. rewrite <- seq_shift, map_map. apply map_ext. intros c. rewrite skipn_skipn. do 2 f_equal. lia.
Qed.
Lemma remainder_skip k l : (1 <= k)%nat -> (k <= length l)%nat -> remainder k l = remainder k (skipn k l).
Proof.
  intros Lk L. unfold remainder. rewrite skipn_skipn, skipn_length.
  assert (E : (length l / k = S ((length l - k) / k))%nat).
  { replace (length l) with (length l - k + 1 * k)%nat at 1 by lia. rewrite Nat.div_add by lia. lia. }
  rewrite E. f_equal. lia.
Qed.
Lemma chunks_small k l : (length l < k)%nat -> chunks_exact k l = [] /\ remainder k l = l.
Proof. intros L. unfold chunks_exact, remainder. rewrite Nat.div_small by exact L. split; reflexivity. Qed.
Lemma chunks_ind k (P : list R -> list R -> Prop) : (1 <= k)%nat ->
  (forall a b, length a = length b -> (length a < k)%nat -> P a b) ->
  (forall a b, length a = length b -> (k <= length a)%nat -> P (skipn k a) (skipn k b) -> P a b) ->
  forall a b, length a = length b -> P a b.
Proof.
  intros Lk H1 H2. assert (G : forall n a b, length a = length b -> (length a <= n)%nat -> P a b).
  { induction n as [|n IH]; intros a b E L.
    - apply H1; [exact E|lia].
    - destruct (Nat.lt_ge_cases (length a) k) as [Lt|Ge]; [apply H1; auto|]. apply H2; auto. apply IH; rewrite !skipn_length; lia. }
  intros a b E. apply (G (length a)); auto.
Qed.
Lemma total_lanes f a b : forall k, length a = length b -> (length a <= k)%nat ->
  total (lanes2 f a b) = total (lanes2 f (firstn k a) (firstn k b)).
Proof. intros k E L. rewrite !firstn_all2 by lia. reflexivity. Qed.
Lemma lanes2_split f k a b : lanes2 f a b = lanes2 f (firstn k a) (firstn k b) ++ lanes2 f (skipn k a) (skipn k b).
Proof.
  unfold lanes2. rewrite <- map_app. f_equal. revert k b. induction a as [|x a IH]; intros [|k] [|y b]; try reflexivity.
  - cbn. destruct (skipn k a); reflexivity.
  - cbn. f_equal. apply IH.
Qed.
Lemma total_lanes_plus a b : length a = length b -> total (lanes2 Rplus a b) = total a + total b.
Proof.
  revert b. induction a as [|x a IH]; intros [|y b] E; try discriminate; unfold lanes2; cbn [combine map fst snd]; rewrite ?total_nil, ?total_cons; [lra|].
  fold (lanes2 Rplus a b). rewrite IH by (cbn in E; lia). lra.
Qed.
Lemma simd_total k l : (forall c, In c l -> length c = k) -> forall acc, length acc = k ->
  total (fold_left (lanes2 Rplus) l acc) = total acc + total (map total l).
Proof.
  induction l as [|c l IH]; intros H acc Ha; cbn [fold_left map]; rewrite ?total_nil, ?total_cons; [lra|].
  rewrite IH; [|intros; apply H; right; auto|rewrite lanes2_length, Ha; [reflexivity|rewrite Ha, (H c (or_introl eq_refl)); reflexivity]].
  rewrite total_lanes_plus by (rewrite Ha, (H c (or_introl eq_refl)); reflexivity). lra.
Qed.
Lemma total_repeat0 k : total (repeat 0 k) = 0.
Proof. induction k as [|k IH]; cbn [repeat]; rewrite ?total_nil, ?total_cons, ?IH; lra. Qed.
Lemma chunks_lengths k l : (1 <= k)%nat -> forall c, In c (chunks_exact k l) -> length c = k.
Proof.
  intros Lk c Hc. unfold chunks_exact in Hc. apply in_map_iff in Hc. destruct Hc as (q & <- & Hq). apply in_seq in Hq.
  rewrite firstn_length, skipn_length. pose proof (Nat.div_mod (length l) k ltac:(lia)).
  assert ((q * k + k <= length l / k * k)%nat) by (replace (q * k + k)%nat with ((q + 1) * k)%nat by lia; apply Nat.mul_le_mono_r; lia). lia.
Qed.
(** any lane-wise computation, summed over chunks and remainder, is the plain sum *)
Lemma chunked_total k f a b : (1 <= k)%nat -> length a = length b ->
  total (map (fun ab => total (lanes2 f (fst ab) (snd ab))) (combine (chunks_exact k a) (chunks_exact k b))) + total (lanes2 f (remainder k a) (remainder k b))
  = total (lanes2 f a b).
Proof.
  intros Lk. revert a b. apply (chunks_ind k _ Lk).
  - intros a b E L. destruct (chunks_small k a L) as (-> & ->). destruct (chunks_small k b ltac:(lia)) as (-> & ->). cbn [combine map]. rewrite total_nil. lra.
  - intros a b E L IH. rewrite (chunks_cons k a), (chunks_cons k b), (remainder_skip k a), (remainder_skip k b) by lia.
    cbn [combine map fst snd]. rewrite total_cons. rewrite (lanes2_split f k a b), total_app. lra.
Qed.
Lemma simd_chunks k f a b : (1 <= k)%nat -> length a = length b ->
  simd_sum k (map (fun ab => lanes2 f (fst ab) (snd ab)) (combine (chunks_exact k a) (chunks_exact k b))) + rsum (lanes2 f (remainder k a) (remainder k b))
  = total (lanes2 f a b).
Proof.
  intros Lk E. unfold simd_sum. rewrite !rsum_total, (simd_total k), total_repeat0, map_map by
    (rewrite ?repeat_length; auto; intros c Hc; apply in_map_iff in Hc; destruct Hc as ([x y] & <- & Hc); cbn [fst snd];
     pose proof (in_combine_l _ _ _ _ Hc) as H1; pose proof (in_combine_r _ _ _ _ Hc) as H2; apply chunks_lengths in H1; apply chunks_lengths in H2; auto;
     rewrite lanes2_length by congruence; exact H1).
  rewrite Rplus_0_l. apply chunked_total; auto.
Qed.
Lemma dot_inner a b : length a = length b -> dot a b = inner a b.
Proof. intros E. unfold dot. rewrite simd_chunks by (auto; lia). reflexivity. Qed.

(** ** Distances *)
Lemma combine_maps {A B C D} (f : A -> B) (g : C -> D) a b : combine (map f a) (map g b) = map (fun xy => (f (fst xy), g (snd xy))) (combine a b).
Proof. revert b. induction a as [|x a IH]; intros [|y b]; try reflexivity. cbn. f_equal. apply IH. Qed.
Lemma zdot_inner a b ma mb sa sb : length a = length b -> sa <> 0 -> sb <> 0 ->
  zdot a ma sa b mb sb = Some (inner (map (fun x => (x - ma) / sa) a) (map (fun x => (x - mb) / sb) b)).
Proof.
  intros E Ha Hb. unfold zdot. destruct (Req_EM_T sa 0) as [C|_]; [contradiction|]. destruct (Req_EM_T sb 0) as [C|_]; [contradiction|].
  f_equal. rewrite simd_chunks by (auto; lia). unfold lanes2, inner. rewrite combine_maps, map_map. cbn [fst snd].
  unfold Rdiv at 1. rewrite <- total_scale_r. apply total_ext. intros [x y] _. cbn [fst snd]. field. auto.
Qed.

Lemma zeucl_slow_ok s ts w i j : made s ts w -> (i < num_subsequences s)%nat -> (j < num_subsequences s)%nat ->
  zeucl_slow s i j = Ret (zdistance (window ts w i) (window ts w j)).
Proof.
  intros M Li Lj. unfold zeucl_slow. rewrite !(made_mean _ _ _ M), !(made_sd _ _ _ M), !(made_sub _ _ _ M) by assumption. cbn [bind].
  f_equal. rewrite (rsum_acc (fun xy => ((fst xy - mean_of (window ts w i)) / sd_of (window ts w i) - (snd xy - mean_of (window ts w j)) / sd_of (window ts w j)) *
     ((fst xy - mean_of (window ts w i)) / sd_of (window ts w i) - (snd xy - mean_of (window ts w j)) / sd_of (window ts w j)))).
  rewrite Rplus_0_l. unfold zdistance, euclid, znorm. rewrite combine_maps, map_map. reflexivity.
Qed.
Lemma zinner_le a b : length a = length b -> 0 < sd_of a -> 0 < sd_of b -> - INR (length a) <= inner (znorm a) (znorm b) <= INR (length a).
Proof.
  intros E Ha Hb. pose proof (inner_cs (znorm a) (znorm b) ltac:(rewrite !znorm_length; exact E)) as CS.
  rewrite !znorm_norm, <- E in CS by assumption. pose proof (pos_INR (length a)). nra.
Qed.
Lemma zdistance_inner a b : length a = length b -> 0 < sd_of a -> 0 < sd_of b ->
  zdistance a b = sqrt (2 * INR (length a) - 2 * inner (znorm a) (znorm b)).
Proof.
  intros E Ha Hb. unfold zdistance. rewrite euclid_square by (rewrite !znorm_length; exact E). rewrite !znorm_norm, <- E by assumption. f_equal. lra.
Qed.
Lemma zeucl_ok s ts w i j : made s ts w -> (i < num_subsequences s)%nat -> (j < num_subsequences s)%nat ->
  0 < sd_of (window ts w i) -> 0 < sd_of (window ts w j) ->
  zeucl s i j = Ret (zdistance (window ts w i) (window ts w j)).
Proof.
  intros M Li Lj Hi Hj. unfold zeucl. destruct (Nat.eqb_spec i j) as [->|N].
  - unfold zdistance. rewrite euclid_refl. reflexivity.
  - rewrite !(made_mean _ _ _ M), !(made_sd _ _ _ M), !(made_sub _ _ _ M) by assumption. cbn [bind].
    pose proof (made_len _ _ _ M i Li) as Eli. pose proof (made_len _ _ _ M j Lj) as Elj.
    rewrite zdot_inner by (congruence || lra). fold (znorm (window ts w i)) (znorm (window ts w j)). rewrite (made_w _ _ _ M).
    pose proof (zinner_le (window ts w i) (window ts w j) ltac:(congruence) Hi Hj) as B. rewrite Eli in B.
    rewrite (proj2 (gtb_false _ _)) by lra. unfold fsqrt. destruct (Rlt_dec _ 0) as [C|_]; [lra|].
    rewrite zdistance_inner, Eli by congruence. reflexivity.
Qed.
Lemma zdistance_bound a b : length a = length b -> 0 < sd_of a -> 0 < sd_of b -> zdistance a b <= 2 * sqrt (INR (length a)).
Proof.
  intros E Ha Hb. rewrite zdistance_inner by assumption. pose proof (zinner_le a b E Ha Hb). pose proof (pos_INR (length a)).
  replace (2 * sqrt (INR (length a))) with (sqrt (4 * INR (length a))).
  - apply sqrt_le_1; lra.
  - rewrite sqrt_mult by lra. f_equal. replace 4 with (2 * 2) by lra. apply sqrt_square. lra.
Qed.

(** ** Early exit *)
Lemma accumulate_none l : forall s, accumulate l None s = Some (s + total l).
Proof. induction l as [|x l IH]; intros s; cbn [accumulate exceeds]; rewrite ?total_nil, ?total_cons; [f_equal; lra|]. rewrite IH. f_equal. lra. Qed.
Lemma accumulate_some l t : (forall x, In x l -> 0 <= x) -> forall s, s <= t ->
  accumulate l (Some t) s = if Rle_dec (s + total l) t then Some (s + total l) else None.
Proof.
  induction l as [|x l IH]; intros H s Hs; cbn [accumulate exceeds]; rewrite ?total_nil, ?total_cons.
  - rewrite Rplus_0_r. destruct (Rle_dec s t); [reflexivity|lra].
  - pose proof (H x (or_introl eq_refl)) as Hx. assert (Hl : 0 <= total l) by (rewrite <- total_map_id; apply total_nonneg; intros y Hy; apply H; right; exact Hy).
    destruct (gtb (s + x) t) eqn:G.
    + apply gtb_true in G. destruct (Rle_dec (s + (x + total l)) t); [lra|reflexivity].
    + apply gtb_false in G. rewrite IH by (auto; intros; apply H; right; auto). rewrite Rplus_assoc. reflexivity.
Qed.
Lemma accumulate_app l1 l2 t s : accumulate (l1 ++ l2) t s = match accumulate l1 t s with Some a => accumulate l2 t a | None => None end.
Proof. revert s. induction l1 as [|x l IH]; intros s; [reflexivity|]. cbn [app accumulate]. destruct (exceeds (s + x) t); [reflexivity|]. apply IH. Qed.
Lemma zeucl_threshold_ok s ts w i j threshold : made s ts w -> (i < num_subsequences s)%nat -> (j < num_subsequences s)%nat ->
  0 < sd_of (window ts w i) -> 0 < sd_of (window ts w j) ->
  zeucl_threshold s i j threshold = Ret (match threshold with
    | None => Some (zdistance (window ts w i) (window ts w j))
    | Some t => if Rle_dec (zdistance (window ts w i) (window ts w j)) (Rabs t) then Some (zdistance (window ts w i) (window ts w j)) else None
    end).
Proof.
  intros M Li Lj Hi Hj. unfold zeucl_threshold. rewrite !(made_mean _ _ _ M), !(made_sd _ _ _ M), !(made_sub _ _ _ M) by assumption. cbn [bind].
  pose proof (made_len _ _ _ M i Li) as Eli. pose proof (made_len _ _ _ M j Lj) as Elj.
  set (a := window ts w i) in *. set (b := window ts w j) in *. assert (Eab : length a = length b) by congruence.
  set (f := fun x y => sq ((x - mean_of a) / sd_of a - (y - mean_of b) / sd_of b)).
  set (rem := lanes2 f (remainder 4 a) (remainder 4 b)).
  set (terms := map _ _).
  assert (Et : terms = map (fun ab => total (lanes2 f (fst ab) (snd ab))) (combine (chunks_exact 4 a) (chunks_exact 4 b))).
  { unfold terms. apply map_ext. intros [x y]. cbn [fst snd]. rewrite rsum_total. unfold lanes2, Rdiv at 1. rewrite <- total_scale_r. apply total_ext.
    intros [u v] _. cbn [fst snd]. unfold f, sq. field. lra. }
  assert (Tot : total (rem ++ terms) = total (lanes2 f a b)).
  { rewrite total_app, Et, Rplus_comm. apply chunked_total; [lia|exact Eab]. }
  assert (Ez : sqrt (total (lanes2 f a b)) = zdistance a b).
  { unfold zdistance, euclid, znorm, lanes2. rewrite combine_maps, map_map. reflexivity. }
  assert (Nn : forall c d x, In x (lanes2 f c d) -> 0 <= x).
  { intros c d x Hx. apply in_map_iff in Hx. destruct Hx as (y & <- & _). unfold f, sq. apply Rle_0_sqr. }
  assert (Np : forall x, In x (rem ++ terms) -> 0 <= x).
  { intros x Hx. apply in_app_or in Hx. destruct Hx as [Hx|Hx]; [apply (Nn _ _ _ Hx)|].
    rewrite Et in Hx. apply in_map_iff in Hx. destruct Hx as (y & <- & _). rewrite <- total_map_id. apply total_nonneg. intros z Hz. apply (Nn _ _ _ Hz). }
  pose proof (accumulate_app rem terms (option_map (fun t => t * t) threshold) 0) as App.
  assert (Res : match accumulate rem (option_map (fun t => t * t) threshold) 0 with
                | Some acc => match accumulate terms (option_map (fun t => t * t) threshold) acc with Some acc => Ret (Some (sqrt acc)) | None => Ret None end
                | None => Ret None end = Ret (option_map sqrt (accumulate (rem ++ terms) (option_map (fun t => t * t) threshold) 0))).
  { rewrite App. destruct (accumulate rem _ 0) as [acc|]; [|reflexivity]. destruct (accumulate terms _ acc); reflexivity. }
  rewrite Res. f_equal. destruct threshold as [t|]; cbn [option_map].
  - rewrite accumulate_some; [|exact Np|apply Rle_0_sqr]. rewrite Rplus_0_l, Tot.
    assert (T0 : 0 <= total (lanes2 f a b)) by (rewrite <- total_map_id; apply total_nonneg; intros z Hz; apply (Nn _ _ _ Hz)).
    assert (Iff : total (lanes2 f a b) <= t * t <-> zdistance a b <= Rabs t).
    { rewrite <- Ez. replace (t * t) with (Rabs t * Rabs t) by (rewrite <- Rabs_mult; apply Rabs_pos_eq, Rle_0_sqr). pose proof (Rabs_pos t).
      split; intros H1.
      - apply Rsqr_incr_0_var; [|assumption]. unfold Rsqr. rewrite sqrt_sqrt by exact T0. exact H1.
      - rewrite <- (sqrt_sqrt _ T0). pose proof (sqrt_pos (total (lanes2 f a b))). apply Rmult_le_compat; assumption. }
    destruct (Rle_dec (total (lanes2 f a b)) (t * t)) as [L|L]; destruct (Rle_dec (zdistance a b) (Rabs t)) as [L'|L']; cbn [option_map]; try tauto.
    rewrite Ez. reflexivity.
  - rewrite accumulate_none. cbn [option_map]. rewrite Rplus_0_l, Tot, Ez. reflexivity.
Qed.

(** ** Polynomials *)
Lemma polynomial_ok z coeff : polynomial z coeff = total (map (fun i => nth i coeff 0 * z ^ i) (seq 0 (length coeff))).
Proof.
  unfold polynomial.
  assert (G : forall l sum k, fold_left (fun sum c => c + z * sum) l sum * z ^ k =
     total (map (fun i => nth i (rev l) 0 * z ^ (i + k)) (seq 0 (length l))) + sum * z ^ (length l + k)).
  { induction l as [|c l IH]; intros sum k; cbn [fold_left length rev]; [cbn [seq map]; rewrite total_nil; cbn; lra|].
    rewrite IH. rewrite seq_S, map_app, total_app. cbn [map Nat.add]. rewrite total_cons, total_nil.
    rewrite (app_nth2 (rev l)) by (rewrite rev_length; lia). rewrite rev_length, Nat.sub_diag. cbn [nth].
    rewrite (total_ext (fun i => nth i (rev l ++ [c]) 0 * z ^ (i + k)) (fun i => nth i (rev l) 0 * z ^ (i + k))).
    - cbn [pow]. ring.
    - intros i Hi. apply in_seq in Hi. rewrite app_nth1 by (rewrite rev_length; lia). reflexivity. }
  destruct (rev coeff) as [|c l] eqn:E.
  - apply (f_equal (@rev R)) in E. rewrite rev_involutive in E. subst coeff. reflexivity.
  - assert (Ec : coeff = rev l ++ [c]) by (rewrite <- (rev_involutive coeff), E; reflexivity).
    specialize (G l c 0%nat). rewrite pow_O, Rmult_1_r in G. rewrite G, Ec, app_length, rev_length. cbn [length]. rewrite Nat.add_1_r, seq_S, map_app, total_app.
    cbn [map Nat.add]. rewrite total_cons, total_nil, (app_nth2 (rev l)) by (rewrite rev_length; lia). rewrite rev_length, Nat.sub_diag, Nat.add_0_r. cbn [nth].
    rewrite Rplus_0_r. f_equal. apply total_ext. intros i Hi. apply in_seq in Hi. rewrite Nat.add_0_r, app_nth1 by (rewrite rev_length; lia). reflexivity.
Qed.
