(** The rolling statistics as a recurrence: what the loops of FloatSeries.v compute. *)
From Coq Require Import Floats.SpecFloat.
From Verif Require Import Base F64 Iterator FpOps FloatSeries BruteProofs.

(** the window at [i] *)
Definition win (ts : list f64) (w i : nat) : list f64 := firstn w (skipn i ts).
Definition elem (ts : list f64) (i : nat) : f64 := nth i ts f_zero.

Section Roll.
  Variables (z : zeros) (ts : list f64) (w : nat).
  (** from scratch *)
  Definition mean0 (i : nat) : f64 := fdiv (fsum z (win ts w i)) (f_of_nat w).
  Definition squares0 (i : nat) : f64 := squares z (win ts w i) (mean0 i).
  (** one step: from window [i - 1] to window [i] *)
  Definition roll_mean (i : nat) (m : f64) : f64 :=
    fadd m (fdiv (fsub (elem ts (i + w - 1)) (elem ts (i - 1))) (f_of_nat w)).
  Definition roll_update (i : nat) (m m' d : f64) : f64 :=
    let new := elem ts (i + w - 1) in let old := elem ts (i - 1) in
    fadd d (fmul (fsub new old) (fsub (fadd (fsub new m') old) m)).
  Definition roll_step (i : nat) (md : f64 * f64) : f64 * f64 :=
    let '(m, d) := md in
    let m' := roll_mean i m in
    let nd := roll_update i m m' d in
    (m', if flt f_zero nd then nd else squares0 i).
  (** the mean and the sum of squares for the window [a + j], when starting from window [a] *)
  Fixpoint roll (a j : nat) : f64 * f64 :=
    match j with
    | 0 => (mean0 a, squares0 a)
    | S j' => roll_step (a + j) (roll a j')
    end.
  Definition sd_from (d : f64) : f64 := fsqrt64 (fdiv d (f_of_nat w)).
End Roll.

Lemma cut_win ts w i : i + w <= length ts -> cut ts i (i + w) = Ret (win ts w i).
Proof.
  intros L. unfold cut, assert_, win. rewrite (proj2 (Nat.leb_le i (i + w))), (proj2 (Nat.leb_le (i + w) (length ts))) by lia.
  cbn [andb]. replace (i + w - i) with w by lia. reflexivity.
Qed.
Lemma win_length ts w i : i + w <= length ts -> length (win ts w i) = w.
Proof. intros L. unfold win. rewrite firstn_length, skipn_length. lia. Qed.
Lemma win_incl ts w i : incl (win ts w i) ts.
Proof.
  intros x H. unfold win in H. rewrite <- (firstn_skipn i ts). apply in_or_app. right.
  rewrite <- (firstn_skipn w (skipn i ts)). apply in_or_app. left. exact H.
Qed.
Lemma get_elem ts i : i < length ts -> get ts i = Ret (elem ts i).
Proof. intros L. unfold get, elem. rewrite (nth_error_nth' ts f_zero L). reflexivity. Qed.
Lemma elem_in ts i : i < length ts -> In (elem ts i) ts.
Proof. apply nth_In. Qed.

Lemma put_here {A} (l r : list A) x y i : length l = i -> put (l ++ x :: r) i y = Ret (l ++ y :: r).
Proof.
  intros <-. unfold put. rewrite set_nth_spec by (rewrite app_length; cbn; lia).
  rewrite firstn_app, firstn_all, Nat.sub_diag, skipn_app, skipn_all2 by lia.
  replace (S (length l) - length l) with 1 by lia. cbn. rewrite app_nil_r. reflexivity.
Qed.

Section Part.
  Variables (z : zeros) (ts : list f64) (w : nat).
  Definition avgs (a n : nat) : list f64 := map (fun j => fst (roll z ts w a j)) (seq 0 n).
  Definition sds (a n : nat) : list f64 := map (fun j => sd_from w (snd (roll z ts w a j))) (seq 0 n).
  Lemma avgs_length a n : length (avgs a n) = n.
  Proof. unfold avgs. rewrite map_length, seq_length. reflexivity. Qed.
  Lemma sds_length a n : length (sds a n) = n.
  Proof. unfold sds. rewrite map_length, seq_length. reflexivity. Qed.
  Lemma avgs_snoc a n : avgs a (S n) = avgs a n ++ [fst (roll z ts w a n)].
  Proof. unfold avgs. rewrite seq_S, map_app. reflexivity. Qed.
  Lemma sds_snoc a n : sds a (S n) = sds a n ++ [sd_from w (snd (roll z ts w a n))].
  Proof. unfold sds. rewrite seq_S, map_app. reflexivity. Qed.

  (** the statistics of the windows after the first are numbers *)
  Definition roll_finite (a n : nat) : Prop :=
    forall j, 1 <= j < n -> is_finite (fst (roll z ts w a j)) = true /\ is_finite (sd_from w (snd (roll z ts w a j))) = true.

  Lemma part_ok n : 1 <= w -> 1 <= n -> n + w = length ts -> roll_finite 0 n ->
    frolling_stat_part z ts w (repeat f_zero n) (repeat f_zero n) = Ret (avgs 0 n, sds 0 n).
  Proof.
    intros Lw Ln L F. unfold frolling_stat_part. replace (length ts - w) with n by lia.
    rewrite (cut_win ts w 0 ltac:(lia) : cut ts 0 w = _). cbn [bind].
    destruct n as [|n]; [lia|]. cbn [repeat].
    rewrite (put_here [] (repeat f_zero n) f_zero _ 0 eq_refl). cbn [bind app].
    rewrite (put_here [] (repeat f_zero n) f_zero _ 0 eq_refl). cbn [bind app].
    replace (S n - 1) with n by lia.
    match goal with |- context [foreach _ ?b ?s0] =>
      destruct (foreach_seq b (fun i (s : f64 * f64 * list f64 * list f64) =>
        let '(m, d, avg, sd) := s in (m, d) = roll z ts w 0 (i - 1) /\
          avg = avgs 0 i ++ repeat f_zero (S n - i) /\ sd = sds 0 i ++ repeat f_zero (S n - i)) 1 n s0) as ([[[m d] avg] sd] & E & Em & Ea & Es)
    end.
    - cbn [Nat.sub]. rewrite Nat.sub_0_r. auto.
    - intros i [[[m d] avg] sd] Li (Er & -> & ->).
      rewrite (get_elem ts (i + w - 1)), (get_elem ts (i - 1)) by lia. cbn [bind].
      assert (R : roll z ts w 0 i = roll_step z ts w i (m, d)).
      { destruct i as [|i]; [lia|]. replace (S i - 1) with i in Er by lia. rewrite Er. reflexivity. }
      destruct (F i ltac:(lia)) as (F1 & F2).
      fold (roll_mean ts w i m). set (m' := roll_mean ts w i m). fold (roll_update ts w i m m' d).
      set (nd := roll_update ts w i m m' d).
      assert (C : fcomp_d_squared z ts w i = Ret (squares0 z ts w i)).
      { unfold fcomp_d_squared. rewrite cut_win by lia. reflexivity. }
      rewrite C. replace (if flt f_zero nd then Ret nd else Ret (squares0 z ts w i)) with (Ret (if flt f_zero nd then nd else squares0 z ts w i)) by (destruct (flt f_zero nd); reflexivity).
      cbn [bind]. set (d' := if flt f_zero nd then nd else squares0 z ts w i).
      assert (R' : roll z ts w 0 i = (m', d')) by (rewrite R; reflexivity).
      rewrite R' in F1, F2. cbn [fst snd] in F1, F2.
      unfold assert_. rewrite F1. replace (S n - i) with (S (S n - S i)) by lia. cbn [repeat].
      rewrite (put_here (avgs 0 i)) by apply avgs_length. cbn [bind]. fold (sd_from w d'). rewrite F2.
      rewrite (put_here (sds 0 i)) by apply sds_length. cbn [bind].
      eexists. split; [reflexivity|]. replace (S i - 1) with i by lia. rewrite avgs_snoc, sds_snoc, R', <- !app_assoc. auto.
    - rewrite E. cbn [bind]. replace (1 + n) with (S n) in Ea, Es by lia. rewrite Ea, Es, Nat.sub_diag. cbn [repeat]. rewrite !app_nil_r. reflexivity.
  Qed.
End Part.

Lemma firstn_skipn_win ts w a b j : b <= length ts -> a + j + w <= b -> win (firstn (b - a) (skipn a ts)) w j = win ts w (a + j).
Proof. intros L H. unfold win. rewrite skipn_firstn_comm, firstn_firstn, skipn_skipn, Nat.min_l by lia. do 2 f_equal. lia. Qed.
Lemma elem_slice ts a b i : b <= length ts -> a + i < b -> elem (firstn (b - a) (skipn a ts)) i = elem ts (a + i).
Proof.
  intros L H. unfold elem.
  rewrite <- (firstn_skipn a ts) at 2. rewrite app_nth2 by (rewrite firstn_length; lia). rewrite firstn_length.
  replace (a + i - Nat.min a (length ts)) with i by lia.
  rewrite <- (firstn_skipn (b - a) (skipn a ts)) at 2. rewrite app_nth1; [reflexivity|]. rewrite firstn_length, skipn_length. lia.
Qed.
Lemma roll_slice z ts w a b j : 1 <= w -> b <= length ts -> a + j + w <= b ->
  roll z (firstn (b - a) (skipn a ts)) w 0 j = roll z ts w a j.
Proof.
  intros W L. induction j as [|j IH]; intros H; cbn [roll].
  - unfold mean0, squares0, mean0. rewrite firstn_skipn_win by lia. rewrite Nat.add_0_r. reflexivity.
  - rewrite IH by lia. destruct (roll z ts w a j) as [m d]. unfold roll_step. cbv zeta. replace (0 + S j) with (S j) by lia.
    assert (E1 : elem (firstn (b - a) (skipn a ts)) (S j + w - 1) = elem ts (a + S j + w - 1)) by (rewrite elem_slice by lia; f_equal; lia).
    assert (E2 : elem (firstn (b - a) (skipn a ts)) (S j - 1) = elem ts (a + S j - 1)) by (rewrite elem_slice by lia; f_equal; lia).
    unfold roll_update, roll_mean, squares0, mean0. rewrite E1, E2, firstn_skipn_win by lia. reflexivity.
Qed.
Lemma avgs_slice z ts w a b n : 1 <= w -> b <= length ts -> a + n + w <= b -> avgs z (firstn (b - a) (skipn a ts)) w 0 n = avgs z ts w a n.
Proof. intros W L H. unfold avgs. apply map_ext_in. intros j Hj. apply in_seq in Hj. rewrite roll_slice by lia. reflexivity. Qed.
Lemma sds_slice z ts w a b n : 1 <= w -> b <= length ts -> a + n + w <= b -> sds z (firstn (b - a) (skipn a ts)) w 0 n = sds z ts w a n.
Proof. intros W L H. unfold sds. apply map_ext_in. intros j Hj. apply in_seq in Hj. rewrite roll_slice by lia. reflexivity. Qed.
Lemma part_of z ts w a n : 1 <= w -> 1 <= n -> a + n + w <= length ts -> roll_finite z ts w a n ->
  (let! part := cut ts a (a + n + w) in frolling_stat_part z part w (repeat f_zero n) (repeat f_zero n)) = Ret (avgs z ts w a n, sds z ts w a n).
Proof.
  intros Lw Ln L F. unfold cut, assert_. rewrite (proj2 (Nat.leb_le _ _)), (proj2 (Nat.leb_le (a + n + w) _)) by lia. cbn [andb bind].
  rewrite part_ok; auto.
  - rewrite avgs_slice, sds_slice by lia. reflexivity.
  - rewrite firstn_length, skipn_length. lia.
  - intros j Hj. rewrite roll_slice by lia. apply F, Hj.
Qed.

(** the statistics of window [i] when the series is cut every [cs] windows *)
Definition chunk_avgs (z : zeros) (cs : nat) (ts : list f64) (w n : nat) : list f64 :=
  map (fun i => fst (roll z ts w (i / cs * cs) (i mod cs))) (seq 0 n).
Definition chunk_sds (z : zeros) (cs : nat) (ts : list f64) (w n : nat) : list f64 :=
  map (fun i => sd_from w (snd (roll z ts w (i / cs * cs) (i mod cs)))) (seq 0 n).
Lemma seq_shift_add n a : seq a n = map (fun j => a + j) (seq 0 n).
Proof.
  revert a. induction n as [|n IH]; intros a; [reflexivity|]. cbn [seq map]. f_equal; [lia|]. rewrite (IH (S a)), <- seq_shift, map_map. apply map_ext. intros; lia.
Qed.
Lemma chunk_index i cs k : 0 < cs -> k < cs -> (i * cs + k) / cs = i /\ (i * cs + k) mod cs = k.
Proof.
  intros C K. split.
  - rewrite Nat.div_add_l, Nat.div_small by lia. lia.
  - rewrite Nat.add_comm, Nat.mod_add, Nat.mod_small by lia. reflexivity.
Qed.
Lemma chunk_avgs_app z cs ts w i m : 0 < cs -> m <= cs -> chunk_avgs z cs ts w (i * cs) ++ avgs z ts w (i * cs) m = chunk_avgs z cs ts w (i * cs + m).
Proof.
  intros C M. unfold chunk_avgs, avgs. rewrite seq_app, map_app. f_equal. cbn [Nat.add]. rewrite (seq_shift_add m (i * cs)), map_map.
  apply map_ext_in. intros j Hj. apply in_seq in Hj. destruct (chunk_index i cs j C ltac:(lia)) as (-> & ->). reflexivity.
Qed.
Lemma chunk_sds_app z cs ts w i m : 0 < cs -> m <= cs -> chunk_sds z cs ts w (i * cs) ++ sds z ts w (i * cs) m = chunk_sds z cs ts w (i * cs + m).
Proof.
  intros C M. unfold chunk_sds, sds. rewrite seq_app, map_app. f_equal. cbn [Nat.add]. rewrite (seq_shift_add m (i * cs)), map_map.
  apply map_ext_in. intros j Hj. apply in_seq in Hj. destruct (chunk_index i cs j C ltac:(lia)) as (-> & ->). reflexivity.
Qed.
Lemma chunked_ok z cs ts w : 1 <= cs -> 1 <= w -> w <= length ts ->
  (forall i n, n <= cs -> i * cs + n + w <= length ts -> roll_finite z ts w (i * cs) n) ->
  frolling_stat_chunked z cs ts w = Ret (chunk_avgs z cs ts w (length ts - w), chunk_sds z cs ts w (length ts - w)).
Proof.
  intros Lc Lw L F. unfold frolling_stat_chunked. set (n := length ts - w).
  pose proof (Nat.div_mod n cs ltac:(lia)) as Dm. pose proof (Nat.mod_upper_bound n cs ltac:(lia)) as Mb.
  match goal with |- context [foreach _ ?b ?s0] =>
    destruct (foreach_seq b (fun i (s : list f64 * list f64) => s = (chunk_avgs z cs ts w (i * cs), chunk_sds z cs ts w (i * cs))) 0 (n / cs) s0) as (r & E & Er)
  end.
  - reflexivity.
  - intros i s Li ->. cbn [Nat.add] in Li. assert ((i + 1) * cs <= n / cs * cs) by (apply Nat.mul_le_mono_r; lia).
    rewrite Nat.mul_add_distr_r, Nat.mul_1_l. rewrite Nat.mul_add_distr_r, Nat.mul_1_l in H.
    pose proof (part_of z ts w (i * cs) cs Lw Lc ltac:(lia) (F i cs (le_n _) ltac:(lia))) as P.
    destruct (cut ts (i * cs) (i * cs + cs + w)) as [part| |]; cbn [bind] in P |- *; try discriminate. rewrite P. cbn [bind fst snd].
    eexists. split; [reflexivity|]. rewrite chunk_avgs_app, chunk_sds_app by lia. replace (S i * cs) with (i * cs + cs) by lia. reflexivity.
  - rewrite E. cbn [bind]. cbn [Nat.add] in Er. subst r. destruct (Nat.ltb_spec 0 (n mod cs)) as [Lm|Lm].
    + pose proof (part_of z ts w (n / cs * cs) (n - n / cs * cs) Lw ltac:(lia) ltac:(lia) (F (n / cs) (n - n / cs * cs) ltac:(lia) ltac:(lia))) as P.
      replace (n / cs * cs + (n - n / cs * cs) + w) with (n + w) in P by lia.
      destruct (cut ts (n / cs * cs) (n + w)) as [part| |]; cbn [bind] in P |- *; try discriminate. rewrite P. cbn [bind].
      rewrite chunk_avgs_app, chunk_sds_app by lia. replace (n / cs * cs + (n - n / cs * cs)) with n by lia. reflexivity.
    + replace (n / cs * cs) with n by lia. reflexivity.
Qed.

(** the statistics from scratch *)
Definition slow_avgs (z : zeros) (ts : list f64) (w n : nat) : list f64 := map (mean0 z ts w) (seq 0 n).
Definition slow_sds (z : zeros) (ts : list f64) (w n : nat) : list f64 := map (fun i => sd_from w (squares0 z ts w i)) (seq 0 n).
Lemma slow_ok z ts w : w <= length ts ->
  (forall i, i + w < length ts -> is_finite (mean0 z ts w i) = true /\ is_finite (sd_from w (squares0 z ts w i)) = true) ->
  frolling_stat_slow z ts w = Ret (slow_avgs z ts w (length ts - w), slow_sds z ts w (length ts - w)).
Proof.
  intros L F. unfold frolling_stat_slow.
  match goal with |- foreach _ ?b ?s0 = _ =>
    destruct (foreach_seq b (fun i (s : list f64 * list f64) => s = (slow_avgs z ts w i, slow_sds z ts w i)) 0 (length ts - w) s0) as (r & E & Er)
  end.
  - reflexivity.
  - intros i s Li ->. rewrite cut_win by lia. cbn [bind fst snd]. fold (mean0 z ts w i). fold (squares0 z ts w i). fold (sd_from w (squares0 z ts w i)).
    destruct (F i ltac:(lia)) as (F1 & F2). unfold assert_. rewrite F1, F2. eexists. split; [reflexivity|].
    unfold slow_avgs, slow_sds. rewrite !seq_S, !map_app. reflexivity.
  - rewrite E, Er. reflexivity.
Qed.
