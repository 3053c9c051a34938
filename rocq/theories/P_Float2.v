(** C96: distances between copies. *)
From Coq Require Import Reals Lra Lia Floats.SpecFloat.
From Flocq Require Import Core BinarySingleNaN.
From Verif Require Import Base F64 Iterator FpOps FloatSeries FloatSpec FloatProofs FloatRoll FloatBound FloatDist FloatDist2 FloatThr FloatZero P_Float.
Local Open Scope R_scope.

Lemma nth_error_skip {A} (l : list A) : forall a k, nth_error (skipn a l) k = nth_error l (a + k).
Proof. induction l as [|x l IH]; intros [|a] k; cbn [skipn Nat.add nth_error]; auto. destruct k; reflexivity. Qed.
Lemma nth_error_range n k : (k < n)%nat -> nth_error (seq 0 n) k = Some k.
Proof. intros H. rewrite (nth_error_nth' _ 0%nat) by (rewrite seq_length; exact H). rewrite seq_nth by exact H. reflexivity. Qed.
Lemma copies_win ts w i j : (i + w <= length ts)%nat -> (j + w <= length ts)%nat -> copies ts w i j -> win ts w i = win ts w j.
Proof.
  intros Li Lj C. apply nth_error_ext. intros k. unfold win. destruct (Nat.lt_ge_cases k w) as [L|L].
  - rewrite !nth_error_firstn by exact L. rewrite !nth_error_skip. apply C, L.
  - rewrite !(proj2 (nth_error_None _ k)); [reflexivity| |]; rewrite firstn_length; lia.
Qed.
Lemma zero_like_pos d : zero_like d -> is_sign_negative d = false -> d = f_zero.
Proof.
  intros ((_ & F) & V) S. destruct d as [[]|[]| |b m k]; try discriminate F; try discriminate S; [reflexivity|].
  exfalso. unfold fval, SF2R in V. apply (F2R_neq_0 radix2 (Float radix2 (cond_Zopp b (Z.pos m)) k)) in V; [exact V|]. destruct b; discriminate.
Qed.

(** ** C96: copies *)
(** The full property: whatever the mode, and whichever way the distance is computed, two
    windows with the same values are at distance 0. *)
Definition copies_at_zero (distance : zeros -> fseries -> nat -> nat -> res f64) (precise : bool) : Prop :=
  forall (z : zeros) (ts : list f64) (w : nat) (s : fseries) (i j : nat),
    moderate ts -> usable ts w -> fseries_new z ts w precise = Ret s ->
    (i < length ts - w)%nat -> (j < length ts - w)%nat -> lively s i -> lively s j -> copies ts w i j ->
    distance z s i j = Ret f_zero.
Definition no_threshold (z : zeros) (s : fseries) (i j : nat) : res f64 :=
  let! o := fzeucl_threshold z s i j f_inf in match o with Some d => Ret d | None => Panic end.

(** It holds for the distance with a threshold in precise mode. *)
Theorem c96_copies_partial : copies_at_zero no_threshold true.
Proof.
  intros z ts w s i j M ((Lw & L) & Hw) E Li Lj Fi Fj C.
  destruct (new_returns z ts w 200 ltac:(lia) Lw Hw L (moderate_bnd ts M) true) as (s' & E' & Ed & Ew & _ & _ & W).
  rewrite E in E'. injection E' as <-.
  destruct (W i Li) as (mi & si & Wi & Bmi & Bsi & _). destruct (W j Lj) as (mj & sj & Wj & Bmj & Bsj & _).
  assert (Same : mi = mj /\ si = sj).
  { unfold fseries_new in E. rewrite (proj2 (Nat.leb_le _ _) L) in E. cbn [assert_] in E.
    rewrite slow_ok in E by (auto; intros k Hk; destruct (slow_stats z ts w 200 ltac:(lia) Lw Hw (moderate_bnd ts M) k ltac:(lia)) as (((_ & A) & _) & ((_ & B) & _) & _); auto).
    cbn [bind] in E. injection E as <-. destruct Wi as (Mi & Si & _), Wj as (Mj & Sj & _). cbn [fmean fsd fs_avg fs_sd] in *. unfold fmean, fsd, get in *. cbn [fs_avg fs_sd] in *.
    pose proof (copies_win ts w i j ltac:(lia) ltac:(lia) C) as CW.
    unfold slow_avgs, slow_sds in *. rewrite !nth_error_map in *.
    rewrite (nth_error_range _ i) in Mi, Si by lia. rewrite (nth_error_range _ j) in Mj, Sj by lia. cbn [option_map] in *. split; [injection Mi as <-; injection Mj as <-|injection Si as <-; injection Sj as <-];
    unfold squares0, mean0; rewrite CW; reflexivity. }
  destruct Same as (<- & <-). pose proof (lively_sd s i mi si _ Fi Wi) as Ni.
  unfold no_threshold. rewrite (fzeucl_threshold_eq z s i j _ _ _ _ _ _ f_inf Wi Wj). change (fmul f_inf f_inf) with f_inf. rewrite faccumulate_inf. cbn [option_map bind].
  rewrite <- (copies_win ts w i j ltac:(lia) ltac:(lia) C).
  f_equal. apply zero_like_pos.
  - apply (copy_zero z 200); auto; [lia|]. intros x Hx. apply (moderate_bnd ts M). eapply win_incl; eauto.
  - apply fsqrt_sign. apply fold_sign; [reflexivity|apply fterms_sign].
Qed.
Print Assumptions c96_copies_partial.

(** It fails for the other one: the two copies of 2 4 4 9 are at distance 2.98e-8. *)
Definition copy_data : list f64 := nums [2; 4; 4; 9; 1; 2; 4; 4; 9; 0]%nat.
(** In default mode both fail: the copies of 3 9 0 have different means on record. *)
Definition drift_data : list f64 := nums [3; 9; 0; 9; 2; 3; 9; 0; 1]%nat.
Lemma copies_by (ts : list f64) w i j l : firstn w (skipn i ts) = l -> firstn w (skipn j ts) = l -> copies ts w i j.
Proof. intros A B k K. rewrite <- !nth_error_skip, <- (nth_error_firstn (skipn i ts) w), <- (nth_error_firstn (skipn j ts) w) by exact K. congruence. Qed.
(** With few windows the chunk size makes no difference. *)
Definition small_new (z : zeros) (ts : list f64) (w : nat) (precise : bool) : res fseries :=
  let! '(avg, sd) := (if precise then frolling_stat_slow z ts w else frolling_stat_chunked z 50 ts w) in Ret (FSeries ts w avg sd).
Lemma small_new_ok z ts w precise : (w <= length ts)%nat -> (length ts - w < 50)%nat -> fseries_new z ts w precise = small_new z ts w precise.
Proof.
  intros L S. unfold fseries_new, small_new. rewrite (proj2 (Nat.leb_le _ _) L). cbn [assert_]. destruct precise; [reflexivity|].
  unfold frolling_stat, frolling_stat_chunked. assert (Big : (50 < fchunk_size)%nat) by (unfold fchunk_size; lia).
  rewrite !Nat.div_small, !Nat.mod_small by lia. reflexivity.
Qed.
Definition series_of (ts : list f64) (w : nat) (precise : bool) : fseries :=
  match small_new z_ex ts w precise with Ret s => s | _ => FSeries [] 0 [] [] end.
Ltac copy_case H l ts w precise i j :=
  specialize (H z_ex ts w (series_of ts w precise) i j);
  assert (A : fseries_new z_ex ts w precise = Ret (series_of ts w precise)) by (rewrite small_new_ok by (vm_compute; lia); vm_compute; reflexivity);
  assert (M : moderate ts) by (apply nums_moderate; intros n Hn; cbn in Hn; lia);
  assert (U : usable ts w) by (unfold usable; vm_compute; split; [lia|discriminate]);
  assert (Li : (i < length ts - w)%nat) by (vm_compute; lia);
  assert (Lj : (j < length ts - w)%nat) by (vm_compute; lia);
  assert (Fi : lively (series_of ts w precise) i) by (vm_compute; reflexivity);
  assert (Fj : lively (series_of ts w precise) j) by (vm_compute; reflexivity);
  specialize (H M U A Li Lj Fi Fj (copies_by ts w i j l eq_refl eq_refl)); clear - H;
  vm_compute in H; discriminate H.
Theorem c96_precise_refuted : ~ copies_at_zero fzeucl true.
Proof. intros H. copy_case H (nums [2; 4; 4; 9]%nat) copy_data 4%nat true 0%nat 5%nat. Qed.
Print Assumptions c96_precise_refuted.
Theorem c96_default_refuted : ~ copies_at_zero fzeucl false /\ ~ copies_at_zero no_threshold false.
Proof.
  split; intros H.
  - copy_case H (nums [2; 4; 4; 9]%nat) copy_data 4%nat false 0%nat 5%nat.
  - copy_case H (nums [3; 9; 0]%nat) drift_data 3%nat false 0%nat 5%nat.
Qed.
Print Assumptions c96_default_refuted.
(** The hypotheses of the first theorem hold for the copies of 2 4 4 9. *)
Example c96_case :
  moderate copy_data /\ usable copy_data 4 /\ copies copy_data 4 0 5 /\
  lively (series_of copy_data 4 true) 0 /\ no_threshold z_ex (series_of copy_data 4 true) 0 5 = Ret f_zero /\
  fzeucl z_ex (series_of copy_data 4 true) 0 5 = Ret (S754_finite false 4503599627370496 (-77)).
Proof.
  split; [apply nums_moderate; intros n Hn; cbn in Hn; lia|]. split; [unfold usable; vm_compute; split; [lia|discriminate]|].
  split; [exact (copies_by copy_data 4 0 5 (nums [2; 4; 4; 9]%nat) eq_refl eq_refl)|]. split; [vm_compute; reflexivity|]. split; vm_compute; reflexivity.
Qed.
