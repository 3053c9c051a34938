(** C92 to C96: distances and statistics as they are computed, in floating point. *)
From Coq Require Import Reals Lra Lia Floats.SpecFloat.
From Flocq Require Import Core BinarySingleNaN.
From Verif Require Import Base F64 HashValue EnumSpec Iterator IteratorSpec IteratorCalls BruteSpec FpOps FloatSeries FloatSpec FloatProofs FloatRoll FloatBound FloatDist FloatDist2 FloatThr P_Iterator.
Local Open Scope R_scope.

(** ** Bridges *)
Lemma window_at_iff s i m sd a : window_at s i m sd a <-> fwindow s i m sd a.
Proof.
  unfold window_at, fwindow, fmean, fsd, fsubsequence, get, cut, assert_. split.
  - intros (-> & -> & L & ->). rewrite (proj2 (Nat.leb_le _ _)), (proj2 (Nat.leb_le _ (length _))) by lia. cbn [andb].
    replace (i + fs_w s - i)%nat with (fs_w s) by lia. auto.
  - intros (E1 & E2 & E3). destruct (nth_error (fs_avg s) i); [|discriminate]. destruct (nth_error (fs_sd s) i); [|discriminate].
    injection E1 as ->. injection E2 as ->. destruct (_ && _) eqn:B; [|discriminate]. apply andb_prop in B as (_ & B). apply Nat.leb_le in B.
    injection E3 as <-. replace (i + fs_w s - i)%nat with (fs_w s) by lia. auto.
Qed.
Lemma moderate_bnd ts : moderate ts -> forall x, In x ts -> bnd x 200.
Proof.
  intros M x H. destruct (M x H) as (N & B). split; [exact N|]. change (bp 200) with (IZR (2 ^ 200)). rewrite (pow_IZR 2 200) in B. exact B.
Qed.
Lemma lively_sd s i m sd a : lively s i -> fwindow s i m sd a -> not_flat sd.
Proof. intros L (_ & S & _). unfold lively, fis_flat in L. rewrite S in L. cbn [bind] in L. injection L as L. exact L. Qed.
Lemma number_not_nan x : number x -> is_nan x = false.
Proof. intros (_ & F). destruct x; try discriminate F; reflexivity. Qed.

(** The example: ten values, windows of five. *)
Definition nums (l : list nat) : list f64 := map f_of_nat l.
Definition data_ex : list f64 := nums [1; 2; 4; 7; 3; 1; 5; 2; 9; 4]%nat.
Definition z_ex : zeros := Zeros false false.
Definition series_ex : fseries := match fseries_new z_ex data_ex 5 true with Ret s => s | _ => FSeries [] 0 [] [] end.
Lemma series_ex_new : fseries_new z_ex data_ex 5 true = Ret series_ex.
Proof. vm_compute. reflexivity. Qed.
Lemma nums_f64 l x : In x (nums l) -> is_f64 x.
Proof. intros H. apply in_map_iff in H as (n & <- & _). apply of_nat_f64. Qed.
Lemma forallb_f64 l : forallb (valid_binary prec emax) l = true -> forall x, In x l -> is_f64 x.
Proof. intros H x Hx. exact (proj1 (forallb_forall _ _) H x Hx). Qed.
Lemma series_ex_ok : holds_f64 series_ex.
Proof. repeat split; apply forallb_f64; vm_compute; reflexivity. Qed.
Lemma nums_moderate l : (forall n, In n l -> (Z.of_nat n <= 2 ^ 53)%Z) -> moderate (nums l).
Proof.
  intros H x Hx. apply in_map_iff in Hx as (n & <- & Hn). specialize (H n Hn). destruct (of_nat_exact n H) as (N & V). split; [exact N|].
  rewrite V, Rabs_right by (apply Rle_ge, pos_INR). rewrite INR_IZR_INZ, (pow_IZR 2 200). apply IZR_le. eapply Z.le_trans; [exact H|]. vm_compute. discriminate.
Qed.
Lemma data_ex_moderate : moderate data_ex.
Proof. apply nums_moderate. intros n Hn. cbn in Hn. lia. Qed.

(** ** C92: the distance between two windows *)
(** It does not depend on the order of the two, bit for bit, and neither does whether the
    call aborts. *)
Theorem c92_symmetric :
  forall (z : zeros) (s : fseries) (i j : nat), fzeucl z s i j = fzeucl z s j i.
Proof. exact fzeucl_sym. Qed.
Print Assumptions c92_symmetric.

(** A window is at distance 0.0 from itself. *)
Theorem c92_self : forall (z : zeros) (s : fseries) (i : nat), fzeucl z s i i = Ret f_zero.
Proof. intros z s i. unfold fzeucl. rewrite Nat.eqb_refl. reflexivity. Qed.
Print Assumptions c92_self.

(** What is returned is not NaN and not negative. *)
Theorem c92_value :
  forall (z : zeros) (s : fseries) (i j : nat) (d : f64),
    fzeucl z s i j = Ret d -> is_nan d = false /\ fle f_zero d = true.
Proof. exact fzeucl_sign. Qed.
Print Assumptions c92_value.

(** For two windows of a series the call aborts exactly if the normalised dot product is
    NaN, or it exceeds the window length and the distance computed term by term is NaN. *)
Theorem c92_aborts :
  forall (z : zeros) (s : fseries) (i j : nat) (mi si mj sj : f64) (a b : list f64),
    holds_f64 s -> (Z.of_nat (fs_w s) <= 2 ^ 52)%Z -> i <> j ->
    window_at s i mi si a -> window_at s j mj sj b ->
    (fzeucl z s i j = Panic <->
       is_nan (fzdot z a mi si b mj sj) = true \/
       flt (f_of_nat (fs_w s)) (fzdot z a mi si b mj sj) = true /\ exists d, fzeucl_slow s i j = Ret d /\ is_nan d = true).
Proof.
  intros z s i j mi si mj sj a b Ok Hw Nij Wi Wj. apply window_at_iff in Wi, Wj.
  rewrite (fzeucl_eq z s i j mi si a mj sj b Nij Wi Wj). cbv zeta.
  assert (Es : fzeucl_slow s i j = Ret (fsqrt64 (fold_left fadd (zip_with (fterm mi si mj sj) a b) f_zero))).
  { destruct Wi as (Mi & Si & A), Wj as (Mj & Sj & B). unfold fzeucl_slow. rewrite Mi, Mj, Si, Sj, A, B. cbn [bind]. rewrite slow_fold. reflexivity. }
  rewrite Es. destruct (fwindow_ok s i mi si a Ok Wi) as (Vmi & Vsi & Va). destruct (fwindow_ok s j mj sj b Ok Wj) as (Vmj & Vsj & Vb).
  pose proof (zdot_f64 z a mi si b mj sj Va Vb Vmi Vmj Vsi Vsj) as Vd. set (dotp := fzdot z a mi si b mj sj) in *.
  destruct (flt (f_of_nat (fs_w s)) dotp) eqn:F.
  - assert (Nd : is_nan dotp = false) by (destruct dotp; try reflexivity; destruct (f_of_nat (fs_w s)) as [[]|[]| |[]]; discriminate F). rewrite Nd.
    destruct (is_nan (fsqrt64 _)) eqn:N.
    + split; [intros _; right; split; [reflexivity|eauto]|reflexivity].
    + split; [discriminate|]. intros [C|(_ & d & E & C)]; [discriminate C|]. injection E as <-. rewrite N in C. discriminate C.
  - rewrite (fast_not_nan (fs_w s) dotp Hw Vd F). destruct (is_nan dotp); split; intros H; try discriminate; auto.
    destruct H as [H|(H & _)]; discriminate.
Qed.
Print Assumptions c92_aborts.

(** The two windows at 0 and 3: both orders give 3.3827364741309918. *)
Example c92_case :
  fzeucl z_ex series_ex 0 3 = Ret (S754_finite false 7617245362194460 (-51)) /\
  fzeucl z_ex series_ex 3 0 = Ret (S754_finite false 7617245362194460 (-51)).
Proof. split; vm_compute; reflexivity. Qed.
(** Both have a mean and a standard deviation. *)
Lemma window_ex s i : (i < length (fs_avg s))%nat -> (i < length (fs_sd s))%nat -> (i + fs_w s <= length (fs_data s))%nat ->
  window_at s i (nth i (fs_avg s) f_nan) (nth i (fs_sd s) f_nan) (firstn (fs_w s) (skipn i (fs_data s))).
Proof. intros A B C. split; [apply nth_error_nth'; exact A|]. split; [apply nth_error_nth'; exact B|]. split; [exact C|reflexivity]. Qed.
Lemma small_nat a b : (a <=? b)%nat = true -> (a <= b)%nat.
Proof. apply Nat.leb_le. Qed.
Lemma window_0 : window_at series_ex 0 (nth 0 (fs_avg series_ex) f_nan) (nth 0 (fs_sd series_ex) f_nan) (firstn 5 data_ex).
Proof. apply (window_ex series_ex 0); apply small_nat; vm_compute; reflexivity. Qed.
Lemma window_3 : window_at series_ex 3 (nth 3 (fs_avg series_ex) f_nan) (nth 3 (fs_sd series_ex) f_nan) (firstn 5 (skipn 3 data_ex)).
Proof. apply (window_ex series_ex 3); apply small_nat; vm_compute; reflexivity. Qed.
Example c92_windows_case :
  exists mi si mj sj a b, window_at series_ex 0 mi si a /\ window_at series_ex 3 mj sj b /\ holds_f64 series_ex /\ (Z.of_nat (fs_w series_ex) <= 2 ^ 52)%Z.
Proof.
  do 6 eexists. split; [exact window_0|]. split; [exact window_3|]. split; [exact series_ex_ok|].
  apply Z.leb_le. vm_compute. reflexivity.
Qed.
(** A constant window makes the call abort: its standard deviation is 0, the dot product NaN. *)
Example c92_abort_case :
  bind (fseries_new z_ex (nums [3; 3; 3; 1; 5; 2; 4]%nat) 3 true) (fun s => fzeucl z_ex s 0 2) = Panic.
Proof. vm_compute. reflexivity. Qed.
(** The dot product does exceed the window length: 8 3 5 3 3 against three times that. *)
Definition series_ex3 : fseries :=
  match fseries_new z_ex (nums [8; 3; 5; 3; 3; 24; 9; 15; 9; 9; 0]%nat) 5 true with Ret s => s | _ => FSeries [] 0 [] [] end.
Example c92_fallback_case :
  flt (f_of_nat 5) (fzdot z_ex (nums [8; 3; 5; 3; 3]%nat) (nth 0 (fs_avg series_ex3) f_nan) (nth 0 (fs_sd series_ex3) f_nan)
                              (nums [24; 9; 15; 9; 9]%nat) (nth 5 (fs_avg series_ex3) f_nan) (nth 5 (fs_sd series_ex3) f_nan)) = true /\
  match fzeucl z_ex series_ex3 0 5 with Ret d => is_finite d | _ => false end = true.
Proof. split; vm_compute; reflexivity. Qed.

(** ** C93: the distance with a threshold *)
(** What is returned never has a minus sign. *)
Theorem c93_sign :
  forall (z : zeros) (s : fseries) (i j : nat) (t d : f64),
    fzeucl_threshold z s i j t = Ret (Some d) -> is_sign_negative d = false.
Proof. exact fzeucl_threshold_sign. Qed.
Print Assumptions c93_sign.

(** Let [d] be what is returned without a threshold, and a number or infinity.  There is a
    value [x] whose rounded square root is [d], such that for every threshold [t] the pair
    is rejected if the rounded [t * t] is less than [x], and otherwise [d] is returned: the
    threshold never changes the value. *)
Theorem c93_threshold :
  forall (z : zeros) (s : fseries) (i j : nat) (d : f64),
    holds_f64 s -> fzeucl_threshold z s i j f_inf = Ret (Some d) -> is_nan d = false ->
    exists x : f64, is_f64 x /\ is_sign_negative x = false /\ d = fsqrt64 x /\
      forall t, fzeucl_threshold z s i j t = Ret (if flt (fmul t t) x then None else Some d).
Proof. exact threshold_all. Qed.
Print Assumptions c93_threshold.

(** A pair that is rejected is at least as far apart as the threshold. *)
Theorem c93_rejected :
  forall (z : zeros) (s : fseries) (i j : nat) (t d : f64),
    holds_f64 s -> fzeucl_threshold z s i j f_inf = Ret (Some d) -> is_nan d = false ->
    is_f64 t -> is_nan t = false ->
    fzeucl_threshold z s i j t = Ret None -> fle t d = true.
Proof.
  intros z s i j t d Ok H N Nt T R. destruct (threshold_all z s i j d Ok H N) as (x & X & Sx & -> & A). rewrite A in R.
  destruct (flt (fmul t t) x) eqn:F; [|discriminate R]. apply rejected_far; auto.
Qed.
Print Assumptions c93_rejected.

(** The same pair as above: the value is the one of the other computation, a threshold of 3
    rejects it and one of 4 does not. *)
Example c93_case :
  fzeucl_threshold z_ex series_ex 0 3 f_inf = Ret (Some (S754_finite false 7617245362194459 (-51))) /\
  fzeucl_threshold z_ex series_ex 0 3 (f_of_nat 3) = Ret None /\
  fzeucl_threshold z_ex series_ex 0 3 (f_of_nat 4) = Ret (Some (S754_finite false 7617245362194459 (-51))).
Proof. vm_compute. auto. Qed.
(** Unlike the other one this computation depends on the order of the two windows, in the
    last bit. *)
Example c93_order_case :
  fzeucl_threshold z_ex series_ex 3 0 f_inf = Ret (Some (S754_finite false 7617245362194460 (-51))) /\
  fzeucl_threshold z_ex series_ex 3 0 f_inf <> fzeucl_threshold z_ex series_ex 0 3 f_inf.
Proof. split; [vm_compute; reflexivity|vm_compute; discriminate]. Qed.

(** ** C94: making a series of moderate data *)
(** The constructor returns, whatever the length of the data.  There are a mean and a
    standard deviation for every window, all of them are finite, and no standard deviation
    is negative. *)
Theorem c94_new :
  forall (z : zeros) (ts : list f64) (w : nat) (precise : bool),
    moderate ts -> usable ts w ->
    exists s, fseries_new z ts w precise = Ret s /\ fs_data s = ts /\ fs_w s = w /\
      length (fs_avg s) = (length ts - w)%nat /\ length (fs_sd s) = (length ts - w)%nat /\
      (forall m, In m (fs_avg s) -> number m) /\
      (forall sd, In sd (fs_sd s) -> number sd /\ 0 <= fval sd).
Proof.
  intros z ts w precise M ((Lw & L) & Hw).
  destruct (new_returns z ts w 200 ltac:(lia) Lw Hw L (moderate_bnd ts M) precise) as (s & E & Ed & Ew & La & Ls & W).
  exists s. do 5 (split; [assumption|]). split.
  - intros m Hm. apply In_nth_error in Hm as (i & Hi). assert (Li : (i < length ts - w)%nat) by (rewrite <- La; apply nth_error_Some; congruence).
    destruct (W i Li) as (m' & sd & (Em & _ & _) & B & _). unfold fmean, get in Em. rewrite Hi in Em. injection Em as ->. apply B.
  - intros sd Hs. apply In_nth_error in Hs as (i & Hi). assert (Li : (i < length ts - w)%nat) by (rewrite <- Ls; apply nth_error_Some; congruence).
    destruct (W i Li) as (m' & sd' & (_ & Es & _) & _ & B & S). unfold fsd, get in Es. rewrite Hi in Es. injection Es as ->.
    split; [apply B|apply sign_val; [apply B|exact S]].
Qed.
Print Assumptions c94_new.

Example c94_case : moderate data_ex /\ usable data_ex 5.
Proof. split; [exact data_ex_moderate|]. unfold usable, data_ex, nums. rewrite map_length. cbn [length]. lia. Qed.
(** Some bound is needed: with two values near the largest [f64] the sum overflows.  The
    precise mode aborts; the default mode does not check the first window and returns an
    infinite mean and an infinite standard deviation. *)
Example c94_overflow_case :
  let big := S754_finite false 9007199254740991 971 in
  fseries_new z_ex [big; big; f_zero] 2 true = Panic /\
  match fseries_new z_ex [big; big; f_zero] 2 false with Ret s => fs_avg s = [f_inf] /\ fs_sd s = [f_inf] | _ => False end.
Proof. cbv zeta. split; [vm_compute; reflexivity|vm_compute; split; reflexivity]. Qed.

(** ** C95: distances between windows of moderate data that are not flat *)
(** Both computations return a finite, non-negative distance; the one with a threshold does
    so when given an infinite one, and never aborts. *)
Theorem c95_distances :
  forall (z : zeros) (ts : list f64) (w : nat) (precise : bool) (s : fseries) (i j : nat),
    moderate ts -> usable ts w -> fseries_new z ts w precise = Ret s ->
    (i < length ts - w)%nat -> (j < length ts - w)%nat -> lively s i -> lively s j ->
    (exists d, fzeucl z s i j = Ret d /\ distance_value d) /\
    (exists d, fzeucl_threshold z s i j f_inf = Ret (Some d) /\ distance_value d) /\
    (forall t, exists o, fzeucl_threshold z s i j t = Ret o).
Proof.
  intros z ts w precise s i j M ((Lw & L) & Hw) E Li Lj Fi Fj.
  destruct (new_returns z ts w 200 ltac:(lia) Lw Hw L (moderate_bnd ts M) precise) as (s' & E' & Ed & Ew & _ & _ & W).
  rewrite E in E'. injection E' as <-.
  destruct (W i Li) as (mi & si & Wi & Bmi & Bsi & _). destruct (W j Lj) as (mj & sj & Wj & Bmj & Bsj & _).
  pose proof (lively_sd s i mi si _ Fi Wi) as Ni. pose proof (lively_sd s j mj sj _ Fj Wj) as Nj.
  assert (A : forall x, In x (win ts w i) -> bnd x 200) by (intros x Hx; apply (moderate_bnd ts M); eapply win_incl; eauto).
  assert (B : forall x, In x (win ts w j) -> bnd x 200) by (intros x Hx; apply (moderate_bnd ts M); eapply win_incl; eauto).
  assert (La : (Z.of_nat (length (win ts w i)) <= 2 ^ 52)%Z) by (rewrite win_length by lia; exact Hw).
  split; [|split].
  - destruct (Nat.eq_dec i j) as [<-|Nij]; [exists f_zero; split; [apply c92_self|split; [apply zero_number|cbn; lra]]|].
    rewrite (fzeucl_eq z s i j mi si _ mj sj _ Nij Wi Wj). cbv zeta. rewrite Ew.
    pose proof (zdot_bnd z 200 mi si mj sj _ _ ltac:(lia) Bmi Bmj Bsi Bsj Ni Nj A B La) as Bd.
    destruct (flt (f_of_nat w) (fzdot z (win ts w i) mi si (win ts w j) mj sj)) eqn:F.
    + pose proof (slow_bnd 200 mi si mj sj (win ts w i) (win ts w j) ltac:(lia) Bmi Bmj Bsi Bsj Ni Nj A B La) as (N & P).
      rewrite (number_not_nan _ N). eexists. split; [reflexivity|split; assumption].
    + pose proof (fast_bnd 200 _ _ A B w _ (2 * 200 + 127) Hw Bd ltac:(lia) F) as (N & P).
      rewrite (number_not_nan _ N). eexists. split; [reflexivity|split; assumption].
  - rewrite (fzeucl_threshold_eq z s i j _ _ _ _ _ _ f_inf Wi Wj). change (fmul f_inf f_inf) with f_inf. rewrite faccumulate_inf. cbn [option_map].
    pose proof (threshold_bnd z 200 mi si mj sj (win ts w i) (win ts w j) ltac:(lia) Bmi Bmj Bsi Bsj Ni Nj A B La ltac:(lia)) as (_ & _ & N & P).
    eexists. split; [reflexivity|split; assumption].
  - intros t. rewrite (fzeucl_threshold_eq z s i j _ _ _ _ _ _ t Wi Wj). eauto.
Qed.
Print Assumptions c95_distances.

(** A search over a series of moderate data whose index leaves out the flat windows meets
    all the assumptions of C16 to C30 and C82 to C88 on distances: [sound] follows from what
    it says of the tables and the configuration. *)
Theorem c95_search :
  forall (z : zeros) (ts : list f64) (w : nat) (precise : bool) (s : fseries) (p : problem),
    moderate ts -> usable ts w -> fseries_new z ts w precise = Ret s ->
    (* the problem solved is the one for this series *)
    p_n p = (length ts - w)%nat ->
    (forall i j, p_zeucl p i j = match fzeucl z s i j with Ret d => d | _ => f_nan end) ->
    (forall i j t, p_zeucl_threshold p i j t = match fzeucl_threshold z s i j t with Ret o => o | _ => None end) ->
    (forall i, indexed p i -> lively s i) ->
    (* configuration and tables *)
    (0 < p_ez p)%nat -> (0 < p_buffer p)%nat -> length (p_expected p) = (K + 1)%nat ->
    (forall r k, (1 <= k <= K)%nat -> table_ok (fst (p_table p r k)) (snd (p_table p r k)) /\ fst (p_table p r k) <> []) ->
    (forall r k x i, (1 <= k <= K)%nat -> nth_error (snd (p_table p r k)) x = Some i ->
       (i < N.of_nat (p_n p))%N \/ nth_error (fst (p_table p r k)) x = Some u64_max) ->
    sound p.
Proof.
  intros z ts w precise s p M U E Hn Hd Ht Hi Ez Bf Pr Tb Ix. constructor; auto.
  - intros a b t d H. rewrite Ht in H. destruct (fzeucl_threshold z s a b t) as [o| |] eqn:F; try discriminate H. subst o. eapply fzeucl_threshold_sign; eauto.
  - intros x y. rewrite Hd. destruct (fzeucl z s x y) as [d| |] eqn:F; try (cbn; discriminate). intros _. eapply fzeucl_sign; eauto.
  - intros i j Ii Ij _. rewrite Hd. destruct (c95_distances z ts w precise s i j M U E) as ((d & F & N & _) & _); try (apply Hi; assumption);
      try (rewrite <- Hn; first [apply Ii|apply Ij]). rewrite F. apply number_not_nan, N.
Qed.
Print Assumptions c95_search.

Example c95_case :
  moderate data_ex /\ usable data_ex 5 /\ fseries_new z_ex data_ex 5 true = Ret series_ex /\ lively series_ex 0 /\ lively series_ex 3.
Proof. split; [apply c94_case|]. split; [apply c94_case|]. split; [apply series_ex_new|]. split; vm_compute; reflexivity. Qed.

(** A search over a series of 17 values, with windows of 4 and the windows 0, 4, 8 and 12 in
    the index.  The third repeats the first up to scale, the second is near. *)
Definition search_data : list f64 := nums [1; 5; 2; 8; 2; 9; 4; 17; 2; 10; 4; 16; 7; 1; 9; 3; 0]%nat.
Definition search_series : fseries := match fseries_new z_ex search_data 4 true with Ret s => s | _ => FSeries [] 0 [] [] end.
Definition search_ex : problem := {|
  p_n := 13; p_ez := 2; p_max_k := 3; p_top_k := 1;
  p_zeucl := fun i j => match fzeucl z_ex search_series i j with Ret d => d | _ => f_nan end;
  p_zeucl_threshold := fun i j t => match fzeucl_threshold z_ex search_series i j t with Ret o => o | _ => None end;
  p_table := fun _ _ => (toy_hashes, [0; 4; 8; 12]%N);
  p_failure := fun _ reps _ _ _ => if (reps <? 3)%nat then f_of_nat 1 else f_zero;
  p_delta := half; p_coin := fun _ _ _ => true;
  p_expected := toy_expected; p_setup_cost := f_of_nat 1; p_collision_cost := f_of_nat 1; p_max_repetitions := 100;
  p_buffer := 4; p_threshold := 7; p_stop := false; p_nan_first := true |}.
Example c95_search_case : sound search_ex.
Proof.
  apply (c95_search z_ex search_data 4 true search_series search_ex).
  - apply nums_moderate. intros n Hn. cbn in Hn. lia.
  - unfold usable, search_data, nums. rewrite map_length. cbn [length]. lia.
  - vm_compute. reflexivity.
  - reflexivity.
  - intros. reflexivity.
  - intros. reflexivity.
  - intros i (_ & r & k & _ & H). cbn [p_table search_ex snd] in H.
    destruct H as [H|[H|[H|[H|[]]]]]; [replace i with 0%nat by lia|replace i with 4%nat by lia|replace i with 8%nat by lia|replace i with 12%nat by lia]; vm_compute; reflexivity.
  - cbn. lia.
  - cbn. lia.
  - reflexivity.
  - intros r k _. split; [exact toy_table|discriminate].
  - intros r k x i _ H. left. cbn [p_table search_ex snd] in H. apply nth_error_In in H. cbn in H. intuition (subst; reflexivity).
Qed.
(** Run from the pair 4, 12: it finds the three windows 0, 4 and 8, whose extent is about
    0.2256, and then the pair 0, 8, at distance 0. *)
Example c95_search_run :
  match session search_ex 4 12 (p_zeucl search_ex 4 12) toy_calls 30 with Ret (_, l) => l | _ => [] end =
  [Interrupted; Interrupted; Item (TopK.Motiflet [0; 8; 4]%nat (S754_finite false 8129125563436117 (-55)));
   Item (TopK.Motiflet [0; 8]%nat f_zero); End; End].
Proof. vm_compute. reflexivity. Qed.
