(** C125: a repeat is found, with the hash values in floating point as well. *)
From Coq Require Import Reals Lra Lia Permutation Floats.SpecFloat.
From Flocq Require Import Core BinarySingleNaN.
From Verif Require Import Base F64 RSpec RealProofs HashSpec HashValue HashProofs SortSpec OverlapsSpec EnumSpec Enumerator Moves MovesProofs HistoryProofs
  Series SeriesProofs FFT FFTProofs Hashing HashingSpec HashingProofs TopK Iterator IteratorSpec IteratorProofs IteratorLoop IteratorCalls IteratorSteps P_Series P_FFT P_Enum P_Hashing P_Iterator GuaranteeSpec GuaranteeProofs GuaranteeTrace P_Guarantee P_Repeats
  FpOps FloatSeries FloatSpec FloatProofs FloatRoll FloatBound FloatErr FloatMean P_Float P_Float2 P_Acc P_Acc2 AccSpec P_Acc3 P_Acc4
  FloatHash ProjSpec P_Proj.
Local Open Scope R_scope.

(** Windows that meet in the first table at every prefix are searched (see P_Repeats). *)
Lemma met_searched p a b d i j : sound p -> seed_ok p a b d ->
  (forall q tables, (1 <= q)%nat -> nth_error tables 0 = Some (p_table p 0 K) -> meet tables (p_ez p) q 0 i j) ->
  (forall s1 s2, turn_of p a b d s1 s2 -> searched p s1 (c_rep (it_conf s1) + 1) i j) /\
  (forall s1, stop_of p a b d s1 -> searched p s1 (c_rep (it_conf s1)) i j).
Proof.
  intros Sd Se Met. split; [intros s1 s2 T|intros s1 T].
  - destruct T as (h & fl & T & _). inversion T as [|? ? ? T' St]; subst. left. exists 0%nat. split; [lia|]. apply Met; [|eapply first_table; eauto].
    destruct (trace_inv p a b d _ Sd Se T') as (s0 & l0 & Eq & I). injection Eq as <- <-. destruct (inv_conf _ _ _ I) as (_ & Hp & _). apply Hp.
  - destruct T as ((h & T) & _ & Lc).
    destruct (trace_inv p a b d _ Sd Se T) as (s0 & l0 & Eq & I). injection Eq as <- <-. destruct (inv_conf _ _ _ I) as (_ & Hp & Hq).
    pose proof (first_table p a b d s1 h Sd Se T) as Ft.
    destruct (started p a b d s1 h Sd Se T ltac:(lia)) as [C|(q & r & E1 & E2 & C)].
    + left. exists 0%nat. split; [exact C|]. apply Met; [lia|exact Ft].
    + right. exists q, r, 0%nat. split; [exact E1|]. split; [exact E2|]. split; [exact C|]. apply Met; [apply (Hq q E1)|exact Ft].
Qed.

Lemma arranged {A B} (l l' : list (A * B)) i row : Permutation l l' -> nth_error l i = Some row ->
  exists x, nth_error (map fst l') x = Some (fst row) /\ nth_error (map snd l') x = Some (snd row).
Proof.
  intros P H. apply nth_error_In in H. apply (Permutation_in _ P) in H. destruct (In_nth_error _ _ H) as (x & Hx).
  exists x. split; apply map_nth_error; exact Hx.
Qed.

(** ** C125: a repeat is found *)
(** As C103, with the first table as the code computes it: the projections, the quantisation
    and the statistics are all rounded, and [sdp v i] is what the FFT library gives for the
    dot product of vector [v] and window [i], within [err] for the two windows of the repeat.
    The projections of the repeat are not so close to the border of a bucket that the error
    can take them over it (see [c125_shifts] for how rarely they are). *)
Theorem c125_repeat :
  forall (z : zeros) (ts : list f64) (w : nat) (precise : bool) (s : fseries) (p : problem) (e : Z) (eps err gap : R)
         (hs : fhasher) (sdp : list f64 -> nat -> f64) (arrange : list (N * N) -> list (N * N)) (i j : nat) (scale offset : R)
         (a b : nat) (d : f64) (cbs : list (nat -> bool)) (fuel : nat) (st : iter) (answers : list answer) (m : motiflet) (exact : R),
    (* the series and its distances *)
    moderate ts -> usable ts w -> fseries_new z ts w precise = Ret s -> search_over z ts w s p ->
    0 < eps <= / 64 -> accurate s (length ts - w) e eps ->
    (* the first table *)
    fhasher_ok hs w -> sorts arrange -> (N.of_nat (length ts) <= 2 ^ 32)%N ->
    frepetition_table z arrange hs s sdp K = Ret (p_table p 0 K) ->
    (* the search *)
    sound p -> seed_ok p a b d -> lively s a -> lively s b -> seed_within ts w gap a b d ->
    (forall c i j, p_coin p c i j = true) -> p_top_k p = 1%nat ->
    (* the repeat *)
    (i < j)%nat -> (j < p_n p)%nat -> ~ too_close (p_ez p) i j -> lively s i -> lively s j ->
    0 < sd_of (exact_window ts w i) -> 0 < scale -> exact_window ts w j = map (fun x => scale * x + offset) (exact_window ts w i) ->
    err <= 2 ^ 500 ->
    (forall v k, (v = i \/ v = j) -> (k < 8)%nat -> dot_within ts w (vector hs k) v err (sdp (vector hs k) v)) ->
    (forall v k m, (v = i \/ v = j) -> (k < 8)%nat -> (-128 <= m <= 128)%Z ->
       bucket_slack hs ts w k v eps err < Rabs (exact_bucket hs ts w k v - IZR m)) ->
    (forall x, nth_error (snd (p_table p 0 K)) x = Some (N.of_nat i) -> ~ in_last_bucket (fst (p_table p 0 K)) 1 x) ->
    (* what is returned *)
    session p a b d cbs fuel = Ret (st, answers) -> In (Item m) answers ->
    length (ml_indices m) = 2%nat -> widest (exact_distance ts w) (ml_indices m) exact ->
    fval (ml_extent m) ^ 2 <= 400 * INR w * eps ^ 2 + 10 * INR w * eps /\
    exact ^ 2 <= 400 * INR w * eps ^ 2 + 10 * INR w * eps + Rmax (10 * INR w * eps) gap.
Proof.
  intros z ts w precise s p e eps err gap hs sdp arrange i j scale offset a b d cbs fuel st answers m exact Mo U E So He Ac Hh Sa L32 Ht Sd Sk Fa Fb Ed Hc H1
    Lij Lj Na Ni Nj Psd Ps Ew Er Hd Hb Nl Es Hm L2 Wd.
  assert (Hn : p_n p = (length ts - w)%nat) by apply (so_n _ _ _ _ _ So).
  assert (Ez : znorm (exact_window ts w j) = znorm (exact_window ts w i)) by (rewrite Ew; apply znorm_affine; lra).
  assert (Met : forall q tables, (1 <= q)%nat -> nth_error tables 0 = Some (p_table p 0 K) -> meet tables (p_ez p) q 0 i j).
  { intros q tables Lq Et. split; [exact Na|]. destruct (p_table p 0 K) as [hashes indices] eqn:Etab. cbn [fst snd] in Nl.
    unfold K in Ht. destruct (c119_hash z ts w precise s hs sdp 8 Mo U E Hh ltac:(lia)) as (rows & Eh & Lr & Hr).
    unfold frepetition_table in Ht. rewrite Eh in Ht. cbn [bind] in Ht. injection Ht as <- <-.
    destruct (Sa rows) as (Pm & _).
    assert (Row : forall v, (v = i \/ v = j) -> exists row, nth_error rows v = Some row /\ frow_of hs ts w 8 v eps err row).
    { intros v Hv. assert (Lv : (v < length ts - w)%nat) by (destruct Hv; lia). destruct (Hr v Lv) as (row & Hrow & _ & R). exists row. split; [exact Hrow|].
      assert (Fv : lively s v) by (destruct Hv; subst v; assumption).
      apply (R e eps err Fv He (Ac v Lv Fv) Er). intros k Lk. apply Hd; assumption. }
    destruct (Row i ltac:(auto)) as (ri & Hi & Ri). destruct (Row j ltac:(auto)) as (rj & Hj & Rj).
    assert (Ef : fst ri = fst rj) by (apply (c119_copies hs ts w 8 i j eps eps err err ri rj (le_n 8) Ri Rj (eq_sym Ez)); intros k k' Lk Hk'; split; apply Hb; auto).
    destruct (arranged _ _ _ _ Pm Hi) as (x & Hx1 & Hx2). destruct (arranged _ _ _ _ Pm Hj) as (y & Hy1 & Hy2).
    destruct Ri as (_ & Ii & _), Rj as (_ & Ij & _). rewrite N.mod_small in Ii, Ij by lia. rewrite Ii in Hx2. rewrite Ij in Hy2. rewrite <- Ef in Hy1.
    assert (Nxy : x <> y) by (intros ->; rewrite Hx2 in Hy2; injection Hy2 as Hy2; apply Nat2N.inj in Hy2; lia).
    assert (Nq : ~ in_last_bucket (map fst (arrange rows)) q x) by (intros C; apply (Nl x Hx2); apply (last_shorter _ 1 q); [exact Lq|exact C]).
    destruct (Nat.lt_ge_cases x y) as [Lxy|Lxy].
    - exists (map fst (arrange rows), map snd (arrange rows)), x, y. cbn [fst snd]. split; [exact Et|]. split; [split; [exact Lxy|]; exists (fst ri), (fst ri); repeat split; auto|]. split; [exact Nq|auto].
    - exists (map fst (arrange rows), map snd (arrange rows)), y, x. cbn [fst snd]. split; [exact Et|]. split; [split; [lia|]; exists (fst ri), (fst ri); repeat split; auto|]. split; [|auto].
      intros (h1 & h2 & E1 & E2 & Ag). apply Nq. rewrite Hy1 in E1. injection E1 as <-. exists (fst ri), h2. auto. }
  destruct (met_searched p a b d i j Sd Sk Met) as (A1 & A2).
  destruct (c102_pair z ts w precise s p e eps gap a b d cbs fuel st answers m exact Mo U E So He Ac Sd Sk Fa Fb Ed Hc H1 Es Hm L2 Wd) as (s1 & reps & W & R).
  assert (Hs : searched p s1 reps i j) by (destruct W as [(s2 & T & _ & _ & ->)|(T & ->)]; eauto).
  specialize (R i j Hs).
  assert (D0 : exact_distance ts w i j = 0) by (unfold exact_distance, zdistance; rewrite Ez; apply euclid_refl).
  rewrite D0 in R. pose proof (pos_INR w) as Pw.
  replace ((0 + 20 * sqrt (INR w) * eps) ^ 2) with (400 * (sqrt (INR w) * sqrt (INR w)) * eps ^ 2) in R by ring. rewrite (sqrt_sqrt _ Pw) in R. exact R.
Qed.
Print Assumptions c125_repeat.

Lemma magnitude_nonneg v : 0 <= magnitude v.
Proof. unfold magnitude. induction v as [|x v IH]; unfold total in *; cbn [map fold_right]; [lra|]. pose proof (Rabs_pos (fval x)). lra. Qed.

(** ** How rarely a projection is near the border of a bucket *)
(** The shift is drawn from [[0, width)].  Those for which the projection of window [i] on
    vector [k] is near a border are in intervals of at most [2 * room] times the width in
    all, where [room] is the error measured in buckets: any other shift will do, whatever
    the other shifts are. *)
Theorem c125_shifts :
  forall (hs : fhasher) (ts : list f64) (w k i : nat) (eps err room : R),
    0 < fval (fh_width hs) -> 0 < eps -> 0 <= err -> 0 < sd_of (exact_window ts w i) ->
    2 * (slack ts w (vector hs k) i eps err / fval (fh_width hs)) +
      (Rabs (exact_projection ts w (vector hs k) i) / fval (fh_width hs) + 1) * powerRZ 2 (-51) + powerRZ 2 (-1075) <= room -> room <= / 2 ->
    exists bad : list (R * R),
      (forall x y, In (x, y) bad -> 0 <= x <= y /\ y <= fval (fh_width hs)) /\
      total (map (fun xy => snd xy - fst xy) bad) <= 2 * room * fval (fh_width hs) /\
      forall hs', fh_vectors hs' = fh_vectors hs -> fh_width hs' = fh_width hs ->
        0 <= fval (nth k (fh_shifts hs') f_zero) < fval (fh_width hs) ->
        (forall x y, In (x, y) bad -> ~ (x <= fval (nth k (fh_shifts hs') f_zero) <= y)) ->
        forall m : Z, bucket_slack hs' ts w k i eps err < Rabs (exact_bucket hs' ts w k i - IZR m).
Proof.
  intros hs ts w k i eps err room PW Pe Perr Psd Hr Hr2. set (W := fval (fh_width hs)) in *.
  set (P := exact_projection ts w (vector hs k) i) in *. set (sl := slack ts w (vector hs k) i eps err) in *.
  assert (P51 : 0 < powerRZ 2 (-51)) by (apply powerRZ_lt; lra). assert (P75 : 0 < powerRZ 2 (-1075)) by (apply powerRZ_lt; lra).
  assert (Psl : 0 <= sl / W).
  { apply Rmult_le_pos; [|left; apply Rinv_0_lt_compat; exact PW]. unfold sl, slack.
    assert (0 < powerRZ 2 (-1050)) by (apply powerRZ_lt; lra).
    assert (0 <= err / sd_of (exact_window ts w i)) by (apply Rmult_le_pos; [exact Perr|left; apply Rinv_0_lt_compat; exact Psd]).
    pose proof (magnitude_nonneg (vector hs k)).
    pose proof (Rabs_pos (exact_projection ts w (vector hs k) i)).
    assert (0 <= eps * (4 * magnitude (vector hs k) + 2 * Rabs (exact_projection ts w (vector hs k) i))) by (apply Rmult_le_pos; lra). lra. }
  assert (PPW : 0 <= Rabs P / W) by (apply Rmult_le_pos; [apply Rabs_pos|left; apply Rinv_0_lt_compat; exact PW]).
  assert (Pr : 0 < room) by nra.
  set (q := Int_part (- (P / W))). set (f := - (P / W) - IZR q).
  assert (Hf : 0 <= f < 1) by (unfold f, q; destruct (base_Int_part (- (P / W))); lra).
  exists [(Rmax 0 (f - room) * W, Rmin 1 (f + room) * W); (0, Rmax 0 (f - 1 + room) * W); (Rmin 1 (f + 1 - room) * W, W)].
  assert (B1 : 0 <= Rmax 0 (f - room) <= Rmin 1 (f + room) /\ Rmin 1 (f + room) <= 1).
  { unfold Rmax, Rmin. destruct (Rle_dec _ _), (Rle_dec _ _); lra. }
  assert (B2 : 0 <= Rmax 0 (f - 1 + room) <= 1) by (unfold Rmax; destruct (Rle_dec _ _); lra).
  assert (B3 : 0 <= Rmin 1 (f + 1 - room) <= 1) by (unfold Rmin; destruct (Rle_dec _ _); lra).
  split.
  { intros x y [Exy|[Exy|[Exy|[]]]]; injection Exy as <- <-; nra. }
  split.
  { unfold total. cbn [map fold_right fst snd].
    assert (T : (Rmin 1 (f + room) - Rmax 0 (f - room)) + Rmax 0 (f - 1 + room) + (1 - Rmin 1 (f + 1 - room)) <= 2 * room).
    { unfold Rmax, Rmin. destruct (Rle_dec 1 (f + room)), (Rle_dec 0 (f - room)), (Rle_dec 0 (f - 1 + room)), (Rle_dec 1 (f + 1 - room)); lra. }
    nra. }
  intros hs' Ev Ewd Hsh Hbad m. unfold bucket_slack, exact_bucket, vector. rewrite Ev, Ewd. fold (vector hs k). fold P sl W.
  set (t := fval (nth k (fh_shifts hs') f_zero)) in *.
  assert (Et : (P + t) / W = P / W + t / W) by (field; lra). rewrite Et.
  assert (Ht : 0 <= t / W < 1).
  { split; [apply Rmult_le_pos; [apply Hsh|left; apply Rinv_0_lt_compat; exact PW]|]. apply Rmult_lt_reg_r with W; [exact PW|]. unfold Rdiv. rewrite Rmult_assoc, Rinv_l by lra. lra. }
  assert (EtW : t = t / W * W) by (field; lra). set (u := t / W) in *.
  apply Rle_lt_trans with room.
  { apply Rle_trans with (2 := Hr). apply Rplus_le_compat_r, Rplus_le_compat_l. apply Rmult_le_compat_r; [lra|].
    apply Rle_trans with (1 := Rabs_triang _ _). rewrite (Rabs_pos_eq u) by lra. unfold Rdiv. rewrite Rabs_mult, (Rabs_pos_eq (/ W)) by (left; apply Rinv_0_lt_compat; exact PW). lra. }
  apply Rnot_le_lt. intros C. apply abs_between in C.
  assert (Em : P / W = - f - IZR q) by (unfold f; ring).
  assert (Hm : f + IZR (m + q) - room <= u <= f + IZR (m + q) + room) by (rewrite plus_IZR; lra).
  destruct (Z_le_dec (m + q) (-2)) as [L|L]; [apply IZR_le in L; lra|]. destruct (Z_le_dec 2 (m + q)) as [L'|L']; [apply IZR_le in L'; lra|].
  assert (Cs : (m + q = -1 \/ m + q = 0 \/ m + q = 1)%Z) by lia. destruct Cs as [Eq|[Eq|Eq]]; rewrite Eq in Hm.
  - apply (Hbad 0 (Rmax 0 (f - 1 + room) * W)); [right; left; reflexivity|]. rewrite EtW. split; [nra|]. apply Rmult_le_compat_r; [lra|]. unfold Rmax. destruct (Rle_dec _ _); lra.
  - apply (Hbad (Rmax 0 (f - room) * W) (Rmin 1 (f + room) * W)); [left; reflexivity|]. rewrite EtW. split; (apply Rmult_le_compat_r; [lra|]); unfold Rmax, Rmin; destruct (Rle_dec _ _); lra.
  - apply (Hbad (Rmin 1 (f + 1 - room) * W) W); [right; right; left; reflexivity|]. split; [|lra]. rewrite EtW. apply Rmult_le_compat_r; [lra|]. unfold Rmin. destruct (Rle_dec _ _); lra.
Qed.
Print Assumptions c125_shifts.

(** ** The zigzag again: a width of 3/4 makes its hash values those of C86 *)
Definition three_quarters : f64 := S754_finite false 6755399441055744 (-53).
Definition zigzag_hasher : fhasher := FHasher (repeat (nums [1; 0]%nat) 8) (repeat f_zero 8) three_quarters.
Definition zigzag_dot (v : list f64) (i : nat) : f64 := fsum z_ex (map (fun ab => fmul (fst ab) (snd ab)) (combine v (firstn 2 (skipn i zigzag_data)))).
Lemma width_val : fval three_quarters = 3 / 4.
Proof. unfold fval, three_quarters. cbn [SF2R SpecFloat.cond_Zopp]. unfold F2R. cbn [Fnum Fexp]. change (bp (-53)) with (/ 9007199254740992). lra. Qed.
Lemma zigzag_hasher_ok : fhasher_ok zigzag_hasher 2.
Proof.
  split; [reflexivity|]. split; [intros v Hv; apply repeat_spec in Hv; subst v; split; [reflexivity|apply nums_moderate; intros n Hn; cbn in Hn; lia]|].
  split; [reflexivity|]. split.
  - intros x Hx. apply repeat_spec in Hx. subst x. split; [split; reflexivity|]. change (fval f_zero) with 0. rewrite Rabs_R0. apply pow_le. lra.
  - change (fh_width zigzag_hasher) with three_quarters. rewrite width_val. split; [split; reflexivity|lra].
Qed.
Lemma zigzag_vector k : (k < 8)%nat -> vector zigzag_hasher k = nums [1; 0]%nat.
Proof. intros Lk. unfold vector, zigzag_hasher. cbn [fh_vectors]. do 8 (destruct k as [|k]; [reflexivity|]). lia. Qed.
Lemma zigzag_shift k : nth k (fh_shifts zigzag_hasher) f_zero = f_zero.
Proof. unfold zigzag_hasher. cbn [fh_shifts]. do 8 (destruct k as [|k]; [reflexivity|]). destruct k; reflexivity. Qed.
Lemma zigzag_down v : v = 1%nat \/ v = 3%nat -> exact_window zigzag_data 2 v = [1; 0].
Proof. intros Hv. rewrite <- window_exact, zigzag_exact_data. unfold window. destruct Hv as [-> | ->]; reflexivity. Qed.
Lemma down_sd : sd_of [1; 0] = / 2.
Proof. unfold sd_of. rewrite <- (sqrt_square (/ 2)) by lra. f_equal. unfold mean_of, total. cbn [map fold_right length INR]. lra. Qed.
Lemma zigzag_projection v k : v = 1%nat \/ v = 3%nat -> (k < 8)%nat -> exact_projection zigzag_data 2 (vector zigzag_hasher k) v = 1.
Proof.
  intros Hv Lk. unfold exact_projection. rewrite (zigzag_vector k Lk), (zigzag_down v Hv), exact_nums by (intros n Hn; cbn in Hn; lia).
  unfold znorm. rewrite down_sd, pair_mean. unfold inner, total. cbn [map combine fold_right fst snd INR]. lra.
Qed.
Lemma zigzag_slack v k : v = 1%nat \/ v = 3%nat -> (k < 8)%nat -> slack zigzag_data 2 (vector zigzag_hasher k) v (/ 2 ^ 36) 0 <= / 1000.
Proof.
  intros Hv Lk. unfold slack. rewrite (zigzag_projection v k Hv Lk), (zigzag_vector k Lk).
  assert (Mg : magnitude (nums [1; 0]%nat) = 1).
  { unfold magnitude. rewrite <- (map_map fval Rabs), exact_nums by (intros n Hn; cbn in Hn; lia). cbn [map INR]. rewrite Rabs_R0, Rabs_R1. unfold total. cbn [fold_right]. lra. }
  rewrite Mg, Rabs_R1. assert (P36 : / 2 ^ 36 = / 68719476736) by (rewrite (pow_IZR 2 36); reflexivity). rewrite P36, power_bp.
  assert (T : bp (-1050) <= bp (-51)) by (apply bpow_le; lia). change (bp (-51)) with (/ 2251799813685248) in T. unfold Rdiv. rewrite Rmult_0_l. lra.
Qed.
Lemma zigzag_margin v k m : v = 1%nat \/ v = 3%nat -> (k < 8)%nat ->
  bucket_slack zigzag_hasher zigzag_data 2 k v (/ 2 ^ 36) 0 < Rabs (exact_bucket zigzag_hasher zigzag_data 2 k v - IZR m).
Proof.
  intros Hv Lk. unfold bucket_slack, exact_bucket. rewrite (zigzag_projection v k Hv Lk), zigzag_shift. change (fh_width zigzag_hasher) with three_quarters. rewrite width_val.
  change (fval f_zero) with 0. pose proof (zigzag_slack v k Hv Lk) as S. rewrite !power_bp. change (bp (-51)) with (/ 2251799813685248).
  assert (T : bp (-1075) <= bp (-51)) by (apply bpow_le; lia). change (bp (-51)) with (/ 2251799813685248) in T.
  replace ((1 + 0) / (3 / 4)) with (4 / 3) by field. rewrite (Rabs_pos_eq (4 / 3)) by lra.
  apply Rle_lt_trans with (/ 100); [lra|]. destruct (Z_le_dec m 1) as [L|L].
  - apply IZR_le in L. rewrite Rabs_pos_eq; lra.
  - assert (L' : (2 <= m)%Z) by lia. apply IZR_le in L'. rewrite Rabs_left; lra.
Qed.
Example c125_case : exists s answers, moderate zigzag_data /\ usable zigzag_data 2 /\ fseries_new z_ex zigzag_data 2 true = Ret zigzag_series /\
  search_over z_ex zigzag_data 2 zigzag_series zigzag_search /\ accurate zigzag_series (length zigzag_data - 2) 0 (/ 2 ^ 36) /\
  fhasher_ok zigzag_hasher 2 /\ sorts by_hash /\
  frepetition_table z_ex by_hash zigzag_hasher zigzag_series zigzag_dot K = Ret (p_table zigzag_search 0 K) /\
  sound zigzag_search /\ seed_ok zigzag_search 0 3 zigzag_seed /\ lively zigzag_series 0 /\ lively zigzag_series 3 /\ seed_within zigzag_data 2 (20 * / 2 ^ 36) 0 3 zigzag_seed /\ ~ too_close 2 1 3 /\ lively zigzag_series 1 /\
  0 < sd_of (exact_window zigzag_data 2 1) /\ exact_window zigzag_data 2 3 = map (fun x => 1 * x + 0) (exact_window zigzag_data 2 1) /\
  (forall v k, (v = 1 \/ v = 3)%nat -> (k < 8)%nat -> dot_within zigzag_data 2 (vector zigzag_hasher k) v 0 (zigzag_dot (vector zigzag_hasher k) v)) /\
  (forall v k m, (v = 1 \/ v = 3)%nat -> (k < 8)%nat -> (-128 <= m <= 128)%Z ->
     bucket_slack zigzag_hasher zigzag_data 2 k v (/ 2 ^ 36) 0 < Rabs (exact_bucket zigzag_hasher zigzag_data 2 k v - IZR m)) /\
  (forall x, nth_error (snd (p_table zigzag_search 0 K)) x = Some (N.of_nat 1) -> ~ in_last_bucket (fst (p_table zigzag_search 0 K)) 1 x) /\
  session zigzag_search 0 3 zigzag_seed [always] 30 = Ret (s, answers) /\ In (Item (Motiflet [1; 3]%nat f_zero)) answers.
Proof.
  eexists. eexists.
  split; [apply zigzag_moderate|]. split; [apply zigzag_usable|]. split; [apply zigzag_new|]. split; [apply zigzag_over|]. split; [apply zigzag_accurate|].
  split; [apply zigzag_hasher_ok|]. split; [apply by_hash_sorts|]. split; [vm_compute; reflexivity|].
  split; [exact zigzag_search_sound|]. split; [unfold seed_ok, too_close; cbn [p_n p_ez zigzag_search]; repeat split; try lia; vm_compute; reflexivity|].
  split; [vm_compute; reflexivity|]. split; [vm_compute; reflexivity|].
  split; [apply zigzag_seed_within|]. split; [unfold too_close; lia|]. split; [vm_compute; reflexivity|].
  split; [rewrite (zigzag_down 1) by auto; rewrite down_sd; lra|].
  split; [rewrite !zigzag_down by auto; cbn [map]; repeat (f_equal; try lra)|].
  split.
  { intros v k Hv Lk. rewrite (zigzag_vector k Lk). replace (zigzag_dot (nums [1; 0]%nat) v) with (f_of_nat 1) by (destruct Hv as [-> | ->]; vm_compute; reflexivity).
    destruct (of_nat_exact 1 ltac:(lia)) as (N & E1). split; [exact N|]. rewrite E1, (zigzag_down v Hv), exact_nums by (intros n Hn; cbn in Hn; lia).
    unfold inner, total. cbn [map combine fold_right fst snd INR]. match goal with |- Rabs ?d <= 0 => replace d with 0 by lra end. rewrite Rabs_R0. lra. }
  split; [intros v k m Hv Lk _; apply zigzag_margin; assumption|].
  split.
  { intros x Hx. cbn [p_table zigzag_search zigzag_table snd] in Hx. destruct x as [|[|[|[|x]]]]; cbn in Hx; try discriminate; [|destruct x; discriminate].
    intros (hx & hl & H1 & H2 & A). cbn in H1, H2. injection H1 as <-. injection H2 as <-. specialize (A 0%nat ltac:(lia)). vm_compute in A. discriminate. }
  split; [vm_compute; reflexivity|]. left. reflexivity.
Qed.
Example c125_shifts_case : 0 < fval (fh_width zigzag_hasher) /\ 0 < / 2 ^ 36 /\ 0 < sd_of (exact_window zigzag_data 2 1) /\
  2 * (slack zigzag_data 2 (vector zigzag_hasher 0) 1 (/ 2 ^ 36) 0 / fval (fh_width zigzag_hasher)) +
    (Rabs (exact_projection zigzag_data 2 (vector zigzag_hasher 0) 1) / fval (fh_width zigzag_hasher) + 1) * powerRZ 2 (-51) + powerRZ 2 (-1075) <= / 100.
Proof.
  change (fh_width zigzag_hasher) with three_quarters. rewrite width_val, (zigzag_down 1), down_sd, (zigzag_projection 1 0) by (auto; lia).
  pose proof (zigzag_slack 1 0 ltac:(auto) ltac:(lia)) as S. rewrite !power_bp. change (bp (-51)) with (/ 2251799813685248).
  assert (T : bp (-1075) <= bp (-51)) by (apply bpow_le; lia). change (bp (-51)) with (/ 2251799813685248) in T. rewrite Rabs_R1.
  split; [lra|]. split; [apply Rinv_0_lt_compat, pow_lt; lra|]. split; lra.
Qed.
