(** C119: projections and hash values in floating point. *)
From Coq Require Import Reals Lra Lia Floats.SpecFloat.
From Flocq Require Import Core BinarySingleNaN.
From Verif Require Import Base F64 RSpec RealProofs SeriesProofs FFT FFTProofs HashSpec HashValue HashProofs Hashing HashingSpec HashingProofs Iterator FpOps FloatSeries FloatSpec FloatProofs FloatRoll FloatBound FloatDist FloatDist2 FloatThr FloatErr FloatMean FloatSd FloatVar FloatSum FloatTerm FloatPair FloatProj P_Float P_Float2 P_Acc P_Acc2 Quantise P_Quantise FloatHash ProjSpec.
Local Open Scope R_scope.

(** * C119: projections *)
(** [x] is what the sliding dot product gives for the window at [i], [err] its error. *)
Theorem c119_projection :
  forall (z : zeros) (ts : list f64) (w : nat) (precise : bool) (s : fseries) (v : list f64) (i : nat) (e : Z) (eps err : R) (x : f64),
    moderate ts -> usable ts w -> fseries_new z ts w precise = Ret s -> (i < length ts - w)%nat -> lively s i ->
    0 < eps <= / 64 -> accurate_at s i e eps ->
    length v = w -> moderate v -> dot_within ts w v i err x -> err <= 2 ^ 500 ->
    exists y, fznormalized_value s (fsum z v) i x = Ret y /\ number y /\ Rabs (fval y) <= powerRZ 2 900 /\
      Rabs (fval y - exact_projection ts w v i) <= slack ts w v i eps err.
Proof.
  intros z ts w precise s v i e eps err x Mo U E Li Fi He Ai Lv Mv (Nx & Ex) Err.
  destruct (at_window z ts w precise s i i e eps Mo U E Li Li i Li Fi Ai) as (m & sd & Wi & Ln & Bi & Mi & Si & Ni & Cm & Cs & Hi & Ri).
  destruct U as ((Lw & L) & Hw). assert (Bv : forall x, In x v -> bnd x 240) by (intros x0 Hx0; apply (bnd_le _ 200); [lia|apply (moderate_bnd v Mv x0 Hx0)]).
  assert (E500 : err <= bp 500) by (eapply Rle_trans; [exact Err|]; rewrite pow_powerRZ, power_bp; apply bpow_le, Z.leb_le; vm_compute; reflexivity).
  pose proof (proj_close z w (win ts w i) v m sd x (bp e) eps err Ln Lv Lw Hw Bi Bv Mi Si Ni He Cm Cs Hi Ri Nx Ex E500) as (Ny & By & Cy).
  destruct Wi as (Em & Es & _). exists (proj z v m sd x). split.
  - unfold fznormalized_value. rewrite Es. cbn [bind].
    pose proof (not_flat_val sd (proj1 Si) Ni) as G. pose proof (bpow_gt_0 radix2 (-14)).
    assert (F : flt sd fflat_threshold = false).
    { rewrite flt_val by (apply Si || apply threshold_number). apply Rlt_bool_false.
      unfold not_flat in Ni. rewrite fle_val in Ni by (apply Si || apply threshold_number). destruct (Rle_bool_spec (fval sd) (fval fflat_threshold)); [discriminate|lra]. }
    rewrite F, Em. cbn [bind]. unfold assert_. rewrite flt_val by (apply zero_number || apply Si). change (fval f_zero) with 0. rewrite Rlt_bool_true by lra. reflexivity.
  - split; [exact Ny|]. rewrite power_bp. split; [exact By|]. unfold slack, exact_projection, magnitude. rewrite power_bp. exact Cy.
Qed.
Print Assumptions c119_projection.

(** ** The table of hash values *)
Lemma quantise_f64_u8 shift width x : is_u8 (quantise_f64 shift width x).
Proof. unfold is_u8, quantise_f64. rewrite land255. match goal with |- context [(?q mod 256)%Z] => pose proof (Z.mod_pos_bound q 256 ltac:(lia)) end. lia. Qed.
Lemma Forall2_length {A B} (P : A -> B -> Prop) l r : Forall2 P l r -> length l = length r.
Proof. induction 1; cbn; congruence. Qed.
Lemma Forall2_nth {A B} (P : A -> B -> Prop) l r : Forall2 P l r -> forall i a, nth_error l i = Some a -> exists b, nth_error r i = Some b /\ P a b.
Proof.
  induction 1 as [|x y l r H F IH]; intros [|i] a Ha; try discriminate Ha.
  - injection Ha as <-. exists y. split; [reflexivity|exact H].
  - apply (IH i a Ha).
Qed.
Lemma combine_at {A B} (l : list A) (r : list B) : forall i a b, nth_error l i = Some a -> nth_error r i = Some b -> nth_error (combine l r) i = Some (a, b).
Proof.
  revert r. induction l as [|x l IH]; intros [|y r] [|i] a b Ha Hb; try discriminate; cbn in *; [congruence|]. apply IH; assumption.
Qed.
Lemma seq_at i n : (i < n)%nat -> nth_error (seq 0 n) i = Some i.
Proof. intros L. rewrite (nth_error_nth' _ 0%nat), seq_nth by (rewrite ?seq_length; lia). reflexivity. Qed.
(** indexed [mapM] over a list and a second one of the same length *)
Lemma mapM_indexed {A B} (g : nat * A -> res B) (l : list A) n : length l = n ->
  (forall i a, (i < n)%nat -> nth_error l i = Some a -> exists b, g (i, a) = Ret b) ->
  exists r, mapM g (combine (seq 0 n) l) = Ret r /\ length r = n /\
    forall i a, nth_error l i = Some a -> exists b, nth_error r i = Some b /\ g (i, a) = Ret b.
Proof.
  intros L H. destruct (mapM_total g (fun a b => g a = Ret b) (combine (seq 0 n) l)) as (r & E & F).
  { intros (i & a) Hin. pose proof Hin as Hin'. apply In_nth_error in Hin' as (k & Hk).
    assert (Lk : (k < n)%nat). { assert (k < length (combine (seq 0 n) l))%nat by (apply nth_error_Some; congruence). rewrite combine_length, seq_length in *. lia. }
    destruct (nth_error l k) as [a'|] eqn:Ea; [|apply nth_error_None in Ea; lia].
    rewrite (combine_at _ _ k k a' (seq_at k n Lk) Ea) in Hk. injection Hk as <- <-. destruct (H k a' Lk Ea) as (b & Hb). exists b. auto. }
  exists r. split; [exact E|]. split; [rewrite <- (Forall2_length _ _ _ F), combine_length, seq_length; lia|].
  intros i a Ha. assert (Li : (i < n)%nat) by (rewrite <- L; apply nth_error_Some; congruence).
  exact (Forall2_nth _ _ _ F i (i, a) (combine_at _ _ i i a (seq_at i n Li) Ha)).
Qed.

Section Rows.
  Variables (z : zeros) (ts : list f64) (w : nat) (precise : bool) (s : fseries) (hs : fhasher) (sdp : list f64 -> nat -> f64).
  Hypothesis Mo : moderate ts.
  Hypothesis U : usable ts w.
  Hypothesis E : fseries_new z ts w precise = Ret s.
  Hypothesis H : fhasher_ok hs w.
  Notation n := (length ts - w)%nat.

  Lemma made : fs_data s = ts /\ fs_w s = w /\ fnum_subsequences s = n /\
    forall i, (i < n)%nat -> exists m sd, nth_error (fs_avg s) i = Some m /\ nth_error (fs_sd s) i = Some sd /\ number sd /\ 0 <= fval sd.
  Proof using z ts w precise s Mo U E.
    clear sdp.
    destruct (c94_new z ts w precise Mo U) as (s' & E' & Ed & Ew & La & Ls & _ & Ns). rewrite E in E'. injection E' as <-.
    split; [exact Ed|]. split; [exact Ew|]. split; [unfold fnum_subsequences; rewrite Ed, Ew; reflexivity|]. intros i Li.
    destruct (nth_error (fs_avg s) i) as [m|] eqn:Em; [|apply nth_error_None in Em; lia].
    destruct (nth_error (fs_sd s) i) as [sd|] eqn:Es; [|apply nth_error_None in Es; lia].
    exists m, sd. split; [reflexivity|]. split; [reflexivity|]. apply Ns. eapply nth_error_In, Es.
  Qed.
  Lemma value_returns sumv i x : (i < n)%nat -> exists y, fznormalized_value s sumv i x = Ret y.
  Proof using z ts w precise s Mo U E.
    clear sdp.
    intros Li. destruct made as (_ & _ & _ & Hm). destruct (Hm i Li) as (m & sd & Em & Es & Nsd & Psd).
    unfold fznormalized_value, fsd, fmean, get. rewrite Es, Em. cbn [bind]. destruct (flt sd fflat_threshold) eqn:F; [eexists; reflexivity|].
    rewrite flt_val in F by (exact Nsd || apply threshold_number). pose proof threshold_val as TV.
    assert (G : 0 < fval sd).
    { destruct (Rlt_bool_spec (fval sd) (fval fflat_threshold)) as [|G]; [discriminate|]. pose proof (bpow_gt_0 radix2 (-14)). lra. }
    unfold assert_. rewrite flt_val by (apply zero_number || exact Nsd). change (fval f_zero) with 0. rewrite Rlt_bool_true by exact G. eexists; reflexivity.
  Qed.
  Lemma projections_return v : length v = w -> exists r, fprojections z s sdp v = Ret r /\ length r = n /\
    forall i, (i < n)%nat -> exists y, nth_error r i = Some y /\ fznormalized_value s (fsum z v) i (sdp v i) = Ret y.
  Proof using z ts w precise s Mo U E sdp.
    intros Lv. destruct made as (_ & Ew & En & _). unfold fprojections, assert_. rewrite Ew, Lv, Nat.eqb_refl, En. cbv zeta.
    destruct (mapM_total (fun i => fznormalized_value s (fsum z v) i (sdp v i)) (fun i y => fznormalized_value s (fsum z v) i (sdp v i) = Ret y) (seq 0 n)) as (r & Er & F).
    { intros i Hi. apply in_seq in Hi. destruct (value_returns (fsum z v) i (sdp v i) ltac:(lia)) as (y & Hy). exists y. auto. }
    exists r. split; [exact Er|]. split; [rewrite <- (Forall2_length _ _ _ F); apply seq_length|].
    intros i Li. exact (Forall2_nth _ _ _ F i i (seq_at i n Li)).
  Qed.
  Lemma bucket_off i k eps err e : (i < n)%nat -> (k < 8)%nat -> lively s i -> 0 < eps <= / 64 -> accurate_at s i e eps -> err <= 2 ^ 500 ->
    dot_within ts w (vector hs k) i err (sdp (vector hs k) i) ->
    exists y, fznormalized_value s (fsum z (vector hs k)) i (sdp (vector hs k) i) = Ret y /\ number y /\
      exists zz : R, byte_of zz (quantise_f64 (nth k (fh_shifts hs) f_zero) (fh_width hs) y) /\
        Rabs (zz - exact_bucket hs ts w k i) <= bucket_slack hs ts w k i eps err.
  Proof.
    intros Li Lk Fi He Ai Er D. destruct H as (H1 & H2 & H3 & H4 & Nw & Pw).
    assert (Iv : In (vector hs k) (fh_vectors hs)) by (apply nth_In; lia). destruct (H2 _ Iv) as (Lv & Mv).
    destruct (c119_projection z ts w precise s (vector hs k) i e eps err _ Mo U E Li Fi He Ai Lv Mv D Er) as (y & Ey & Ny & By & Cy).
    exists y. split; [exact Ey|]. split; [exact Ny|]. rewrite power_bp in By.
    assert (Is : In (nth k (fh_shifts hs) f_zero) (fh_shifts hs)) by (apply nth_In; lia). destruct (H4 _ Is) as (Nsh & Bsh).
    set (sh := nth k (fh_shifts hs) f_zero) in *. set (wd := fh_width hs) in *.
    destruct (c117_byte sh wd y Nsh Nw Ny Pw) as (zz & Bz & Cz).
    { eapply Rle_trans; [exact By|]. apply bpow_le. lia. }
    { eapply Rle_trans; [exact Bsh|]. rewrite pow_powerRZ, power_bp. apply bpow_le. apply Z.leb_le. vm_compute. reflexivity. }
    exists zz. split; [exact Bz|]. cbv zeta in Cz. unfold bucket_slack, exact_bucket. fold sh wd.
    set (P := exact_projection ts w (vector hs k) i) in *. set (sl := slack ts w (vector hs k) i eps err) in *.
    set (ex := (P + fval sh) / fval wd). set (ex' := (fval y + fval sh) / fval wd) in *.
    assert (Q : Rabs (ex' - ex) <= sl / fval wd).
    { unfold ex, ex'. replace ((fval y + fval sh) / fval wd - (P + fval sh) / fval wd) with ((fval y - P) / fval wd) by (field; lra).
      apply over_abs; [exact Pw|]. eapply Rle_trans; [exact Cy|]. right. field. lra. }
    assert (P51 : powerRZ 2 (-51) = / 2 ^ 51) by reflexivity. rewrite P51, power_bp.
    assert (B51 : 0 < / 2 ^ 51 <= / 2) by (split; [apply Rinv_0_lt_compat, pow_lt; lra|apply Rinv_le; lra]).
    assert (N' : Rabs ex' <= Rabs ex + sl / fval wd) by (apply near_abs, Q).
    assert (Rabs ex' * / 2 ^ 51 <= (Rabs ex + sl / fval wd) * / 2 ^ 51) by (apply Rmult_le_compat_r; lra).
    assert (Psl : 0 <= sl / fval wd) by (eapply Rle_trans; [apply Rabs_pos|exact Q]).
    assert (sl / fval wd * / 2 ^ 51 <= sl / fval wd * / 2) by (apply Rmult_le_compat_l; lra).
    replace (zz - ex) with ((zz - ex') + (ex' - ex)) by ring. eapply Rle_trans; [apply Rabs_triang|]. lra.
  Qed.
  Definition row_ok (max_k i : nat) (row : N * N) : Prop :=
    (below_limit s i -> row = (u64_max, u32_max)) /\
    (forall e eps err, lively s i -> 0 < eps <= / 64 -> accurate_at s i e eps -> err <= 2 ^ 500 ->
       (forall k, (k < max_k)%nat -> dot_within ts w (vector hs k) i err (sdp (vector hs k) i)) -> frow_of hs ts w max_k i eps err row).
  Lemma fhash_ok max_k : (max_k <= 8)%nat ->
    exists rows, fhash z hs s sdp max_k = Ret rows /\ length rows = n /\
      ((1 <= max_k)%nat -> forall i, (i < n)%nat -> exists row, nth_error rows i = Some row /\ row_ok max_k i row).
  Proof.
    intros Lk. destruct made as (_ & Ew & En & Hm). destruct H as (H1 & H2 & H3 & H4 & Nw & Pw). unfold fhash. rewrite En.
    set (body := fun (k : nat) (out : list (N * N)) => _).
    destruct (foreach_inv body (fun done out => length out = n /\ (done = [] -> out = repeat (0, 0)%N n) /\
       (done <> [] -> forall i, (i < n)%nat -> exists row, nth_error out i = Some row /\ row_ok (length done) i row)) (seq 0 max_k) (repeat (0, 0)%N n)) as (out & Eo & L & I0 & I1).
    - split; [apply repeat_length|]. split; [reflexivity|]. intros C. contradiction.
    - intros done k tail out Es (L & I0 & I1).
      assert (Ek : k = length done /\ (k < max_k)%nat).
      { assert (G : nth_error (seq 0 max_k) (length done) = Some k) by (rewrite Es, nth_error_app2, Nat.sub_diag by lia; reflexivity).
        assert (length done < max_k)%nat by (rewrite <- (seq_length max_k 0); apply nth_error_Some; congruence).
        rewrite (nth_error_nth' _ 0%nat), seq_nth in G by (rewrite ?seq_length; lia). injection G as <-. lia. }
      destruct Ek as (Ek & Lk'). unfold body. rewrite (get_ret (fh_vectors hs) k []), (get_ret (fh_shifts hs) k f_zero) by lia. cbn [bind].
      fold (vector hs k). assert (Iv : In (vector hs k) (fh_vectors hs)) by (apply nth_In; lia). destruct (H2 _ Iv) as (Lv & _).
      destruct (projections_return (vector hs k) Lv) as (values & Ev & Lvs & Hv). rewrite Ev. cbn [bind]. clear Ev.
      match goal with |- context [mapM ?g (combine (seq 0 n) (combine values out))] => destruct (mapM_indexed g (combine values out) n) as (out' & E' & L' & H') end.
      { rewrite combine_length. lia. }
      { intros i (x & o) _ _. cbv beta iota. destruct (is_nan x); [eexists; reflexivity|].
        destruct (set_byte_ret (fst o) k (quantise_f64 (nth k (fh_shifts hs) f_zero) (fh_width hs) x) ltac:(lia)) as (h' & ->). eexists. reflexivity. }
      exists out'. split; [exact E'|]. split; [congruence|]. split; [intros C; destruct done; discriminate C|].
      intros _ i Li. rewrite app_length. cbn [length].
      destruct (nth_error out i) as [o|] eqn:Eo; [|apply nth_error_None in Eo; lia].
      destruct (Hv i Li) as (y & Ey & Fy).
      destruct (H' i (y, o) (combine_at _ _ i y o Ey Eo)) as (o' & Eo' & Go). exists o'. split; [exact Eo'|]. split.
      + intros (sd & Esd & Lsd). destruct (Hm i Li) as (m & sd' & _ & Esd' & Nsd & _). rewrite Esd in Esd'. injection Esd' as <-.
        unfold fznormalized_value, fsd, get in Fy. rewrite Esd in Fy. cbn [bind] in Fy.
        rewrite flt_val, Rlt_bool_true in Fy by (assumption || apply threshold_number). apply Ret_inj in Fy. subst y. cbn in Go. congruence.
      + intros e eps err Fi He Ai Err Hd.
        destruct (bucket_off i k eps err e Li ltac:(lia) Fi He Ai Err (Hd k ltac:(lia))) as (y' & Ey' & Ny & zz & Bz & Cz).
        rewrite Fy in Ey'. apply Ret_inj in Ey'. subst y'. rewrite (number_not_nan _ Ny) in Go.
        destruct (set_byte (fst o) k _) as [h'| |] eqn:Eb; cbn [bind] in Go; try discriminate Go. apply Ret_inj in Go. subst o'.
        assert (Old : is_u64 (fst o) /\
                      (forall k', (k' < k)%nat -> exists z0 : R, byte_of z0 (byte_at (fst o) k') /\ Rabs (z0 - exact_bucket hs ts w k' i) <= bucket_slack hs ts w k' i eps err) /\
                      (forall k', (k <= k')%nat -> (k' < 8)%nat -> byte_at (fst o) k' = 0%N)).
        { destruct done as [|d0 done].
          - rewrite I0 in Eo by reflexivity. apply nth_error_In, repeat_spec in Eo. subst o. cbn [fst]. split; [unfold is_u64; lia|].
            split; [intros k' C; cbn [length] in Ek; lia|]. intros k' _ _. unfold byte_at. reflexivity.
          - destruct (I1 ltac:(discriminate) i Li) as (row & Eh & _ & Hr). rewrite Eo in Eh. injection Eh as <-.
            rewrite <- Ek in Hr. destruct (Hr e eps err Fi He Ai Err ltac:(intros; apply Hd; lia)) as (A & _ & B & C). auto. }
        destruct Old as (O1 & O2 & O3). assert (Lk8 : (k < 8)%nat) by lia.
        destruct (set_byte_spec _ _ _ _ O1 (quantise_f64_u8 _ _ _) Lk8 Eb) as (S1 & S2 & S3).
        split; [exact S1|]. split; [reflexivity|]. cbn [fst]. split.
        * intros k' Lk2. destruct (Nat.eq_dec k' k) as [->|Nk].
          -- rewrite S2. exists zz. split; assumption.
          -- rewrite S3 by lia. apply O2. lia.
        * intros k' Lk2 L8. rewrite S3 by lia. apply O3; lia.
    - rewrite seq_length in I1. exists out. split; [exact Eo|]. split; [exact L|].
      intros L1. apply I1. destruct max_k; [lia|discriminate].
  Qed.
End Rows.

(** Whatever the sliding dot product gives, hashing returns one row per window.  A window
    below the limit has the largest values.  For a window that is not flat, with statistics
    within [eps] and dot products within [err], each byte is that of a number of buckets
    within the slack. *)
Theorem c119_hash :
  forall (z : zeros) (ts : list f64) (w : nat) (precise : bool) (s : fseries) (hs : fhasher) (sdp : list f64 -> nat -> f64) (max_k : nat),
    moderate ts -> usable ts w -> fseries_new z ts w precise = Ret s -> fhasher_ok hs w -> (1 <= max_k <= 8)%nat ->
    exists rows, fhash z hs s sdp max_k = Ret rows /\ length rows = (length ts - w)%nat /\
      forall i, (i < length ts - w)%nat -> exists row, nth_error rows i = Some row /\
        (below_limit s i -> row = (u64_max, u32_max)) /\
        (forall e eps err, lively s i -> 0 < eps <= / 64 -> accurate_at s i e eps -> err <= 2 ^ 500 ->
           (forall k, (k < max_k)%nat -> dot_within ts w (vector hs k) i err (sdp (vector hs k) i)) ->
           frow_of hs ts w max_k i eps err row).
Proof.
  intros z ts w precise s hs sdp max_k Mo U E H (L1 & L8).
  destruct (fhash_ok z ts w precise s hs sdp Mo U E H max_k L8) as (rows & Er & L & R). exists rows. split; [exact Er|]. split; [exact L|]. exact (R L1).
Qed.
Print Assumptions c119_hash.

(** Away from the boundaries of the buckets by more than the slack, the bytes are those of
    exact arithmetic. *)
Theorem c119_bytes :
  forall (hs : fhasher) (ts : list f64) (w max_k i : nat) (eps err : R) (row : N * N) (k : nat),
    frow_of hs ts w max_k i eps err row -> (k < max_k)%nat ->
    (forall m : Z, (-128 <= m <= 128)%Z -> bucket_slack hs ts w k i eps err < Rabs (exact_bucket hs ts w k i - IZR m)) ->
    byte_of (exact_bucket hs ts w k i) (byte_at (fst row) k).
Proof.
  intros hs ts w max_k i eps err row k (_ & _ & R & _) Lk Hm. destruct (R k Lk) as (zz & B & C). exact (cell_robust _ _ _ _ Hm C B).
Qed.
Print Assumptions c119_bytes.
(** Then copies up to scale and offset, in exact arithmetic, have the same hash value. *)
Theorem c119_copies :
  forall (hs : fhasher) (ts : list f64) (w max_k i j : nat) (eps eps' err err' : R) (row row' : N * N),
    (max_k <= 8)%nat -> frow_of hs ts w max_k i eps err row -> frow_of hs ts w max_k j eps' err' row' ->
    znorm (exact_window ts w i) = znorm (exact_window ts w j) ->
    (forall k m, (k < max_k)%nat -> (-128 <= m <= 128)%Z ->
       bucket_slack hs ts w k i eps err < Rabs (exact_bucket hs ts w k i - IZR m) /\
       bucket_slack hs ts w k j eps' err' < Rabs (exact_bucket hs ts w k j - IZR m)) ->
    fst row = fst row'.
Proof.
  intros hs ts w max_k i j eps eps' err err' row row' L8 R R' Ez Hm.
  apply agree_full; [apply R|apply R'|]. intros k Lk. destruct (Nat.lt_ge_cases k max_k) as [L|L].
  - pose proof (c119_bytes hs ts w max_k i eps err row k R L ltac:(intros m Hm'; apply (Hm k m L Hm'))) as B.
    pose proof (c119_bytes hs ts w max_k j eps' err' row' k R' L ltac:(intros m Hm'; apply (Hm k m L Hm'))) as B'.
    assert (Ee : exact_bucket hs ts w k i = exact_bucket hs ts w k j) by (unfold exact_bucket, exact_projection; rewrite Ez; reflexivity).
    rewrite <- Ee in B'. exact (byte_of_det _ _ _ B B').
  - destruct R as (_ & _ & _ & R), R' as (_ & _ & _ & R'). rewrite R, R' by assumption. reflexivity.
Qed.
Print Assumptions c119_copies.

(** The example: the window at 5 is twice the window at 0; eight times the same vector, a
    shift and a width of 1/4.  The dot products of small integers are exact. *)
Definition data_pr : list f64 := nums [1; 2; 4; 7; 3; 2; 4; 8; 14; 6; 0]%nat.
Definition series_pr : fseries := match fseries_new z_ex data_pr 5 true with Ret s => s | _ => FSeries [] 0 [] [] end.
Definition vector_pr : list f64 := nums [1; 0; 2; 0; 1]%nat.
Definition quarter : f64 := S754_finite false 4503599627370496 (-54).
Definition hasher_pr : fhasher := FHasher (repeat vector_pr 8) (repeat quarter 8) quarter.
Definition dot_pr (v : list f64) (i : nat) : f64 := fsum z_ex (map (fun ab => fmul (fst ab) (snd ab)) (combine v (firstn 5 (skipn i data_pr)))).
Example c119_case : moderate data_pr /\ usable data_pr 5 /\ fseries_new z_ex data_pr 5 true = Ret series_pr /\ fhasher_ok hasher_pr 5 /\
  (forall i, i = 0%nat \/ i = 5%nat ->
     lively series_pr i /\ accurate_at series_pr i 4 (/ 2 ^ 36) /\
     (forall k, (k < 8)%nat -> dot_within data_pr 5 (vector hasher_pr k) i 0 (dot_pr (vector hasher_pr k) i)) /\
     (forall k m, (k < 8)%nat -> (-128 <= m <= 128)%Z ->
        bucket_slack hasher_pr data_pr 5 k i (/ 2 ^ 36) 0 < Rabs (exact_bucket hasher_pr data_pr 5 k i - IZR m))) /\
  znorm (exact_window data_pr 5 0) = znorm (exact_window data_pr 5 5) /\
  exists rows, fhash z_ex hasher_pr series_pr dot_pr 8 = Ret rows /\ map snd rows = [0; 1; 2; 3; 4; 5]%N /\ nth 0 (map fst rows) 0%N = 0xfefefefefefefefe%N /\ nth 1 (map fst rows) 0%N <> 0xfefefefefefefefe%N /\ nth 5 (map fst rows) 0%N = 0xfefefefefefefefe%N.
Proof.
  assert (Us : usable data_pr 5) by (unfold usable; vm_compute; split; [lia|discriminate]).
  assert (Mo : moderate data_pr) by (apply nums_moderate; intros n Hn; cbn in Hn; lia).
  assert (En : fseries_new z_ex data_pr 5 true = Ret series_pr) by (vm_compute; reflexivity).
  assert (Am : at_most 4 data_pr) by (apply (nums_at_most 4); [intros n Hn; cbn in Hn; lia|lia]).
  split; [exact Mo|]. split; [exact Us|]. split; [exact En|].
  assert (Vk : forall k, (k < 8)%nat -> vector hasher_pr k = vector_pr) by (intros k Lk; unfold vector, hasher_pr; cbn [fh_vectors]; do 8 (destruct k as [|k]; [reflexivity|]); lia).
  assert (Sk : forall k, (k < 8)%nat -> nth k (fh_shifts hasher_pr) f_zero = quarter) by (intros k Lk; unfold hasher_pr; cbn [fh_shifts]; do 8 (destruct k as [|k]; [reflexivity|]); lia).
  assert (W0 : exact_window data_pr 5 0 = [1; 2; 4; 7; 3]).
  { unfold exact_window. change (firstn 5 (skipn 0 data_pr)) with (nums [1; 2; 4; 7; 3]%nat). rewrite exact_nums by (intros n Hn; cbn in Hn; lia). rewrite (map_ext _ _ INR_IZR_INZ). reflexivity. }
  assert (W5 : exact_window data_pr 5 5 = [2; 4; 8; 14; 6]).
  { unfold exact_window. change (firstn 5 (skipn 5 data_pr)) with (nums [2; 4; 8; 14; 6]%nat). rewrite exact_nums by (intros n Hn; cbn in Hn; lia). rewrite (map_ext _ _ INR_IZR_INZ). reflexivity. }
  assert (V : map fval vector_pr = [1; 0; 2; 0; 1]) by (unfold vector_pr; rewrite exact_nums by (intros n Hn; cbn in Hn; lia); rewrite (map_ext _ _ INR_IZR_INZ); reflexivity).
  assert (M0 : mean_of [1; 2; 4; 7; 3] = 17 / 5) by (unfold mean_of, total; cbn [fold_right length INR]; lra).
  assert (M5 : mean_of [2; 4; 8; 14; 6] = 34 / 5) by (unfold mean_of, total; cbn [fold_right length INR]; lra).
  assert (S0 : sd_of [1; 2; 4; 7; 3] = sqrt (106 / 25)) by (unfold sd_of; f_equal; rewrite M0; unfold mean_of, total; cbn [map fold_right length INR]; lra).
  assert (S5 : sd_of [2; 4; 8; 14; 6] = 2 * sqrt (106 / 25)).
  { apply Rsqr_inj; [apply sqrt_pos|pose proof (sqrt_pos (106 / 25)); lra|]. rewrite Rsqr_mult, Rsqr_sqrt by lra. unfold sd_of. rewrite Rsqr_sqrt; rewrite M5; unfold mean_of, total, Rsqr; cbn [map fold_right length INR]; lra. }
  assert (Q : 2 < sqrt (106 / 25) < 21 / 10).
  { rewrite <- (sqrt_square 2) at 1 by lra. rewrite <- (sqrt_square (21 / 10)) by lra. split; apply sqrt_lt_1; lra. }
  set (q := sqrt (106 / 25)) in *.
  assert (Z0 : znorm (exact_window data_pr 5 0) = [(1 - 17 / 5) / q; (2 - 17 / 5) / q; (4 - 17 / 5) / q; (7 - 17 / 5) / q; (3 - 17 / 5) / q]) by (rewrite W0; unfold znorm; rewrite M0, S0; reflexivity).
  assert (Z5 : znorm (exact_window data_pr 5 5) = znorm (exact_window data_pr 5 0)).
  { rewrite Z0, W5. unfold znorm. rewrite M5, S5. cbn [map]. repeat (apply f_equal2; [field; lra|]). reflexivity. }
  assert (P36 : / 2 ^ 36 = / 68719476736) by (rewrite (pow_IZR 2 36); reflexivity).
  assert (P51 : bp (-51) = / 2251799813685248) by reflexivity.
  assert (Fs : fval (quarter) = / 4).
  { unfold fval, quarter. cbn [SF2R SpecFloat.cond_Zopp]. unfold F2R. cbn [Fnum Fexp]. change (bp (-54)) with (/ 18014398509481984). lra. }
  split.
  { split; [reflexivity|]. split; [intros v Hv; apply repeat_spec in Hv; subst v; split; [reflexivity|apply nums_moderate; intros n Hn; cbn in Hn; lia]|].
    split; [reflexivity|]. split.
    - intros x Hx. apply repeat_spec in Hx. subst x. split; [split; reflexivity|]. rewrite Fs, Rabs_pos_eq by lra. apply Rle_trans with 1; [lra|]. apply pow_R1_Rle. lra.
    - change (fh_width hasher_pr) with quarter. rewrite Fs. split; [split; reflexivity|lra]. }
  split; [|split; [symmetry; exact Z5|eexists; split; [vm_compute; reflexivity|vm_compute; repeat split; discriminate]]].
  intros i Hi. assert (Sd : 2 <= sd_of (exact_window data_pr 5 i)) by (destruct Hi as [-> | ->]; rewrite ?W0, ?W5, ?S0, ?S5; lra).
  split; [destruct Hi as [-> | ->]; vm_compute; reflexivity|]. split.
  { apply (c100_precise z_ex data_pr 5); [exact Mo|exact Us|exact En|cbn; lia|lia|intros x Hx; apply Am; eapply win_incl; exact Hx|].
    rewrite !power_bp, P51, P36. change (bp 4) with 16. cbn [INR]. lra. }
  split.
  { intros k Lk. rewrite (Vk k Lk). unfold dot_within. rewrite V. destruct Hi as [-> | ->].
    - replace (dot_pr vector_pr 0) with (f_of_nat 12) by (vm_compute; reflexivity). destruct (of_nat_exact 12 ltac:(lia)) as (N & ->). split; [exact N|].
      rewrite W0, INR_IZR_INZ. unfold inner, total. cbn [combine map fold_right fst snd]. change (IZR (Z.of_nat 12)) with 12. match goal with |- Rabs ?d <= 0 => replace d with 0 by lra end. rewrite Rabs_R0. lra.
    - replace (dot_pr vector_pr 5) with (f_of_nat 24) by (vm_compute; reflexivity). destruct (of_nat_exact 24 ltac:(lia)) as (N & ->). split; [exact N|].
      rewrite W5, INR_IZR_INZ. unfold inner, total. cbn [combine map fold_right fst snd]. change (IZR (Z.of_nat 24)) with 24. match goal with |- Rabs ?d <= 0 => replace d with 0 by lra end. rewrite Rabs_R0. lra. }
  intros k m Lk Hm. unfold bucket_slack, slack, exact_bucket. rewrite (Vk k Lk), (Sk k Lk). change (fh_width hasher_pr) with quarter. rewrite Fs.
  assert (Pr : exact_projection data_pr 5 vector_pr i = - (8 / 5) / q).
  { unfold exact_projection. replace (znorm (exact_window data_pr 5 i)) with (znorm (exact_window data_pr 5 0)) by (destruct Hi as [-> | ->]; congruence).
    rewrite Z0, V. unfold inner, total. cbn [combine map fold_right fst snd]. field. lra. }
  rewrite Pr. assert (Mg : magnitude vector_pr = 4).
  { unfold magnitude. rewrite <- (map_map fval Rabs), V. cbn [map]. rewrite !Rabs_pos_eq by lra. unfold total. cbn [fold_right]. lra. }
  rewrite Mg. set (p := - (8 / 5) / q).
  assert (Hp : -8 / 10 < p < -76 / 100).
  { unfold p. split; apply Rmult_lt_reg_r with q; try lra; unfold Rdiv; rewrite ?Rmult_assoc, ?Rinv_l by lra; lra. }
  rewrite !power_bp, P51, P36. assert (T1 : bp (-1050) <= bp (-51)) by (apply bpow_le; lia). assert (T2 : bp (-1075) <= bp (-51)) by (apply bpow_le; lia). rewrite P51 in T1, T2.
  assert (Rabs p <= 1) by (rewrite Rabs_left; lra). replace ((p + / 4) / / 4) with (4 * p + 1) by field. assert (Rabs (4 * p + 1) <= 3) by (rewrite Rabs_left; lra).
  unfold Rdiv. rewrite Rmult_0_l, Rinv_inv.
  apply Rle_lt_trans with (/ 100); [lra|].
  destruct (Z_lt_le_dec m (-2)) as [Lm|Lm].
  - assert (Lm1 : (m <= -3)%Z) by lia. apply IZR_le in Lm1. rewrite Rabs_pos_eq by lra. lra.
  - apply IZR_le in Lm. rewrite Rabs_left by lra. lra.
Qed.
