(** C63, C76-C81: hash values of the windows, tables, quantisation width. *)
From Coq Require Import Reals Lra.
From Verif Require Import Base RSpec RealProofs HashSpec HashValue HashProofs SortSpec OverlapsSpec EnumSpec Enumerator EnumProofs EstimateProofs
  Series SeriesProofs FFT FFTProofs Hashing HashingSpec HashingProofs WidthProofs Iterator IteratorSpec P_Series P_FFT P_Enum.
Local Open Scope R_scope.

(** * C63: quantised projections *)
(** The byte of a projection [x] depends only on where [(x + shift) / width] is, as
    [byte_of] says; in particular equal projections have equal bytes. *)
Theorem c63_byte :
  forall shift width x : R, 0 < width ->
    byte_of ((x + shift) / width) (quantise shift width x) /\
    (forall b, byte_of ((x + shift) / width) b -> b = quantise shift width x).
Proof.
  intros shift width x P. split; [apply quantise_byte|]. intros b Hb. apply (byte_of_det _ _ _ Hb). apply quantise_byte.
Qed.
Print Assumptions c63_byte.
Lemma in_range z b : -128 <= z < 128 -> byte_of z b -> exists m : Z, (-128 <= m <= 127)%Z /\ Z.of_N b = (m mod 256)%Z /\ IZR m - 1 < z < IZR m + 1.
Proof.
  intros Hz (_ & _ & B3 & B4). destruct (Rlt_dec z 0) as [L|L].
  - destruct (byte_of_ceil z) as (m & Hm). exists m. split; [|split; [apply B4; lra|lra]].
    split; [apply le_IZR; lra|]. apply Zlt_succ_le, lt_IZR. change (IZR (Z.succ 127)) with 128. lra.
  - destruct (byte_of_floor z) as (m & Hm). exists m. assert (H0 : (0 <= m <= 127)%Z).
    { split; apply Zlt_succ_le, lt_IZR; [unfold Z.succ; rewrite plus_IZR; lra|]. change (IZR (Z.succ 127)) with 128. lra. }
    split; [lia|]. split; [|lra]. rewrite (B3 m) by lra. symmetry. apply Z.mod_small. lia.
Qed.
(** Inside the range, projections with equal bytes differ by less than twice the width. *)
Theorem c63_close :
  forall shift width x y : R, 0 < width ->
    -128 <= (x + shift) / width < 128 -> -128 <= (y + shift) / width < 128 ->
    quantise shift width x = quantise shift width y -> Rabs (x - y) < 2 * width.
Proof.
  intros shift width x y P Hx Hy E.
  destruct (in_range _ _ Hx (quantise_byte shift width x)) as (m & Lm & Em & Bm). destruct (in_range _ _ Hy (quantise_byte shift width y)) as (m' & Lm' & Em' & Bm').
  assert (m = m').
  { rewrite E, Em' in Em. pose proof (Z.div_mod m 256 ltac:(lia)). pose proof (Z.div_mod m' 256 ltac:(lia)).
    pose proof (Z.mod_pos_bound m 256 ltac:(lia)). pose proof (Z.mod_pos_bound m' 256 ltac:(lia)). lia. }
  subst m'. assert (A : Rabs ((x + shift) / width - (y + shift) / width) < 2) by (apply Rabs_def1; lra).
  replace ((x + shift) / width - (y + shift) / width) with ((x - y) / width) in A by (field; lra).
  unfold Rdiv in A. rewrite Rabs_mult, (Rabs_pos_eq (/ width)) in A by (left; apply Rinv_0_lt_compat, P).
  apply (Rmult_lt_compat_r width) in A; [|exact P]. replace (Rabs (x - y) * / width * width) with (Rabs (x - y)) in A by (field; lra). exact A.
Qed.
Print Assumptions c63_close.
(** Outside the range they are clipped. *)
Theorem c63_clipped :
  forall shift width x : R,
    (128 < (x + shift) / width -> quantise shift width x = 127%N) /\
    ((x + shift) / width < -128 -> quantise shift width x = 129%N).
Proof. intros shift width x. destruct (quantise_byte shift width x) as (H1 & H2 & _). auto. Qed.
Print Assumptions c63_clipped.
(** Far apart projections of opposite sign may share a byte: exactly 128 buckets away from 0
    on either side. *)
Theorem c63_opposite_refuted :
  exists shift width x y : R, 0 < width /\ 0 <= shift < width /\ x = 128 * width /\ y = -128 * width /\
    quantise shift width x = quantise shift width y.
Proof.
  exists 0, 1, 128, (-128). split; [lra|]. split; [lra|]. split; [lra|]. split; [lra|].
  destruct (quantise_byte 0 1 128) as (_ & _ & H1 & _). destruct (quantise_byte 0 1 (-128)) as (_ & _ & _ & H2).
  apply N2Z.inj. rewrite (H1 128%Z), (H2 (-128)%Z) by lra. reflexivity.
Qed.
Print Assumptions c63_opposite_refuted.
(** They do not in all other cases. *)
Theorem c63_opposite_partial :
  forall shift width x y : R,
    1 <= (x + shift) / width -> (y + shift) / width <= -1 -> (x + shift) / width <> 128 ->
    quantise shift width x <> quantise shift width y.
Proof.
  intros shift width x y Hx Hy N E. pose proof (quantise_byte shift width x) as Bx. pose proof (quantise_byte shift width y) as By. rewrite E in Bx.
  set (b := quantise shift width y) in *. set (zx := (x + shift) / width) in *. set (zy := (y + shift) / width) in *.
  assert (Px : (1 <= Z.of_N b <= 127)%Z).
  { destruct (Rlt_dec 128 zx) as [L|L]; [rewrite (proj1 Bx L); lia|]. destruct (in_range zx b ltac:(lra) Bx) as (m & Lm & Em & Bm).
    destruct (byte_of_floor zx) as (m2 & Hm2). destruct Bx as (_ & _ & B3 & _). rewrite (B3 m2) by lra.
    split; apply Zlt_succ_le, lt_IZR; [unfold Z.succ; rewrite plus_IZR; lra|]. change (IZR (Z.succ 127)) with 128. lra. }
  assert (Py : (128 <= Z.of_N b <= 255)%Z); [|lia].
  destruct (Rlt_dec zy (-128)) as [L|L]; [rewrite (proj1 (proj2 By) L); lia|]. destruct (byte_of_ceil zy) as (m & Hm). destruct By as (_ & _ & _ & B4). rewrite (B4 m) by lra.
  assert (-128 <= m <= -1)%Z.
  { split; [apply le_IZR; lra|]. apply Zlt_succ_le, lt_IZR. change (IZR (Z.succ (-1))) with 0. lra. }
  replace (m mod 256)%Z with (m + 256)%Z by (symmetry; rewrite <- (Z.mod_small (m + 256) 256), <- Z.add_mod_idemp_r, Z.mod_same, Z.add_0_r by lia; reflexivity). lia.
Qed.
Print Assumptions c63_opposite_partial.
(** Projections 3 and 5/2 fall in the same bucket of width 1, and -3 in another. *)
Example c63_case : quantise (1 / 4) 1 3 = 3%N /\ quantise (1 / 4) 1 (13 / 4) = 3%N /\ quantise (1 / 4) 1 (-3) = 254%N /\ quantise (1 / 4) 1 (-1000) = 129%N.
Proof.
  split; [|split; [|split]].
  - apply N2Z.inj. destruct (quantise_byte (1 / 4) 1 3) as (_ & _ & H & _). rewrite (H 3%Z) by lra. reflexivity.
  - apply N2Z.inj. destruct (quantise_byte (1 / 4) 1 (13 / 4)) as (_ & _ & H & _). rewrite (H 3%Z) by lra. reflexivity.
  - apply N2Z.inj. destruct (quantise_byte (1 / 4) 1 (-3)) as (_ & _ & _ & H). rewrite (H (-2)%Z) by lra. reflexivity.
  - apply c63_clipped. lra.
Qed.

(** * C76: the table of a repetition *)
(** One row per window of the series, whatever was in the buffer before. *)
Theorem c76_hash :
  forall (ts : list R) (w : nat) (precise : bool) (s : series) (fuel : nat) (f : fftdata) (hs : hasher) (output : list (N * N)) (max_k : nat),
    (1 <= w)%nat -> series_new ts w precise = Ret s -> fft_new fuel s = Ret f ->
    hasher_ok hs w -> (1 <= max_k <= 8)%nat -> length output = num_subsequences s ->
    exists rows, hash hs s f output max_k = Ret rows /\ length rows = num_subsequences s /\
      forall i, (i < num_subsequences s)%nat -> exists row, nth_error rows i = Some row /\ row_of hs ts w max_k i row.
Proof.
  intros ts w precise s fuel f hs output max_k Lw E Ef H Lk Lo. destruct (new_fft_ok _ _ _ _ _ _ Lw E Ef) as (M & F).
  destruct (hash_ok s ts w f hs M F H max_k output Lo ltac:(lia)) as (rows & E1 & L & _ & Hr). exists rows. split; [exact E1|]. split; [exact L|]. apply Hr. lia.
Qed.
Print Assumptions c76_hash.
(** The table is sorted, whatever the sort does with equal hash values, and every window is
    in it exactly once: [order] lists the windows as they appear in the table. *)
Theorem c76_table :
  forall (ts : list R) (w : nat) (precise : bool) (s : series) (fuel : nat) (f : fftdata) (hs : hasher)
         (arrange : list (N * N) -> list (N * N)) (max_k : nat),
    (1 <= w)%nat -> series_new ts w precise = Ret s -> fft_new fuel s = Ret f ->
    hasher_ok hs w -> sorts arrange -> (1 <= max_k <= 8)%nat ->
    exists hashes indices order,
      repetition_table arrange hs s f max_k = Ret (hashes, indices) /\
      table_ok hashes indices /\ length hashes = num_subsequences s /\
      Permutation (seq 0 (num_subsequences s)) order /\
      forall x i, nth_error order x = Some i ->
        exists h id, nth_error hashes x = Some h /\ nth_error indices x = Some id /\ row_of hs ts w max_k i (h, id).
Proof.
  intros ts w precise s fuel f hs arrange max_k Lw E Ef H So Lk. destruct (new_fft_ok _ _ _ _ _ _ Lw E Ef) as (M & F). apply repetition_ok; assumption.
Qed.
Print Assumptions c76_table.
(** So what the search assumes of its tables (see [sound]) holds for those made by hashing,
    for series of at most 2^32 windows. *)
Theorem c76_search_tables :
  forall (p : problem) (ts : list R) (w : nat) (precise : bool) (s : series) (fuel : nat) (f : fftdata)
         (hashers : nat -> hasher) (arrange : nat -> list (N * N) -> list (N * N)),
    (1 <= w)%nat -> series_new ts w precise = Ret s -> fft_new fuel s = Ret f ->
    (1 <= num_subsequences s)%nat -> (N.of_nat (num_subsequences s) <= 2 ^ 32)%N ->
    (forall r, hasher_ok (hashers r) w /\ sorts (arrange r)) ->
    p_n p = num_subsequences s ->
    (forall r k, (1 <= k <= K)%nat -> repetition_table (arrange r) (hashers r) s f k = Ret (p_table p r k)) ->
    (forall r k, (1 <= k <= K)%nat ->
       table_ok (fst (p_table p r k)) (snd (p_table p r k)) /\ fst (p_table p r k) <> []) /\
    (forall r k x i, (1 <= k <= K)%nat -> nth_error (snd (p_table p r k)) x = Some i ->
       (i < N.of_nat (p_n p))%N \/ nth_error (fst (p_table p r k)) x = Some u64_max).
Proof.
  intros p ts w precise s fuel f hashers arrange Lw E Ef L1 L32 Hh En Ht. split.
  - intros r k Lk. destruct (Hh r) as (H1 & H2). destruct (c76_table ts w precise s fuel f (hashers r) (arrange r) k Lw E Ef H1 H2 ltac:(unfold K in *; lia)) as (hashes & indices & order & Er & T & L & _).
    rewrite (Ht r k Lk) in Er. apply Ret_inj in Er. rewrite Er. cbn [fst snd]. split; [exact T|]. intros ->. cbn in L. lia.
  - intros r k x i Lk Ex. destruct (Hh r) as (H1 & H2). destruct (c76_table ts w precise s fuel f (hashers r) (arrange r) k Lw E Ef H1 H2 ltac:(unfold K in *; lia)) as (hashes & indices & order & Er & T & L & Po & Ho).
    rewrite (Ht r k Lk) in Er. apply Ret_inj in Er. rewrite Er in *. cbn [fst snd] in *.
    assert (Lx : (x < length indices)%nat) by (apply nth_error_Some; congruence). destruct T as (T0 & _). rewrite <- T0, L in Lx.
    destruct (nth_error order x) as [q|] eqn:Eq; [|apply nth_error_None in Eq; rewrite <- (Permutation_length Po), seq_length in Eq; lia].
    assert (Lq : (q < num_subsequences s)%nat) by (apply nth_error_In in Eq; apply (Permutation_in _ (Permutation_sym Po)), in_seq in Eq; lia).
    destruct (Ho x q Eq) as (h & id & E1 & E2 & R1 & R2). rewrite Ex in E2. injection E2 as <-. unfold left_out in *.
    destruct (Rlt_dec (sd_of (window ts w q)) (/ 10000)) as [Lf|Nf].
    + right. destruct (R1 Lf) as (-> & _). exact E1.
    + left. destruct (R2 Nf) as (_ & -> & _). rewrite N.mod_small by lia. lia.
Qed.
Print Assumptions c76_search_tables.

(** ** Examples *)
(** insertion sort *)
Section Isort.
  Context {A : Type} (leb : A -> A -> bool).
  Fixpoint insert (x : A) (l : list A) : list A := match l with [] => [x] | y :: l' => if leb x y then x :: l else y :: insert x l' end.
  Definition isort (l : list A) : list A := fold_right insert [] l.
  Lemma insert_perm x l : Permutation (x :: l) (insert x l).
  Proof. induction l as [|y l IH]; cbn [insert]; [reflexivity|]. destruct (leb x y); [reflexivity|]. rewrite perm_swap. constructor. exact IH. Qed.
  Lemma isort_perm l : Permutation l (isort l).
  Proof. induction l as [|x l IH]; [reflexivity|]. cbn [isort fold_right]. rewrite IH at 1. apply insert_perm. Qed.
  Hypothesis total : forall x y, leb x y = false -> leb y x = true.
  Hypothesis trans : forall x y z, leb x y = true -> leb y z = true -> leb x z = true.
  Definition chain (l : list A) : Prop := StronglySorted (fun x y => leb x y = true) l.
  Lemma insert_chain x l : chain l -> chain (insert x l).
  Proof.
    intros H. induction H as [|y l Hl IH Hy]; cbn [insert]; [repeat constructor|]. destruct (leb x y) eqn:E.
    - constructor; [constructor; assumption|]. constructor; [exact E|]. eapply Forall_impl; [|exact Hy]. intros z Hz. apply (trans x y z E Hz).
    - constructor; [exact IH|]. apply (Permutation_Forall (insert_perm x l)). constructor; [apply total, E|exact Hy].
  Qed.
  Lemma isort_chain l : chain (isort l).
  Proof. induction l as [|x l IH]; [constructor|]. apply insert_chain, IH. Qed.
  Lemma chain_nth l : chain l -> forall i j x y, (i < j)%nat -> nth_error l i = Some x -> nth_error l j = Some y -> leb x y = true.
  Proof.
    intros H. induction H as [|z l Hl IH Hz]; intros i j x y L Ex Ey; [destruct i; discriminate Ex|]. destruct j as [|j]; [lia|]. destruct i as [|i]; cbn [nth_error] in *.
    - injection Ex as <-. rewrite Forall_forall in Hz. apply Hz. eapply nth_error_In, Ey.
    - apply (IH i j); auto. lia.
  Qed.
End Isort.
Definition by_hash (l : list (N * N)) : list (N * N) := isort (fun x y => (fst x <=? fst y)%N) l.
Lemma by_hash_sorts : sorts by_hash.
Proof.
  intros l. split; [apply isort_perm|]. intros i j x y L Ex Ey.
  set (leb := fun x y : N * N => (fst x <=? fst y)%N).
  assert (T1 : forall x y, leb x y = false -> leb y x = true) by (unfold leb; intros; lia).
  assert (T2 : forall x y z, leb x y = true -> leb y z = true -> leb x z = true) by (unfold leb; intros; lia).
  pose proof (chain_nth leb T1 T2 _ (isort_chain leb T1 T2 l) i j x y L Ex Ey) as H. unfold leb in H. lia.
Qed.
(** eight times the same vector *)
Definition simple_hasher (width : R) : hasher := Hasher (repeat [1; 0] 8) (repeat 0 8) width.
Lemma simple_ok width : 0 < width -> hasher_ok (simple_hasher width) 2.
Proof. intros P. unfold hasher_ok. cbn [h_vectors h_shifts h_width simple_hasher]. rewrite !repeat_length. repeat split; auto. intros v Hv. apply repeat_spec in Hv. subst v. reflexivity. Qed.
Lemma fft_of ts s : (1 <= length ts)%nat -> (2 < length ts)%nat -> series_new ts 2 false = Ret s -> exists fuel f, fft_new fuel s = Ret f.
Proof.
  intros _ L E. destruct (c50_terminates_partial ts 2 false s ltac:(lia) E) as (f & n & Hf).
  { right. split; [|lia]. change 2%nat with (2 ^ 1)%nat at 1. apply Nat.pow_lt_mono_r; lia. }
  exists n, f. apply Hf. lia.
Qed.
(** The two windows of the wave get the same hash value: see C77. *)
Example c76_case : exists s fuel f, series_new wave 2 false = Ret s /\ fft_new fuel s = Ret f /\ num_subsequences s = 2%nat /\
  hasher_ok (simple_hasher 1) 2 /\ sorts by_hash /\ ~ left_out wave 2 0 /\ ~ left_out wave 2 1.
Proof.
  destruct (wave_made false) as (s & E & N & _). destruct (fft_of wave s ltac:(cbn; lia) ltac:(cbn; lia) E) as (fuel & f & Ef). exists s, fuel, f.
  split; [exact E|]. split; [exact Ef|]. split; [exact N|]. split; [apply simple_ok; lra|]. split; [apply by_hash_sorts|].
  unfold left_out, window. cbn [firstn skipn wave]. rewrite !sd_pair.
  replace (Rabs (0 - 1)) with 1 by (unfold Rabs; destruct (Rcase_abs _); lra). replace (Rabs (1 - 3)) with 2 by (unfold Rabs; destruct (Rcase_abs _); lra). lra.
Qed.

(** * C77: windows that are copies of each other *)
(** Windows that are equal up to a positive scale and an offset have the same hash value in
    every repetition; so a pair of them that is not a trivial match is enumerated, at every
    prefix length, unless it falls in the last bucket (see C09). *)
Theorem c77_copies :
  forall (ts : list R) (w : nat) (precise : bool) (s : series) (fuel : nat) (f : fftdata) (hs : hasher)
         (arrange : list (N * N) -> list (N * N)) (hashes indices : list N) (i j : nat) (scale offset : R),
    (1 <= w)%nat -> series_new ts w precise = Ret s -> fft_new fuel s = Ret f ->
    (N.of_nat (num_subsequences s) <= 2 ^ 32)%N ->
    hasher_ok hs w -> sorts arrange ->
    repetition_table arrange hs s f K = Ret (hashes, indices) ->
    (i < j)%nat -> (j < num_subsequences s)%nat -> ~ left_out ts w i -> ~ left_out ts w j ->
    0 < scale -> window ts w j = map (fun x => scale * x + offset) (window ts w i) ->
    exists x y h,
      nth_error hashes x = Some h /\ nth_error hashes y = Some h /\
      nth_error indices x = Some (N.of_nat i) /\ nth_error indices y = Some (N.of_nat j) /\
      forall p ez caps batches, (1 <= p <= 8)%nat -> ~ too_close ez i j -> (forall c, In c caps -> (0 < c)%nat) ->
        ~ in_last_bucket hashes p x ->
        returns (enumerate hashes indices p None false ez caps) (batches, true) ->
        In (N.of_nat i, N.of_nat j) (concat batches).
Proof.
  intros ts w precise s fuel f hs arrange hashes indices i j scale offset Lw E Ef L32 H So Et Lij Lj Ni Nj Ps Ew.
  destruct (new_fft_ok _ _ _ _ _ _ Lw E Ef) as (M & F).
  destruct (repetition_ok s ts w f hs M F H arrange 8 So ltac:(lia)) as (hashes' & indices' & order & Et' & T & L & Po & Ho).
  unfold K in Et. rewrite Et in Et'. apply Ret_inj in Et'. injection Et' as <- <-.
  assert (Hpos : forall q, (q < num_subsequences s)%nat -> exists x h id, nth_error hashes x = Some h /\ nth_error indices x = Some id /\ row_of hs ts w 8 q (h, id)).
  { intros q Lq. assert (Hin : In q order) by (apply (Permutation_in _ Po), in_seq; lia). apply In_nth_error in Hin. destruct Hin as (x & Ex).
    destruct (Ho x q Ex) as (h & id & H1 & H2 & H3). exists x, h, id. auto. }
  destruct (Hpos i ltac:(lia)) as (x & hi & idi & Hx1 & Hx2 & _ & Hx3). destruct (Hpos j Lj) as (y & hj & idj & Hy1 & Hy2 & _ & Hy3).
  destruct (Hx3 Ni) as (Ux & -> & Bx & _). destruct (Hy3 Nj) as (Uy & -> & By & _). rewrite N.mod_small in Hx2, Hy2 by lia.
  assert (Hsd : 0 < sd_of (window ts w i)) by (unfold left_out in Ni; lra). destruct (sd_pos_var _ Hsd) as (_ & Pi).
  assert (hi = hj).
  { apply agree_full; [exact Ux|exact Uy|]. intros k Lk. apply (byte_of_det (bucket_of hs ts w k i)); [apply Bx, Lk|].
    replace (bucket_of hs ts w k i) with (bucket_of hs ts w k j); [apply By, Lk|]. unfold bucket_of, projection. rewrite Ew, znorm_affine by assumption. reflexivity. }
  subst hj. exists x, y, hi. split; [exact Hx1|]. split; [exact Hy1|]. split; [exact Hx2|]. split; [exact Hy2|].
  intros p ez caps batches Lp Nt Hc Nl R.
  destruct (c09_complete_but_last_bucket_partial hashes indices p ez caps batches T ltac:(intros ->; cbn in L; lia) Lp Hc R) as (positions & F2 & Hin).
  assert (Nxy : x <> y) by (intros ->; rewrite Hx2 in Hy2; injection Hy2 as Hy2; apply Nat2N.inj in Hy2; lia).
  assert (Hp : exists a b, In (a, b) positions /\ ((a = x /\ b = y) \/ (a = y /\ b = x))).
  { destruct (Nat.lt_trichotomy x y) as [Lt|[Eq|Gt]]; [exists x, y|contradiction|exists y, x]; (split; [|auto]); apply Hin.
    - split; [exact Lt|]. exists hi, hi. repeat split; auto.
    - intros (a & b & Ea & Eb & Tc). rewrite Hx2 in Ea. rewrite Hy2 in Eb. injection Ea as <-. injection Eb as <-. rewrite !Nat2N.id in Tc. contradiction.
    - exact Nl.
    - split; [exact Gt|]. exists hi, hi. repeat split; auto.
    - intros (a & b & Ea & Eb & Tc). rewrite Hy2 in Ea. rewrite Hx2 in Eb. injection Ea as <-. injection Eb as <-. rewrite !Nat2N.id in Tc. apply Nt. unfold too_close in *. lia.
    - intros (h1 & h2 & E1 & E2 & Ag). apply Nl. rewrite Hy1 in E1. injection E1 as <-. exists hi, h2. auto. }
  destruct Hp as (a & b & Hab & Hcase).
  assert (Hr : exists ab, In ab (concat batches) /\ report_of indices (a, b) ab).
  { clear -F2 Hab. induction F2 as [|q r l1 l2 Hq F2 IH]; [destruct Hab|]. destruct Hab as [->|Hab]; [exists r; split; [left; reflexivity|exact Hq]|].
    destruct (IH Hab) as (ab & H1 & H2). exists ab. split; [right; exact H1|exact H2]. }
  destruct Hr as ((u & v) & Hu & (ia & ib & Ea & Eb & Le & Or)). cbn [fst snd] in *.
  replace (N.of_nat i, N.of_nat j) with (u, v); [exact Hu|].
  destruct Hcase as [(-> & ->)|(-> & ->)]; [rewrite Hx2 in Ea; rewrite Hy2 in Eb|rewrite Hy2 in Ea; rewrite Hx2 in Eb]; injection Ea as Ea; injection Eb as Eb; subst ia ib;
    destruct Or as [Or|Or]; injection Or as Ou Ov; subst u v; try reflexivity; lia.
Qed.
Print Assumptions c77_copies.
(** The second window of the wave, 1 3, is the first one, 0 1, times 2 plus 1. *)
Example c77_case : exists s fuel f hashes indices, series_new wave 2 false = Ret s /\ fft_new fuel s = Ret f /\
  repetition_table by_hash (simple_hasher 1) s f K = Ret (hashes, indices) /\ (1 < num_subsequences s)%nat /\
  ~ left_out wave 2 0 /\ ~ left_out wave 2 1 /\ window wave 2 1 = map (fun x => 2 * x + 1) (window wave 2 0) /\ ~ too_close 1 0 1.
Proof.
  destruct c76_case as (s & fuel & f & E & Ef & N & H & So & N0 & N1). exists s, fuel, f.
  destruct (c76_table wave 2 false s fuel f (simple_hasher 1) by_hash K ltac:(lia) E Ef H So ltac:(unfold K; lia)) as (hashes & indices & order & Et & _).
  exists hashes, indices. split; [exact E|]. split; [exact Ef|]. split; [exact Et|]. split; [lia|]. split; [exact N0|]. split; [exact N1|].
  split; [|unfold too_close; lia]. unfold window. cbn [firstn skipn wave map]. repeat (f_equal; try ring).
Qed.
