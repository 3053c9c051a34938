(** Hashing computes what it is meant to. *)
From Coq Require Import Reals Lra.
From Verif Require Import Base RSpec RealProofs HashSpec HashProofs HashValue SortSpec Series SeriesProofs FFT FFTProofs Hashing HashingSpec.
Local Open Scope R_scope.

(** ** Quantisation *)
Lemma Int_part_spec r m : IZR m <= r < IZR m + 1 -> Int_part r = m.
Proof.
  intros H. destruct (base_Int_part r) as (H1 & H2). apply Z.le_antisymm; apply Zlt_succ_le; unfold Z.succ; apply lt_IZR; rewrite plus_IZR; lra.
Qed.
Lemma trunc_pos h m : 0 <= h -> IZR m <= h < IZR m + 1 -> trunc h = m.
Proof. intros H0 H. unfold trunc. destruct (Rle_dec 0 h); [|lra]. apply Int_part_spec. exact H. Qed.
Lemma trunc_neg h m : h < 0 -> IZR m - 1 < h <= IZR m -> trunc h = m.
Proof.
  intros H0 H. unfold trunc. destruct (Rle_dec 0 h); [lra|]. rewrite (Int_part_spec _ (- m)%Z); [lia|]. rewrite opp_IZR. lra.
Qed.
Lemma land255 m : Z.land m 255 = (m mod 256)%Z.
Proof. change 255%Z with (Z.ones 8). rewrite Z.land_ones by lia. reflexivity. Qed.
Lemma to_byte m : Z.of_N (Z.to_N (Z.land m 255)) = (m mod 256)%Z.
Proof. rewrite land255, Z2N.id; [reflexivity|]. apply Z.mod_pos_bound. lia. Qed.

Lemma quantise_byte shift width x : byte_of ((x + shift) / width) (quantise shift width x).
Proof.
  unfold byte_of, quantise. set (z := (x + shift) / width). repeat split.
  - intros H. rewrite Rabs_pos_eq by lra. destruct (Rlt_dec 128 z); [|lra]. unfold signum. destruct (Rlt_dec z 0); [lra|].
    rewrite (trunc_pos _ 127); [reflexivity|lra|lra].
  - intros H. rewrite Rabs_left by lra. destruct (Rlt_dec 128 (- z)); [|lra]. unfold signum. destruct (Rlt_dec z 0); [|lra].
    rewrite (trunc_neg _ (-127)); [reflexivity|lra|]. change (IZR (-127)) with (-127). lra.
  - intros m H Hm. rewrite Rabs_pos_eq by lra. destruct (Rlt_dec 128 z); [lra|]. rewrite (trunc_pos _ m) by lra. rewrite to_byte. apply Z.mod_small.
    split; [apply Zlt_succ_le, lt_IZR; unfold Z.succ; rewrite plus_IZR; lra|]. apply lt_IZR. lra.
  - intros m H Hm. rewrite Rabs_left by lra. destruct (Rlt_dec 128 (- z)); [lra|]. rewrite (trunc_neg _ m) by lra. apply to_byte.
Qed.
Lemma byte_of_floor z : exists m : Z, IZR m <= z < IZR m + 1.
Proof. exists (Int_part z). destruct (base_Int_part z). lra. Qed.
Lemma byte_of_ceil z : exists m : Z, IZR m - 1 < z <= IZR m.
Proof. destruct (byte_of_floor (- z)) as (m & H). exists (- m)%Z. rewrite opp_IZR. lra. Qed.
Lemma byte_of_det z a b : byte_of z a -> byte_of z b -> a = b.
Proof.
  intros (A1 & A2 & A3 & A4) (B1 & B2 & B3 & B4). destruct (Rlt_dec 128 z) as [L|L]; [rewrite A1, B1 by exact L; reflexivity|].
  destruct (Rlt_dec z (-128)) as [L2|L2]; [rewrite A2, B2 by exact L2; reflexivity|]. apply N2Z.inj. destruct (Rlt_dec z 0) as [L3|L3].
  - destruct (byte_of_ceil z) as (m & H). rewrite (A4 m), (B4 m) by lra. reflexivity.
  - destruct (byte_of_floor z) as (m & H). rewrite (A3 m), (B3 m) by lra. reflexivity.
Qed.
Lemma quantise_u8 shift width x : is_u8 (quantise shift width x).
Proof.
  unfold is_u8, quantise. set (z := trunc _). pose proof (Z.mod_pos_bound z 256 ltac:(lia)). rewrite land255. lia.
Qed.

(** ** All the windows *)
Section Hash.
  Variables (s : series) (ts : list R) (w : nat) (f : fftdata) (hs : hasher).
  Hypothesis M : made s ts w.
  Hypothesis F : fft_ok s f.
  Hypothesis H : hasher_ok hs w.
  Notation n := (num_subsequences s).

  Lemma hash_ok max_k output : length output = n -> (max_k <= 8)%nat ->
    exists out, hash hs s f output max_k = Ret out /\ length out = n /\
      (max_k = 0%nat -> out = repeat (0, 0)%N n) /\
      ((1 <= max_k)%nat -> forall i, (i < n)%nat -> exists row, nth_error out i = Some row /\ row_of hs ts w max_k i row).
  Proof.
    intros Lo Lk. unfold hash, assert_. rewrite Lo, Nat.eqb_refl. destruct H as (Hv & Hvl & Hsl & Hw).
    set (body := fun (k : nat) (out : list (N * N)) => _).
    destruct (foreach_inv body (fun done out => length out = n /\
       (done = [] -> out = repeat (0, 0)%N n) /\
       (done <> [] -> forall i, (i < n)%nat -> exists row, nth_error out i = Some row /\ row_of hs ts w (length done) i row)) (seq 0 max_k) (repeat (0, 0)%N n)) as (out & E & L & I0 & I1).
    - split; [apply repeat_length|]. split; [reflexivity|]. intros C. contradiction.
    - intros done k rest out Es (L & I0 & I1).
      assert (Ek : k = length done /\ (k < max_k)%nat).
      { assert (G : nth_error (seq 0 max_k) (length done) = Some k) by (rewrite Es, nth_error_app2, Nat.sub_diag by lia; reflexivity).
        assert (length done < max_k)%nat by (rewrite <- (seq_length max_k 0); apply nth_error_Some; congruence).
        rewrite (nth_error_nth' _ 0%nat), seq_nth in G by (rewrite ?seq_length; lia). injection G as <-. lia. }
      destruct Ek as (Ek & Lk'). unfold body. rewrite (get_ret (h_vectors hs) k []), (get_ret (h_shifts hs) k 0) by lia. cbn [bind].
      set (v := nth k (h_vectors hs) []). assert (Ev : length v = w) by (apply Hvl, nth_In; lia).
      match goal with |- context [znormalized_sliding_dot_product_write s f v out ?g] =>
        destruct (zwrite_ok s ts w f M F v out g Ev L) as (out' & E' & L' & H')
      end.
      { intros i o _. unfold zvalue. destruct (Rlt_dec _ _); [eexists; reflexivity|].
        destruct (set_byte_ret (fst o) k (quantise (nth k (h_shifts hs) 0) (h_width hs) (inner v (znorm (window ts w i)))) ltac:(lia)) as (h' & ->).
        eexists. reflexivity. }
      exists out'. split; [exact E'|]. split; [congruence|]. split; [intros C; destruct done; discriminate C|].
      intros _ i Li. rewrite app_length. cbn [length]. rewrite <- Ek.
      destruct (nth_error out i) as [o|] eqn:Eo; [|apply nth_error_None in Eo; lia].
      destruct (H' i o Eo) as (o' & Eo' & Hn). exists o'. split; [exact Hn|]. revert Eo'. unfold zvalue, left_out, flat_sd_threshold in *.
      destruct (Rlt_dec (sd_of (window ts w i)) (/ 10000)) as [Lf|Nf]; intros Eo'.
      + apply Ret_inj in Eo'. subst o'. unfold row_of, left_out. split; [auto|]. intros C. contradiction.
      + destruct (set_byte (fst o) k _) as [h'| |] eqn:Eb; cbn [bind] in Eo'; try discriminate Eo'. apply Ret_inj in Eo'. subst o'.
        unfold row_of, left_out. split; [intros C; contradiction|]. intros _.
        assert (Old : is_u64 (fst o) /\ (forall k', (k' < k)%nat -> byte_of (bucket_of hs ts w k' i) (byte_at (fst o) k')) /\
                      (forall k', (k <= k')%nat -> (k' < 8)%nat -> byte_at (fst o) k' = 0%N)).
        { destruct done as [|d0 done].
          - rewrite I0 in Eo by reflexivity. apply nth_error_In, repeat_spec in Eo. subst o. cbn [fst]. split; [unfold is_u64; lia|].
            split; [intros k' C; cbn [length] in Ek; lia|]. intros k' _ _. unfold byte_at. reflexivity.
          - destruct (I1 ltac:(discriminate) i Li) as ((h & id) & Eh & Hr). rewrite Eo in Eh. injection Eh as ->. cbn [fst].
            rewrite <- Ek in Hr. destruct Hr as (_ & Hr). destruct (Hr Nf) as (A & _ & B & C). auto. }
        destruct Old as (O1 & O2 & O3).
        assert (Lk8 : (k < 8)%nat) by lia.
        destruct (set_byte_spec _ _ _ _ O1 (quantise_u8 _ _ _) Lk8 Eb) as (S1 & S2 & S3).
        split; [exact S1|]. split; [reflexivity|]. split.
        * intros k' Lk2. destruct (Nat.eq_dec k' k) as [->|Nk].
          -- rewrite S2. unfold bucket_of, projection. fold v. apply quantise_byte.
          -- rewrite S3 by lia. apply O2. lia.
        * intros k' Lk2 L8. rewrite S3 by lia. apply O3; lia.
    - rewrite seq_length in I1. exists out. split; [exact E|]. split; [exact L|]. split.
      + intros ->. apply I0. reflexivity.
      + intros L1. apply I1. destruct max_k; [lia|discriminate].
  Qed.
End Hash.

(** ** Tables *)
From Verif Require Import EnumSpec Enumerator EnumProofs EstimateProofs OverlapsSpec.

Lemma arranged {A} (d : A) (l l' : list A) : Permutation l l' ->
  exists order, Permutation (seq 0 (length l)) order /\ l' = map (fun i => nth i l d) order.
Proof.
  intros P. assert (E : l = map (fun i => nth i l d) (seq 0 (length l))).
  { apply nth_error_ext. intros i. destruct (Nat.lt_ge_cases i (length l)) as [L|L].
    - rewrite nth_error_map, (nth_error_nth' (seq _ _) 0%nat), seq_nth by (rewrite ?seq_length; lia). cbn [option_map Nat.add].
      apply nth_error_nth'. exact L.
    - rewrite (proj2 (nth_error_None _ _) L). symmetry. apply nth_error_None. rewrite map_length, seq_length. exact L. }
  rewrite E in P at 1. apply Permutation_sym in P. destruct (Permutation_map_inv _ _ P) as (order & E' & P'). eauto.
Qed.
Lemma u64_max_u64 : is_u64 u64_max.
Proof. unfold is_u64, u64_max. lia. Qed.
Lemma row_u64 hs ts w k i h id : row_of hs ts w k i (h, id) -> is_u64 h.
Proof.
  intros (R1 & R2). unfold left_out in *. destruct (Rlt_dec (sd_of (window ts w i)) (/ 10000)) as [L|L]; [destruct (R1 L) as (-> & _); apply u64_max_u64|apply R2, L].
Qed.
Section Table.
  Variables (s : series) (ts : list R) (w : nat) (f : fftdata) (hs : hasher).
  Hypothesis M : made s ts w.
  Hypothesis F : fft_ok s f.
  Hypothesis H : hasher_ok hs w.
  Notation n := (num_subsequences s).
  Lemma repetition_ok arrange max_k : sorts arrange -> (1 <= max_k <= 8)%nat ->
    exists hashes indices order, repetition_table arrange hs s f max_k = Ret (hashes, indices) /\
      table_ok hashes indices /\ length hashes = n /\ Permutation (seq 0 n) order /\
      forall x i, nth_error order x = Some i -> exists h id, nth_error hashes x = Some h /\ nth_error indices x = Some id /\ row_of hs ts w max_k i (h, id).
  Proof.
    intros So Lk. unfold repetition_table.
    destruct (hash_ok s ts w f hs M F H max_k (repeat (0, 0)%N n) (repeat_length _ _) ltac:(lia)) as (l & E & L & _ & Hl).
    specialize (Hl ltac:(lia)). rewrite E. cbn [bind]. destruct (So l) as (P & Sd). destruct (arranged (0, 0)%N _ _ P) as (order & Po & Eo).
    exists (map fst (arrange l)), (map snd (arrange l)), order. split; [reflexivity|]. rewrite L in Po.
    assert (Ho : forall x i, nth_error order x = Some i -> exists h id, nth_error (arrange l) x = Some (h, id) /\ row_of hs ts w max_k i (h, id)).
    { intros x i Ex. assert (Li : (i < n)%nat) by (apply nth_error_In in Ex; apply (Permutation_in _ (Permutation_sym Po)), in_seq in Ex; lia).
      destruct (Hl i Li) as ((h & id) & Er & Hr). exists h, id. split; [|exact Hr]. rewrite Eo, nth_error_map, Ex. cbn [option_map]. f_equal.
      apply nth_error_nth. exact Er. }
    assert (La : length (arrange l) = n) by (rewrite <- (Permutation_length P); exact L).
    assert (Lo : length order = n) by (rewrite <- (Permutation_length Po); apply seq_length).
    assert (Hall : forall x h id, nth_error (arrange l) x = Some (h, id) -> is_u64 h).
    { intros x h id Ex. destruct (nth_error order x) as [i|] eqn:Ei.
      - destruct (Ho x i Ei) as (h' & id' & Ex' & Hr). rewrite Ex in Ex'. injection Ex' as <- <-. apply (row_u64 _ _ _ _ _ _ _ Hr).
      - apply nth_error_None in Ei. assert (x < length (arrange l))%nat by (apply nth_error_Some; congruence). lia. }
    split; [|split; [rewrite map_length; exact La|split; [exact Po|]]].
    - split; [rewrite !map_length; reflexivity|]. split.
      + intros h Hh. apply in_map_iff in Hh. destruct Hh as ((h' & id) & <- & Hin). apply In_nth_error in Hin. destruct Hin as (x & Ex). apply (Hall x h' id Ex).
      + intros i j a b Lij Ea Eb. rewrite nth_error_map in Ea, Eb.
        destruct (nth_error (arrange l) i) as [x|] eqn:Ei; [|discriminate Ea]. destruct (nth_error (arrange l) j) as [y|] eqn:Ej; [|discriminate Eb].
        cbn [option_map] in Ea, Eb. injection Ea as <-. injection Eb as <-.
        destruct (Nat.eq_dec i j) as [->|N]; [rewrite Ei in Ej; injection Ej as ->; lia|]. apply (Sd i j x y); try assumption. lia.
    - intros x i Ex. destruct (Ho x i Ex) as (h & id & Ea & Hr). exists h, id. rewrite !nth_error_map, Ea. auto.
  Qed.
End Table.

(** ** Searching for a width *)
(** the exact outcome of a round *)
Section Width.
  Variables (s : series) (ts : list R) (w : nat) (f : fftdata) (ez : nat) (us : list R) (vectors : list (list R)).
  Variable arrange : R -> list (N * N) -> list (N * N).
  Hypothesis M : made s ts w.
  Hypothesis F : fft_ok s f.
  Hypothesis Lv : length vectors = 8%nat /\ (forall v, In v vectors -> length v = w).
  Hypothesis Lu : length us = 8%nat /\ forall u, In u us -> 0 <= u < 1.
  Hypothesis So : forall width, sorts (arrange width).
  Hypothesis Hn : (1 <= num_subsequences s)%nat.
  Notation n := (num_subsequences s).
  Definition hasher_at (width : R) : hasher := Hasher vectors (map (fun u => u * width) us) width.
  Lemma hasher_at_ok width : 0 < width -> hasher_ok (hasher_at width) w.
  Proof. intros P. unfold hasher_ok, hasher_at. cbn [h_vectors h_shifts h_width]. rewrite map_length. tauto. Qed.
  Lemma bucket_at width k i : 0 < width -> (k < 8)%nat ->
    bucket_of (hasher_at width) ts w k i = inner (nth k vectors []) (znorm (window ts w i)) / width + nth k us 0.
  Proof.
    intros P Lk. unfold bucket_of, projection, hasher_at. cbn [h_vectors h_shifts h_width].
    replace (nth k (map (fun u => u * width) us) 0) with (nth k us 0 * width).
    - field. lra.
    - replace 0 with (0 * width) at 2 by ring. rewrite (map_nth (fun u => u * width)). reflexivity.
  Qed.
  (** one round: either a positive estimate or not *)
  Lemma round_ok width : 0 < width ->
    exists hashes indices order c, repetition_table (arrange width) (hasher_at width) s f K = Ret (hashes, indices) /\
      table_ok hashes indices /\ length hashes = n /\ Permutation (seq 0 n) order /\
      (forall x i, nth_error order x = Some i -> exists h id, nth_error hashes x = Some h /\ nth_error indices x = Some id /\ row_of (hasher_at width) ts w 8 i (h, id)) /\
      (forall fuel, (n < fuel)%nat -> (let! e := enum_new fuel hashes indices K None in estimate_num_collisions fuel ez e) = Ret c) /\
      (length (rows hashes indices 8 None false ez 0) <= c)%nat /\ (~ crowded hashes 8 -> c = length (rows hashes indices 8 None false ez 0)).
  Proof.
    intros P. destruct (repetition_ok s ts w f (hasher_at width) M F (hasher_at_ok width P) (arrange width) 8 (So width) ltac:(lia)) as (hashes & indices & order & E & T & L & Po & Ho).
    destruct (estimate_runs hashes indices 8 ez T ltac:(lia) ltac:(intros ->; cbn in L; lia)) as (c & Hc & C1 & C2).
    exists hashes, indices, order, c. rewrite L in Hc. auto 10.
  Qed.
  Definition body (fuel : nat) (width : R) : res (R + R) :=
       let! hs := hasher_new us vectors width in
       let! '(hashes, indices) := repetition_table (arrange width) hs s f K in
       let! e := enum_new fuel hashes indices K None in
       let! c := estimate_num_collisions fuel ez e in
       if (0 <? c)%nat then Ret (inr width) else Ret (inl (width * 2)%R).
  Lemma body_ok width fuel hashes indices c : 0 < width -> repetition_table (arrange width) (hasher_at width) s f K = Ret (hashes, indices) ->
    (let! e := enum_new fuel hashes indices K None in estimate_num_collisions fuel ez e) = Ret c ->
    body fuel width = if (0 <? c)%nat then Ret (inr width) else Ret (inl (width * 2)).
  Proof.
    intros P E1 E2. unfold body, hasher_new, assert_. destruct (Rlt_dec 0 width); [|contradiction]. fold (hasher_at width). cbn [bind]. rewrite E1. cbn [bind].
    destruct (enum_new fuel hashes indices K None) as [e| |]; cbn [bind] in *; try discriminate E2. rewrite E2. reflexivity.
  Qed.
  Lemma find_width_loop width fuel : find_width arrange s f ez us vectors width fuel = loop fuel (body fuel) width.
  Proof. reflexivity. Qed.
End Width.

(** ** Large widths *)
Lemma finite_bound (g : nat -> R) m : exists B, 0 < B /\ forall i, (i < m)%nat -> g i < B.
Proof.
  induction m as [|m (B & P & H)]; [exists 1; split; [lra|lia]|]. exists (Rmax B (g m + 1)). pose proof (Rmax_l B (g m + 1)). pose proof (Rmax_r B (g m + 1)).
  split; [lra|]. intros i Li. destruct (Nat.eq_dec i m) as [->|N]; [lra|]. pose proof (H i ltac:(lia)). lra.
Qed.
Lemma finite_bound2 (g : nat -> nat -> R) a b : exists B, 0 < B /\ forall i j, (i < a)%nat -> (j < b)%nat -> g i j < B.
Proof.
  induction a as [|a (B & P & H)]; [exists 1; split; [lra|intros; lia]|]. destruct (finite_bound (g a) b) as (B' & P' & H').
  exists (Rmax B B'). pose proof (Rmax_l B B'). pose proof (Rmax_r B B'). split; [lra|].
  intros i j Li Lj. destruct (Nat.eq_dec i a) as [->|N]; [pose proof (H' j Lj); lra|]. pose proof (H i j ltac:(lia) Lj). lra.
Qed.
Lemma byte_of_zero z b : -1 < z < 1 -> byte_of z b -> b = 0%N.
Proof.
  intros Hz (_ & _ & B3 & B4). apply N2Z.inj. destruct (Rlt_dec z 0) as [L|L].
  - rewrite (B4 0%Z) by lra. reflexivity.
  - rewrite (B3 0%Z) by lra. reflexivity.
Qed.
Lemma doubling width B : 0 < width -> exists j, B <= width * 2 ^ j.
Proof.
  intros P. destruct (Pow_x_infinity 2 ltac:(rewrite Rabs_pos_eq; lra) (B / width)) as (j & Hj). exists j.
  specialize (Hj j ltac:(lia)). rewrite Rabs_pos_eq in Hj by (apply pow_le; lra).
  apply Rge_le in Hj. apply (Rmult_le_compat_l width) in Hj; [|lra]. replace (width * (B / width)) with B in Hj by (field; lra). exact Hj.
Qed.
Lemma double_pos width j : 0 < width -> 0 < width * 2 ^ j.
Proof. intros P. apply Rmult_lt_0_compat; [exact P|apply pow_lt; lra]. Qed.

Section WidthLoop.
  Variables (s : series) (ts : list R) (w : nat) (f : fftdata) (ez : nat) (us : list R) (vectors : list (list R)).
  Variable arrange : R -> list (N * N) -> list (N * N).
  Hypothesis M : made s ts w.
  Hypothesis F : fft_ok s f.
  Hypothesis Lv : length vectors = 8%nat /\ (forall v, In v vectors -> length v = w).
  Hypothesis Lu : length us = 8%nat /\ forall u, In u us -> 0 <= u < 1.
  Hypothesis So : forall width, sorts (arrange width).
  Hypothesis Hn : (1 <= num_subsequences s)%nat.
  Notation n := (num_subsequences s).
  (** the estimate for a width *)
  Definition estimate_at (width : R) (fuel : nat) : res nat :=
    let! hs := hasher_new us vectors width in
    let! '(hashes, indices) := repetition_table (arrange width) hs s f K in
    let! e := enum_new fuel hashes indices K None in
    estimate_num_collisions fuel ez e.
  Lemma estimate_at_ok width : 0 < width -> exists c, (forall fuel, (n < fuel)%nat -> estimate_at width fuel = Ret c) /\
    (forall fuel, (n < fuel)%nat -> body s f ez us vectors arrange fuel width = if (0 <? c)%nat then Ret (inr width) else Ret (inl (width * 2))).
  Proof.
    intros P. destruct (round_ok s ts w f ez us vectors arrange M F Lv Lu So Hn width P) as (hashes & indices & order & c & E & _ & _ & _ & _ & Ec & _).
    exists c. split; intros fuel Lf.
    - unfold estimate_at, hasher_new, assert_. destruct (Rlt_dec 0 width); [|contradiction]. fold (hasher_at us vectors width). cbn [bind]. rewrite E. cbn [bind]. apply Ec, Lf.
    - eapply body_ok; eauto.
  Qed.
  Lemma find_steps j : forall width fuel, 0 < width -> (n < fuel)%nat ->
    (forall i, (i < j)%nat -> forall g, (n < g)%nat -> estimate_at (width * 2 ^ i) g = Ret 0%nat) ->
    loop (j + fuel) (body s f ez us vectors arrange (j + fuel)) width = loop fuel (body s f ez us vectors arrange (j + fuel)) (width * 2 ^ j).
  Proof.
    assert (G : forall j width fuel fb, 0 < width -> (n < fb)%nat ->
      (forall i, (i < j)%nat -> forall g, (n < g)%nat -> estimate_at (width * 2 ^ i) g = Ret 0%nat) ->
      loop (j + fuel) (body s f ez us vectors arrange fb) width = loop fuel (body s f ez us vectors arrange fb) (width * 2 ^ j)).
    { clear j. induction j as [|j IH]; intros width fuel fb P Lf Hz; cbn [plus]; [rewrite pow_O, Rmult_1_r; reflexivity|].
      cbn [loop]. destruct (estimate_at_ok width P) as (c & E1 & E2). rewrite E2 by exact Lf.
      specialize (Hz 0%nat ltac:(lia) fb Lf) as Z0. rewrite pow_O, Rmult_1_r, E1 in Z0 by exact Lf. apply Ret_inj in Z0. subst c. cbn [Nat.ltb Nat.leb].
      rewrite IH; [|lra|exact Lf|].
      - f_equal. cbn [pow]. ring.
      - intros i Li g Lg. rewrite <- (Hz (S i) ltac:(lia) g Lg). f_equal. cbn [pow]. ring. }
    intros width fuel P Lf Hz. apply G; auto. lia.
  Qed.
  Lemma find_returns j width c : 0 < width -> (0 < c)%nat ->
    (forall i, (i < j)%nat -> forall g, (n < g)%nat -> estimate_at (width * 2 ^ i) g = Ret 0%nat) ->
    (forall g, (n < g)%nat -> estimate_at (width * 2 ^ j) g = Ret c) ->
    returns (find_width arrange s f ez us vectors width) (width * 2 ^ j).
  Proof.
    intros P Pc Hz Hc. exists (j + S n)%nat. intros fuel Lf. rewrite find_width_loop.
    replace fuel with (j + (fuel - j))%nat by lia. rewrite find_steps by (auto; lia).
    replace (j + (fuel - j))%nat with fuel by lia. destruct (fuel - j)%nat as [|m] eqn:Em; [lia|]. cbn [loop].
    destruct (estimate_at_ok (width * 2 ^ j) (double_pos _ _ P)) as (c' & E1 & E2). rewrite E2 by lia.
    assert (c' = c) by (apply Ret_inj; rewrite <- (E1 fuel), <- (Hc fuel) by lia; reflexivity). subst c'.
    destruct (Nat.ltb_spec 0 c); [reflexivity|lia].
  Qed.
  (** the first width that is doubled enough *)
  Lemma find_first width j c : 0 < width -> (0 < c)%nat -> (forall g, (n < g)%nat -> estimate_at (width * 2 ^ j) g = Ret c) ->
    exists j' c', (j' <= j)%nat /\ (0 < c')%nat /\ (forall g, (n < g)%nat -> estimate_at (width * 2 ^ j') g = Ret c') /\ (forall i, (i < j')%nat -> forall g, (n < g)%nat -> estimate_at (width * 2 ^ i) g = Ret 0%nat).
  Proof.
    intros P Pc Hc.
    assert (G : forall m, (m <= j)%nat -> (forall i, (i < m)%nat -> forall g, (n < g)%nat -> estimate_at (width * 2 ^ i) g = Ret 0%nat) \/
       exists j' c', (j' <= j)%nat /\ (0 < c')%nat /\ (forall g, (n < g)%nat -> estimate_at (width * 2 ^ j') g = Ret c') /\
      (forall i, (i < j')%nat -> forall g, (n < g)%nat -> estimate_at (width * 2 ^ i) g = Ret 0%nat)).
    { induction m as [|m IH]; intros Lm; [left; intros; lia|]. destruct IH as [IH|IH]; [lia| |right; exact IH].
      destruct (estimate_at_ok (width * 2 ^ m) (double_pos _ _ P)) as (c' & E1 & _). destruct c' as [|c'].
      - left. intros i Li. destruct (Nat.eq_dec i m) as [->|N]; [exact E1|apply IH; lia].
      - right. exists m, (S c'). split; [lia|]. split; [lia|]. auto. }
    destruct (G j ltac:(lia)) as [H|H]; [|exact H]. exists j, c. auto.
  Qed.
  Lemma body_mono width : fmono (fun fuel => body s f ez us vectors arrange fuel width).
  Proof.
    unfold body. destruct (hasher_new us vectors width) as [hs| |]; cbn [bind]; [|apply fmono_const|apply fmono_const].
    destruct (repetition_table (arrange width) hs s f K) as [(hashes & indices)| |]; cbn [bind]; [|apply fmono_const|apply fmono_const].
    apply (fmono_bind (fun g => enum_new g hashes indices K None) (fun g e => let! c := estimate_num_collisions g ez e in if (0 <? c)%nat then Ret (inr width) else Ret (inl (width * 2)))).
    - apply enum_new_mono.
    - intros e. apply (fmono_bind (fun g => estimate_num_collisions g ez e) (fun g c => if (0 <? c)%nat then Ret (inr width) else Ret (inl (width * 2)))).
      + unfold estimate_num_collisions. fmono_tac; auto using next_range_mono.
      + intros c. apply fmono_const.
  Qed.
  Lemma find_diverges width : 0 < width -> (forall width', 0 < width' -> forall g, (n < g)%nat -> estimate_at width' g = Ret 0%nat) ->
    diverges (find_width arrange s f ez us vectors width).
  Proof.
    intros P Hz fuel. rewrite find_width_loop. enough (G : forall m width, 0 < width -> loop m (body s f ez us vectors arrange fuel) width = Spin) by (apply G, P).
    clear width P. induction m as [|m IH]; intros width P; cbn [loop]; [reflexivity|].
    destruct (estimate_at_ok width P) as (c & E1 & E2).
    assert (c = 0%nat) by (apply Ret_inj; rewrite <- (E1 (S n)), <- (Hz width P (S n)) by lia; reflexivity). subst c. cbn [Nat.ltb Nat.leb] in E2.
    pose proof (body_mono width fuel (fuel + S n)%nat ltac:(lia)) as Mo. cbv beta in Mo. rewrite (E2 (fuel + S n)%nat) in Mo by lia.
    destruct (body s f ez us vectors arrange fuel width) as [x| |]; [|discriminate (Mo ltac:(discriminate))|reflexivity].
    assert (x = inl (width * 2)) by (symmetry; apply Ret_inj, Mo; discriminate). subst x. apply IH. lra.
  Qed.

  (** with a window left out and two others that do not overlap, a large width will do *)
  Lemma zero_row width i h id : 0 < width -> (i < n)%nat -> ~ left_out ts w i ->
    (forall k, (k < 8)%nat -> -1 < bucket_of (hasher_at us vectors width) ts w k i < 1) ->
    row_of (hasher_at us vectors width) ts w 8 i (h, id) -> h = 0%N.
  Proof.
    intros P Li Nl Hb (_ & R). destruct (R Nl) as (U & _ & B & _). apply agree_full; [exact U|unfold is_u64; lia|].
    intros k Lk. rewrite (byte_of_zero _ _ (Hb k Lk) (B k Lk)). unfold byte_at. reflexivity.
  Qed.
  Lemma large_width i j x0 : i <> j -> (i < n)%nat -> (j < n)%nat -> (x0 < n)%nat -> (N.of_nat n <= 2 ^ 32)%N -> ~ left_out ts w i -> ~ left_out ts w j -> left_out ts w x0 -> ~ too_close ez i j ->
    exists B, 0 < B /\ forall width, B <= width -> exists c, (0 < c)%nat /\ forall g, (n < g)%nat -> estimate_at width g = Ret c.
  Proof.
    intros Dij Li Lj Lx L32 Ni Nj Hx Nt.
    destruct (finite_bound2 (fun k i => Rabs (inner (nth k vectors []) (znorm (window ts w i))) / (1 - nth k us 0)) 8 n) as (B & PB & HB).
    exists B. split; [exact PB|]. intros width LB. assert (P : 0 < width) by lra.
    assert (Hb : forall k i', (k < 8)%nat -> (i' < n)%nat -> -1 < bucket_of (hasher_at us vectors width) ts w k i' < 1).
    { intros k i' Lk Li'. rewrite (bucket_at ts w us vectors width k i' P Lk). specialize (HB k i' Lk Li').
      set (x := inner _ _) in *. destruct Lu as (Lu1 & Lu2). assert (Hu : 0 <= nth k us 0 < 1) by (apply Lu2, nth_In; lia). set (u := nth k us 0) in *.
      assert (Hx' : Rabs x < (1 - u) * width).
      { apply Rlt_le_trans with ((1 - u) * B); [|apply Rmult_le_compat_l; lra]. apply (Rmult_lt_compat_l (1 - u)) in HB; [|lra].
        replace ((1 - u) * (Rabs x / (1 - u))) with (Rabs x) in HB by (field; lra). exact HB. }
      assert (A : Rabs (x / width) < 1 - u).
      { unfold Rdiv. rewrite Rabs_mult, (Rabs_pos_eq (/ width)) by (left; apply Rinv_0_lt_compat, P).
        apply (Rmult_lt_compat_r (/ width)) in Hx'; [|apply Rinv_0_lt_compat, P]. replace ((1 - u) * width * / width) with (1 - u) in Hx' by (field; lra). exact Hx'. }
      apply Rabs_def2 in A. lra. }
    destruct (round_ok s ts w f ez us vectors arrange M F Lv Lu So Hn width P) as (hashes & indices & order & c & E & T & L & Po & Ho & Ec & C1 & _).
    exists c. split.
    - assert (Hpos : forall q, (q < n)%nat -> exists x h id, nth_error hashes x = Some h /\ nth_error indices x = Some id /\ row_of (hasher_at us vectors width) ts w 8 q (h, id)).
      { intros q Lq. assert (Hin : In q order) by (apply (Permutation_in _ Po), in_seq; lia). apply In_nth_error in Hin. destruct Hin as (x & Ex).
        destruct (Ho x q Ex) as (h & id & H1 & H2 & H3). exists x, h, id. auto. }
      destruct (Hpos i Li) as (xi & hi & idi & Hi1 & Hi2 & Hi3). destruct (Hpos j Lj) as (xj & hj & idj & Hj1 & Hj2 & Hj3).
      destruct (Hpos x0 Lx) as (xx & hx & idx & Hx1 & Hx2 & Hx3). destruct (proj1 Hx3 Hx) as (-> & _).
      assert (hi = 0%N) by (apply (zero_row width i hi idi); auto). assert (hj = 0%N) by (apply (zero_row width j hj idj); auto). subst hi hj.
      destruct (proj2 Hi3 Ni) as (_ & Ei & _). destruct (proj2 Hj3 Nj) as (_ & Ej & _). clear Hi3 Hj3 Hx3. rewrite N.mod_small in Ei, Ej by lia. subst idi idj.
      assert (Nij : xi <> xj) by (intros ->; rewrite Hi2 in Hj2; injection Hj2 as Hj2; apply Nat2N.inj in Hj2; auto).
      assert (Last : nth_error hashes (length hashes - 1) = Some u64_max).
      { destruct (nth_error hashes (length hashes - 1)) as [hl|] eqn:El; [|apply nth_error_None in El; lia]. f_equal.
        assert (xx < length hashes)%nat by (apply nth_error_Some; congruence). destruct T as (_ & T1 & T2).
        pose proof (T2 xx (length hashes - 1)%nat _ _ ltac:(lia) Hx1 El). pose proof (T1 hl (nth_error_In _ _ El)). unfold is_u64, u64_max in *. lia. }
      assert (NL : forall x, nth_error hashes x = Some 0%N -> ~ in_last_bucket hashes 8 x).
      { intros x Ex (h1 & h2 & E1 & E2 & Ag). rewrite Ex in E1. rewrite Last in E2. injection E1 as <-. injection E2 as <-. specialize (Ag 0%nat ltac:(lia)). vm_compute in Ag. discriminate Ag. }
      assert (Pr : exists a b, (a < b)%nat /\ nth_error hashes a = Some 0%N /\ nth_error hashes b = Some 0%N /\ ~ trivial indices ez a b).
      { destruct (Nat.lt_trichotomy xi xj) as [Lt|[Eq|Gt]]; [exists xi, xj|contradiction|exists xj, xi]; (split; [assumption|]); (split; [assumption|]); (split; [assumption|]).
        - intros (p & q & Ep & Eq & Tc). rewrite Hi2 in Ep. rewrite Hj2 in Eq. injection Ep as <-. injection Eq as <-. rewrite !Nat2N.id in Tc. contradiction.
        - intros (p & q & Ep & Eq & Tc). rewrite Hj2 in Ep. rewrite Hi2 in Eq. injection Ep as <-. injection Eq as <-. rewrite !Nat2N.id in Tc.
          apply Nt. unfold too_close in *. lia. }
      destruct Pr as (a & b & Lab & Ha & Hb' & Ntr).
      assert (Hin : In (a, b) (positions hashes indices 8 None false ez)).
      { apply in_positions; [exact T|lia|discriminate|]. split; [|split; [apply NL, Ha|split; [|exact Ntr]]].
        - split; [exact Lab|]. exists 0%N, 0%N. repeat split; auto.
        - intros (Cc & _). discriminate Cc. }
      rewrite rows_positions, map_length in C1. destruct (positions hashes indices 8 None false ez); [destruct Hin|cbn [length] in C1; lia].
    - intros g Lg. unfold estimate_at, hasher_new, assert_. destruct (Rlt_dec 0 width); [|contradiction]. fold (hasher_at us vectors width). cbn [bind]. rewrite E. cbn [bind]. apply Ec, Lg.
  Qed.
  (** when all the windows are in the same bucket nothing is counted *)
  Lemma one_bucket width : 0 < width -> (forall i, (i < n)%nat -> ~ left_out ts w i) ->
    (forall i j, (i < n)%nat -> (j < n)%nat -> znorm (window ts w i) = znorm (window ts w j)) ->
    forall g, (n < g)%nat -> estimate_at width g = Ret 0%nat.
  Proof.
    intros P Nl Ez g Lg.
    destruct (round_ok s ts w f ez us vectors arrange M F Lv Lu So Hn width P) as (hashes & indices & order & c & E & T & L & Po & Ho & Ec & _ & C2).
    assert (Eq : forall x y hx hy, nth_error hashes x = Some hx -> nth_error hashes y = Some hy -> hx = hy).
    { assert (Hq : forall x hx, nth_error hashes x = Some hx -> exists i, (i < n)%nat /\ exists id, row_of (hasher_at us vectors width) ts w 8 i (hx, id)).
      { intros x hx Ex. assert (Lx : (x < n)%nat) by (rewrite <- L; apply nth_error_Some; congruence).
        destruct (nth_error order x) as [i|] eqn:Ei; [|apply nth_error_None in Ei; rewrite <- (Permutation_length Po), seq_length in Ei; lia].
        assert (Li : (i < n)%nat) by (apply nth_error_In in Ei; apply (Permutation_in _ (Permutation_sym Po)), in_seq in Ei; lia).
        destruct (Ho x i Ei) as (h & id & H1 & _ & H3). rewrite Ex in H1. injection H1 as <-. exists i. split; [exact Li|]. exists id. exact H3. }
      intros x y hx hy Ex Ey. destruct (Hq x hx Ex) as (i & Li & id & (_ & Hi)). destruct (Hq y hy Ey) as (j & Lj & jd & (_ & Hj)).
      destruct (Hi (Nl i Li)) as (U1 & _ & B1 & _). destruct (Hj (Nl j Lj)) as (U2 & _ & B2 & _).
      apply agree_full; [exact U1|exact U2|]. intros k Lk. apply (byte_of_det (bucket_of (hasher_at us vectors width) ts w k i)); [apply B1, Lk|].
      unfold bucket_of, projection. rewrite (Ez i j Li Lj). apply B2, Lk. }
    assert (Hrows : rows hashes indices 8 None false ez 0 = []).
    { rewrite rows_positions. destruct (positions hashes indices 8 None false ez) as [|(a & b) l] eqn:Ep; [reflexivity|exfalso].
      assert (Hin : In (a, b) (positions hashes indices 8 None false ez)) by (rewrite Ep; left; reflexivity).
      apply in_positions in Hin; [|exact T|lia|discriminate]. destruct Hin as (Col & NLast & _). apply NLast.
      destruct Col as (Lab & ha & hb & Ea & Eb & _). assert (a < length hashes)%nat by (apply nth_error_Some; congruence).
      destruct (nth_error hashes (length hashes - 1)) as [hl|] eqn:El; [|apply nth_error_None in El; lia].
      exists ha, hl. split; [exact Ea|]. split; [exact El|]. rewrite (Eq _ _ _ _ Ea El). intros k _. reflexivity. }
    assert (c = 0%nat).
    { rewrite Hrows in C2. apply C2. intros (s0 & e0 & (B1 & B2 & B3) & L0 & _). specialize (B3 L0).
      rewrite (Eq s0 e0 (nth s0 hashes 0%N) (nth e0 hashes 0%N)) in B3 by (apply nth_error_nth'; lia). rewrite same_refl in B3. discriminate B3. }
    subst c. unfold estimate_at, hasher_new, assert_. destruct (Rlt_dec 0 width); [|contradiction]. fold (hasher_at us vectors width). cbn [bind]. rewrite E. cbn [bind]. apply Ec, Lg.
  Qed.
End WidthLoop.
