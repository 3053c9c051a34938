(** C86: exact repeats are always found. *)
From Coq Require Import Reals Lra Floats.SpecFloat.
From Verif Require Import Base F64 RSpec RealProofs HashSpec HashValue HashProofs SortSpec OverlapsSpec EnumSpec Enumerator Moves MovesProofs HistoryProofs
  Series SeriesProofs FFT FFTProofs Hashing HashingSpec HashingProofs TopK Profile Iterator IteratorSpec IteratorProofs IteratorLoop IteratorCalls IteratorSteps
  P_Series P_FFT P_Enum P_Hashing P_Iterator GuaranteeSpec GuaranteeProofs GuaranteeTrace P_Guarantee.

Lemma trace_first p a b d h : trace p a b d h -> exists s0, In s0 h /\ iter_new p a b d = Ret s0.
Proof. intros T. induction T as [s E|s s' l T (s0 & H & E) St]; [exists s; split; [left; reflexivity|exact E]|exists s0; split; [right; exact H|exact E]]. Qed.

Lemma new_first_table p a b d s : iter_new p a b d = Ret s -> nth_error (it_tables s) 0 = Some (p_table p 0 K).
Proof.
  unfold iter_new. intros E. change (add_repetitions p [] 1 K) with (Ret [p_table p 0 K]) in E. cbn [bind] in E.
  unfold add_repetitions in E. change (K <=? K)%nat with true in E. cbn [length Nat.ltb Nat.leb assert_ INITIAL_REPETITIONS Nat.sub bind] in E.
  repeat (match type of E with
          | context [calibration_prefix ?x] => destruct (calibration_prefix x); cbn [bind] in E; try discriminate
          | context [first_meaningful_prefix ?x] => destruct (first_meaningful_prefix x) as [p0| |]; cbn [bind] in E; try discriminate
          end).
  destruct p0; cbn [assert_] in E; [discriminate E|].
  repeat (match type of E with
          | (let! _ := ?e in _) = Ret _ => destruct e; cbn [bind] in E; try discriminate
          end).
  apply Ret_inj in E. subst s. reflexivity.
Qed.

Lemma first_table p a b d s h : sound p -> seed_ok p a b d -> trace p a b d (s :: h) -> nth_error (it_tables s) 0 = Some (p_table p 0 K).
Proof.
  intros Sd So T. destruct (trace_log p a b d _ Sd So T) as (s' & l & past & log & Eq & _ & _ & _ & _ & _ & Tb). injection Eq as <- <-.
  destruct (trace_first _ _ _ _ _ T) as (s0 & H0 & E0). destruct (Tb s0 H0) as (more & ->). pose proof (new_first_table _ _ _ _ _ E0) as N.
  rewrite nth_error_app1; [exact N|]. apply nth_error_Some. congruence.
Qed.

Lemma started p a b d s h : sound p -> seed_ok p a b d -> trace p a b d (s :: h) -> (0 < it_candidates s)%nat ->
  (0 < c_rep (it_conf s))%nat \/ exists q m, c_prev (it_conf s) = Some q /\ c_prev_reps (it_conf s) = Some m /\ (0 < m)%nat.
Proof.
  intros Sd So T Hc. destruct (trace_log p a b d _ Sd So T) as (s' & l & past & log & Eq & Hi & _ & Lg & Lc & _ & _). injection Eq as <- <-.
  destruct log as [|[[r x] y] log]; [cbn in Lc; lia|]. destruct (Lg _ (or_introl eq_refl)) as (c' & t & Hin & _).
  destruct (Nat.eq_dec (c_prefix c') (c_prefix (it_conf s))) as [Ep|Ep].
  - left. assert (V : visited past (c_rep c') (c_prefix (it_conf s))) by (exists c'; auto). apply (hi_cur _ _ Hi) in V. lia.
  - right. destruct (c_prev (it_conf s)) as [q|] eqn:Eq; [|destruct (Ep (hi_first _ _ Hi Eq c' Hin))].
    destruct (c_prev_reps (it_conf s)) as [m|] eqn:Em; [|apply (hi_none _ _ Hi) in Em; congruence].
    exists q, m. destruct (hi_prev _ _ Hi q m Eq Em) as (_ & _ & H). specialize (H c' Hin Ep). split; [reflexivity|]. split; [reflexivity|lia].
Qed.

(** The windows of a repeat meet in the first repetition, whatever the prefix. *)
Lemma repeat_searched (p : problem) (ts : list R) (w : nat) (precise : bool) (sr : series) (f : fftdata) (n : nat)
         (hs : hasher) (arrange : list (N * N) -> list (N * N)) (i j x : nat) (scale offset : R)
         (a b : nat) (d : f64) :
    (1 <= w)%nat -> series_new ts w precise = Ret sr -> fft_new n sr = Ret f -> hasher_ok hs w -> sorts arrange ->
    p_n p = num_subsequences sr -> (N.of_nat (num_subsequences sr) <= 2 ^ 32)%N ->
    repetition_table arrange hs sr f K = Ret (p_table p 0 K) ->
    sound p -> seed_ok p a b d ->
    (i < j)%nat -> (j < p_n p)%nat -> ~ too_close (p_ez p) i j -> ~ left_out ts w i -> ~ left_out ts w j ->
    (0 < scale)%R -> window ts w j = map (fun x => scale * x + offset)%R (window ts w i) ->
    nth_error (snd (p_table p 0 K)) x = Some (N.of_nat i) -> ~ in_last_bucket (fst (p_table p 0 K)) 1 x ->
    (forall s1 s2, turn_of p a b d s1 s2 -> searched p s1 (c_rep (it_conf s1) + 1) i j) /\
    (forall s1, stop_of p a b d s1 -> searched p s1 (c_rep (it_conf s1)) i j).
Proof.
  intros Lw E Ef Hh So Hn L32 Ht Sd Se Lij Lj Na Ni Nj Ps Ew Hx Nl.
  assert (Met : forall q tables, (1 <= q)%nat -> nth_error tables 0 = Some (p_table p 0 K) -> meet tables (p_ez p) q 0 i j).
  { intros q tables Lq Et. split; [exact Na|]. destruct (p_table p 0 K) as [hashes indices] eqn:Etab. cbn [fst snd] in Hx, Nl.
    destruct (new_fft_ok _ _ _ _ _ _ Lw E Ef) as (M & F).
    destruct (repetition_ok sr ts w f hs M F Hh arrange 8 So ltac:(lia)) as (hashes' & indices' & order & Et' & T & L & Po & Ho).
    unfold K in Ht. rewrite Ht in Et'. apply Ret_inj in Et'. injection Et' as <- <-. destruct T as (T0 & T1).
    destruct (c77_copies ts w precise sr n f hs arrange hashes indices i j scale offset Lw E Ef L32 Hh So) as (x' & y & h & Hx1 & Hy1 & Hx2 & Hy2 & _); auto; [lia|].
    assert (Wx : forall z, nth_error indices z = Some (N.of_nat i) -> exists o, nth_error order z = Some o /\ (o = i \/ left_out ts w o /\ N.of_nat i = u32_max)).
    { intros z Hz. assert (Lz : (z < length indices)%nat) by (apply nth_error_Some; congruence). rewrite <- T0, L in Lz.
      destruct (nth_error order z) as [o|] eqn:Eo; [|apply nth_error_None in Eo; rewrite <- (Permutation.Permutation_length Po), seq_length in Eo; lia].
      exists o. split; [reflexivity|]. assert (Lo : (o < num_subsequences sr)%nat) by (apply nth_error_In in Eo; apply (Permutation.Permutation_in _ (Permutation.Permutation_sym Po)), in_seq in Eo; lia).
      destruct (Ho z o Eo) as (h1 & id & _ & E2 & R1 & R2). rewrite Hz in E2. injection E2 as <-. unfold left_out in *.
      destruct (Rlt_dec (sd_of (window ts w o)) (/ 10000)) as [Lf|Nf]; [right; split; [exact Lf|apply R1, Lf]|].
      left. destruct (R2 Nf) as (_ & Eid & _). rewrite N.mod_small in Eid by lia. apply Nat2N.inj in Eid. congruence. }
    assert (Lu : N.of_nat i <> u32_max) by (unfold u32_max; rewrite Hn in Lj; lia).
    destruct (Wx x Hx) as (o & Eo & [->|(_ & C)]); [|contradiction]. destruct (Wx x' Hx2) as (o' & Eo' & [->|(_ & C)]); [|contradiction].
    assert (Nd : NoDup order) by (apply (Permutation.Permutation_NoDup Po), seq_NoDup).
    assert (x' = x) by (apply (proj1 (NoDup_nth_error order) Nd); [apply nth_error_Some; congruence|congruence]). subst x'.
    assert (Nxy : x <> y) by (intros ->; rewrite Hx2 in Hy2; injection Hy2 as Hy2; apply Nat2N.inj in Hy2; lia).
    assert (Nq : ~ in_last_bucket hashes q x) by (intros C; apply Nl; apply (last_shorter _ 1 q); [exact Lq|exact C]).
    destruct (Nat.lt_ge_cases x y) as [Lxy|Lxy].
    - exists (hashes, indices), x, y. cbn [fst snd]. split; [exact Et|]. split; [split; [exact Lxy|]; exists h, h; repeat split; auto|]. split; [exact Nq|auto].
    - exists (hashes, indices), y, x. cbn [fst snd]. split; [exact Et|]. split; [split; [lia|]; exists h, h; repeat split; auto|]. split; [|auto].
      intros (h1 & h2 & E1 & E2 & Ag). apply Nq. rewrite Hy1 in E1. injection E1 as <-. exists h, h2. auto. }
  split; [intros s1 s2 T|intros s1 T].
  - destruct T as (h & fl & T & _). inversion T as [|? ? ? T' St]; subst. left. exists 0%nat. split; [lia|]. apply Met; [|eapply first_table; eauto].
    destruct (trace_inv p a b d _ Sd Se T') as (s0 & l0 & Eq & I). injection Eq as <- <-. destruct (inv_conf _ _ _ I) as (_ & Hp & _). apply Hp.
  - destruct T as ((h & T) & _ & Lc).
    destruct (trace_inv p a b d _ Sd Se T) as (s0 & l0 & Eq & I). injection Eq as <- <-. destruct (inv_conf _ _ _ I) as (_ & Hp & Hq).
    pose proof (first_table p a b d s1 h Sd Se T) as Ft.
    destruct (started p a b d s1 h Sd Se T ltac:(lia)) as [C|(q & r & E1 & E2 & C)].
    + left. exists 0%nat. split; [exact C|]. apply Met; [lia|exact Ft].
    + right. exists q, r, 0%nat. split; [exact E1|]. split; [exact E2|]. split; [exact C|]. apply Met; [apply (Hq q E1)|exact Ft].
Qed.

(** * C86: a repeat is never missed *)
(** Windows [i], [j] of the series are the same up to a positive scale and an offset.  The
    first table is that of the hash values of the windows, for whatever hash functions; the
    other tables do not matter.  If the repeat does not fall in the last bucket of that table
    (see C09), the pair returned, whatever else is in the series, is at least as close. *)
Theorem c86_repeat_is_found :
  forall (p : problem) (ts : list R) (w : nat) (precise : bool) (sr : series) (f : fftdata) (n : nat)
         (hs : hasher) (arrange : list (N * N) -> list (N * N)) (i j x : nat) (scale offset : R)
         (a b : nat) (d : f64) (cbs : list (nat -> bool)) (fuel : nat) (s : iter) (answers : list answer) (m : motiflet),
    (1 <= w)%nat -> series_new ts w precise = Ret sr -> fft_new n sr = Ret f -> hasher_ok hs w -> sorts arrange ->
    p_n p = num_subsequences sr -> (N.of_nat (num_subsequences sr) <= 2 ^ 32)%N ->
    repetition_table arrange hs sr f K = Ret (p_table p 0 K) ->
    sound p -> seed_ok p a b d -> exact_distances p -> (forall c i j, p_coin p c i j = true) -> p_top_k p = 1%nat ->
    (i < j)%nat -> (j < p_n p)%nat -> ~ too_close (p_ez p) i j -> ~ left_out ts w i -> ~ left_out ts w j ->
    (0 < scale)%R -> window ts w j = map (fun x => scale * x + offset)%R (window ts w i) ->
    nth_error (snd (p_table p 0 K)) x = Some (N.of_nat i) -> ~ in_last_bucket (fst (p_table p 0 K)) 1 x ->
    session p a b d cbs fuel = Ret (s, answers) ->
    In (Item m) answers -> length (ml_indices m) = 2%nat ->
    fle (ml_extent m) (p_zeucl p i j) = true.
Proof.
  intros p ts w precise sr f n hs arrange i j x scale offset a b d cbs fuel s answers m Lw E Ef Hh So Hn L32 Ht Sd Se Ex Hc H1 Lij Lj Na Ni Nj Ps Ew Hx Nl Es Hm L2.
  destruct (repeat_searched p ts w precise sr f n hs arrange i j x scale offset a b d Lw E Ef Hh So Hn L32 Ht Sd Se Lij Lj Na Ni Nj Ps Ew Hx Nl) as (A1 & A2).
  destruct (c83_pair_is_closest_of_those_searched p a b d cbs fuel s answers m Sd Se Ex Hc H1 Es Hm L2) as [(s1 & s2 & T & _ & _ & B)|(s1 & T & B)]; apply B; eauto.
Qed.
Print Assumptions c86_repeat_is_found.

(** ** A zigzag: windows 1 and 3 go down, windows 0 and 2 go up and are in the last bucket *)
Definition zigzag : list R := [0; 1; 0; 1; 0; 1]%R.
Definition zigzag_table : list N * list N :=
  ([0x0101010101010101; 0x0101010101010101; 0xFFFFFFFFFFFFFFFF; 0xFFFFFFFFFFFFFFFF]%N, [1; 3; 0; 2]%N).

Lemma pair_mean x y : mean_of [x; y] = ((x + y) / 2)%R.
Proof. unfold mean_of. cbn [length]. rewrite !total_cons, total_nil. cbn [INR]. lra. Qed.
Lemma zigzag_bucket ts i up k : (k < 8)%nat -> window ts 2 i = (if up : bool then [0; 1]%R else [1; 0]%R) ->
  bucket_of (simple_hasher 1) ts 2 k i = (if up then -1 else 1)%R.
Proof.
  intros Lk Ew. unfold bucket_of, projection. rewrite Ew. cbn [h_vectors h_shifts h_width simple_hasher].
  assert (Nv : nth k (repeat [1; 0]%R 8) [] = [1; 0]%R) by (do 8 (destruct k as [|k]; [reflexivity|]); lia).
  assert (Ns : nth k (repeat 0%R 8) 0%R = 0%R) by (do 8 (destruct k as [|k]; [reflexivity|]); lia).
  rewrite Nv, Ns. unfold znorm, inner. destruct up; cbn [map combine]; rewrite !total_cons, total_nil, !pair_mean, !sd_pair; cbn [fst snd].
  - replace (Rabs (0 - 1)) with 1%R by (unfold Rabs; destruct (Rcase_abs _); lra). field.
  - replace (Rabs (1 - 0)) with 1%R by (unfold Rabs; destruct (Rcase_abs _); lra). field.
Qed.
Lemma zigzag_in ts i up : window ts 2 i = (if up : bool then [0; 1]%R else [1; 0]%R) -> ~ left_out ts 2 i.
Proof.
  intros Ew. unfold left_out. rewrite Ew. destruct up; rewrite sd_pair.
  - replace (Rabs (0 - 1)) with 1%R by (unfold Rabs; destruct (Rcase_abs _); lra). lra.
  - replace (Rabs (1 - 0)) with 1%R by (unfold Rabs; destruct (Rcase_abs _); lra). lra.
Qed.
Lemma zigzag_row i up row : (N.of_nat i < 2 ^ 32)%N -> window zigzag 2 i = (if up : bool then [0; 1]%R else [1; 0]%R) -> row_of (simple_hasher 1) zigzag 2 8 i row ->
  row = ((if up then 0xFFFFFFFFFFFFFFFF else 0x0101010101010101)%N, N.of_nat i).
Proof.
  intros Li Ew H. destruct row as [h id]. destruct H as (_ & H). destruct (H (zigzag_in _ _ _ Ew)) as (U & -> & B & _).
  rewrite N.mod_small by exact Li. f_equal. apply agree_full; [exact U|destruct up; unfold is_u64; lia|].
  intros k Lk. specialize (B k Lk). rewrite (zigzag_bucket _ _ _ _ Lk Ew) in B. destruct B as (_ & _ & B3 & B4). apply N2Z.inj. destruct up.
  - rewrite (B4 (-1)%Z) by lra. do 8 (destruct k as [|k]; [reflexivity|]); lia.
  - rewrite (B3 1%Z) by lra. do 8 (destruct k as [|k]; [reflexivity|]); lia.
Qed.

Lemma zigzag_hashed_by precise : exists sr n f, series_new zigzag 2 precise = Ret sr /\ num_subsequences sr = 4%nat /\ fft_new n sr = Ret f /\
  repetition_table by_hash (simple_hasher 1) sr f K = Ret zigzag_table.
Proof.
  assert (E : exists sr, series_new zigzag 2 precise = Ret sr /\ num_subsequences sr = 4%nat) by (eexists; split; [apply series_new_ok; cbn; lia|reflexivity]).
  destruct E as (sr & E & En). assert (Ff : exists n f, fft_new n sr = Ret f).
  { destruct (c50_terminates_partial zigzag 2 precise sr ltac:(cbn; lia) E) as (f & n & Hf); [right; split; [change 2%nat with (2 ^ 1)%nat at 1; apply Nat.pow_lt_mono_r; lia|cbn; lia]|]. exists n, f. apply Hf. lia. }
  destruct Ff as (n & f & Ef). exists sr, n, f.
  split; [exact E|]. split; [exact En|]. split; [exact Ef|]. unfold repetition_table.
  destruct (c76_hash zigzag 2 precise sr n f (simple_hasher 1) (repeat (0, 0)%N (num_subsequences sr)) K ltac:(lia) E Ef (simple_ok 1 ltac:(lra)) ltac:(unfold K; lia) (repeat_length _ _)) as (rows & -> & L & H).
  rewrite En in L, H. cbn [bind].
  destruct (H 0%nat ltac:(lia)) as (r0 & E0 & R0). destruct (H 1%nat ltac:(lia)) as (r1 & E1 & R1).
  destruct (H 2%nat ltac:(lia)) as (r2 & E2 & R2). destruct (H 3%nat ltac:(lia)) as (r3 & E3 & R3).
  apply (zigzag_row 0 true r0 ltac:(lia) eq_refl) in R0. apply (zigzag_row 1 false r1 ltac:(lia) eq_refl) in R1.
  apply (zigzag_row 2 true r2 ltac:(lia) eq_refl) in R2. apply (zigzag_row 3 false r3 ltac:(lia) eq_refl) in R3. subst r0 r1 r2 r3.
  destruct rows as [|x0 [|x1 [|x2 [|x3 [|x4 rows]]]]]; cbn [length] in L; try lia. cbn [nth_error] in E0, E1, E2, E3.
  injection E0 as ->. injection E1 as ->. injection E2 as ->. injection E3 as ->. reflexivity.
Qed.

Lemma zigzag_hashed : exists sr n f, series_new zigzag 2 false = Ret sr /\ num_subsequences sr = 4%nat /\ fft_new n sr = Ret f /\
  repetition_table by_hash (simple_hasher 1) sr f K = Ret zigzag_table.
Proof. apply (zigzag_hashed_by false). Qed.

(** windows of the same kind are at distance 0 *)
Definition zigzag_distance (i j : nat) : f64 := if Nat.even (i + j) then f_zero else fl 2.
Definition zigzag_problem : problem := {|
  p_n := 4; p_ez := 2; p_max_k := 2; p_top_k := 1;
  p_zeucl := zigzag_distance; p_zeucl_threshold := below zigzag_distance;
  p_table := fun _ _ => zigzag_table;
  p_failure := fun _ reps _ _ _ => if (reps <? 3)%nat then fl 1 else f_zero;
  p_delta := half; p_coin := fun _ _ _ => true;
  p_expected := toy_expected; p_setup_cost := fl 1; p_collision_cost := fl 1; p_max_repetitions := 100;
  p_buffer := 4; p_threshold := 7; p_stop := false; p_nan_first := true |}.
Lemma zigzag_sound : sound zigzag_problem.
Proof.
  split; try (cbn; lia).
  - intros r k _. split; [|discriminate]. split; [reflexivity|]. split.
    + intros h Hh. unfold is_u64. cbn in Hh. intuition (subst; reflexivity).
    + intros x y hx hy L Hx Hy. destruct x as [|[|[|[|x]]]]; cbn in Hx; try (destruct x; discriminate);
        destruct y as [|[|[|[|y]]]]; cbn in Hy; try (destruct y; discriminate); injection Hx as <-; injection Hy as <-; lia.
  - intros r k x i _ H. left. cbn [p_table zigzag_problem snd zigzag_table] in H. apply nth_error_In in H. cbn in H. intuition (subst; reflexivity).
  - intros a b t d. apply below_sign. intros i j. unfold zigzag_distance. destruct (Nat.even _); reflexivity.
  - intros i j _. cbn [p_zeucl zigzag_problem]. unfold zigzag_distance. destruct (Nat.even _); reflexivity.
  - intros i j _ _ _. cbn [p_zeucl zigzag_problem]. unfold zigzag_distance. destruct (Nat.even _); reflexivity.
Qed.
Lemma zigzag_exact : exact_distances zigzag_problem.
Proof.
  split.
  - intros i j. cbn [p_zeucl zigzag_problem]. unfold zigzag_distance. rewrite (Nat.add_comm i j). reflexivity.
  - intros i j t d. cbn [p_zeucl_threshold p_zeucl zigzag_problem]. unfold below. destruct (fle _ t); [|discriminate]. intros E. injection E as <-. reflexivity.
  - intros i j t. cbn [p_zeucl_threshold p_zeucl zigzag_problem]. unfold below. intros ->. reflexivity.
Qed.
Example c86_case : exists sr n f s answers, series_new zigzag 2 false = Ret sr /\ fft_new n sr = Ret f /\ hasher_ok (simple_hasher 1) 2 /\ sorts by_hash /\
  p_n zigzag_problem = num_subsequences sr /\ repetition_table by_hash (simple_hasher 1) sr f K = Ret (p_table zigzag_problem 0 K) /\
  sound zigzag_problem /\ seed_ok zigzag_problem 0 3 (fl 2) /\ exact_distances zigzag_problem /\ ~ too_close 2 1 3 /\
  ~ left_out zigzag 2 1 /\ ~ left_out zigzag 2 3 /\ window zigzag 2 3 = map (fun x => 1 * x + 0)%R (window zigzag 2 1) /\
  nth_error (snd (p_table zigzag_problem 0 K)) 0 = Some (N.of_nat 1) /\ ~ in_last_bucket (fst (p_table zigzag_problem 0 K)) 1 0 /\
  session zigzag_problem 0 3 (fl 2) [always] 30 = Ret (s, answers) /\ In (Item (Motiflet [1; 3]%nat f_zero)) answers.
Proof.
  destruct zigzag_hashed as (sr & n & f & E & En & Ef & Et). exists sr, n, f. eexists. eexists.
  split; [exact E|]. split; [exact Ef|]. split; [apply simple_ok; lra|]. split; [apply by_hash_sorts|]. split; [symmetry; exact En|]. split; [exact Et|].
  split; [exact zigzag_sound|]. split; [unfold seed_ok, too_close; cbn; repeat split; try lia; reflexivity|]. split; [exact zigzag_exact|].
  split; [unfold too_close; lia|]. split; [apply (zigzag_in _ _ false); reflexivity|]. split; [apply (zigzag_in _ _ false); reflexivity|].
  split; [unfold window; cbn [firstn skipn zigzag map]; repeat (f_equal; try lra)|]. split; [reflexivity|]. split.
  { intros (hx & hl & H1 & H2 & A). cbn in H1, H2. injection H1 as <-. injection H2 as <-. specialize (A 0%nat ltac:(lia)). vm_compute in A. discriminate. }
  split; [vm_compute; reflexivity|]. left. reflexivity.
Qed.
