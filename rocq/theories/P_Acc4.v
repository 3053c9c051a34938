(** C103: a repeat is found, in floating point. *)
From Coq Require Import Reals Lra Lia Floats.SpecFloat.
From Flocq Require Import Core BinarySingleNaN.
From Verif Require Import Base F64 RSpec RealProofs HashSpec HashValue HashProofs SortSpec OverlapsSpec EnumSpec Enumerator Moves
  Series SeriesProofs FFT FFTProofs Hashing HashingSpec HashingProofs TopK Iterator IteratorSpec IteratorSteps P_Series P_FFT P_Enum P_Hashing P_Iterator GuaranteeSpec P_Guarantee P_Repeats
  FpOps FloatSeries FloatSpec FloatProofs FloatRoll FloatBound FloatErr FloatMean P_Float P_Float2 P_Acc P_Acc2 AccSpec P_Acc3.
Local Open Scope R_scope.

Lemma window_exact ts w i : window (map fval ts) w i = exact_window ts w i.
Proof. unfold window, exact_window. rewrite skipn_map, firstn_map. reflexivity. Qed.

(** ** C103: a repeat is found *)
(** Windows [i], [j] of the series are the same up to a positive scale and an offset, and do
    not fall in the last bucket of the first table (see C86).  Then, whatever else is in the
    series, the pair returned is a repeat as well, up to the error in its distance.  Distances
    are those computed; the table is that of the hash values in exact arithmetic. *)
Theorem c103_repeat :
  forall (z : zeros) (ts : list f64) (w : nat) (precise : bool) (s : fseries) (p : problem) (e : Z) (eps gap : R)
         (sr : series) (f : fftdata) (n : nat) (hs : hasher) (arrange : list (N * N) -> list (N * N)) (i j x : nat) (scale offset : R)
         (a b : nat) (d : f64) (cbs : list (nat -> bool)) (fuel : nat) (st : iter) (answers : list answer) (m : motiflet) (exact : R),
    (* the series and its distances *)
    moderate ts -> usable ts w -> fseries_new z ts w precise = Ret s -> search_over z ts w s p ->
    0 < eps <= / 64 -> accurate s (length ts - w) e eps ->
    (* the first table *)
    series_new (map fval ts) w precise = Ret sr -> fft_new n sr = Ret f -> hasher_ok hs w -> sorts arrange ->
    (N.of_nat (length ts) <= 2 ^ 32)%N -> repetition_table arrange hs sr f K = Ret (p_table p 0 K) ->
    (* the search *)
    sound p -> seed_ok p a b d -> lively s a -> lively s b -> seed_within ts w gap a b d ->
    (forall c i j, p_coin p c i j = true) -> p_top_k p = 1%nat ->
    (* the repeat *)
    (i < j)%nat -> (j < p_n p)%nat -> ~ too_close (p_ez p) i j -> ~ left_out (map fval ts) w i -> ~ left_out (map fval ts) w j ->
    0 < scale -> exact_window ts w j = map (fun x => scale * x + offset) (exact_window ts w i) ->
    nth_error (snd (p_table p 0 K)) x = Some (N.of_nat i) -> ~ in_last_bucket (fst (p_table p 0 K)) 1 x ->
    (* what is returned *)
    session p a b d cbs fuel = Ret (st, answers) -> In (Item m) answers ->
    length (ml_indices m) = 2%nat -> widest (exact_distance ts w) (ml_indices m) exact ->
    fval (ml_extent m) ^ 2 <= 400 * INR w * eps ^ 2 + 10 * INR w * eps /\
    exact ^ 2 <= 400 * INR w * eps ^ 2 + 10 * INR w * eps + Rmax (10 * INR w * eps) gap.
Proof.
  intros z ts w precise s p e eps gap sr f n hs arrange i j x scale offset a b d cbs fuel st answers m exact Mo U E So He Ac Er Ef Hh Sa L32 Ht Sd Sk Fa Fb Ed Hc H1
    Lij Lj Na Ni Nj Ps Ew Hx Nl Es Hm L2 Wd.
  assert (Lw : (1 <= w)%nat) by (destruct U as ((Lw & _) & _); exact Lw).
  destruct (new_fft_ok _ _ _ _ _ _ Lw Er Ef) as (M & F).
  assert (Hn : p_n p = num_subsequences sr).
  { rewrite (so_n _ _ _ _ _ So). rewrite (made_num _ _ _ M), map_length. reflexivity. }
  assert (L32' : (N.of_nat (num_subsequences sr) <= 2 ^ 32)%N) by (rewrite <- Hn, (so_n _ _ _ _ _ So); lia).
  assert (Ew' : window (map fval ts) w j = map (fun x => scale * x + offset) (window (map fval ts) w i)) by (rewrite !window_exact; exact Ew).
  destruct (repeat_searched p (map fval ts) w precise sr f n hs arrange i j x scale offset a b d Lw Er Ef Hh Sa Hn L32' Ht Sd Sk Lij Lj Na Ni Nj Ps Ew' Hx Nl) as (A1 & A2).
  destruct (c102_pair z ts w precise s p e eps gap a b d cbs fuel st answers m exact Mo U E So He Ac Sd Sk Fa Fb Ed Hc H1 Es Hm L2 Wd) as (s1 & reps & W & R).
  assert (Hs : searched p s1 reps i j) by (destruct W as [(s2 & T & _ & _ & ->)|(T & ->)]; eauto).
  specialize (R i j Hs).
  assert (D0 : exact_distance ts w i j = 0).
  { unfold exact_distance, zdistance. rewrite Ew. unfold left_out in Ni. rewrite window_exact in Ni. rewrite znorm_affine by lra. apply euclid_refl. }
  rewrite D0 in R. pose proof (pos_INR w) as Pw.
  replace ((0 + 20 * sqrt (INR w) * eps) ^ 2) with (400 * (sqrt (INR w) * sqrt (INR w)) * eps ^ 2) in R by ring. rewrite (sqrt_sqrt _ Pw) in R. exact R.
Qed.
Print Assumptions c103_repeat.

(** ** The zigzag of C86, in floating point *)
Definition zigzag_ints : list nat := [0; 1; 0; 1; 0; 1]%nat.
Definition zigzag_data : list f64 := nums zigzag_ints.
Definition zigzag_series : fseries := match fseries_new z_ex zigzag_data 2 true with Ret s => s | _ => FSeries [] 0 [] [] end.
Definition zigzag_search : problem := {|
  p_n := 4; p_ez := 2; p_max_k := 2; p_top_k := 1;
  p_zeucl := fun i j => match fzeucl z_ex zigzag_series i j with Ret d => d | _ => f_nan end;
  p_zeucl_threshold := fun i j t => match fzeucl_threshold z_ex zigzag_series i j t with Ret o => o | _ => None end;
  p_table := fun _ _ => zigzag_table;
  p_failure := fun _ reps _ _ _ => if (reps <? 3)%nat then fl 1 else f_zero;
  p_delta := half; p_coin := fun _ _ _ => true;
  p_expected := toy_expected; p_setup_cost := fl 1; p_collision_cost := fl 1; p_max_repetitions := 100;
  p_buffer := 4; p_threshold := 7; p_stop := false; p_nan_first := true |}.
Definition zigzag_seed : f64 := p_zeucl zigzag_search 0 3.
Lemma zigzag_exact_data : map fval zigzag_data = zigzag.
Proof. unfold zigzag_data. rewrite exact_nums by (intros n Hn; cbn in Hn; lia). reflexivity. Qed.
Lemma zigzag_over : search_over z_ex zigzag_data 2 zigzag_series zigzag_search.
Proof.
  split; [reflexivity|intros; reflexivity|intros; reflexivity|].
  intros i (Li & _). cbn [p_n zigzag_search] in Li. do 4 (destruct i as [|i]; [vm_compute; reflexivity|]). lia.
Qed.
Lemma zigzag_moderate : moderate zigzag_data.
Proof. apply nums_moderate. intros n Hn. cbn in Hn. lia. Qed.
Lemma zigzag_usable : usable zigzag_data 2.
Proof. unfold usable, zigzag_data, nums. rewrite map_length. cbn [length zigzag_ints]. lia. Qed.
Lemma zigzag_new : fseries_new z_ex zigzag_data 2 true = Ret zigzag_series.
Proof. vm_compute. reflexivity. Qed.
Lemma zigzag_accurate : accurate zigzag_series (length zigzag_data - 2) 0 (/ 2 ^ 36).
Proof.
  intros i Hi _. apply (c100_precise z_ex zigzag_data 2); [apply zigzag_moderate|apply zigzag_usable|apply zigzag_new|exact Hi|lia| |].
  - intros x Hx. apply (nums_at_most 0 zigzag_ints); [intros n Hn; cbn in Hn; lia|lia|]. eapply win_incl; exact Hx.
  - assert (P51 : bp (-51) = / 2251799813685248) by reflexivity. assert (P36 : / 2 ^ 36 = / 68719476736) by (rewrite (pow_IZR 2 36); reflexivity).
    assert (S : / 2 <= sd_of (exact_window zigzag_data 2 i)).
    { rewrite <- window_exact, zigzag_exact_data. rewrite <- (sqrt_square (/ 2)) by lra. unfold sd_of, window. apply sqrt_le_1_alt.
      unfold zigzag_data, nums in Hi. rewrite map_length in Hi. cbn [length zigzag_ints] in Hi.
      do 4 (destruct i as [|i]; [unfold mean_of, total; cbn [zigzag firstn skipn map fold_right length INR]; lra|]). lia. }
    rewrite !power_bp, P51, P36. change (bp 0) with 1. cbn [INR]. lra.
Qed.
Lemma zigzag_search_sound : sound zigzag_search.
Proof.
  pose proof zigzag_sound as [A B C D _ _ _ F].
  apply (c95_search z_ex zigzag_data 2 true zigzag_series zigzag_search zigzag_moderate zigzag_usable zigzag_new); try (intros; reflexivity); auto.
  apply zigzag_over.
Qed.
Lemma zigzag_seed_within : seed_within zigzag_data 2 (20 * / 2 ^ 36) 0 3 zigzag_seed.
Proof.
  assert (He : 0 < / 2 ^ 36 <= / 64) by (split; [apply Rinv_0_lt_compat, pow_lt; lra|apply Rinv_le; [lra|rewrite (pow_IZR 2 36); change (2 ^ Z.of_nat 36)%Z with 68719476736%Z; lra]]).
  destruct (Z_close z_ex zigzag_data 2 true zigzag_series zigzag_search 0 (/ 2 ^ 36) zigzag_moderate zigzag_usable zigzag_new zigzag_over He zigzag_accurate 0 3) as (V & Cl);
    [vm_compute; lia|vm_compute; lia|vm_compute; reflexivity|vm_compute; reflexivity|].
  split; [exact V|]. change (p_zeucl zigzag_search 0 3) with zigzag_seed in Cl. replace (20 * / 2 ^ 36) with (10 * INR 2 * / 2 ^ 36) by (cbn [INR]; ring). exact Cl.
Qed.
Example c103_case : exists sr n f s answers, moderate zigzag_data /\ usable zigzag_data 2 /\ fseries_new z_ex zigzag_data 2 true = Ret zigzag_series /\
  search_over z_ex zigzag_data 2 zigzag_series zigzag_search /\ accurate zigzag_series (length zigzag_data - 2) 0 (/ 2 ^ 36) /\
  series_new (map fval zigzag_data) 2 true = Ret sr /\ fft_new n sr = Ret f /\ hasher_ok (simple_hasher 1) 2 /\ sorts by_hash /\
  repetition_table by_hash (simple_hasher 1) sr f K = Ret (p_table zigzag_search 0 K) /\
  sound zigzag_search /\ seed_ok zigzag_search 0 3 zigzag_seed /\ lively zigzag_series 0 /\ lively zigzag_series 3 /\ seed_within zigzag_data 2 (20 * / 2 ^ 36) 0 3 zigzag_seed /\ ~ too_close 2 1 3 /\
  ~ left_out (map fval zigzag_data) 2 1 /\ ~ left_out (map fval zigzag_data) 2 3 /\
  exact_window zigzag_data 2 3 = map (fun x => 1 * x + 0) (exact_window zigzag_data 2 1) /\
  nth_error (snd (p_table zigzag_search 0 K)) 0 = Some (N.of_nat 1) /\ ~ in_last_bucket (fst (p_table zigzag_search 0 K)) 1 0 /\
  session zigzag_search 0 3 zigzag_seed [always] 30 = Ret (s, answers) /\ In (Item (Motiflet [1; 3]%nat f_zero)) answers.
Proof.
  destruct (zigzag_hashed_by true) as (sr & n & f & E & En & Ef & Et). rewrite <- !window_exact, !zigzag_exact_data. exists sr, n, f. eexists. eexists.
  split; [apply zigzag_moderate|]. split; [apply zigzag_usable|]. split; [apply zigzag_new|]. split; [apply zigzag_over|]. split; [apply zigzag_accurate|].
  split; [exact E|]. split; [exact Ef|]. split; [apply simple_ok; lra|]. split; [apply by_hash_sorts|]. split; [exact Et|].
  split; [exact zigzag_search_sound|]. split; [unfold seed_ok, too_close; cbn [p_n p_ez zigzag_search]; repeat split; try lia; vm_compute; reflexivity|].
  split; [vm_compute; reflexivity|]. split; [vm_compute; reflexivity|].
  split; [apply zigzag_seed_within|]. split; [unfold too_close; lia|]. split; [apply (zigzag_in _ _ false); reflexivity|]. split; [apply (zigzag_in _ _ false); reflexivity|].
  split; [unfold window; cbn [firstn skipn zigzag map]; repeat (f_equal; try lra)|]. split; [reflexivity|]. split.
  { intros (hx & hl & H1 & H2 & A). cbn in H1, H2. injection H1 as <-. injection H2 as <-. specialize (A 0%nat ltac:(lia)). vm_compute in A. discriminate. }
  split; [vm_compute; reflexivity|]. left. reflexivity.
Qed.
