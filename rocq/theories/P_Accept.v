(** Property theorems C144: which supports the Python constructors refuse, with machine words.
    Model: FloatAccept.v. *)
From Coq Require Import String.
From Coq Require Import Reals Lra Lia Floats.SpecFloat.
From Flocq Require Import Core BinarySingleNaN.
From Verif Require Import Base Overlaps OverlapsSpec F64 Iterator Brute Text TextSpec Python Main Counts Budget P_Budget
  FpOps FloatSeries FloatSpec FloatProofs FloatRoll FloatBound FloatErr FloatMean P_Float P_Float2 FloatHash ProjSpec P_Proj FloatBrute FloatRun FloatSample FloatWidth FloatStart FloatMain FloatPython FloatBudget P_Budget2 FloatAccept.
From Verif Require P_Avg64 P_Brute64 P_Whole P_Own P_Python64.
Import FpOps.
Local Open Scope list_scope.

(** With checked arithmetic, or a product below 2^64, the test is the one on numbers. *)
Lemma accept_same {A} checks support zone n (k : res A) :
  checks = true \/ (N.of_nat support * N.of_nat zone < 2 ^ 64)%N -> (N.of_nat n < 2 ^ 64)%N ->
  accept checks support zone n k = assert_ (support * zone <=? n)%nat k.
Proof.
  intros H L. unfold accept, usize_mul.
  destruct (N.leb_spec (2 ^ 64) (N.of_nat support * N.of_nat zone)) as [B|B].
  - destruct H as [->|H]; [|lia]. cbn [andb bind]. unfold assert_. destruct (Nat.leb_spec (support * zone) n); [|reflexivity]. exfalso. lia.
  - rewrite andb_false_r. cbn [bind]. rewrite N.mod_small by exact B. unfold assert_.
    destruct (N.leb_spec (N.of_nat support * N.of_nat zone) (N.of_nat n)), (Nat.leb_spec (support * zone) n); try reflexivity; exfalso; lia.
Qed.

(** * C144: where the words suffice *)
(** In a debug build always, and in a release build as long as the product of the support and
    the exclusion zone is below 2^64, the class does exactly what it does with unbounded
    numbers; so it refuses a support for which the series has fewer windows than that product,
    and nothing else for that reason. *)
Theorem c144_words :
  forall (checks : bool) (a : arguments) (n_w : world) (ts : list f64) (fuel : nat),
    checks = true \/ (N.of_nat (a_support a) * N.of_nat (a_zone a) < 2 ^ 64)%N -> (N.of_nat (length ts) < 2 ^ 64)%N ->
    fpy_new_words checks a n_w ts fuel = fpy_new64 checks a n_w ts fuel /\
    ((length ts - a_w a < a_support a * a_zone a)%nat -> forall y, fpy_new_words checks a n_w ts fuel <> Ret y).
Proof.
  intros checks a n_w ts fuel H L.
  assert (A : fpy_new_words checks a n_w ts fuel = fpy_new64 checks a n_w ts fuel).
  { unfold fpy_new_words, fpy_new64. destruct (fseries_new _ _ _ _) as [s| |] eqn:Es; cbn [bind]; try reflexivity. apply accept_same; [exact H|]. rewrite (new_windows _ _ _ _ _ Es). lia. }
  split; [exact A|]. intros Big. rewrite A. unfold fpy_new64.
  destruct (fseries_new _ _ _ _) as [s| |] eqn:Es; cbn [bind]; [|discriminate..]. rewrite (new_windows _ _ _ _ _ Es). unfold assert_.
  destruct (Nat.leb_spec (a_support a * a_zone a) (length ts - a_w a)); [lia|]. discriminate.
Qed.
Print Assumptions c144_words.
(** the same for the function, whose exclusion zone is half a window unless one is given *)
Theorem c144_function :
  forall (checks : bool) (n_w : world) (ts : list f64) (w support : nat) (given : option nat) (fuel : nat),
    let zone := match given with Some zone => zone | None => (w / 2)%nat end in
    checks = true \/ (N.of_nat support * N.of_nat zone < 2 ^ 64)%N -> (N.of_nat (length ts) < 2 ^ 64)%N ->
    fmotiflet_brute_force_words checks n_w ts w support given fuel = fmotiflet_brute_force n_w ts w support (Some zone) fuel /\
    ((length ts - w < support * zone)%nat -> forall ms, fmotiflet_brute_force_words checks n_w ts w support given fuel <> Ret ms).
Proof.
  intros checks n_w ts w support given fuel zone H L.
  assert (B : fmotiflet_brute_force_words checks n_w ts w support given fuel = fmotiflet_brute_force n_w ts w support (Some zone) fuel).
  { unfold fmotiflet_brute_force_words, fmotiflet_brute_force. destruct (fseries_new _ _ _ _) as [s| |] eqn:Es; cbn [bind]; try reflexivity. fold zone. apply accept_same; [exact H|]. rewrite (new_windows _ _ _ _ _ Es). lia. }
  split; [exact B|]. intros Big. rewrite B. unfold fmotiflet_brute_force.
  destruct (fseries_new _ _ _ _) as [s| |] eqn:Es; cbn [bind]; [|discriminate..]. rewrite (new_windows _ _ _ _ _ Es). unfold assert_.
  destruct (Nat.leb_spec (support * zone) (length ts - w)); [lia|]. discriminate.
Qed.
Print Assumptions c144_function.

(** ** Where they do not *)
Lemma average_never z ts w s samples zone draw :
  moderate ts -> usable ts w -> (w < length ts)%nat -> fseries_new z ts w false = Ret s ->
  (forall t, (fst (draw t) < length ts - w)%nat /\ (snd (draw t) < length ts - w)%nat) -> (1 <= samples)%nat -> (length ts - w <= zone)%nat ->
  diverges (faverage_pairwise_distance samples z s zone draw).
Proof.
  intros Mo U Lw Es Hd Hs Hz fuel. unfold faverage_pairwise_distance, assert_. rewrite (new_windows _ _ _ _ _ Es). destruct (Nat.ltb_spec 0 (length ts - w)) as [_|]; [|lia].
  destruct (c94_new z ts w false Mo U) as (s' & Es' & _ & _ & _ & Ls & _). rewrite Es in Es'. apply Ret_inj in Es'. subst s'.
  assert (Fl : forall i, (i < length ts - w)%nat -> exists b, fis_flat s i = Ret b).
  { intros i Li. unfold fis_flat, fsd, get. destruct (nth_error (fs_sd s) i) as [x|] eqn:E; [eexists; reflexivity|]. apply nth_error_None in E. lia. }
  apply (loop_diverges _ (fun st => snd (fst st) = 0%nat)); [|reflexivity]. intros [[t k] sum] Hk. cbn [fst snd] in Hk. subst k. destruct (Nat.ltb_spec 0 samples); [|lia].
  destruct (Hd t) as (Li & Lj). destruct (draw t) as [i j]. cbn [fst snd] in Li, Lj. destruct (Fl i Li) as (bi & ->). cbn [bind]. destruct bi; [eexists; split; reflexivity|].
  destruct (Fl j Lj) as (bj & ->). cbn [bind]. destruct bj; [eexists; split; reflexivity|].
  replace (overlaps i j zone) with true; [eexists; split; reflexivity|]. symmetry. unfold overlaps. apply Z.ltb_lt. lia.
Qed.

(** In a release build a product that wraps around to a small number is accepted.  If no two
    windows are that far apart, the function then never returns, on any series of moderate
    data, and the class is never constructed, although both should refuse the support.  (For
    zones below 2^63, where overlaps are told right, C01.) *)
Theorem c144_wraps_refuted :
  forall (a : arguments) (n_w : world) (ts : list f64),
    moderate ts -> usable ts (a_w a) -> (a_w a < length ts)%nat ->
    (forall t, (fst (n_pairs n_w t) < length ts - a_w a)%nat /\ (snd (n_pairs n_w t) < length ts - a_w a)%nat) -> (1 <= n_average_samples n_w)%nat ->
    (length ts - a_w a <= a_zone a)%nat -> (N.of_nat (a_zone a) < 2 ^ 63)%N ->
    (2 ^ 64 <= N.of_nat (a_support a) * N.of_nat (a_zone a))%N ->
    ((N.of_nat (a_support a) * N.of_nat (a_zone a)) mod 2 ^ 64 <= N.of_nat (length ts - a_w a))%N ->
    diverges (fmotiflet_brute_force_words false n_w ts (a_w a) (a_support a) (Some (a_zone a))) /\
    ((length ts - a_w a <= a_brute_force_threshold a)%nat -> diverges (fpy_new_words false a n_w ts)) /\
    forall fuel y, fpy_new_words false a n_w ts fuel <> Ret y.
Proof.
  intros a n_w ts Mo U Lw Hd Hs Hz _ _ Hw. destruct (c94_new (n_zeros n_w) ts (a_w a) false Mo U) as (s & Es & _).
  pose proof (average_never (n_zeros n_w) ts (a_w a) s (n_average_samples n_w) (a_zone a) (n_pairs n_w) Mo U Lw Es Hd Hs Hz) as Av.
  pose proof (new_windows _ _ _ _ _ Es) as En.
  assert (Ac : forall A (k : res A), accept false (a_support a) (a_zone a) (length ts - a_w a) k = k).
  { intros A k. unfold accept, usize_mul. cbn [andb bind]. unfold assert_. destruct (N.leb_spec ((N.of_nat (a_support a) * N.of_nat (a_zone a)) mod 2 ^ 64) (N.of_nat (length ts - a_w a))); [reflexivity|lia]. }
  assert (Li : exists limit, flimit false (length ts - a_w a) (a_fraction_threshold a) = Ret limit).
  { unfold flimit, Counts.usize_sub, Counts.usize_mul. cbn [andb]. destruct (_ <=? _)%N; cbn [bind]; eexists; reflexivity. }
  destruct Li as (limit & Li). split; [|split].
  - intros fuel. unfold fmotiflet_brute_force_words. rewrite Es. cbn [bind]. rewrite En, Ac, Av. reflexivity.
  - intros Small fuel. unfold fpy_new_words, fpy_build64. rewrite Es. cbn [bind]. rewrite En, Ac, Li. cbn [bind]. destruct (Nat.ltb_spec (a_brute_force_threshold a) (length ts - a_w a)); [lia|]. rewrite Av. reflexivity.
  - intros fuel y. unfold fpy_new_words, fpy_build64. rewrite Es. cbn [bind]. rewrite En, Ac, Li. cbn [bind]. destruct (_ <? _)%nat; [|rewrite Av; discriminate].
    destruct (fpy_memory _ _ _); cbn [bind]; try discriminate. destruct (ffft_new _ _ _); cbn [bind]; try discriminate. destruct (findex_width _ _ _ _ _ _ _ _ _ _ _); cbn [bind]; try discriminate.
    destruct (max_repetitions_in_memory64 _ _ _ _); cbn [bind]; try discriminate. rewrite Av. discriminate.
Qed.
Print Assumptions c144_wraps_refuted.

(** ** Four windows, 2^62 apart, of the longer zigzag: refused with checks, accepted without *)
Definition quarter : nat := N.to_nat (2 ^ 62).
Definition wrapped_arguments : arguments := Arguments 2 4 1 None (Some quarter) 1000 P_Python64.one_tenth false.
Lemma quarter_of : N.of_nat quarter = (2 ^ 62)%N.
Proof. unfold quarter. apply N2Nat.id. Qed.
Example c144_wraps_case :
  moderate P_Own.long_data /\ usable P_Own.long_data 2 /\ (a_w wrapped_arguments < length P_Own.long_data)%nat /\
  (length P_Own.long_data - a_w wrapped_arguments <= a_zone wrapped_arguments)%nat /\ (N.of_nat (a_zone wrapped_arguments) < 2 ^ 63)%N /\
  (2 ^ 64 <= N.of_nat (a_support wrapped_arguments) * N.of_nat (a_zone wrapped_arguments))%N /\
  ((N.of_nat (a_support wrapped_arguments) * N.of_nat (a_zone wrapped_arguments)) mod 2 ^ 64 <= N.of_nat (length P_Own.long_data - a_w wrapped_arguments))%N /\
  (1 <= n_average_samples P_Own.long_world)%nat /\
  forall t, (fst (n_pairs P_Own.long_world t) < length P_Own.long_data - a_w wrapped_arguments)%nat /\ (snd (n_pairs P_Own.long_world t) < length P_Own.long_data - a_w wrapped_arguments)%nat.
Proof.
  unfold wrapped_arguments, a_zone. cbn [a_w a_support a_exclusion_zone]. rewrite quarter_of, P_Own.long_length.
  split; [apply P_Own.long_moderate|]. split; [apply P_Own.long_usable|]. split; [lia|]. split; [enough (68 <= N.of_nat quarter)%N by lia; rewrite quarter_of; lia|].
  split; [reflexivity|]. split; [vm_compute; discriminate|]. split; [vm_compute; discriminate|]. split; [vm_compute; lia|].
  intros t. cbn [n_pairs P_Own.long_world]. unfold P_Avg64.all_pairs. cbn [fst snd]. pose proof (Nat.mod_upper_bound t 4 ltac:(lia)). pose proof (Nat.mod_upper_bound (t / 4) 4 ltac:(lia)). lia.
Qed.
(** and the classes of C140 meet the hypotheses of [c144_words] in release builds *)
Example c144_words_case :
  (N.of_nat (a_support P_Python64.long_arguments) * N.of_nat (a_zone P_Python64.long_arguments) < 2 ^ 64)%N /\ (N.of_nat (length P_Own.long_data) < 2 ^ 64)%N /\
  (exists y, fpy_new_words false small_arguments P_Own.long_world P_Own.long_data 200 = Ret y) /\
  fpy_new_words false (Arguments 2 100 1 (Some (codes "64k")) (Some 1%nat) 10 P_Python64.one_tenth false) P_Own.long_world P_Own.long_data 200 = Panic.
Proof.
  split; [vm_compute; reflexivity|]. split; [vm_compute; reflexivity|]. split; [|vm_compute; reflexivity].
  assert (G : match fpy_new_words false small_arguments P_Own.long_world P_Own.long_data 200 with Ret _ => True | _ => False end) by (vm_compute; exact I).
  destruct (fpy_new_words _ _ _ _ _) as [y| |]; [exists y; reflexivity|contradiction..].
Qed.
Example c144_function_case :
  (N.of_nat 3 * N.of_nat (3 / 2) < 2 ^ 64)%N /\ (N.of_nat (length P_Brute64.data_br) < 2 ^ 64)%N /\
  (exists ms, fmotiflet_brute_force_words false P_Whole.br_world P_Brute64.data_br 3 3 None 60 = Ret ms /\ ms <> []) /\
  fmotiflet_brute_force_words false P_Whole.br_world P_Brute64.data_br 3 3 (Some 2%nat) 60 = Panic.
Proof.
  split; [vm_compute; reflexivity|]. split; [vm_compute; reflexivity|]. split; [|vm_compute; reflexivity]. eexists. split; [vm_compute; reflexivity|discriminate].
Qed.
