(** C41: in exact arithmetic the failure probability fades; C110: the program ends. *)
From Coq Require Import Reals Lra.
From Verif Require Import Base F64 HashValue Collision CollisionProofs Iterator IteratorSpec IteratorProofs IteratorLoop IteratorCalls IteratorSteps
  TopK Text OverlapsSpec Brute BruteSpec GuaranteeSpec Main MainSpec MainProofs EndSpec P_Iterator P_Iterator2 P_Brute P_Python P_Main P_End.

(** * C41: the failure probability fades *)
(** The hypothesis [fades] of C41, of the formula of the program in exact arithmetic: a
    distance, a prefix and the repetitions at the previous prefix being given, enough
    repetitions bring the failure probability below any bound. *)
Theorem c41_failure_fades :
  forall (width d : R) (prefix : nat) (prev prev_reps : option nat) (delta : R),
    (0 < width)%R -> (0 <= d)%R -> (0 < delta)%R ->
    exists reps0, forall reps, reps0 <= reps -> (failure_probability width d reps prefix prev prev_reps < delta)%R.
Proof.
  intros width d prefix prev prev_reps delta Hw Hd Hdl.
  assert (P : (0 < collision_probability_at width d <= 1)%R).
  { destruct (Req_EM_T d 0) as [->|N]; [|pose proof (collision_bounds width d Hw ltac:(lra)); lra].
    unfold collision_probability_at. destruct (Req_EM_T 0 0); [lra|congruence]. }
  set (c := collision_probability_at width d) in *.
  assert (Q : (0 <= 1 - c ^ prefix < 1)%R) by (pose proof (pow_lt c prefix ltac:(lra)); pose proof (pow_unit c prefix ltac:(lra)); lra).
  destruct (pow_lt_1_zero (1 - c ^ prefix) ltac:(rewrite Rabs_pos_eq; lra) delta Hdl) as (N & HN).
  exists N. intros reps L. specialize (HN reps L). unfold failure_probability. fold c.
  assert (H0 : (0 <= (1 - c ^ prefix) ^ reps)%R) by (apply pow_le; lra). rewrite Rabs_pos_eq in HN by exact H0.
  assert (H1 : (0 <= match prev, prev_reps with Some q, Some n => (1 - c ^ q) ^ (n - reps) | _, _ => 1 end <= 1)%R).
  { destruct prev as [q|]; [destruct prev_reps as [n|]|]; [apply pow_unit, miss_unit; lra|lra|lra]. }
  eapply Rle_lt_trans; [|exact HN]. rewrite <- (Rmult_1_r ((1 - c ^ prefix) ^ reps)) at 2. apply Rmult_le_compat_l; [exact H0|apply H1].
Qed.
Print Assumptions c41_failure_fades.
Example c41_fades_case : (0 < 1)%R /\ (0 <= 2)%R /\ (0 < / 100)%R. Proof. lra. Qed.

(** * C110: the program ends and writes its output *)
Lemma collect_ends p : forall n m s s' l acc, calls p (repeat (fun _ => true) n) s m = Ret (s', l) -> In End l ->
  exists f0 r, forall fuel fuel0, f0 <= fuel -> m <= fuel0 ->
  loop fuel (fun st : iter * list motiflet =>
       let '(s, acc) := st in
       let! '(s, answer) := next p s fuel0 in
       match answer with
       | Item m => Ret (inl (s, acc ++ [m]))
       | End => Ret (inr acc)
       | Interrupted => Panic
       end) (s, acc) = Ret r.
Proof.
  induction n as [|n IH]; intros m s s' l acc E Hl; cbn [repeat calls] in E; [apply Ret_inj in E; injection E as _ <-; destruct Hl|].
  destruct (next_interruptible p (fun _ => true) s m) as [(s1 & x)| |] eqn:E1; cbn [bind] in E; try discriminate.
  destruct (calls p (repeat (fun _ => true) n) s1 m) as [(s2 & l2)| |] eqn:E2; cbn [bind] in E; try discriminate.
  apply Ret_inj in E. injection E as _ <-.
  assert (N : forall fuel0, m <= fuel0 -> next p s fuel0 = Ret (s1, x)).
  { intros fuel0 L. unfold next. rewrite <- E1. apply (next_mono p (fun _ => true) s m fuel0 L); congruence. }
  destruct x as [|c|].
  - exfalso. change (fun _ : nat => true) with yes in E1. destruct (next_call p yes s m s1 Interrupted E1) as (k & s3 & _ & _ & f & B).
    apply loop_body_interrupted in B. destruct B as (_ & B & _). discriminate.
  - destruct Hl as [Hl|Hl]; [discriminate|]. destruct (IH m s1 s2 l2 (acc ++ [c]) E2 Hl) as (f0 & r & H).
    exists (S f0), r. intros fuel fuel0 Lf L0. destruct fuel as [|fuel]; [lia|]. cbn [loop]. rewrite (N fuel0 L0). cbn [bind]. apply H; lia.
  - exists 1, acc. intros fuel fuel0 Lf L0. destruct fuel as [|fuel]; [lia|]. cbn [loop]. rewrite (N fuel0 L0). reflexivity.
Qed.

Lemma ended_run checks show o e memory average a b d s0 : o_exact o = false ->
  match o_max_memory o with Some text => from_str checks text = Ret (Some memory) | None => (memory = e_memory e / 2)%N end ->
  returns (e_average e) average -> returns (e_seed e) (a, b, d) -> iter_new (searched o e memory) a b d = Ret s0 ->
  (exists n s answers, returns (session (searched o e memory) a b d (repeat (fun _ => true) n)) (s, answers ++ [End])) ->
  exists file, returns (run checks show o e) (Some file).
Proof.
  intros Ho Hm (n1 & Av) (n2 & Se) E0 (n & s & l & (m & C)).
  assert (Em : match o_max_memory o with Some text => from_str checks text | None => Ret (Some (e_memory e / 2)%N) end = Ret (Some memory))
    by (destruct (o_max_memory o); [exact Hm|rewrite Hm; reflexivity]).
  specialize (C m ltac:(lia)). unfold session in C. rewrite E0 in C. cbn [bind] in C.
  destruct (collect_ends _ n m s0 s _ [] C) as (f0 & r & H); [apply in_or_app; right; left; reflexivity|].
  eexists. exists (n1 + n2 + f0 + m). intros fuel Lf. unfold run, find_motiflets. rewrite Ho, Em. cbn [bind]. fold (searched o e memory).
  rewrite (Av fuel) by lia. cbn [bind]. rewrite (Se fuel) by lia. cbn [bind]. rewrite E0. cbn [bind]. unfold collect. rewrite H by lia. cbn [bind]. reflexivity.
Qed.

(** By default the program looks for one pair: then it ends, with an output file, as soon
    as the failure probability fades and nothing aborts (see C40). *)
Theorem c110_default_ends_partial :
  forall (checks : bool) (show : f64 -> list N) (o : options) (e : setting) (memory : N) (average : f64) (a b : nat) (d : f64) (s0 : iter),
    ready o e -> o_exact o = false -> o_support o = 2 -> o_topk o = 1 ->
    match o_max_memory o with Some text => from_str checks text = Ret (Some memory) | None => (memory = e_memory e / 2)%N end ->
    returns (e_average e) average -> returns (e_seed e) (a, b, d) ->
    well_behaved (searched o e memory) d -> iter_new (searched o e memory) a b d = Ret s0 -> fades (searched o e memory) d ->
    exists file, returns (run checks show o e) (Some file).
Proof.
  intros checks show o e memory average a b d s0 R Ho Hs Hk Hm Av Se W E0 Fa.
  destruct (ready_index _ _ R Ho memory) as (Sd & _ & _ & So). pose proof Se as (n2 & Se'). specialize (So n2 a b d (Se' n2 ltac:(lia))).
  apply (ended_run checks show o e memory average a b d s0 Ho Hm Av Se E0).
  apply (c41_pair_ends_partial (searched o e memory) a b d s0 Sd So W); auto.
Qed.
Print Assumptions c110_default_ends_partial.

(** A larger support: if besides, for every support up to it, some window meets its nearest ones. *)
Theorem c110_supports_end_partial :
  forall (checks : bool) (show : f64 -> list N) (o : options) (e : setting) (memory : N) (average : f64) (a b : nat) (d : f64) (T : nat -> nat -> f64) (s0 : iter),
    ready o e -> o_exact o = false -> o_topk o = 1 ->
    match o_max_memory o with Some text => from_str checks text = Ret (Some memory) | None => (memory = e_memory e / 2)%N end ->
    returns (e_average e) average -> returns (e_seed e) (a, b, d) ->
    well_behaved (searched o e memory) d -> iter_new (searched o e memory) a b d = Ret s0 -> fades (searched o e memory) d ->
    coherent (searched o e memory) d T -> (forall c i j, p_coin (searched o e memory) c i j = true) ->
    (forall k, 2 < k <= o_support o -> exists i l ext,
       no_ties_by (searched o e memory) T i /\ greedy_neighbourhood (T i) (indexed (searched o e memory)) (e_w e / 2) k i l /\ length l = k /\
       max_pairwise (p_zeucl (searched o e memory)) l ext /\
       forall x, In x (tl l) -> meet_again (searched o e memory) i x /\ is_infinite (T i x) = false) ->
    exists file, returns (run checks show o e) (Some file).
Proof.
  intros checks show o e memory average a b d T s0 R Ho Hk Hm Av Se W E0 Fa Co Hc Su.
  destruct (ready_index _ _ R Ho memory) as (Sd & _ & _ & So). pose proof Se as (n2 & Se'). specialize (So n2 a b d (Se' n2 ltac:(lia))).
  apply (ended_run checks show o e memory average a b d s0 Ho Hm Av Se E0).
  apply (c41_supports_end_partial (searched o e memory) a b d T s0 Sd So W); auto.
Qed.
Print Assumptions c110_supports_end_partial.

Lemma pairs_default_ready : ready (Options false None 2 1) pairs_setting. Proof. apply c109_case. Qed.
Example c110_default_case : let o := Options false None 2 1 in ready o pairs_setting /\ o_exact o = false /\ o_support o = 2 /\ o_topk o = 1 /\
  returns (e_average pairs_setting) (fl 5) /\ returns (e_seed pairs_setting) (8, 12, fl 2) /\
  well_behaved (searched o pairs_setting 2048) (fl 2) /\ (exists s0, iter_new (searched o pairs_setting 2048) 8 12 (fl 2) = Ret s0) /\ fades (searched o pairs_setting 2048) (fl 2).
Proof.
  cbv zeta. split; [exact pairs_default_ready|]. split; [reflexivity|]. split; [reflexivity|]. split; [reflexivity|].
  split; [exists 0; reflexivity|]. split; [exists 0; reflexivity|]. split.
  { split; try reflexivity.
    - intros p0 E. vm_compute in E. injection E as <-. unfold K. lia.
    - split; reflexivity.
    - intros i j. cbn [searched with_arguments e_index pairs_setting two_pairs p_zeucl]. destruct (pairs_distance_cases i j) as [->|[->| ->]]; reflexivity. }
  split; [eexists; vm_compute; reflexivity|].
  intros e q prev m _ _ _. exists 3. intros r L. cbn [searched with_arguments e_index pairs_setting two_pairs p_failure p_delta]. destruct (Nat.ltb_spec r 3); [lia|reflexivity].
Qed.
Definition toy_order (from : nat) : option (list nat) := Some (insertion_sort (fun z => if z =? from then f_zero else toy_distance from z) 13).
Definition toy_setting : setting := {|
  e_w := 5; e_series := Series 13 (fun _ => false) toy_distance toy_distance; e_order := toy_order; e_split := Leaf (seq 0 13);
  e_index := fun _ => toy; e_seed := fun _ => Ret (4, 8, fl 2); e_average := fun _ => Ret (fl 5); e_memory := 4096 |}.
Lemma toy_ready : ready (Options false None 3 1) toy_setting.
Proof.
  split.
  - apply (sound_nonneg _ toy_sound).
  - intros from d L E. do 13 (destruct from as [|from];
    [vm_compute in E; apply Ret_inj in E; subst d; apply sort_outcome_check; vm_compute; reflexivity|]). cbn in L. lia.
  - reflexivity.
  - intros _ memory. split; [destruct toy_sound as [A B C D E F G H]; split; auto|]. split; [reflexivity|]. split; [reflexivity|].
    intros fuel a b d E. apply Ret_inj in E. injection E as <- <- <-. exact toy_seed.
Qed.
Example c110_supports_case : let o := Options false None 3 1 in ready o toy_setting /\ returns (e_seed toy_setting) (4, 8, fl 2) /\ searched o toy_setting 2048 = toy /\
  exists file positions, run true plain_show o toy_setting 40 = Ret (Some file) /\ rows file = Some (reading plain_show positions) /\ length positions = 2.
Proof.
  cbv zeta. split; [exact toy_ready|]. split; [exists 0; reflexivity|]. split; [reflexivity|]. eexists. exists [(fl 3, [0; 4; 8]); (fl 1, [0; 4])].
  split; [vm_compute; reflexivity|]. split; [vm_compute; reflexivity|reflexivity].
Qed.
