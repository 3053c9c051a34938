(** C17, C40, C41, C72: how the motiflet iterator runs. *)
From Coq Require Import Floats.SpecFloat Permutation.
From Verif Require Import Base F64 HashValue HashSpec Overlaps OverlapsSpec OverlapsProofs Enumerator EnumSpec Moves MovesProofs Profile Brute BruteSpec
  TopK TopKSpec TopKProofs Graph GraphSpec GraphProofs Iterator IteratorSpec IteratorProofs IteratorLoop IteratorCalls IteratorSteps IteratorEnd P_Iterator.

Lemma toy_collide q : collide toy_hashes q 0 1.
Proof. split; [lia|]. exists 0x0100000000000000%N, 0x0100000000000000%N. repeat split. Qed.
Lemma toy_not_last q : 1 <= q -> ~ in_last_bucket toy_hashes q 0.
Proof.
  intros L (hx & hl & H1 & H2 & A). cbn in H1, H2. injection H1 as <-. injection H2 as <-. specialize (A 0 ltac:(lia)). vm_compute in A. discriminate.
Qed.
Lemma toy_not_trivial : ~ trivial [0; 4; 8; 12]%N 2 0 1.
Proof. intros (x & y & H1 & H2 & C). cbn in H1, H2. injection H1 as <-. injection H2 as <-. unfold too_close in C. cbn in C. lia. Qed.

(** * C72: no pair is enumerated twice in a run *)
(** [due] is what a turn enumerates (see C67).  Whatever a turn made earlier in the run
    enumerated in a repetition is not due in that repetition in any later state. *)
Theorem c72_no_pair_twice :
  forall (p : problem) (a b : nat) (d : f64) (newer older : list iter) (now s2 s1 : iter) (l : list iter) (fuel r x y : nat) (t1 t : list N * list N),
    sound p -> seed_ok p a b d ->
    trace p a b d (now :: l) -> now :: l = newer ++ s2 :: s1 :: older ->
    loop_body p s1 true fuel = Ret (inl s2) ->
    c_rep (it_conf s1) = r -> nth_error (it_tables s1) r = Some t1 -> due p s1 t1 x y ->
    c_rep (it_conf now) = r -> nth_error (it_tables now) r = Some t -> due p now t x y ->
    False.
Proof.
  intros p a b d newer older now s2 s1 l fuel r x y t1 t Sd So T Eq E R1 H1 D1 R H D.
  destruct (trace_log p a b d _ Sd So T) as (s0 & l0 & past & log & Eh & Hh & _ & _ & _ & Hp & Ht). injection Eh as <- <-.
  assert (In1 : In s1 (now :: l)) by (rewrite Eq; apply in_or_app; right; right; left; reflexivity).
  destruct (Ht s1 In1) as (more & Em). rewrite Em, nth_error_app1, H1 in H by (apply nth_error_Some; congruence). injection H as <-.
  destruct D1 as (Cl & _). destruct D as (_ & _ & Ns & _). apply Ns.
  apply (logged_seen past (it_conf now) t1 x y (it_conf s1) Hh); [|congruence|exact Cl].
  apply (Hp newer s2 s1 older Eq). eauto.
Qed.
Print Assumptions c72_no_pair_twice.

Theorem c72_candidates_bounded :
  forall (p : problem) (a b : nat) (d : f64) (s : iter),
    sound p -> seed_ok p a b d -> reachable p a b d s ->
    it_candidates s <= list_sum (map (fun t => length (fst t) * (length (fst t) - 1) / 2) (it_tables s)).
Proof.
  intros p a b d s Sd So R. destruct (reachable_trace p a b d s R) as (h & T).
  destruct (trace_log p a b d _ Sd So T) as (s0 & l0 & past & log & Eh & _ & ND & Hl & Le & _). injection Eh as <- <-.
  etransitivity; [exact Le|]. rewrite <- (all_pairs_length (it_tables s) 0). apply NoDup_incl_length; [exact ND|].
  intros [[r x] y] Hin. destruct (Hl _ Hin) as (c & t & _ & _ & Ht & Cl). 
  replace r with (0 + r) by reflexivity. apply (all_pairs_in (it_tables s) 0 r t x y Ht).
  destruct Cl as (L & hx & hy & _ & Hy & _). split; [exact L|]. apply nth_error_Some. congruence.
Qed.
Print Assumptions c72_candidates_bounded.

(** The run of [toy] goes down from prefix 6 and visits repetition 0 again; in its first
    turn the pair of positions 0 and 1 is due. *)
Example c72_case :
  exists s0 s1 fuel t s n, trace toy 4 8 (fl 2) [s1; s0] /\ loop_body toy s0 true fuel = Ret (inl s1) /\
    nth_error (it_tables s0) (c_rep (it_conf s0)) = Some t /\ due toy s0 t 0 1 /\
    reachable toy 4 8 (fl 2) s /\ it_candidates s = S n.
Proof.
  assert (E : exists s0 s1, iter_new toy 4 8 (fl 2) = Ret s0 /\ loop_body toy s0 true 30 = Ret (inl s1) /\
            it_conf s0 = config_start 6 /\ nth_error (it_tables s0) 0 = Some (toy_hashes, [0; 4; 8; 12]%N)).
  { eexists. eexists. split; [vm_compute; reflexivity|]. split; [vm_compute; reflexivity|]. split; reflexivity. }
  destruct E as (s0 & s1 & E0 & E1 & Ec & Et). exists s0, s1, 30, (toy_hashes, [0; 4; 8; 12]%N).
  destruct toy_run as (s & Er).
  assert (En : exists n, it_candidates s = S n).
  { clear - Er. vm_compute in Er. apply Ret_inj in Er. injection Er as <-. eexists. reflexivity. }
  destruct En as (n & En). exists s, n.
  split; [apply trace_step; [apply trace_new; exact E0|]; exists true, 30; left; exact E1|]. split; [exact E1|]. rewrite Ec. split; [exact Et|].
  split; [|split; [exists toy_calls, 30; eexists; exact Er|exact En]].
  unfold due. rewrite Ec. cbn [fst snd config_start c_prefix c_prev c_check c_rep c_prev_reps].
  split; [split; [lia|]; exists 0x0100000000000000%N, 0x0100000000000000%N; repeat split|].
  split; [|split].
  - apply toy_not_last. lia.
  - intros (H & _). vm_compute in H. discriminate.
  - exact toy_not_trivial.
Qed.

(** * C40: the control loop does not abort *)
(** It does when the search starts at the longest prefix: the ninth repetition is asked
    for with nine hash functions, and there are eight (index.rs 231-235). *)
Definition deep_expected : list f64 := [f_inf; fl 2000; fl 5; fl 4; fl 3; fl 3; fl 2; fl 1; fl 1].
Definition deep : problem := {|
  p_n := 13; p_ez := 2; p_max_k := 3; p_top_k := 1;
  p_zeucl := toy_distance; p_zeucl_threshold := below toy_distance;
  p_table := fun _ _ => (toy_hashes, [0; 4; 8; 12]%N);
  p_failure := fun _ _ _ _ _ => fl 1;
  p_delta := half; p_coin := fun _ _ _ => true;
  p_expected := deep_expected; p_setup_cost := fl 1; p_collision_cost := fl 1; p_max_repetitions := 100;
  p_buffer := 4; p_threshold := 7; p_stop := false; p_nan_first := true |}.
Lemma deep_sound : sound deep.
Proof. destruct toy_sound as [A B C D E F G H]. split; auto. Qed.
Theorem c40_no_abort_refuted :
  exists (p : problem) (a b : nat) (d : f64) (s0 : iter),
    sound p /\ seed_ok p a b d /\ p_zeucl p a b = d /\ iter_new p a b d = Ret s0 /\
    panics (session p a b d [always]).
Proof.
  exists deep, 4, 8, (fl 2). eexists. split; [exact deep_sound|]. split; [exact toy_seed|]. split; [reflexivity|].
  split; [vm_compute; reflexivity|]. apply (fmono_panics _ 20); [|vm_compute; reflexivity].
  intros n m L. unfold session. destruct (iter_new deep 4 8 (fl 2)) as [s| |]; cbn [bind]; [apply calls_mono; exact L|reflexivity|reflexivity].
Qed.
Print Assumptions c40_no_abort_refuted.

(** Missing: searches that start at the longest prefix, and cost estimates that are not
    numbers or have the wrong sign. *)
Theorem c40_no_abort_partial :
  forall (p : problem) (a b : nat) (d : f64) (s0 : iter) (cbs : list (nat -> bool)) (fuel : nat),
    sound p -> seed_ok p a b d -> well_behaved p d ->
    iter_new p a b d = Ret s0 ->
    session p a b d cbs fuel <> Panic.
Proof.
  intros p a b d s0 cbs fuel Sd So W E. unfold session. rewrite E. cbn [bind]. apply (live_calls p a b d); auto. apply live_new; auto.
Qed.
Print Assumptions c40_no_abort_partial.

(** Whatever the estimates: the prefix is between 1 and 8, the current repetition exists,
    and the prefix is not longer than the hashes computed for it. *)
Theorem c40_in_bounds :
  forall (p : problem) (a b : nat) (d : f64) (s : iter),
    sound p -> seed_ok p a b d -> reachable p a b d s ->
    1 <= c_prefix (it_conf s) <= 8 /\
    exists k, c_prefix (it_conf s) <= k <= 8 /\
      nth_error (it_tables s) (c_rep (it_conf s)) = Some (p_table p (c_rep (it_conf s)) k).
Proof.
  intros p a b d s Sd So (cbs & fuel & l & E). destruct (session_inv p a b d cbs fuel s l Sd So E) as (_ & _ & _ & _ & I & _).
  destruct (inv_conf _ _ _ I) as (L1 & L2 & _). change 8 with K. split; [lia|].
  destruct (nth_error (it_tables s) (c_rep (it_conf s))) as [t|] eqn:Et; [|apply nth_error_None in Et; lia].
  destruct (proj2 (inv_tables _ _ _ I) _ _ Et) as (k & Lk & ->). exists k. split; [lia|reflexivity].
Qed.
Print Assumptions c40_in_bounds.
Lemma toy_behaved : well_behaved toy (fl 2).
Proof.
  split.
  - intros p0 E. vm_compute in E. injection E as <-. unfold K. lia.
  - reflexivity.
  - reflexivity.
  - reflexivity.
  - split; reflexivity.
  - reflexivity.
  - intros i j. cbn [p_zeucl toy]. destruct (toy_distance_cases i j) as [->|[->|[->| ->]]]; reflexivity.
  - reflexivity.
Qed.
Example c40_case : sound toy /\ seed_ok toy 4 8 (fl 2) /\ well_behaved toy (fl 2) /\
  (exists s, iter_new toy 4 8 (fl 2) = Ret s) /\ exists s, reachable toy 4 8 (fl 2) s.
Proof.
  split; [exact toy_sound|]. split; [exact toy_seed|]. split; [exact toy_behaved|]. split; [eexists; vm_compute; reflexivity|].
  destruct toy_run as (s & E). exists s. exists toy_calls, 30. eexists. exact E.
Qed.

(** * C17: the repetition budget *)
(** The budget is only used to estimate costs: nothing stops the search from adding
    repetitions beyond it. *)
Definition tight : problem := {|
  p_n := 13; p_ez := 2; p_max_k := 3; p_top_k := 1;
  p_zeucl := toy_distance; p_zeucl_threshold := below toy_distance;
  p_table := fun _ _ => (toy_hashes, [0; 4; 8; 12]%N);
  p_failure := fun _ _ _ _ _ => fl 1;
  p_delta := half; p_coin := fun _ _ _ => true;
  p_expected := toy_expected; p_setup_cost := fl 1; p_collision_cost := fl 1; p_max_repetitions := 9;
  p_buffer := 4; p_threshold := 7; p_stop := false; p_nan_first := true |}.
Lemma tight_sound : sound tight.
Proof. destruct toy_sound as [A B C D E F G H]. split; auto. Qed.
Theorem c17_budget_refuted :
  exists (p : problem) (a b : nat) (d : f64) (s : iter),
    sound p /\ seed_ok p a b d /\ well_behaved p d /\ reachable p a b d s /\
    8 < p_max_repetitions p /\ p_max_repetitions p < length (it_tables s).
Proof.
  exists tight, 4, 8, (fl 2).
  assert (E : exists s l, session tight 4 8 (fl 2) [fun i => i <? 12] 30 = Ret (s, l) /\ length (it_tables s) = 13).
  { eexists. eexists. split; vm_compute; reflexivity. }
  destruct E as (s & l & E & L). exists s. split; [exact tight_sound|]. split; [exact toy_seed|].
  split; [destruct toy_behaved; split; auto; reflexivity|]. split; [exists [fun i => i <? 12], 30, l; exact E|]. rewrite L. cbn. lia.
Qed.
Print Assumptions c17_budget_refuted.

(** What does hold: eight repetitions are made at creation, and then only those that the
    search visits.  Missing: the bound. *)
Theorem c17_repetitions_partial :
  forall (p : problem) (a b : nat) (d : f64) (s : iter) (l : list iter),
    sound p -> seed_ok p a b d -> trace p a b d (s :: l) ->
    length (it_tables s) <= list_max (8 :: map (fun s => c_rep (it_conf s) + 1) (s :: l)).
Proof.
  intros p a b d s l Sd So T. destruct (trace_tables p a b d _ Sd So T) as (s0 & l0 & Eq & L). injection Eq as <- <-. exact L.
Qed.
Print Assumptions c17_repetitions_partial.
Example c17_case : exists s l, sound tight /\ seed_ok tight 4 8 (fl 2) /\ trace tight 4 8 (fl 2) (s :: l) /\ length (it_tables s) = 13.
Proof.
  assert (E : exists s l, session tight 4 8 (fl 2) [fun i => i <? 12] 30 = Ret (s, l) /\ length (it_tables s) = 13).
  { eexists. eexists. split; vm_compute; reflexivity. }
  destruct E as (s & l & E & L). destruct (reachable_trace tight 4 8 (fl 2) s) as (h & T); [exists [fun i => i <? 12], 30, l; exact E|].
  exists s, h. split; [exact tight_sound|]. split; [exact toy_seed|]. split; [exact T|exact L].
Qed.

(** * C41: termination *)
(** With the early stop, when every turn evaluates something, every sequence of calls
    terminates, and a run that is not interrupted ends.
    Missing: runs without the early stop, and repetitions where nothing collides. *)
Theorem c41_terminates_partial :
  forall (p : problem) (a b : nat) (d : f64) (s0 : iter),
    sound p -> seed_ok p a b d -> well_behaved p d ->
    p_stop p = true -> fruitful p -> (forall c i j, p_coin p c i j = true) ->
    iter_new p a b d = Ret s0 ->
    (forall cbs, exists s answers, returns (session p a b d cbs) (s, answers)) /\
    exists n s answers, returns (session p a b d (repeat (fun _ => true) n)) (s, answers ++ [End]).
Proof.
  intros p a b d s0 Sd So W Hs Fr Co E. pose proof (live_new p a b d s0 Sd So W E) as L. unfold session. rewrite E. cbn [bind].
  split; [intros cbs; apply (live_returns p a b d); auto|].
  destruct (exhausts p a b d Sd So W Fr Co Hs s0 L) as (n & s' & l & R). exists (S n), s', l. exact R.
Qed.
Print Assumptions c41_terminates_partial.
Definition toy_stop : problem := {|
  p_n := 13; p_ez := 2; p_max_k := 3; p_top_k := 1;
  p_zeucl := toy_distance; p_zeucl_threshold := below toy_distance;
  p_table := fun _ _ => (toy_hashes, [0; 4; 8; 12]%N);
  p_failure := fun _ reps _ _ _ => fl 1;
  p_delta := half; p_coin := fun _ _ _ => true;
  p_expected := toy_expected; p_setup_cost := fl 1; p_collision_cost := fl 1; p_max_repetitions := 100;
  p_buffer := 4; p_threshold := 7; p_stop := true; p_nan_first := true |}.
Example c41_case : sound toy_stop /\ seed_ok toy_stop 4 8 (fl 2) /\ well_behaved toy_stop (fl 2) /\ p_stop toy_stop = true /\ fruitful toy_stop /\
  (forall c i j, p_coin toy_stop c i j = true) /\ (exists s, iter_new toy_stop 4 8 (fl 2) = Ret s) /\
  exists s, session toy_stop 4 8 (fl 2) [always; always; always] 30 = Ret (s, [Item (Motiflet [0; 4; 8] (fl 3)); Item (Motiflet [0; 4] (fl 1)); End]).
Proof.
  split; [destruct toy_sound as [A B C D E F G H]; split; auto|]. split; [exact toy_seed|].
  split; [destruct toy_behaved; split; auto; reflexivity|]. split; [reflexivity|].
  split; [|split; [reflexivity|split; [eexists; vm_compute; reflexivity|eexists; vm_compute; reflexivity]]].
  intros r k q L1 L2. exists 0, 1. cbn [p_table toy_stop fst snd p_ez]. split; [apply toy_collide|]. split; [apply toy_not_last; lia|exact toy_not_trivial].
Qed.

(** Without the early stop the search cannot end if some support asked for is more than
    the series has room for. *)
Lemma calls_end p a b d cbs : sound p -> seed_ok p a b d ->
  (forall s h, trace p a b d (s :: h) -> forallb tk_is_complete (it_top s) = false) ->
  forall s h fuel s' l, trace p a b d (s :: h) -> calls p cbs s fuel = Ret (s', l) -> ~ In End l.
Proof.
  intros Sd So Nc. induction cbs as [|cb cbs IH]; intros s h fuel s' l T E.
  - cbn [calls] in E. apply Ret_inj in E. injection E as <- <-. intros [].
  - destruct (calls_split _ _ _ _ _ _ _ E) as (s1 & x & l' & (n & s2 & Tn & _ & f & B) & E' & ->).
    destruct (turns_trace p a b d _ _ _ Tn _ T) as (h1 & T1).
    assert (T2 : trace p a b d (s1 :: s2 :: h1)) by (constructor; [exact T1|]; eexists; eexists; right; eexists; exact B).
    intros [->|H]; [|exact (IH s1 _ fuel s' l' T2 E' H)].
    destruct (trace_inv p a b d _ Sd So T1) as (s0 & l0 & Eq & I). injection Eq as <- <-.
    pose proof (loop_body_cases p _ s2 _ f _ Sd I B) as (_ & _ & C & _). rewrite (Nc _ _ T2) in C. discriminate.
Qed.
Theorem c41_never_ends :
  forall (p : problem) (a b : nat) (d : f64) (cbs : list (nat -> bool)) (fuel : nat) (s : iter) (answers : list answer) (k : nat),
    sound p -> seed_ok p a b d -> p_stop p = false -> 0 < p_top_k p -> 2 < k <= p_max_k p ->
    (* no [k] windows of the index are pairwise apart *)
    (forall l, length l = k -> (forall i, In i l -> indexed p i) -> ~ pairwise_apart (p_ez p) l) ->
    session p a b d cbs fuel = Ret (s, answers) -> ~ In End answers.
Proof.
  intros p a b d cbs fuel s answers k Sd So Hs Hk Lk Ns E. unfold session in E. destruct (iter_new p a b d) as [s0| |] eqn:E0; cbn [bind] in E; try discriminate.
  apply (calls_end p a b d cbs Sd So) with (s := s0) (h := []) (fuel := fuel) (s' := s); [|constructor; exact E0|exact E].
  intros s1 h T. destruct (never_complete p a b d _ k Sd So Hs Hk Lk Ns T) as (s2 & l2 & Eq & C). injection Eq as <- <-. exact C.
Qed.
Print Assumptions c41_never_ends.

Lemma calls_yes p n : forall s fuel s' l, calls p (repeat yes n) s fuel = Ret (s', l) -> ~ In Interrupted l /\ length l = n.
Proof.
  induction n as [|n IH]; intros s fuel s' l E; cbn [repeat] in E.
  - cbn [calls] in E. apply Ret_inj in E. injection E as <- <-. auto.
  - destruct (calls_split _ _ _ _ _ _ _ E) as (s1 & x & l' & (m & s2 & _ & _ & f & B) & E' & ->).
    destruct (IH _ _ _ _ E') as (N & L). split; [|cbn; lia]. intros [->|H]; [|exact (N H)].
    apply loop_body_interrupted in B. destruct B as (_ & B & _). discriminate.
Qed.
Lemma all_items l : ~ In Interrupted l -> ~ In End l -> length (items l) = length l.
Proof.
  induction l as [|x l IH]; intros N1 N2; [reflexivity|]. unfold items in *. cbn [flat_map]. rewrite app_length, IH by firstorder.
  destruct x; [destruct N1; left; reflexivity|reflexivity|destruct N2; left; reflexivity].
Qed.
Lemma one_per_support M l : (forall k, length (of_support k l) <= 1) -> (forall m, In m l -> 2 <= length (ml_indices m) <= M) -> length l <= M - 1.
Proof.
  intros H1 H2. rewrite <- (map_length (fun m => length (ml_indices m)) l), <- (seq_length (M - 1) 2). apply NoDup_incl_length.
  - clear H2. induction l as [|m l IH]; cbn [map]; constructor.
    + intros Hin. apply in_map_iff in Hin. destruct Hin as (m' & Em & Hm). specialize (H1 (length (ml_indices m))).
      unfold of_support in H1. cbn [filter] in H1. rewrite Nat.eqb_refl in H1. cbn [length] in H1.
      assert (In m' (filter (fun m0 => length (ml_indices m0) =? length (ml_indices m)) l)) as Hf by (apply filter_In; rewrite Em, Nat.eqb_refl; auto).
      destruct (filter _ l); [destruct Hf|cbn in H1; lia].
    + apply IH. intros k. specialize (H1 k). unfold of_support in *. cbn [filter] in H1. destruct (_ =? k); cbn in H1; lia.
  - intros k Hk. apply in_map_iff in Hk. destruct Hk as (m & <- & Hm). apply H2 in Hm. apply in_seq. lia.
Qed.

(** With [top_k = 1] the call after the last possible motiflet, or an earlier one, never
    comes back. *)
Theorem c41_diverges :
  forall (p : problem) (a b : nat) (d : f64) (s0 : iter) (k : nat),
    sound p -> seed_ok p a b d -> well_behaved p d -> p_stop p = false -> p_top_k p = 1 -> 2 < k <= p_max_k p ->
    (forall l, length l = k -> (forall i, In i l -> indexed p i) -> ~ pairwise_apart (p_ez p) l) ->
    iter_new p a b d = Ret s0 ->
    diverges (session p a b d (repeat (fun _ => true) (p_max_k p))).
Proof.
  intros p a b d s0 k Sd So W Hs Hk Lk Ns E0 fuel. change (fun _ : nat => true) with yes.
  pose proof (c40_no_abort_partial p a b d s0 (repeat yes (p_max_k p)) fuel Sd So W E0) as NP.
  destruct (session p a b d (repeat yes (p_max_k p)) fuel) as [[s l]| |] eqn:E; [|congruence|reflexivity]. exfalso.
  pose proof (c41_never_ends p a b d _ fuel s l k Sd So Hs ltac:(lia) Lk Ns E) as N2.
  destruct (session_account p a b d (repeat yes (p_max_k p)) fuel s l Sd So) as (I & A); [split; [cbn; lia|left; lia]|exact E|].
  destruct (session_inv p a b d _ fuel s l Sd So E) as (s1 & E1 & _ & Ec & _ & M).
  destruct (calls_yes _ _ _ _ _ _ Ec) as (N1 & Ll). pose proof (all_items l N1 N2) as Li.
  assert (length (items l) <= p_max_k p - 1); [|lia].
  apply one_per_support.
  - intros q. specialize (A q). apply Permutation_length in A. rewrite of_support_app, app_length in A.
    assert (length (emitted_at (it_top s) q) <= 1); [|lia].
    unfold emitted_at. destruct (nth_error (it_top s) q) as [t|] eqn:Et; [|cbn; lia]. destruct (inv_queues _ _ _ I) as [_ Q]. destruct (Q _ _ Et). lia.
  - intros m Hm. destruct (M m Hm) as [(V & _)| ->]; [exact V|cbn; lia].
Qed.
Print Assumptions c41_diverges.

(** Four windows, exclusion zone 2, supports up to 3: there is no room for three. *)
Definition narrow : problem := {|
  p_n := 4; p_ez := 2; p_max_k := 3; p_top_k := 1;
  p_zeucl := fun _ _ => fl 1; p_zeucl_threshold := below (fun _ _ => fl 1);
  p_table := fun _ _ => (toy_hashes, [0; 3; 1; 2]%N);
  p_failure := fun _ reps _ _ _ => if reps <? 3 then fl 1 else f_zero;
  p_delta := half; p_coin := fun _ _ _ => true;
  p_expected := toy_expected; p_setup_cost := fl 1; p_collision_cost := fl 1; p_max_repetitions := 100;
  p_buffer := 4; p_threshold := 7; p_stop := false; p_nan_first := true |}.
Theorem c41_terminates_refuted :
  exists (p : problem) (a b : nat) (d : f64),
    sound p /\ seed_ok p a b d /\ well_behaved p d /\ p_zeucl p a b = d /\
    (exists s, iter_new p a b d = Ret s) /\
    diverges (session p a b d (repeat (fun _ => true) 3)).
Proof.
  exists narrow, 0, 3, (fl 1).
  assert (Sd : sound narrow).
  { split.
    - cbn. lia.
    - cbn. lia.
    - intros r k _. split; [|discriminate]. destruct toy_table as (_ & B & C). split; [reflexivity|]. split; [exact B|exact C].
    - intros r k x i _ H. left. cbn [p_table narrow snd] in H. apply nth_error_In in H. cbn in H. intuition (subst; reflexivity).
    - intros a b t d. apply below_sign. reflexivity.
    - intros i j _. reflexivity.
    - reflexivity.
    - reflexivity. }
  assert (So : seed_ok narrow 0 3 (fl 1)) by (repeat split; cbn; try lia; unfold too_close; lia).
  assert (W : well_behaved narrow (fl 1)).
  { split; try reflexivity; [|split; reflexivity]. intros p0 E. vm_compute in E. injection E as <-. unfold K. lia. }
  assert (E : exists s, iter_new narrow 0 3 (fl 1) = Ret s) by (eexists; vm_compute; reflexivity).
  split; [exact Sd|]. split; [exact So|]. split; [exact W|]. split; [reflexivity|]. split; [exact E|]. destruct E as (s & E).
  refine (c41_diverges narrow 0 3 (fl 1) s 3 Sd So W eq_refl eq_refl _ _ E); [cbn; lia|].
  intros l L H A. destruct l as [|x [|y [|z [|]]]]; try discriminate L.
  pose proof (proj1 (H x ltac:(cbn; tauto))). pose proof (proj1 (H y ltac:(cbn; tauto))). pose proof (proj1 (H z ltac:(cbn; tauto))). cbn [p_n p_ez narrow] in *.
  assert (P : forall i j u v, nth_error [x; y; z] i = Some u -> nth_error [x; y; z] j = Some v -> i < j -> ~ too_close 2 u v) by (intros i j u v Hi Hj Lt; exact (A i j u v Lt Hi Hj)).
  pose proof (P 0 1 x y eq_refl eq_refl ltac:(lia)). pose proof (P 0 2 x z eq_refl eq_refl ltac:(lia)). pose proof (P 1 2 y z eq_refl eq_refl ltac:(lia)).
  unfold too_close in *. lia.
Qed.
Print Assumptions c41_terminates_refuted.
