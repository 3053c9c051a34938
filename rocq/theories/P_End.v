(** C41: searches that end although nothing limits the collisions they go through. *)
From Coq Require Import Floats.SpecFloat.
From Verif Require Import Base F64 HashValue HashSpec Overlaps OverlapsSpec OverlapsProofs Enumerator EnumSpec Moves MovesProofs
  Profile Brute BruteSpec TopK TopKSpec TopKProofs Graph GraphSpec GraphProofs
  Iterator IteratorSpec IteratorProofs IteratorLoop IteratorCalls IteratorSteps P_Iterator P_Iterator2
  GuaranteeSpec GuaranteeProofs GuaranteeTrace P_Guarantee EndSpec EndProofs.

Section Meet.
  Variables (p : problem) (a b : nat) (d : f64).
  Hypotheses (Sd : sound p) (So : seed_ok p a b d).

  Lemma met_searched q i x : meet_again p i x -> 1 <= q <= K -> exists R, forall s h, trace p a b d (s :: h) -> c_prefix (it_conf s) = q -> R <= c_rep (it_conf s) ->
    searched p s (c_rep (it_conf s) + 1) i x.
  Proof.
    intros M Hq. destruct (M q Hq) as (r & Mr). exists r. intros s h Tr Eq LR.
    destruct (trace_inv p a b d _ Sd So Tr) as (? & ? & E & I). injection E as <- <-.
    left. exists r. split; [lia|]. rewrite Eq. destruct (inv_tables _ _ _ I) as (_ & It). destruct (inv_conf _ _ _ I) as (Lr & _).
    destruct (nth_error (it_tables s) r) as [t|] eqn:Et; [|apply nth_error_None in Et; lia].
    destruct (It r t Et) as (k & Lk & ->). rewrite Eq in Lk. destruct (Mr k Lk) as (A & t' & x' & y' & Ht & B). split; [exact A|].
    cbn in Ht. injection Ht as <-. exists (p_table p r k), x', y'. split; [exact Et|exact B].
  Qed.
  Lemma met_all q i l : (forall x, In x l -> meet_again p i x) -> 1 <= q <= K -> exists R, forall s h, trace p a b d (s :: h) -> c_prefix (it_conf s) = q ->
    R <= c_rep (it_conf s) -> forall x, In x l -> searched p s (c_rep (it_conf s) + 1) i x.
  Proof.
    intros M Hq. induction l as [|y l IH]; [exists 0; intros ? ? ? ? ? ? []|].
    destruct (IH (fun x Hx => M x (or_intror Hx))) as (R & HR). destruct (met_searched q i y (M y (or_introl eq_refl)) Hq) as (R1 & HR1).
    exists (Nat.max R R1). intros s h Tr Eq LR x [<-|Hx]; [apply (HR1 s h); auto; lia|apply (HR s h); auto; lia].
  Qed.

  Variable T : nat -> nat -> f64.
  Hypotheses (Ex : coherent p d T) (Hd : heads p) (H1 : p_top_k p = 1).
  (** once the windows of a neighbourhood have met, there is a candidate of its support *)
  Lemma met_candidate s s' i k l e : turn_of p a b d s s' -> 2 <= k <= p_max_k p -> no_ties_by p T i ->
    greedy_neighbourhood (T i) (indexed p) (p_ez p) k i l -> length l = k ->
    (forall q x, nth_error l (S q) = Some x -> searched p s (c_rep (it_conf s) + 1) i x /\ is_infinite (T i x) = false) ->
    max_pairwise (p_zeucl p) l e -> exists x, best_below (it_top s') k x.
  Proof.
    intros (h & fuel & Tr & B) Lk Nt G Ll Se Me. inversion Tr as [|s0 s1 l0 T' St]; subst s0 s1 l0.
    destruct (trace_inv p a b d _ Sd So T') as (? & ? & Eq & I). injection Eq as <- <-.
    destruct (trace_found p a b d Sd So T Ex Hd ltac:(lia) _ T') as (? & ? & Eq & past & ops & out & F1 & F2 & F3 & F4 & F5). injection Eq as <- <-.
    pose proof (trace_max_k p a b d Sd So _ T') as Hk.
    destruct (loop_body_inl _ _ _ _ _ B) as (_ & (R0 & _ & _) & E).
    destruct (turn_covered p T (Motiflet [a; b] d) s s' fuel past ops out Sd Ex Hd ltac:(lia) Hk I E F1 F2 F3 F4 F5)
      as (ops' & out' & top & _ & _ & S' & Q' & C' & Sc & _).
    assert (Kn : forall u v, searched p s (c_rep (it_conf s) + 1) u v -> known p T top ops' u v).
    { apply (covered_searched p T s past (past ++ [it_conf s]) _ _ _ _ _ F1) with (3 := C'); auto.
      - intros c Hc. apply in_or_app. auto.
      - intros r Lr. destruct (Nat.eq_dec r (c_rep (it_conf s))) as [->|].
        + exists (it_conf s). split; [apply in_or_app; right; left; reflexivity|auto].
        + destruct (proj2 (hi_cur _ _ F1 r) ltac:(lia)) as (c & Hc & E1). exists c. split; [apply in_or_app; auto|exact E1]. }
    assert (Hm : forall nb, In nb out' -> handled p T top nb) by apply C'.
    destruct (known_greedy p T top ops' out' i k l e S' Hm Lk Nt G Ll (fun q x Hx => Kn i x (proj1 (Se q x Hx))) Me) as [Bb|(q & x & Hx & [Bb|F])].
    - exists e. eapply same_best; eauto.
    - exists (T i x). eapply same_best; eauto.
    - exfalso. destruct (Se q x Hx) as [_ Ni]. destruct (T i x) as [[|]|[|]| |[|] ? ?]; cbn in F, Ni; discriminate.
  Qed.
End Meet.

(** * C41: one motiflet for every support *)
(** Nothing limits the collisions.  Every call returns, and a call answers that there are no
    more motiflets, if the failure probability fades and, for every support asked for beyond
    pairs, some window meets its nearest ones.  [T] is as in C83 and C84, which exact distances
    satisfy with the distance itself. *)
Theorem c41_supports_end_partial :
  forall (p : problem) (a b : nat) (d : f64) (T : nat -> nat -> f64) (s0 : iter),
    sound p -> seed_ok p a b d -> well_behaved p d -> p_top_k p = 1 -> fades p d ->
    coherent p d T -> (forall c i j, p_coin p c i j = true) ->
    (forall k, 2 < k <= p_max_k p -> exists i l e,
       no_ties_by p T i /\ greedy_neighbourhood (T i) (indexed p) (p_ez p) k i l /\ length l = k /\ max_pairwise (p_zeucl p) l e /\
       forall x, In x (tl l) -> meet_again p i x /\ is_infinite (T i x) = false) ->
    iter_new p a b d = Ret s0 ->
    (forall cbs, exists s answers, returns (session p a b d cbs) (s, answers)) /\
    exists n s answers, returns (session p a b d (repeat (fun _ => true) n)) (s, answers ++ [End]).
Proof.
  intros p a b d T s0 Sd So W H1 Fa Ex Hd Su E. apply (ending_session p a b d Sd So W) with (s0 := s0); [|exact E]. clear s0 E.
  intros q prev m Hq. destruct (confirmed_done p a b d Sd So W H1 Fa q prev m Hq) as (R & HR).
  assert (HM : forall n, exists R2, forall k, 2 < k <= p_max_k p -> k <= n -> forall s s', turn_of p a b d s s' -> c_prefix (it_conf s) = q -> R2 <= c_rep (it_conf s) ->
    exists x, best_below (it_top s') k x).
  { induction n as [|n (R2 & IH)]; [exists 0; intros; lia|].
    destruct (Nat.le_gt_cases (S n) 2) as [L2|L2]; [exists R2; intros; lia|].
    destruct (Nat.le_gt_cases (S n) (p_max_k p)) as [Lm|Lm]; [|exists R2; intros k Hk Ln; apply IH; lia].
    destruct (Su (S n) ltac:(lia)) as (i & l & e & Nt & G & Ll & Me & Mt).
    destruct (met_all p a b d Sd So q i (tl l)) as (R3 & H3); [intros x Hx; apply Mt, Hx|exact Hq|].
    exists (Nat.max R2 R3). intros k Hk Ln s s' Tu Eq LR. destruct (Nat.eq_dec k (S n)) as [->|]; [|apply (IH k Hk ltac:(lia) s s' Tu Eq); lia].
    apply (met_candidate p a b d Sd So T Ex Hd H1 s s' i (S n) l e Tu ltac:(lia) Nt G Ll); [|exact Me].
    intros j x Hx. assert (Hin : In x (tl l)) by (destruct l; [discriminate|]; eapply nth_error_In; exact Hx).
    split; [|apply Mt, Hin]. destruct Tu as (h & f & Tr & _). inversion Tr as [|x1 x2 x3 Tr' St]; subst. apply (H3 s h Tr'); auto. lia. }
  destruct (HM (p_max_k p)) as (R2 & H2). exists (Nat.max R R2). intros s s' Tu E1 E2 E3 LR. apply forallb_forall. intros t Ht.
  apply In_nth_error in Ht. destruct Ht as (k & Ht). pose proof Tu as (h & f & Tr & _).
  destruct (trace_inv p a b d _ Sd So Tr) as (? & ? & Eq & I). injection Eq as <- <-. pose proof (inv_queues _ _ _ I) as Q.
  pose proof (proj2 Q _ _ Ht) as Qt. destruct (Nat.le_gt_cases k 1) as [Lk|Lk]; [unfold tk_is_complete; rewrite (q_low _ _ _ _ Qt) by lia; reflexivity|].
  assert (Lm : k <= p_max_k p) by (assert (k < length (it_top s')) by (apply nth_error_Some; congruence); destruct Q; lia).
  assert (B : exists x, best_below (it_top s') k x).
  { destruct (Nat.eq_dec k 2) as [->|].
    - destruct (trace_seed p a b d _ Sd So ltac:(lia) Tr) as (? & ? & Eq & B). injection Eq as <- <-. eauto.
    - apply (H2 k ltac:(lia) Lm s s' Tu E1). lia. }
  destruct B as (x & B). apply (best_nonempty p a b d _ k x H1 Q B t Ht). apply (HR s s' Tu E1 E2 E3 ltac:(lia) k t Ht).
Qed.
Print Assumptions c41_supports_end_partial.

(** Pairs alone, one of them: it is enough that the failure probability fades. *)
Theorem c41_pair_ends_partial :
  forall (p : problem) (a b : nat) (d : f64) (s0 : iter),
    sound p -> seed_ok p a b d -> well_behaved p d -> p_top_k p = 1 -> p_max_k p = 2 -> fades p d ->
    iter_new p a b d = Ret s0 ->
    (forall cbs, exists s answers, returns (session p a b d cbs) (s, answers)) /\
    exists n s answers, returns (session p a b d (repeat (fun _ => true) n)) (s, answers ++ [End]).
Proof.
  intros p a b d s0 Sd So W H1 H2 Fa E. apply (ending_session p a b d Sd So W) with (s0 := s0); [|exact E]. clear s0 E.
  intros q prev m Hq. destruct (confirmed_done p a b d Sd So W H1 Fa q prev m Hq) as (R & HR). exists R.
  intros s s' Tu E1 E2 E3 LR. apply forallb_forall. intros t Ht.
  apply In_nth_error in Ht. destruct Ht as (k & Ht). pose proof Tu as (h & f & Tr & _).
  destruct (trace_inv p a b d _ Sd So Tr) as (? & ? & Eq & I). injection Eq as <- <-. pose proof (inv_queues _ _ _ I) as Q.
  pose proof (proj2 Q _ _ Ht) as Qt. destruct (Nat.le_gt_cases k 1) as [Lk|Lk]; [unfold tk_is_complete; rewrite (q_low _ _ _ _ Qt) by lia; reflexivity|].
  assert (Lm : k <= p_max_k p) by (assert (k < length (it_top s')) by (apply nth_error_Some; congruence); destruct Q; lia).
  assert (k = 2) as -> by lia.
  destruct (trace_seed p a b d _ Sd So ltac:(lia) Tr) as (? & ? & Eq & B). injection Eq as <- <-.
  apply (best_nonempty p a b d _ 2 d H1 Q B t Ht). apply (HR s s' Tu E1 E2 E3 LR 2 t Ht).
Qed.
Print Assumptions c41_pair_ends_partial.
Lemma toy_fades : fades toy (fl 2).
Proof.
  intros e q prev m _ _ _. exists 3. intros r L. cbn [p_failure toy p_delta]. destruct (Nat.ltb_spec r 3); [lia|reflexivity].
Qed.
(** the three windows 4, 0, 8 meet in every repetition *)
Example c41_supports_case : sound toy /\ seed_ok toy 4 8 (fl 2) /\ well_behaved toy (fl 2) /\ p_top_k toy = 1 /\ p_stop toy = false /\ fades toy (fl 2) /\
  coherent toy (fl 2) (p_zeucl toy) /\ (forall c i j, p_coin toy c i j = true) /\
  (forall k, 2 < k <= p_max_k toy -> exists i l e,
     no_ties_by toy (p_zeucl toy) i /\ greedy_neighbourhood (p_zeucl toy i) (indexed toy) (p_ez toy) k i l /\ length l = k /\ max_pairwise (p_zeucl toy) l e /\
     forall x, In x (tl l) -> meet_again toy i x /\ is_infinite (p_zeucl toy i x) = false) /\
  (exists s, iter_new toy 4 8 (fl 2) = Ret s) /\
  exists s, session toy 4 8 (fl 2) (repeat (fun _ => true) 3) 30 = Ret (s, [Item (Motiflet [0; 4; 8] (fl 3)); Item (Motiflet [0; 4] (fl 1)); End]).
Proof.
  split; [exact toy_sound|]. split; [exact toy_seed|]. split; [exact toy_behaved|]. split; [reflexivity|]. split; [reflexivity|]. split; [exact toy_fades|].
  split; [apply exact_coherent; [exact toy_sound|exact toy_exact]|]. split; [reflexivity|]. split.
  { intros k Hk. assert (k = 3) as -> by (cbn in Hk; lia). exists 4, [4; 0; 8], (fl 3).
    destruct c84_case as (s1 & s2 & _ & _ & Nt & G & _ & _ & Me). split; [exact Nt|]. split; [exact G|]. split; [reflexivity|]. split; [exact Me|].
    intros x [<-|[<-|[]]]; (split; [|reflexivity]); intros q Hq; exists 0; intros k Hk2.
    - assert (Sm : forall t ez q r u v, meet t ez q r u v -> meet t ez q r v u).
      { intros t ez q' r u v (A & tb & x & y & B & C & D & E). split; [intros X; apply A, too_close_sym, X|]. exists tb, x, y. tauto. }
      apply Sm. apply (toy_meets _ _ _ _ _ 0 1); [lia|reflexivity|lia|lia|lia].
    - apply (toy_meets _ _ _ _ _ 1 2); [lia|reflexivity|lia|lia|lia]. }
  split; eexists; vm_compute; reflexivity.
Qed.
Definition toy_pair : problem := {|
  p_n := 13; p_ez := 2; p_max_k := 2; p_top_k := 1;
  p_zeucl := toy_distance; p_zeucl_threshold := below toy_distance;
  p_table := fun _ _ => (toy_hashes, [0; 4; 8; 12]%N);
  p_failure := fun _ reps _ _ _ => if reps <? 3 then fl 1 else f_zero;
  p_delta := half; p_coin := fun _ _ _ => false;
  p_expected := toy_expected; p_setup_cost := fl 1; p_collision_cost := fl 1; p_max_repetitions := 100;
  p_buffer := 4; p_threshold := 7; p_stop := false; p_nan_first := true |}.
(** even if no pair is ever looked at: then the answer is the sampled pair *)
Example c41_pair_case : sound toy_pair /\ seed_ok toy_pair 4 8 (fl 2) /\ well_behaved toy_pair (fl 2) /\ p_top_k toy_pair = 1 /\ p_max_k toy_pair = 2 /\ fades toy_pair (fl 2) /\
  (exists s, iter_new toy_pair 4 8 (fl 2) = Ret s) /\
  exists s, session toy_pair 4 8 (fl 2) (repeat (fun _ => true) 2) 30 = Ret (s, [Item (Motiflet [4; 8] (fl 2)); End]).
Proof.
  split; [destruct toy_sound as [A B C D E F G H]; split; auto|]. split; [exact toy_seed|]. split; [destruct toy_behaved; split; auto|]. split; [reflexivity|]. split; [reflexivity|].
  split; [intros e q prev m _ _ _; exists 3; intros r L; cbn [p_failure toy_pair p_delta]; destruct (Nat.ltb_spec r 3); [lia|reflexivity]|].
  split; eexists; vm_compute; reflexivity.
Qed.
