(** C82-C84: what a returned motiflet is guaranteed to be. *)
From Coq Require Import Floats.SpecFloat Permutation.
From Verif Require Import Base F64 F64Arith HashValue HashSpec HashProofs Overlaps OverlapsSpec OverlapsProofs Enumerator EnumSpec Moves MovesProofs HistoryProofs
  Profile ProfileProofs Brute BruteSpec BruteProofs TopK TopKSpec TopKProofs Graph GraphSpec GraphProofs GraphFlagProofs
  Iterator IteratorSpec IteratorProofs IteratorLoop IteratorCalls IteratorSteps P_Iterator P_Iterator2 GuaranteeSpec GuaranteeProofs GuaranteeTrace.

Lemma item_in l m : In (Item m) l -> In m (items l).
Proof. intros H. unfold items. apply in_flat_map. exists (Item m). split; [exact H|left; reflexivity]. Qed.

Lemma turn_emits p a b d s s' m : sound p -> seed_ok p a b d -> turn_of p a b d s s' -> In m (it_return s') ->
  flt (failure_after p s (ml_extent m)) (p_delta p) = true.
Proof.
  intros Sd So (h & fuel & T & B) Hm. inversion T as [|s0 s1 l T' St]; subst.
  destruct (trace_inv p a b d _ Sd So T') as (s0 & l0 & Eq & I). injection Eq as <- <-.
  destruct (loop_body_inl _ _ _ _ _ B) as (_ & (R0 & _ & _) & E). unfold turn in E.
  destruct (update_graph_ok p _ s Sd I) as (s1 & t & k & th & bs & pos & new & Ru & I1 & A1 & A2 & A3 & _).
  destruct (update_graph p s fuel) as [s1'| |] eqn:E1; cbn [bind] in E; try discriminate.
  pose proof (ret_returns _ _ _ _ (update_graph_mono p s) E1 Ru) as ->.
  destruct (emit_confirmed p s1) as [s2| |] eqn:E2; cbn [bind] in E; try discriminate.
  destruct (0 <? p_n p); cbn [assert_] in E; [|discriminate].
  destruct (inv_graph _ _ _ I1) as (opsx & Vx & Hx). destruct (neighborhoods_ok p opsx (it_graph s1) (p_max_k p + 1) Hx Vx) as (g2 & nbs & En & _ & Nok).
  unfold emit_confirmed in E2. rewrite En in E2. cbn [bind] in E2.
  destruct (add_all_ok p (Motiflet [a; b] d) nbs Sd Nok (it_top s1) (inv_queues _ _ _ I1)) as (top1 & Ea & Q1 & _).
  rewrite Ea in E2. cbn [bind] in E2.
  destruct (emit_queues p (it_conf s1) top1 (it_return s1)) as [[top2 ret2]| |] eqn:Eq; cbn [bind] in E2; try discriminate.
  destruct (emit_queues_from p _ _ _ _ _ _ Q1 Eq) as (Sc & nw & Er & Hnw).
  destruct (min_distance _) as [nx| |]; cbn [bind] in E2; try discriminate. apply Ret_inj in E2.
  assert (D : it_return s' = ret2).
  { clear - E E2. unfold advance in E. destruct (next_prefix p s2); cbn [bind] in E; try discriminate.
    destruct (if c_prefix (it_conf s2) <=? _ then _ else _); cbn [bind] in E; try discriminate.
    destruct (config_move _ _); cbn [bind] in E; try discriminate. apply Ret_inj in E. subst s' s2. reflexivity. }
  rewrite D, Er, A2, R0 in Hm. cbn [app] in Hm. destruct (Hnw m Hm) as (kq & tq & _ & _ & _ & _ & Cf & _). rewrite A3 in Cf. exact Cf.
Qed.

(** * C82: a motiflet is returned only when confirmed, or when the search is cut short *)
Theorem c82_returned_only_when_confirmed :
  forall (p : problem) (a b : nat) (d : f64) (cbs : list (nat -> bool)) (fuel : nat) (s : iter) (answers : list answer) (m : motiflet),
    sound p -> seed_ok p a b d ->
    session p a b d cbs fuel = Ret (s, answers) ->
    In (Item m) answers ->
    (exists s1 s2, turn_of p a b d s1 s2 /\ In m (it_return s2) /\ flt (failure_after p s1 (ml_extent m)) (p_delta p) = true) \/
    (exists s1 k t, stop_of p a b d s1 /\ nth_error (it_top s1) k = Some t /\ In m (tk_top t)).
Proof.
  intros p a b d cbs fuel s answers m Sd So E Hm.
  pose proof (item_in _ _ Hm) as Hi.
  refine (session_items p a b d Sd So (fun m =>
    (exists s1 s2, turn_of p a b d s1 s2 /\ In m (it_return s2) /\ flt (failure_after p s1 (ml_extent m)) (p_delta p) = true) \/
    (exists s1 k t, stop_of p a b d s1 /\ nth_error (it_top s1) k = Some t /\ In m (tk_top t))) _ _ cbs fuel s answers E m Hi).
  - intros s1 s2 m0 T H. left. exists s1, s2. split; [exact T|]. split; [exact H|]. eapply turn_emits; eauto.
  - intros s1 s2 m0 T R0 _ Ee H. right. destruct T as ((h & T) & T2).
    destruct (trace_inv p a b d _ Sd So T) as (s0 & l0 & Eq & I). injection Eq as <- <-.
    destruct (emit_everything_from p _ s1 s2 I Ee) as ((new & En & Hn) & _). rewrite En, R0 in H. cbn [app] in H.
    destruct (Hn m0 H) as (k & t & Ht & _ & _ & Hin & _). exists s1, k, t. split; [split; [exists h; exact T|exact T2]|auto].
Qed.
Print Assumptions c82_returned_only_when_confirmed.

(** ** Best pairs and neighbourhoods *)
Lemma two_max Z (u v : nat) : Z u v = Z v u -> is_nan (Z u v) = false -> max_pairwise Z [u; v] (Z u v).
Proof.
  intros Sy Nn. split; [cbn; lia|]. split.
  - intros a b x y Lab Hx Hy. assert (b < 2) by (change 2 with (length [u; v]); apply nth_error_Some; congruence).
    assert (a = 0 /\ b = 1) as (-> & ->) by lia. injection Hx as <-. injection Hy as <-. rewrite <- Sy. apply fle_refl, Nn.
  - intros _. exists 0, 1, u, v. repeat split; [lia|congruence].
Qed.

Lemma known_best p d0 T top ops out u v : sound p -> coherent p d0 T -> 2 <= p_max_k p -> settled p T ops out -> (forall nb, In nb out -> handled p T top nb) ->
  known p T top ops u v ->
  (exists x y, indexed p x /\ indexed p y /\ ~ too_close (p_ez p) x y /\ fle (T x y) (T u v) = true /\ (best_below top 2 (p_zeucl p x y) \/ best_below top 2 (T x y))) \/
  best_below top 2 (T u v) \/ fle f_inf (T u v) = true.
Proof.
  intros Sd Ex H2 St Hh (Iu & Iv & [H|[H|H]]); [|right; left; apply H; lia|auto]. left.
  destruct (st_close _ _ _ _ St u _ v H) as (ids & ds & j1 & Hin & I0 & I1 & L & Ii & Ij & Nc). exists u, j1.
  split; [exact Ii|]. split; [exact Ij|]. split; [exact Nc|]. split; [exact L|].
  assert (Ne : u <> j1) by (intros <-; apply Nc; unfold too_close; pose proof (sound_zone p Sd); lia).
  destruct (Hh _ Hin 2 (p_zeucl p u j1)) as [B|(i & j & Hi & Hj & B)].
  - lia.
  - cbn [fst]. assert (1 < length ids) by (apply nth_error_Some; congruence). lia.
  - cbn [fst]. destruct ids as [|x [|y ids]]; try discriminate. cbn in I0, I1 |- *. injection I0 as ->. injection I1 as ->.
    apply two_max; [apply (co_zsym p _ T Ex)|apply (sound_numbers p Sd); assumption].
  - left. exact B.
  - right. cbn [fst Nat.sub] in Hi, Hj. rewrite I0 in Hi. rewrite I1 in Hj. injection Hi as <-. injection Hj as <-. exact B.
Qed.

Lemma known_greedy p T top ops out i k l e : settled p T ops out -> (forall nb, In nb out -> handled p T top nb) ->
  2 <= k <= p_max_k p -> no_ties_by p T i -> greedy_neighbourhood (T i) (indexed p) (p_ez p) k i l -> length l = k ->
  (forall q x, nth_error l (S q) = Some x -> known p T top ops i x) -> max_pairwise (p_zeucl p) l e ->
  best_below top k e \/ exists q x, nth_error l (S q) = Some x /\ (best_below top k (T i x) \/ fle f_inf (T i x) = true).
Proof.
  intros St Hh Hk Nt G Ll Kn Me.
  assert (C : (forall q x, q < k -> nth_error l (S q) = Some x -> In (T i x, x) (edges ops i)) \/
              exists q x, nth_error l (S q) = Some x /\ (best_below top k (T i x) \/ fle f_inf (T i x) = true)).
  { assert (Gen : forall n, (forall q x, q < n -> nth_error l (S q) = Some x -> In (T i x, x) (edges ops i)) \/
              exists q x, nth_error l (S q) = Some x /\ (best_below top k (T i x) \/ fle f_inf (T i x) = true)).
    { induction n as [|n [IH|IH]]; [left; intros; lia| |auto].
      destruct (nth_error l (S n)) as [x|] eqn:Ex1.
      - destruct (Kn n x Ex1) as (_ & _ & [H|[H|H]]).
        + left. intros q y Lq Hy. destruct (Nat.eq_dec q n) as [->|]; [congruence|]. apply (IH q y); [lia|exact Hy].
        + right. exists n, x. split; [exact Ex1|]. left. apply H, Hk.
        + right. exists n, x. auto.
      - left. intros q y Lq Hy. destruct (Nat.eq_dec q n) as [->|]; [congruence|]. apply (IH q y); [lia|exact Hy]. }
    apply Gen. }
  destruct C as [C|C]; [|right; exact C].
  destruct (st_greedy _ _ _ _ St i k l Nt Hk G Ll) as (ids & ds & Hin & El & Lk).
  { intros q x Hx. apply (C q x); [|exact Hx]. assert (S q < length l) by (apply nth_error_Some; congruence). lia. }
  destruct (Hh _ Hin k e Hk Lk) as [B|(i' & x & Hi & Hx & B)]; [cbn [fst]; rewrite El; exact Me|left; exact B|right].
  cbn [fst] in Hi, Hx. assert (H0 : nth_error l 0 = Some i) by apply G.
  assert (Hn : forall q, q < k -> nth_error l q = nth_error ids q) by (intros q Lq; rewrite <- El; apply nth_error_firstn; lia).
  rewrite <- (Hn 0) in Hi by lia. rewrite H0 in Hi. injection Hi as <-.
  rewrite <- (Hn (k - 1)) in Hx by lia. exists (k - 2), x. replace (S (k - 2)) with (k - 1) by lia. auto.
Qed.

(** what is known of the pairs searched when a motiflet is emitted *)
Definition best_emitted (p : problem) (T : nat -> nat -> f64) (s : iter) (reps : nat) (m : motiflet) : Prop :=
  exists top ops out t rest, 2 <= p_max_k p /\ settled p T ops out /\ (forall nb, In nb out -> handled p T top nb) /\
    (forall u v, searched p s reps u v -> known p T top ops u v) /\
    nth_error top (length (ml_indices m)) = Some t /\ fresh t /\ tk_top t = m :: rest /\ is_nan (ml_extent m) = false /\
    2 <= length (ml_indices m) <= p_max_k p.

Lemma mine_support p a b d m : 2 <= p_max_k p -> mine p (Motiflet [a; b] d) m -> 2 <= length (ml_indices m) <= p_max_k p.
Proof. intros H [(L & _)| ->]; [exact L|cbn; lia]. Qed.

Lemma covered_searched p T s past c' tables top ops out reps : hist_inv past (it_conf s) ->
  (forall c, In c past -> In c c') -> (forall r, r < reps -> visited c' r (c_prefix (it_conf s))) ->
  covered p T tables c' top ops out -> tables = it_tables s -> forall u v, searched p s reps u v -> known p T top ops u v.
Proof.
  intros Hi Inc Vis Cv -> u v [(r & Lr & M)|(q & m & r & Eq & Em & Lr & M)].
  - destruct (Vis r Lr) as (c & Hc & Er & Ep). apply (cv_known _ _ _ _ _ _ _ Cv c); [exact Hc|]. rewrite Er, Ep. exact M.
  - destruct (hi_prev _ _ Hi q m Eq Em) as (_ & V & _). destruct (proj2 (V r) Lr) as (c & Hc & Er & Ep).
    apply (cv_known _ _ _ _ _ _ _ Cv c); [auto|]. rewrite Er, Ep. exact M.
Qed.

Section Best.
  Variables (p : problem) (a b : nat) (d : f64) (T : nat -> nat -> f64).
  Hypotheses (Sd : sound p) (So : seed_ok p a b d) (Ex : coherent p d T) (Hd : heads p) (H1 : p_top_k p = 1).

  Lemma turn_best s s' m : turn_of p a b d s s' -> In m (it_return s') -> best_emitted p T s (c_rep (it_conf s) + 1) m.
  Proof.
    intros (h & fuel & Tr & B) Hm. inversion Tr as [|s0 s1 l T' St]; subst.
    destruct (trace_inv p a b d _ Sd So T') as (s0 & l0 & Eq & I). injection Eq as <- <-.
    destruct (trace_found p a b d Sd So T Ex Hd ltac:(lia) _ T') as (s0 & l0 & Eq & past & ops & out & F1 & F2 & F3 & F4 & F5). injection Eq as <- <-.
    pose proof (trace_max_k p a b d Sd So _ T') as Hk.
    destruct (loop_body_inl _ _ _ _ _ B) as (_ & (R0 & _ & _) & E).
    destruct (turn_covered p T (Motiflet [a; b] d) s s' fuel past ops out Sd Ex Hd ltac:(lia) Hk I E F1 F2 F3 F4 F5)
      as (ops' & out' & top & _ & _ & S' & Q' & C' & _ & _ & (new & En & Hn) & _).
    rewrite En, R0 in Hm. cbn [app] in Hm. destruct (Hn m Hm) as (k & t & Ht & Op & Lm & Hin & _ & Hd1).
    destruct (Hd1 H1) as (Em & rest & Er). exists top, ops', out', t, rest.
    split; [exact Hk|]. split; [exact S'|]. split; [apply C'|]. split.
    { apply (covered_searched p T s past (past ++ [it_conf s]) _ _ _ _ _ F1) with (3 := C'); auto.
      - intros c Hc. apply in_or_app. auto.
      - intros r Lr. destruct (Nat.eq_dec r (c_rep (it_conf s))) as [->|].
        + exists (it_conf s). split; [apply in_or_app; right; left; reflexivity|auto].
        + destruct (proj2 (hi_cur _ _ F1 r) ltac:(lia)) as (c & Hc & E1). exists c. split; [apply in_or_app; auto|exact E1]. }
    pose proof (proj2 Q' _ _ Ht) as Qt. rewrite Lm. split; [exact Ht|]. split; [split; [exact Em|apply Op; reflexivity]|]. split; [exact Er|].
    split; [apply (proj1 (q_wf _ _ _ _ Qt) m Hin)|]. rewrite <- Lm. eapply mine_support; [exact Hk|]. apply (q_members _ _ _ _ Qt m). auto.
  Qed.

  Lemma stop_best s s1 m : stop_of p a b d s -> it_return s = [] -> forallb tk_is_complete (it_top s) = false ->
    emit_everything s = Ret s1 -> In m (it_return s1) -> best_emitted p T s (c_rep (it_conf s)) m.
  Proof.
    intros ((h & Tr) & _) R0 Nc E Hm.
    destruct (trace_inv p a b d _ Sd So Tr) as (s0 & l0 & Eq & I). injection Eq as <- <-.
    destruct (trace_found p a b d Sd So T Ex Hd ltac:(lia) _ Tr) as (s0 & l0 & Eq & past & ops & out & F1 & F2 & F3 & F4 & F5). injection Eq as <- <-.
    destruct (trace_disabled p a b d Sd So _ Tr) as (s0 & l0 & Eq & Dl). injection Eq as <- <-.
    pose proof (trace_max_k p a b d Sd So _ Tr) as Hk.
    destruct (emit_everything_from p _ s s1 I E) as ((new & En & Hn) & _). rewrite En, R0 in Hm. cbn [app] in Hm.
    destruct (Hn m Hm) as (k & t & Ht & _ & Lm & Hin & _ & Hd1). destruct (Hd1 H1) as (Em & rest & Er).
    pose proof (proj2 (inv_queues _ _ _ I) _ _ Ht) as Qt.
    assert (Ls : 2 <= length (ml_indices m) <= p_max_k p) by (eapply mine_support; [exact Hk|]; apply (q_members _ _ _ _ Qt m); auto).
    exists (it_top s), ops, out, t, rest.
    split; [exact Hk|]. split; [exact F4|]. split; [apply F5|]. split.
    { apply (covered_searched p T s past past _ _ _ _ _ F1) with (3 := F5); auto. intros r Lr. apply (hi_cur _ _ F1 r), Lr. }
    rewrite Lm in *. split; [exact Ht|]. split.
    { split; [exact Em|]. destruct (tk_disabled t) eqn:Dt; [|reflexivity]. rewrite (Dl k t ltac:(lia) Ht Dt) in Nc. discriminate. }
    split; [exact Er|]. split; [apply (proj1 (q_wf _ _ _ _ Qt) m Hin)|]. lia.
  Qed.
End Best.

Section General.
  Variables (p : problem) (a b : nat) (d : f64) (T : nat -> nat -> f64).
  Hypotheses (Sd : sound p) (So : seed_ok p a b d) (Ex : coherent p d T) (Hd : forall c i j, p_coin p c i j = true) (H1 : p_top_k p = 1).

  Lemma emitted_when cbs fuel s answers m : session p a b d cbs fuel = Ret (s, answers) -> In (Item m) answers ->
    exists s1 reps,
      ((exists s2, turn_of p a b d s1 s2 /\ In m (it_return s2) /\ flt (failure_after p s1 (ml_extent m)) (p_delta p) = true /\
          reps = c_rep (it_conf s1) + 1) \/
       (stop_of p a b d s1 /\ reps = c_rep (it_conf s1))) /\ best_emitted p T s1 reps m.
  Proof.
    intros E Hm. pose proof (item_in _ _ Hm) as Hi.
    pose proof (session_items p a b d Sd So (fun m => exists s1 reps,
      ((exists s2, turn_of p a b d s1 s2 /\ In m (it_return s2) /\ flt (failure_after p s1 (ml_extent m)) (p_delta p) = true /\
          reps = c_rep (it_conf s1) + 1) \/
       (stop_of p a b d s1 /\ reps = c_rep (it_conf s1))) /\ best_emitted p T s1 reps m)) as SI.
    destruct (fun A B => SI A B cbs fuel s answers E m Hi) as (s1 & reps & A & B); eauto.
    - intros s1 s2 m0 Tr H. exists s1. eexists. split; [left; exists s2; split; [exact Tr|]; split; [exact H|]; split; [eapply turn_emits; eauto|reflexivity]|]. eapply turn_best; eauto.
    - intros s1 s2 m0 Tr R0 F0 Ee H. exists s1. eexists. split; [right; split; [exact Tr|reflexivity]|]. eapply stop_best; eauto.
  Qed.
End General.

(** the pair returned, the distances coming in two versions *)
Lemma pair_best p d0 T s1 reps m : sound p -> coherent p d0 T -> best_emitted p T s1 reps m -> length (ml_indices m) = 2 -> forall u v, searched p s1 reps u v ->
  exists x y, indexed p x /\ indexed p y /\ ~ too_close (p_ez p) x y /\ fle (T x y) (T u v) = true /\
    (fle (ml_extent m) (p_zeucl p x y) = true \/ fle (ml_extent m) (T x y) = true).
Proof.
  intros Sd Ex (top & ops & out & t & rest & Hk & St & Hh & Kn & Ht & Fr & Er & Nm & _) L2 u v Hs.
  assert (Bb : forall e, best_below top 2 e -> fle (ml_extent m) e = true).
  { intros e B. rewrite L2 in Ht. destruct (B t Ht Fr) as (m0 & r0 & E0 & L0). rewrite Er in E0. injection E0 as <- <-. exact L0. }
  assert (Nt : ~ too_close (p_ez p) u v) by (destruct Hs as [(r & _ & M)|(q & m' & r & _ & _ & _ & M)]; apply M).
  pose proof (Kn u v Hs) as Kuv. pose proof Kuv as (Iu & Iv & _).
  assert (Ne : u <> v) by (intros <-; apply Nt; unfold too_close; pose proof (sound_zone p Sd); lia).
  destruct (known_best p d0 T top ops out u v Sd Ex Hk St Hh Kuv) as [(x & y & Ix & Iy & Nc & L & B)|B].
  - exists x, y. repeat (split; [assumption|]). destruct B as [B|B]; auto.
  - exists u, v. repeat (split; [assumption|]). split; [apply fle_refl, (co_number p _ T Ex); assumption|]. right.
    destruct B as [B|B]; [auto|]. eapply fle_trans; [apply fle_inf, Nm|exact B].
Qed.

(** a motiflet returned, the distances coming in two versions *)
Lemma motiflet_best p T s1 reps m : best_emitted p T s1 reps m -> forall i l e, no_ties_by p T i ->
  greedy_neighbourhood (T i) (indexed p) (p_ez p) (length (ml_indices m)) i l -> length l = length (ml_indices m) ->
  (forall q x, nth_error l (S q) = Some x -> searched p s1 reps i x) -> max_pairwise (p_zeucl p) l e ->
  fle (ml_extent m) e = true \/ exists q x, nth_error l (S q) = Some x /\ fle (ml_extent m) (T i x) = true.
Proof.
  intros (top & ops & out & t & rest & Hk & St & Hh & Kn & Ht & Fr & Er & Nm & Ls) i l e Nt G Ll Se Me.
  assert (Bb : forall e, best_below top (length (ml_indices m)) e -> fle (ml_extent m) e = true).
  { intros e0 B. destruct (B t Ht Fr) as (m0 & r0 & E0 & L0). rewrite Er in E0. injection E0 as <- <-. exact L0. }
  destruct (known_greedy p T top ops out i _ l e St Hh Ls Nt G Ll (fun q x Hx => Kn i x (Se q x Hx)) Me) as [B|(q & x & Hx & B)]; [left; auto|].
  right. exists q, x. split; [exact Hx|]. destruct B as [B|B]; [auto|]. eapply fle_trans; [apply fle_inf, Nm|exact B].
Qed.

(** exact distances are a single version *)
Lemma exact_coherent p d0 : sound p -> exact_distances p -> coherent p d0 (p_zeucl p).
Proof.
  intros Sd Ex. split.
  - apply Ex.
  - apply Ex.
  - intros i j t d _ _ _. apply (ex_some p Ex).
  - intros i j t L Hi Hj Nt _ E. destruct (fle (p_zeucl p i j) t) eqn:F; [rewrite (ex_below p Ex _ _ _ F) in E; discriminate|].
    assert (Nz : is_nan (p_zeucl p i j) = false) by (apply (sound_numbers p Sd); auto; lia).
    destruct (fle_total t (p_zeucl p i j) Nt Nz); [assumption|congruence].
  - intros i j Hi Hj Ne. apply (sound_numbers p Sd); auto.
Qed.

(** * C83: the pair returned is at least as close as any pair searched *)
Theorem c83_pair_is_closest_of_those_searched :
  forall (p : problem) (a b : nat) (d : f64) (cbs : list (nat -> bool)) (fuel : nat) (s : iter) (answers : list answer) (m : motiflet),
    sound p -> seed_ok p a b d -> exact_distances p -> (forall c i j, p_coin p c i j = true) -> p_top_k p = 1 ->
    session p a b d cbs fuel = Ret (s, answers) ->
    In (Item m) answers -> length (ml_indices m) = 2 ->
    (exists s1 s2, turn_of p a b d s1 s2 /\ In m (it_return s2) /\
       flt (failure_after p s1 (ml_extent m)) (p_delta p) = true /\
       forall u v, searched p s1 (c_rep (it_conf s1) + 1) u v -> fle (ml_extent m) (p_zeucl p u v) = true) \/
    (exists s1, stop_of p a b d s1 /\
       forall u v, searched p s1 (c_rep (it_conf s1)) u v -> fle (ml_extent m) (p_zeucl p u v) = true).
Proof.
  intros p a b d cbs fuel s answers m Sd So Ex Hd H1 E Hm L2. pose proof (exact_coherent p d Sd Ex) as Co.
  destruct (emitted_when p a b d _ Sd So Co Hd H1 cbs fuel s answers m E Hm) as (s1 & reps & W & B).
  assert (Fin : forall u v, searched p s1 reps u v -> fle (ml_extent m) (p_zeucl p u v) = true).
  { intros u v Hs. destruct (pair_best p d _ s1 reps m Sd Co B L2 u v Hs) as (x & y & _ & _ & _ & L & [F|F]); eapply fle_trans; eauto. }
  destruct W as [(s2 & A1 & A2 & A3 & ->)|(A1 & ->)]; [left; exists s1, s2; auto|right; exists s1; auto].
Qed.
Print Assumptions c83_pair_is_closest_of_those_searched.

(** * C84: a motiflet returned is at least as tight as any neighbourhood searched *)
Theorem c84_motiflet_is_tightest_of_those_searched :
  forall (p : problem) (a b : nat) (d : f64) (cbs : list (nat -> bool)) (fuel : nat) (s : iter) (answers : list answer) (m : motiflet),
    sound p -> seed_ok p a b d -> exact_distances p -> (forall c i j, p_coin p c i j = true) -> p_top_k p = 1 ->
    session p a b d cbs fuel = Ret (s, answers) ->
    In (Item m) answers ->
    exists s1 reps,
      ((exists s2, turn_of p a b d s1 s2 /\ In m (it_return s2) /\ flt (failure_after p s1 (ml_extent m)) (p_delta p) = true /\
          reps = c_rep (it_conf s1) + 1) \/
       (stop_of p a b d s1 /\ reps = c_rep (it_conf s1))) /\
      forall (i : nat) (l : list nat) (e : f64),
        no_ties_at p i ->
        greedy_neighbourhood (p_zeucl p i) (indexed p) (p_ez p) (length (ml_indices m)) i l -> length l = length (ml_indices m) ->
        (forall q x, nth_error l (S q) = Some x -> searched p s1 reps i x) ->
        max_pairwise (p_zeucl p) l e ->
        fle (ml_extent m) e = true.
Proof.
  intros p a b d cbs fuel s answers m Sd So Ex Hd H1 E Hm. pose proof (exact_coherent p d Sd Ex) as Co.
  destruct (emitted_when p a b d _ Sd So Co Hd H1 cbs fuel s answers m E Hm) as (s1 & reps & W & B).
  exists s1, reps. split; [exact W|]. intros i l e Nt G Ll Se Me.
  destruct (motiflet_best p _ s1 reps m B i l e Nt G Ll Se Me) as [F|(q & x & Hx & F)]; [exact F|].
  eapply fle_trans; [exact F|]. destruct Me as (_ & M & _). rewrite (ex_sym p Ex). apply (M 0 (S q)); [lia|apply G|exact Hx].
Qed.
Print Assumptions c84_motiflet_is_tightest_of_those_searched.

(** ** The example: three windows, all meeting in every repetition *)
Lemma toy_exact : exact_distances toy.
Proof.
  split.
  - intros i j. cbn [p_zeucl toy]. unfold toy_distance. rewrite (Nat.min_comm i j), (Nat.max_comm i j). reflexivity.
  - intros i j t d. cbn [p_zeucl_threshold p_zeucl toy]. unfold below. destruct (fle _ t); [|discriminate]. intros E. injection E as <-. reflexivity.
  - intros i j t. cbn [p_zeucl_threshold p_zeucl toy]. unfold below. intros ->. reflexivity.
Qed.

Lemma toy_meets q r tables u v x y : 1 <= q -> nth_error tables r = Some (toy_hashes, [0; 4; 8; 12]%N) ->
  x < y < 3 -> u = 4 * x -> v = 4 * y -> meet tables 2 q r u v.
Proof.
  intros Lq Ht L -> ->. split; [unfold too_close; lia|]. exists (toy_hashes, [0; 4; 8; 12]%N), x, y.
  assert (Hx : x = 0 /\ y = 1 \/ x = 0 /\ y = 2 \/ x = 1 /\ y = 2) by lia.
  assert (Nl : forall z, z < 3 -> ~ in_last_bucket toy_hashes q z).
  { intros z Lz (hx & hl & H1 & H2 & A). cbn in H2. injection H2 as <-. destruct z as [|[|[|z]]]; [| | |lia]; cbn in H1; injection H1 as <-;
      specialize (A 0 ltac:(lia)); vm_compute in A; discriminate. }
  split; [exact Ht|]. split.
  { split; [lia|]. exists 0x0100000000000000%N, 0x0100000000000000%N. destruct Hx as [(-> & ->)|[(-> & ->)|(-> & ->)]]; repeat split. }
  split; [apply Nl; lia|]. left. destruct Hx as [(-> & ->)|[(-> & ->)|(-> & ->)]]; split; reflexivity.
Qed.

(** the third turn of the run returns both motiflets *)
Lemma toy_third_turn : exists s1 s2, turn_of toy 4 8 (fl 2) s1 s2 /\
  it_return s2 = [Motiflet [0; 4] (fl 1); Motiflet [0; 4; 8] (fl 3)] /\ c_rep (it_conf s1) = 2 /\ c_prefix (it_conf s1) = 6 /\
  nth_error (it_tables s1) 2 = Some (toy_hashes, [0; 4; 8; 12]%N).
Proof.
  assert (E : exists s0 sa sb sc, iter_new toy 4 8 (fl 2) = Ret s0 /\ loop_body toy s0 true 30 = Ret (inl sa) /\
     loop_body toy sa true 30 = Ret (inl sb) /\ loop_body toy sb true 30 = Ret (inl sc) /\
     it_return sc = [Motiflet [0; 4] (fl 1); Motiflet [0; 4; 8] (fl 3)] /\ c_rep (it_conf sb) = 2 /\ c_prefix (it_conf sb) = 6 /\
     nth_error (it_tables sb) 2 = Some (toy_hashes, [0; 4; 8; 12]%N)).
  { eexists. eexists. eexists. eexists. split; [vm_compute; reflexivity|]. split; [vm_compute; reflexivity|].
    split; [vm_compute; reflexivity|]. split; [vm_compute; reflexivity|]. repeat split. }
  destruct E as (s0 & sa & sb & sc & E0 & Ea & Eb & Ec & R). exists sb, sc. split; [|exact R].
  exists [sa; s0], 30. split; [|exact Ec].
  apply trace_step; [|exists true, 30; left; exact Ec]. apply trace_step; [|exists true, 30; left; exact Eb].
  apply trace_step; [apply trace_new; exact E0|exists true, 30; left; exact Ea].
Qed.

Example c82_case : sound toy /\ seed_ok toy 4 8 (fl 2) /\
  (exists s answers, session toy 4 8 (fl 2) toy_calls 30 = Ret (s, answers) /\ In (Item (Motiflet [0; 4; 8] (fl 3))) answers) /\
  flt (p_failure toy (fl 3) 2 6 None None) (p_delta toy) = false /\ flt (p_failure toy (fl 3) 3 6 None None) (p_delta toy) = true.
Proof.
  split; [exact toy_sound|]. split; [exact toy_seed|]. split; [|split; reflexivity].
  destruct toy_run as (s & E). exists s. eexists. split; [exact E|]. cbn. auto.
Qed.

Example c83_case : sound toy /\ seed_ok toy 4 8 (fl 2) /\ exact_distances toy /\ (forall c i j, p_coin toy c i j = true) /\ p_top_k toy = 1 /\
  (exists s answers, session toy 4 8 (fl 2) toy_calls 30 = Ret (s, answers) /\ In (Item (Motiflet [0; 4] (fl 1))) answers) /\
  exists s1 s2, turn_of toy 4 8 (fl 2) s1 s2 /\ In (Motiflet [0; 4] (fl 1)) (it_return s2) /\
    searched toy s1 (c_rep (it_conf s1) + 1) 0 4 /\ searched toy s1 (c_rep (it_conf s1) + 1) 0 8 /\ searched toy s1 (c_rep (it_conf s1) + 1) 4 8.
Proof.
  split; [exact toy_sound|]. split; [exact toy_seed|]. split; [exact toy_exact|]. split; [reflexivity|]. split; [reflexivity|]. split.
  { destruct toy_run as (s & E). exists s. eexists. split; [exact E|]. cbn. auto. }
  destruct toy_third_turn as (s1 & s2 & T & Er & Ec & Ep & Et). exists s1, s2. split; [exact T|]. rewrite Er, Ec. split; [left; reflexivity|].
  repeat split; left; exists 2; (split; [lia|]); rewrite Ep; cbn [p_ez toy];
    [apply (toy_meets _ _ _ _ _ 0 1)|apply (toy_meets _ _ _ _ _ 0 2)|apply (toy_meets _ _ _ _ _ 1 2)]; auto; lia.
Qed.

(** the neighbourhood of the middle window, which has no ties, is searched when the triple is returned *)
Example c84_case : exists s1 s2, turn_of toy 4 8 (fl 2) s1 s2 /\ In (Motiflet [0; 4; 8] (fl 3)) (it_return s2) /\
  no_ties_at toy 4 /\ greedy_neighbourhood (p_zeucl toy 4) (indexed toy) (p_ez toy) 3 4 [4; 0; 8] /\
  searched toy s1 (c_rep (it_conf s1) + 1) 4 0 /\ searched toy s1 (c_rep (it_conf s1) + 1) 4 8 /\
  max_pairwise (p_zeucl toy) [4; 0; 8] (fl 3).
Proof.
  destruct toy_third_turn as (s1 & s2 & T & Er & Ec & Ep & Et). exists s1, s2. split; [exact T|]. rewrite Er, Ec. split; [right; left; reflexivity|].
  assert (Ix : forall x, indexed toy x -> x = 0 \/ x = 4 \/ x = 8 \/ x = 12).
  { intros x (Lx & r & k & _ & Hi). cbn [p_table toy snd] in Hi. cbn in Hi. intuition lia. }
  split.
  { intros x y Hx Hy Tx Ty E. apply Ix in Hx, Hy. cbn [p_ez toy] in Tx, Ty. unfold too_close in Tx, Ty. cbn [p_zeucl toy] in E.
    destruct Hx as [->|[->|[->| ->]]], Hy as [->|[->|[->| ->]]]; try reflexivity; try (vm_compute in E; discriminate); exfalso; cbn in Tx, Ty; lia. }
  split.
  { assert (I0 : indexed toy 0) by (split; [cbn; lia|]; exists 0, 1; split; [unfold K; lia|cbn; auto]).
    assert (I8 : indexed toy 8) by (split; [cbn; lia|]; exists 0, 1; split; [unfold K; lia|cbn; auto]).
    split; [reflexivity|]. split; [|split; [cbn; lia|cbn; lia]].
    intros [|[|q]] x Hx; cbn in Hx; [| |destruct q; discriminate]; injection Hx as <-.
    - split; [exact I0|]. split; [intros y [<-|[]]; unfold too_close; cbn; lia|].
      intros z Hz Fz. apply Ix in Hz. destruct Hz as [->|[->|[->| ->]]]; try reflexivity.
    - split; [exact I8|]. split; [intros y [<-|[<-|[]]]; unfold too_close; cbn; lia|].
      intros z Hz Fz. apply Ix in Hz. destruct Hz as [->|[->|[->| ->]]]; try reflexivity. exfalso. apply (Fz 0); [right; left; reflexivity|]. unfold too_close; cbn; lia. }
  assert (Sm : forall t ez q r u v, meet t ez q r u v -> meet t ez q r v u).
  { intros t ez q r u v (A & tb & x & y & B & C & D & E). split; [intros X; apply A, too_close_sym, X|]. exists tb, x, y. tauto. }
  split. { left. exists 2. split; [lia|]. rewrite Ep. apply Sm. apply (toy_meets _ _ _ _ _ 0 1); auto; lia. }
  split. { left. exists 2. split; [lia|]. rewrite Ep. apply (toy_meets _ _ _ _ _ 1 2); auto; lia. }
  split; [cbn; lia|]. split.
  - intros a b x y L Hx Hy. assert (b < 3) by (change 3 with (length [4; 0; 8]); apply nth_error_Some; congruence).
    assert (C : a = 0 /\ b = 1 \/ a = 0 /\ b = 2 \/ a = 1 /\ b = 2) by lia.
    destruct C as [(-> & ->)|[(-> & ->)|(-> & ->)]]; cbn in Hx, Hy; injection Hx as <-; injection Hy as <-; reflexivity.
  - intros _. exists 1, 2, 0, 8. repeat split. lia.
Qed.
