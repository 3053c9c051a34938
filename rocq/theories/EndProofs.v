(** Runs that end because everything asked for has been confirmed. *)
From Coq Require Import Floats.SpecFloat.
From Verif Require Import Base F64 HashValue HashSpec Overlaps OverlapsSpec Enumerator EnumSpec Moves MovesProofs
  Profile Brute BruteSpec TopK TopKSpec TopKProofs Graph GraphSpec GraphProofs GraphFlagProofs
  Iterator IteratorSpec IteratorProofs IteratorLoop IteratorCalls IteratorSteps IteratorEnd P_Iterator P_Iterator2
  BruteProofs GuaranteeSpec GuaranteeProofs GuaranteeTrace P_Guarantee P_Prompt EndSpec.

(** ** Distances that may have to be confirmed: finitely many *)
Definition extents (p : problem) (d : f64) : list f64 :=
  d :: flat_map (fun i => map (p_zeucl p i) (seq 0 (p_n p))) (seq 0 (p_n p)).
Lemma mine_extent p a b d m : mine p (Motiflet [a; b] d) m -> In (ml_extent m) (extents p d).
Proof.
  intros [(L & Ix & _ & (_ & _ & Mx))| ->]; [|left; reflexivity]. right.
  destruct (Mx ltac:(lia)) as (x & y & u & v & _ & Hu & Hv & ->). apply in_flat_map. exists v.
  apply nth_error_In in Hu. apply nth_error_In in Hv. destruct (Ix u Hu) as [Lu _]. destruct (Ix v Hv) as [Lv _].
  split; [apply in_seq; lia|]. apply in_map, in_seq. lia.
Qed.
Lemma mine_finite p a b d m : well_behaved p d -> mine p (Motiflet [a; b] d) m -> is_nan (ml_extent m) = false -> is_finite (ml_extent m) = true.
Proof.
  intros W [(L & Ix & _ & (_ & _ & Mx))| ->] Nm; [|apply (wb_seed _ _ W)].
  destruct (Mx ltac:(lia)) as (? & ? & u & v & _ & Hu & Hv & E). rewrite E in *. pose proof (wb_finite _ _ W v u (Ix v (nth_error_In _ _ Hv)) (Ix u (nth_error_In _ _ Hu))) as F.
  destruct (p_zeucl p v u); try discriminate; reflexivity.
Qed.
Lemma extents_are p d e : In e (extents p d) -> e = d \/ (exists i j, i < p_n p /\ j < p_n p /\ e = p_zeucl p i j).
Proof.
  intros [<-|H]; [left; reflexivity|right]. apply in_flat_map in H as (i & Hi & H). apply in_map_iff in H as (j & <- & Hj).
  apply in_seq in Hi, Hj. exists i, j. repeat split; lia.
Qed.
Lemma fades_all p d q prev m l : fades p d -> 1 <= q <= K -> incl l (extents p d) ->
  exists R, forall e r, In e l -> is_finite e = true -> R <= r -> flt (p_failure p e r q prev m) (p_delta p) = true.
Proof.
  intros F Hq. induction l as [|x l IH']; intros Hl; [exists 0; intros ? ? []|].
  destruct (IH' (fun e He => Hl e (or_intror He))) as (R & IH).
  destruct (is_finite x) eqn:Fx.
  - destruct (F x q prev m (extents_are p d x (Hl x (or_introl eq_refl))) Fx Hq) as (R1 & H1). exists (Nat.max R R1). intros e r [<-|He] Fe Lr; [apply H1; lia|apply IH; auto; lia].
  - exists R. intros e r [<-|He] Fe Lr; [congruence|auto].
Qed.

(** ** The order of a run *)
Definition next_state (p : problem) (s' s : iter) : Prop :=
  (goes_on p s /\ exists f, turn p s f = Ret s') \/ (it_return s <> [] /\ s' = fst (pop s)).
Lemma pop_facts s : it_return s <> [] -> length (it_return (fst (pop s))) < length (it_return s) /\ it_conf (fst (pop s)) = it_conf s /\
  it_top (fst (pop s)) = it_top s.
Proof.
  intros N. unfold pop. destruct (rev (it_return s)) as [|m t] eqn:E.
  - exfalso. apply N. rewrite <- (rev_involutive (it_return s)), E. reflexivity.
  - cbn [fst it_return it_conf it_top]. split; [|auto]. rewrite <- (rev_length (it_return s)), E, rev_length. cbn [length]. lia.
Qed.
Lemma complete_acc p s : forallb tk_is_complete (it_top s) = true -> Acc (next_state p) s.
Proof.
  remember (length (it_return s)) as n eqn:En. revert s En. induction n as [n IH] using lt_wf_ind. intros s -> C. constructor. intros s' [((_ & G & _) & _)|(N & ->)]; [congruence|].
  destruct (pop_facts s N) as (L & _ & T). eapply IH; [exact L|reflexivity|]. rewrite T. exact C.
Qed.

Lemma turn_then_calls p s s1 n s' l : goes_on p s -> (exists f, turn p s f = Ret s1) ->
  returns (calls p (repeat yes (S n)) s1) (s', l) -> returns (calls p (repeat yes (S n)) s) (s', l).
Proof.
  intros G T (m & R). specialize (R m ltac:(lia)). cbn [repeat] in *. destruct (calls_split _ _ _ _ _ _ _ R) as (s2 & x & l' & C & E & ->).
  apply (calls_cons p yes _ s s2 x s' l').
  - destruct C as (q & s3 & T' & _ & f & B). exists (S q), s3. split; [econstructor; eauto|]. split; [reflexivity|]. exists f. exact B.
  - apply (fmono_returns _ m); [apply calls_mono|exact E].
Qed.
Lemma empties p s : forallb tk_is_complete (it_top s) = true ->
  exists n s' l, returns (calls p (repeat yes (S n)) s) (s', l ++ [End]).
Proof.
  intros C. exists (length (it_return s)). destruct (drain p (S (length (it_return s))) s C) as (s' & R).
  exists s', (map Item (rev (it_return s))).
  assert (E : firstn (S (length (it_return s))) (map Item (rev (it_return s)) ++ repeat End (S (length (it_return s)))) = map Item (rev (it_return s)) ++ [End]).
  { rewrite firstn_app, map_length, rev_length. rewrite firstn_all2 by (rewrite map_length, rev_length; lia).
    replace (S (length (it_return s)) - length (it_return s)) with 1 by lia. reflexivity. }
  rewrite <- E. exact R.
Qed.

Section Ending.
  Variables (p : problem) (a b : nat) (d : f64).
  Hypotheses (Sd : sound p) (So : seed_ok p a b d) (W : well_behaved p d).
  (** in every phase, after enough repetitions everything is complete *)
  Hypothesis Done : forall q prev m, 1 <= q <= K -> exists R, forall s s',
    turn_of p a b d s s' -> c_prefix (it_conf s) = q -> c_prev (it_conf s) = prev -> c_prev_reps (it_conf s) = m -> R <= c_rep (it_conf s) ->
    forallb tk_is_complete (it_top s') = true.

  Lemma trace_acc s h : trace p a b d (s :: h) -> Acc (next_state p) s.
  Proof.
    assert (G : forall P s h, trace p a b d (s :: h) -> c_prefix (it_conf s) = P -> Acc (next_state p) s).
    { induction P as [P IHP] using lt_wf_ind. intros s0 h0 T0 E0.
      destruct (trace_inv p a b d _ Sd So T0) as (? & ? & Eq & I0). injection Eq as <- <-.
      destruct (Done P (c_prev (it_conf s0)) (c_prev_reps (it_conf s0))) as (R & HR); [destruct (inv_conf _ _ _ I0) as (_ & H & _); lia|].
      set (prev := c_prev (it_conf s0)) in *. set (m := c_prev_reps (it_conf s0)) in *.
      assert (G2 : forall M N s h, trace p a b d (s :: h) -> c_prefix (it_conf s) = P -> c_prev (it_conf s) = prev -> c_prev_reps (it_conf s) = m ->
                 R - c_rep (it_conf s) = M -> length (it_return s) = N -> Acc (next_state p) s).
      { induction M as [M IHM] using lt_wf_ind. induction N as [N IHN] using lt_wf_ind. intros s1 h1 T1 A1 A2 A3 A4 A5.
        destruct (trace_inv p a b d _ Sd So T1) as (? & ? & Eq & I1). injection Eq as <- <-.
        constructor. intros s2 [(Go & f & Et)|(Nr & ->)].
        - assert (B : loop_body p s1 true f = Ret (inl s2)) by (rewrite (loop_body_go p s1 f Go), Et; reflexivity).
          assert (T2 : trace p a b d (s2 :: s1 :: h1)) by (constructor; [exact T1|]; exists true, f; left; exact B).
          destruct (turn_inv p _ s1 s2 f Sd I1 Et) as (_ & _ & _ & _ & ch & Mv).
          destruct (Nat.le_gt_cases R (c_rep (it_conf s1))) as [LR|LR].
          + apply complete_acc. apply (HR s1 s2); auto. exists h1, f. auto.
          + revert Mv. set (nx := if must_stay _ then _ else _). unfold config_move. destruct (Nat.leb_spec (c_prefix (it_conf s1)) nx) as [L|L]; cbn [c_prefix];
              (destruct (0 <? _); cbn [assert_]; [|discriminate]); intros Mv; apply Ret_inj in Mv.
            * eapply (IHM (R - c_rep (it_conf s2))); try reflexivity; rewrite <- ?Mv; cbn [c_prefix c_prev c_prev_reps c_rep]; auto; [lia|]. exact T2.
            * destruct (inv_conf _ _ _ I1) as (_ & Hp & _). eapply (IHP (c_prefix (it_conf s2))); [rewrite <- Mv; cbn [c_prefix]; lia|exact T2|reflexivity].
        - destruct (pop_facts s1 Nr) as (L & C & Tp).
          eapply (IHN (length (it_return (fst (pop s1))))); [lia|..]; rewrite ?C; auto.
          constructor; [exact T1|]. exists true, 0. right. unfold loop_body. destruct (it_return s1) as [|m0 r0]; [congruence|].
          destruct (pop s1) as [s2 o]. eexists. reflexivity. }
      eapply (G2 _ _ s0 h0); eauto. }
    intros T. eapply G; eauto.
  Qed.

  Lemma ending_call s : Acc (next_state p) s -> live p a b d s -> forall cb, exists s' x, call p cb s s' x.
  Proof.
    intros A. induction A as [s _ IH]. intros L cb.
    destruct (it_return s) as [|m0 r0] eqn:Er.
    - destruct (cb 0) eqn:Ecb.
      + destruct (forallb tk_is_complete (it_top s)) eqn:Ef.
        { exists s, End. exists 0, s. split; [constructor|]. split; [lia|]. exists 0. unfold loop_body. rewrite Er, Ecb. cbn [negb]. rewrite Ef. reflexivity. }
        destruct ((p_threshold p <? it_candidates s) && p_stop p) eqn:Et.
        { destruct (emit_everything_ok p _ s (proj1 L)) as (s1 & new & E1 & _). destruct (pop s1) as [s2 o] eqn:Ep.
          exists s2, (answer_of o). exists 0, s. split; [constructor|]. split; [lia|]. exists 0. unfold loop_body. rewrite Er, Ecb, Ef, Et, E1. cbn [negb bind]. rewrite Ep. reflexivity. }
        assert (G : goes_on p s) by (split; [exact Er|split; assumption]).
        destruct (live_turn p a b d s Sd So W L) as (s1 & (f & R) & L1 & _). specialize (R f ltac:(lia)).
        destruct (IH s1) with (cb := fun j => cb (S j)) as (s' & x & (n & s2 & T & C & fu & B)); [left; eauto|exact L1|].
        exists s', x. exists (S n), s2. split; [econstructor; eauto|]. split; [intros [|j] Hj; [exact Ecb|apply C; lia]|eauto].
      + exists s, Interrupted. exists 0, s. split; [constructor|]. split; [lia|]. exists 0. unfold loop_body. rewrite Er, Ecb. reflexivity.
    - destruct (pop s) as [s2 o] eqn:Ep. exists s2, (answer_of o). exists 0, s. split; [constructor|]. split; [lia|]. exists 0.
      unfold loop_body. rewrite Er, Ep. reflexivity.
  Qed.

  Lemma call_trace s h cb s' x : trace p a b d (s :: h) -> call p cb s s' x -> exists h', trace p a b d (s' :: h').
  Proof.
    intros T (n & s2 & Tn & _ & f & B). destruct (turns_trace p a b d _ _ _ Tn _ T) as (h1 & T1).
    exists (s2 :: h1). constructor; [exact T1|]. eexists. eexists. right. eexists. exact B.
  Qed.
  Lemma call_live s cb s' x : live p a b d s -> call p cb s s' x -> live p a b d s'.
  Proof.
    intros L C. destruct (call_next _ _ _ _ _ C) as (n & R). specialize (R n ltac:(lia)).
    destruct (live_next p a b d cb s n Sd So W L) as (_ & H). eapply H; eauto.
  Qed.
  Lemma ending_returns cbs : forall s h, trace p a b d (s :: h) -> live p a b d s -> exists s' l, returns (calls p cbs s) (s', l).
  Proof.
    induction cbs as [|cb cbs IH]; intros s h T L; [exists s, []; exists 0; reflexivity|].
    destruct (ending_call s (trace_acc s h T) L cb) as (s1 & x & C). destruct (call_trace s h cb s1 x T C) as (h1 & T1).
    destruct (IH s1 h1 T1 (call_live s cb s1 x L C)) as (s2 & l & R).
    exists s2, (x :: l). eapply calls_cons; eauto.
  Qed.
  Lemma ending_exhausts s : Acc (next_state p) s -> live p a b d s -> exists n s' l, returns (calls p (repeat yes (S n)) s) (s', l ++ [End]).
  Proof.
    intros A. induction A as [s _ IH]. intros L.
    destruct (forallb tk_is_complete (it_top s)) eqn:Ef; [apply empties, Ef|].
    destruct (it_return s) as [|m0 r0] eqn:Er.
    - destruct ((p_threshold p <? it_candidates s) && p_stop p) eqn:Et.
      + destruct (emit_everything_ok p _ s (proj1 L)) as (s1 & new & E1 & I1 & R1 & C1 & _).
        destruct (empties p s1 C1) as (n & s' & l & (m & R)). specialize (R (S m) ltac:(lia)). exists n, s', l.
        apply (fmono_returns _ (S m)); [apply calls_mono|]. cbn [repeat calls] in R |- *.
        assert (Eq : next_interruptible p yes s (S m) = next_interruptible p yes s1 (S m)).
        { unfold next_interruptible. cbn [loop]. unfold loop_body, yes. rewrite Er, Ef, Et. cbn [negb]. rewrite E1. cbn [bind].
          destruct (it_return s1) as [|x t] eqn:Ex; [|reflexivity]. unfold pop. rewrite Ex. cbn [rev]. rewrite C1. reflexivity. }
        rewrite Eq. exact R.
      + assert (G : goes_on p s) by (split; [exact Er|split; assumption]).
        destruct (live_turn p a b d s Sd So W L) as (s1 & (f & R) & L1 & _). specialize (R f ltac:(lia)).
        destruct (IH s1) as (n & s' & l & R'); [left; eauto|exact L1|].
        exists n, s', l. eapply turn_then_calls; eauto.
    - pose proof (pop_inv p _ s (proj1 L)) as P. destruct (pop s) as [s2 o] eqn:Ep. cbn [fst snd] in P. destruct P as (I2 & P1 & P2 & P3 & P4 & P5).
      assert (C : call p yes s s2 (answer_of o)).
      { exists 0, s. split; [constructor|]. split; [lia|]. exists 0. unfold loop_body. rewrite Er, Ep. reflexivity. }
      destruct o as [m|]; [|destruct P1 as [P1 _]; congruence].
      destruct (IH s2) as (n & s' & l & R').
      { right. rewrite Er, Ep. split; [discriminate|reflexivity]. }
      { split; [exact I2|]. rewrite P4. apply (proj2 L). }
      exists (S n), s', (Item m :: l). cbn [app]. change (repeat yes (S (S n))) with (yes :: repeat yes (S n)). eapply calls_cons; eauto.
  Qed.

  Lemma ending_session s0 : iter_new p a b d = Ret s0 ->
    (forall cbs, exists s answers, returns (session p a b d cbs) (s, answers)) /\
    exists n s answers, returns (session p a b d (repeat (fun _ => true) n)) (s, answers ++ [End]).
  Proof.
    intros E. pose proof (live_new p a b d s0 Sd So W E) as L. pose proof (trace_new p a b d s0 E) as T. unfold session. rewrite E. cbn [bind].
    split; [intros cbs; eapply ending_returns; eauto|].
    destruct (ending_exhausts s0 (trace_acc s0 [] T) L) as (n & s' & l & R). exists (S n), s', l. exact R.
  Qed.
End Ending.

(** ** Everything with a candidate gets confirmed *)
Section Confirm.
  Variables (p : problem) (a b : nat) (d : f64).
  Hypotheses (Sd : sound p) (So : seed_ok p a b d) (W : well_behaved p d) (H1 : p_top_k p = 1) (Fa : fades p d).
  Lemma confirmed_done q prev m : 1 <= q <= K -> exists R, forall s s', turn_of p a b d s s' ->
    c_prefix (it_conf s) = q -> c_prev (it_conf s) = prev -> c_prev_reps (it_conf s) = m -> R <= c_rep (it_conf s) ->
    forall k t, nth_error (it_top s') k = Some t -> tk_top t <> [] -> tk_is_complete t = true.
  Proof.
    intros Hq. destruct (fades_all p d q prev m (extents p d) Fa Hq (incl_refl _)) as (R & HR). exists R.
    intros s s' T E1 E2 E3 LR k t Ht Ne. destruct (tk_is_complete t) eqn:Ec; [reflexivity|exfalso].
    assert (I' : inv p (Motiflet [a; b] d) s').
    { destruct T as (h & f & T & _). destruct (trace_inv p a b d _ Sd So T) as (? & ? & Eq & I). injection Eq as <- <-. exact I. }
    pose proof (proj2 (inv_queues _ _ _ I') _ _ Ht) as Qt.
    assert (Em : tk_emitted t = []).
    { pose proof (q_emitted _ _ _ _ Qt) as L. unfold tk_is_complete in Ec. apply orb_false_elim in Ec. destruct Ec as [_ Ec]. apply Nat.eqb_neq in Ec.
      rewrite (q_k _ _ _ _ Qt), H1 in L, Ec. destruct (tk_emitted t); [reflexivity|cbn in L, Ec; lia]. }
    destruct (tk_top t) as [|c rest] eqn:Et; [congruence|].
    destruct (c87_emission_stops_at_unconfirmed p a b d s s' k t c Sd So) as (u & Hu & _ & _ & Fu); auto.
    - left. lia.
    - rewrite Et. left. reflexivity.
    - rewrite Em. intros r [].
    - destruct (q_members _ _ _ _ Qt u (or_introl Hu)) as [_ Mu].
      pose proof (proj1 (q_wf _ _ _ _ Qt) u Hu) as Nu.
      unfold failure_after in Fu. rewrite E1, E2, E3 in Fu. rewrite HR in Fu; [discriminate|..].
      + eapply mine_extent; eauto.
      + eapply mine_finite; eauto.
      + lia.
  Qed.
End Confirm.

(** ** The sampled pair, or a better one, stays among the candidates *)
Lemma add_neighbourhood_improves p seed nb top : sound p -> 1 <= p_top_k p -> ids_ok p (fst nb) -> queues_ok p seed top ->
  exists top', add_neighbourhood p nb top = Ret top' /\ queues_ok p seed top' /\ improves top top'.
Proof.
  intros Sd H1 Hi Q. unfold add_neighbourhood. destruct (worth top (snd nb)); [|exists top; split; [reflexivity|]; split; [exact Q|apply improves_refl]].
  destruct (compute_extents_ok (p_zeucl p) (sound_nonneg p Sd) (fst nb) (ids_numbers p _ Sd Hi)) as (ext & E & L & M & Mono).
  rewrite E. cbn [bind]. destruct (insert_prefixes_best p seed (fst nb) ext top Sd H1 Hi L M Q) as (top' & E' & Q' & I' & _). eauto.
Qed.
Lemma add_all_improves p seed nbs : sound p -> 1 <= p_top_k p -> (forall nb, In nb nbs -> ids_ok p (fst nb)) ->
  forall top, queues_ok p seed top ->
  exists top', foreach nbs (fun nb top => add_neighbourhood p nb top) top = Ret top' /\ queues_ok p seed top' /\ improves top top'.
Proof.
  intros Sd H1. induction nbs as [|nb nbs IH]; intros H top Q; cbn [foreach]; [exists top; split; [reflexivity|]; split; [exact Q|apply improves_refl]|].
  destruct (add_neighbourhood_improves p seed nb top Sd H1 (H nb (or_introl eq_refl)) Q) as (t1 & E1 & Q1 & I1).
  rewrite E1. cbn [bind]. destruct (IH (fun x Hx => H x (or_intror Hx)) t1 Q1) as (t2 & E2 & Q2 & I2).
  exists t2. split; [exact E2|]. split; [exact Q2|eapply improves_trans; eauto].
Qed.
Lemma turn_improves p seed s s' fuel : sound p -> 1 <= p_top_k p -> inv p seed s -> turn p s fuel = Ret s' -> improves (it_top s) (it_top s').
Proof.
  intros Sd H1 I E. unfold turn in E.
  destruct (update_graph_ok p seed s Sd I) as (s1 & t & k & th & bs & pos & new & Ru & I1 & A1 & A2 & A3 & _).
  destruct (update_graph p s fuel) as [s1'| |] eqn:E1; cbn [bind] in E; try discriminate.
  pose proof (ret_returns _ _ _ _ (update_graph_mono p s) E1 Ru) as ->.
  destruct (emit_confirmed p s1) as [s2| |] eqn:E2; cbn [bind] in E; try discriminate.
  destruct (0 <? p_n p); cbn [assert_] in E; [|discriminate].
  destruct (inv_graph _ _ _ I1) as (opsx & Vx & Hx). destruct (neighborhoods_ok p opsx (it_graph s1) (p_max_k p + 1) Hx Vx) as (g2 & nbs & En & _ & Nok).
  unfold emit_confirmed in E2. rewrite En in E2. cbn [bind] in E2.
  destruct (add_all_improves p seed nbs Sd H1 Nok (it_top s1) (inv_queues _ _ _ I1)) as (top1 & Ea & Q1 & Im).
  rewrite Ea in E2. cbn [bind] in E2.
  destruct (emit_queues p (it_conf s1) top1 (it_return s1)) as [[top2 ret2]| |] eqn:Eq; cbn [bind] in E2; try discriminate.
  destruct (min_distance _) as [nx| |]; cbn [bind] in E2; try discriminate. apply Ret_inj in E2.
  assert (D : it_top s' = top2).
  { clear - E E2. unfold advance in E. destruct (next_prefix p s2); cbn [bind] in E; try discriminate.
    destruct (if c_prefix (it_conf s2) <=? _ then _ else _); cbn [bind] in E; try discriminate.
    destruct (config_move _ _); cbn [bind] in E; try discriminate. apply Ret_inj in E. subst s' s2. reflexivity. }
  rewrite D, <- A1. eapply improves_trans; [exact Im|]. intros j x B. eapply same_best; [|exact B].
  apply (emit_queues_from p seed _ _ _ _ _ Q1 Eq).
Qed.
Lemma new_seed p a b d s : sound p -> seed_ok p a b d -> 1 <= p_top_k p -> iter_new p a b d = Ret s -> best_below (it_top s) 2 d.
Proof.
  intros Sd So H1 E. pose proof So as (_ & _ & _ & Nd). unfold iter_new in E.
  destruct (add_repetitions p [] 1 K) as [t0| |]; cbn [bind] in E; try discriminate.
  destruct (add_repetitions p t0 _ K) as [t1| |]; cbn [bind] in E; try discriminate.
  destruct (calibration_prefix (p_expected p)) as [?| |]; cbn [bind] in E; try discriminate.
  destruct (first_meaningful_prefix (p_expected p)) as [q0| |] eqn:Eq; cbn [bind] in E; try discriminate.
  destruct (0 <? q0); cbn [assert_] in E; [|discriminate].
  destruct (p_max_k p) as [|[|K2]] eqn:Ek; [discriminate|discriminate|]. replace (S (S K2) + 1) with (S (S (S K2))) in E by lia.
  cbn [repeat] in E. unfold get, put in E. cbn [nth_error bind set_nth option_map] in E.
  destruct (tk_insert (tk_new (p_top_k p) (p_ez p)) (Motiflet [a; b] d)) as [t2| |] eqn:E2; cbn [bind] in E; try discriminate.
  apply Ret_inj in E. subst s. cbn [it_top nth_error]. intros t Ht _. injection Ht as <-.
  destruct (insert_ok (tk_new (p_top_k p) (p_ez p)) (Motiflet [a; b] d) (wf_new _ _) Nd) as (t3 & E3 & _ & _ & _ & _ & _ & _ & [(_ & [C|C])|(_ & _ & _ & top & Eb & _ & Et)]).
  - unfold tk_is_complete in C. cbn in C. destruct (p_top_k p); [lia|discriminate].
  - unfold beyond_last in C. cbn [tk_new tk_top rev] in C. rewrite andb_false_r in C. discriminate.
  - rewrite E2 in E3. apply Ret_inj in E3. subst t3. cbn in Eb. apply Ret_inj in Eb. subst top. rewrite Et. cbn [length].
    destruct (Nat.ltb_spec (tk_threshold (tk_new (p_top_k p) (p_ez p))) 1) as [L|_]; [cbn in L; nia|].
    exists (Motiflet [a; b] d), []. split; [reflexivity|apply fle_refl, Nd].
Qed.
Lemma trace_seed p a b d h : sound p -> seed_ok p a b d -> 1 <= p_top_k p -> trace p a b d h -> exists s l, h = s :: l /\ best_below (it_top s) 2 d.
Proof.
  intros Sd So H1 T. induction T as [s E|s s' l T IH St].
  - exists s, []. split; [reflexivity|]. eapply new_seed; eauto.
  - destruct IH as (s0 & l0 & Eq & B). injection Eq as <- <-. exists s', (s :: l). split; [reflexivity|].
    destruct (trace_inv p a b d _ Sd So T) as (s0 & l0 & Eq & I). injection Eq as <- <-.
    destruct (step_view p s s' St) as [(f & G & Et)|[(Tp & _)|(_ & _ & _ & _ & s1 & Ee & Tp & _)]].
    + apply (turn_improves p _ s s' f Sd H1 I Et), B.
    + rewrite Tp. exact B.
    + destruct (emit_everything_from p _ s s1 I Ee) as (_ & Dis). rewrite <- Tp in Dis. apply closed_best, Dis.
Qed.

(** an incomplete queue is fresh *)
Lemma open_fresh p a b d k t : p_top_k p = 1 -> queue_ok p (Motiflet [a; b] d) k t -> tk_is_complete t = false -> fresh t.
Proof.
  intros H1 Qt Ec. pose proof (q_emitted _ _ _ _ Qt) as L. unfold tk_is_complete in Ec. apply orb_false_elim in Ec. destruct Ec as [Ed Ec]. apply Nat.eqb_neq in Ec.
  rewrite (q_k _ _ _ _ Qt), H1 in L, Ec. split; [|exact Ed]. destruct (tk_emitted t); [reflexivity|cbn in L, Ec; lia].
Qed.
Lemma best_nonempty p a b d top k x : p_top_k p = 1 -> queues_ok p (Motiflet [a; b] d) top -> best_below top k x ->
  forall t, nth_error top k = Some t -> (tk_top t <> [] -> tk_is_complete t = true) -> tk_is_complete t = true.
Proof.
  intros H1 Q B t Ht H. destruct (tk_is_complete t) eqn:Ec; [reflexivity|].
  destruct (B t Ht) as (m & rest & E & _); [eapply open_fresh; eauto; apply (proj2 Q), Ht|]. apply H. rewrite E. discriminate.
Qed.
