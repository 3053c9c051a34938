(** C87: nothing confirmed is held back. *)
From Coq Require Import Floats.SpecFloat.
From Verif Require Import Base F64 HashValue Overlaps OverlapsSpec OverlapsProofs Enumerator EnumSpec Moves MovesProofs
  TopK TopKSpec TopKProofs Graph GraphSpec GraphProofs GraphFlagProofs
  Iterator IteratorSpec IteratorProofs IteratorLoop IteratorCalls IteratorSteps P_Iterator P_Iterator2 GuaranteeSpec GuaranteeProofs GuaranteeTrace P_Guarantee.

(** every candidate left overlaps one that was emitted, or comes after one that is not confirmed *)
Definition drained (ez : nat) (pr : f64 -> bool) (t : topk) : Prop :=
  tk_is_complete t = false -> forall z, In z (tk_top t) ->
    (exists r, In r (tk_emitted t) /\ conflicting ez z r) \/
    (exists u, In u (tk_top t) /\ pr (ml_extent u) = false /\ (forall r, In r (tk_emitted t) -> ~ conflicting ez u r) /\
       fle (ml_extent u) (ml_extent z) = true).

Lemma after_le l u a b z : by_extent l -> l = a ++ u :: b -> In z b -> fle (ml_extent u) (ml_extent z) = true.
Proof.
  intros S -> Hz. assert (S2 : by_extent (u :: b)).
  { clear - S. induction a as [|x a IH]; [exact S|]. apply StronglySorted_inv in S. apply IH, S. }
  apply StronglySorted_inv in S2. destruct S2 as [_ F]. rewrite Forall_forall in F. apply flt_fle, F, Hz.
Qed.

Lemma emit_drained p a b d k t pr t' out : 0 < p_ez p -> p_top_k p <= 1 \/ ties_overlap p a b d -> queue_ok p (Motiflet [a; b] d) k t ->
  tk_emit t pr = Ret (t', out) -> drained (p_ez p) pr t'.
Proof.
  intros Hez NT [W A B C D _ _ AP] E Nc z Hz. pose proof W as (N1 & S1 & N2 & S2 & _).
  unfold tk_emit in E. destruct (emit_loop _ _ _ _ _ _ _) as [[[em' out'] sn']| |] eqn:El; cbn [bind] in E; try discriminate.
  apply Ret_inj in E. injection E as <- <-. cbn [tk_emitted tk_top tk_is_complete tk_k tk_disabled] in *.
  unfold tk_is_complete in Nc. cbn [tk_disabled tk_emitted tk_k] in Nc. apply orb_false_elim in Nc. destruct Nc as [_ Nc]. apply Nat.eqb_neq in Nc.
  destruct NT as [L1|NT].
  - destruct (tk_emitted t) as [|x em] eqn:Ee.
    + destruct (tk_top t) as [|m l] eqn:Et; [destruct Hz|]. cbn [emit_loop length] in El. rewrite A in El, C, Nc.
      destruct (p_top_k p) as [|[|q]]; [| |lia].
      { cbn [Nat.leb] in El. apply Ret_inj in El. injection El as <- _ _. cbn in Nc. lia. }
      cbn [Nat.leb ml_overlaps_iter existsb] in El. destruct (pr (ml_extent m)) eqn:Pm.
      * cbn [bt_insert bind] in El. destruct l; cbn [emit_loop length Nat.leb] in El; apply Ret_inj in El; injection El as <- _ _; cbn in Nc; lia.
      * apply Ret_inj in El. injection El as <- _ _. right. exists m. split; [left; reflexivity|]. split; [exact Pm|]. split; [intros r []|].
        apply sorted_head_le with (l := l); auto.
    + destruct em; cbn [length] in C; [|lia]. assert (K1 : tk_k t = 1) by lia. rewrite K1 in El. destruct (tk_top t) as [|m l]; [destruct Hz|].
      cbn [emit_loop length Nat.leb] in El. apply Ret_inj in El. injection El as <- _ _. cbn in Nc. lia.
  - set (U := fun m => In m (tk_top t) \/ In m (tk_emitted t)).
    assert (Hl : forall m, mine p (Motiflet [a; b] d) m -> 2 <= length (ml_indices m)) by (intros m [(V & _)| ->]; [lia|cbn; lia]).
    assert (Hap : apart_list (p_ez p) (tk_emitted t)) by (apply AP; [exact Hez|]; split; [cbn; lia|right; exact NT]).
    rewrite A, B in El.
    destruct (emit_loop_clean (p_top_k p) (p_ez p) U Hez) with (p := pr) (l := tk_top t) (em := tk_emitted t) (out := @nil motiflet) (sned := tk_sned t) (em' := em') (out' := out') (sned' := sn')
      as (new & _ & _ & _ & _ & _ & Le & F & _); auto.
    + intros m Hm Em. destruct (D m Hm) as [_ M]. apply Hl in M. rewrite Em in M. cbn in M. lia.
    + intros m [Hm|Hm]; [apply N1, Hm|apply N2, Hm].
    + intros x y Hx Hy. destruct (D x Hx) as [L1 M1], (D y Hy) as [L2 M2]. apply NT; auto. congruence.
    + intros x Hx. left. exact Hx.
    + intros x Hx. right. exact Hx.
    + rewrite <- A. exact C.
    + rewrite A in Nc. destruct (F ltac:(lia) z Hz) as [H|(u & Hu & _ & Pu & Cu & Lu)]; [left; exact H|right].
      exists u. split; [exact Hu|]. split; [exact Pu|]. split; [exact Cu|].
      destruct Lu as [->|(x & y & El' & Hy)]; [apply fle_refl, N1, Hu|]. exact (after_le _ u x y z S1 El' Hy).
Qed.

Lemma emit_queues_drained p a b d c top ret top' ret' : 0 < p_ez p -> p_top_k p <= 1 \/ ties_overlap p a b d ->
  queues_ok p (Motiflet [a; b] d) top -> emit_queues p c top ret = Ret (top', ret') ->
  forall k t, nth_error top' k = Some t -> drained (p_ez p) (confirmed p c) t.
Proof.
  intros Hez NT Q E. unfold emit_queues in E. set (seed := Motiflet [a; b] d) in *.
  match type of E with foreach ?l ?body ?s = _ =>
    destruct (foreach_inv body (fun pre (st : list topk * list motiflet) => queues_ok p seed (fst st) /\
      forall k t, In k pre -> nth_error (fst st) k = Some t -> drained (p_ez p) (confirmed p c) t) l s) as ((tp & rt) & E' & Q' & D')
  end.
  - cbn [fst]. split; [exact Q|intros k t []].
  - intros pre k post (tp & rt) El (Q1 & D1). cbn [fst snd] in *.
    assert (Hin : In k (seq 0 (p_max_k p + 1))) by (rewrite El; apply in_elt). apply in_seq in Hin.
    destruct (queues_get p seed tp k Q1 ltac:(lia)) as (t & Eg & Ent & Qt). rewrite Eg. cbn [bind].
    destruct (tk_is_complete t) eqn:Ic.
    { exists (tp, rt). split; [reflexivity|]. cbn [fst snd]. split; [exact Q1|]. intros j x Hj Hx. apply in_app_or in Hj. destruct Hj as [Hj|[<-|[]]]; [eauto|].
      rewrite Ent in Hx. injection Hx as <-. intros C. congruence. }
    destruct (queue_emit p seed k t (confirmed p c) Qt) as (t' & out & Et & Qt' & _). rewrite Et. cbn [bind].
    destruct (queues_put p seed tp k t' Q1) as (tp' & Ep & Q2 & Pp); [destruct Q1; lia|exact Qt'|]. rewrite Ep. cbn [bind].
    exists (tp', rt ++ out). split; [reflexivity|]. cbn [fst snd]. split; [exact Q2|]. intros j x Hj Hx. rewrite Pp in Hx.
    destruct (Nat.eqb_spec j k) as [->|Nj]; [injection Hx as <-; exact (emit_drained p a b d k t _ t' out Hez NT Qt Et)|].
    apply in_app_or in Hj. destruct Hj as [Hj|[Hj|[]]]; [eauto|exfalso; apply Nj; symmetry; exact Hj].
  - rewrite E in E'. apply Ret_inj in E'. injection E' as <- <-. cbn [fst snd] in *. intros k t Ht. apply (D' k t); [|exact Ht].
    apply in_seq. assert (k < length top') by (apply nth_error_Some; congruence). destruct Q' as [L _]. lia.
Qed.

Lemma turn_drained p a b d s s' : sound p -> seed_ok p a b d -> p_top_k p <= 1 \/ ties_overlap p a b d -> turn_of p a b d s s' ->
  forall k t, nth_error (it_top s') k = Some t -> drained (p_ez p) (confirmed p (it_conf s)) t.
Proof.
  intros Sd So NT (h & fuel & T & B). inversion T as [|s0 s1 l T' St]; subst.
  destruct (trace_inv p a b d _ Sd So T') as (s0 & l0 & Eq & I). injection Eq as <- <-.
  destruct (loop_body_inl _ _ _ _ _ B) as (_ & _ & E). unfold turn in E.
  destruct (update_graph_ok p _ s Sd I) as (s1 & t & k & th & bs & pos & new & Ru & I1 & A1 & A2 & A3 & _).
  destruct (update_graph p s fuel) as [s1'| |] eqn:E1; cbn [bind] in E; try discriminate.
  pose proof (ret_returns _ _ _ _ (update_graph_mono p s) E1 Ru) as ->.
  destruct (emit_confirmed p s1) as [s2| |] eqn:E2; cbn [bind] in E; try discriminate.
  destruct (0 <? p_n p); cbn [assert_] in E; [|discriminate].
  destruct (inv_graph _ _ _ I1) as (opsx & Vx & Hx). destruct (neighborhoods_ok p opsx (it_graph s1) (p_max_k p + 1) Hx Vx) as (g2 & nbs & En & _ & Nok).
  unfold emit_confirmed in E2. rewrite En in E2. cbn [bind] in E2.
  destruct (add_all_ok p (Motiflet [a; b] d) nbs Sd Nok (it_top s1) (inv_queues _ _ _ I1)) as (top1 & Ea & Q1 & _).
  rewrite Ea in E2. cbn [bind] in E2.
  destruct (emit_queues p (it_conf s1) top1 (it_return s1)) as [[top2 ret2]| |] eqn:Eq; cbn [bind] in E2; try discriminate.
  destruct (min_distance _) as [nx| |]; cbn [bind] in E2; try discriminate. apply Ret_inj in E2.
  assert (D : it_top s' = top2).
  { clear - E E2. unfold advance in E. destruct (next_prefix p s2); cbn [bind] in E; try discriminate.
    destruct (if c_prefix (it_conf s2) <=? _ then _ else _); cbn [bind] in E; try discriminate.
    destruct (config_move _ _); cbn [bind] in E; try discriminate. apply Ret_inj in E. subst s' s2. reflexivity. }
  rewrite D, <- A3. apply (emit_queues_drained p a b d _ _ _ _ _ (sound_zone _ Sd) NT Q1 Eq).
Qed.

(** * C87: nothing confirmed is held back *)
(** After a turn, for a support still to be completed: if a candidate overlaps none of those
    emitted, then some candidate that is at least as good, and overlaps none of those emitted
    either, is not confirmed. *)
Theorem c87_emission_stops_at_unconfirmed :
  forall (p : problem) (a b : nat) (d : f64) (s s' : iter) (k : nat) (queue : topk) (c : motiflet),
    sound p -> seed_ok p a b d -> p_top_k p <= 1 \/ ties_overlap p a b d ->
    turn_of p a b d s s' ->
    nth_error (it_top s') k = Some queue -> tk_is_complete queue = false ->
    In c (tk_top queue) -> (forall r, In r (tk_emitted queue) -> ~ conflicting (p_ez p) c r) ->
    exists u, In u (tk_top queue) /\ fle (ml_extent u) (ml_extent c) = true /\
      (forall r, In r (tk_emitted queue) -> ~ conflicting (p_ez p) u r) /\
      flt (failure_after p s (ml_extent u)) (p_delta p) = false.
Proof.
  intros p a b d s s' k queue c Sd So NT T Hq Nc Hc Hr.
  destruct (turn_drained p a b d s s' Sd So NT T k queue Hq Nc c Hc) as [(r & H1 & H2)|(u & Hu & Pu & Cu & Lu)]; [destruct (Hr r H1 H2)|].
  exists u. auto.
Qed.
Print Assumptions c87_emission_stops_at_unconfirmed.

(** So it is not confirmed itself, if closer candidates are confirmed whenever farther ones are (see C43). *)
Theorem c87_nothing_held_back :
  forall (p : problem) (a b : nat) (d : f64) (s s' : iter) (k : nat) (queue : topk) (c : motiflet),
    sound p -> seed_ok p a b d -> p_top_k p <= 1 \/ ties_overlap p a b d ->
    (forall e e', fle e e' = true -> flt (failure_after p s e') (p_delta p) = true -> flt (failure_after p s e) (p_delta p) = true) ->
    turn_of p a b d s s' ->
    nth_error (it_top s') k = Some queue -> tk_is_complete queue = false ->
    In c (tk_top queue) -> (forall r, In r (tk_emitted queue) -> ~ conflicting (p_ez p) c r) ->
    flt (failure_after p s (ml_extent c)) (p_delta p) = false.
Proof.
  intros p a b d s s' k queue c Sd So NT Mo T Hq Nc Hc Hr.
  destruct (c87_emission_stops_at_unconfirmed p a b d s s' k queue c Sd So NT T Hq Nc Hc Hr) as (u & _ & L & _ & F).
  destruct (flt (failure_after p s (ml_extent c)) (p_delta p)) eqn:Ec; [|reflexivity]. rewrite (Mo _ _ L Ec) in F. discriminate.
Qed.
Print Assumptions c87_nothing_held_back.

(** in the first turn of the toy search, nothing is confirmed yet: the candidates wait *)
Example c87_case : sound toy /\ seed_ok toy 4 8 (fl 2) /\ p_top_k toy <= 1 /\
  exists s s' queue, turn_of toy 4 8 (fl 2) s s' /\
    (forall e e', fle e e' = true -> flt (failure_after toy s e') (p_delta toy) = true -> flt (failure_after toy s e) (p_delta toy) = true) /\
    nth_error (it_top s') 3 = Some queue /\ tk_is_complete queue = false /\
    In (Motiflet [0; 4; 8] (fl 3)) (tk_top queue) /\ tk_emitted queue = [].
Proof.
  split; [exact toy_sound|]. split; [exact toy_seed|]. split; [cbn; lia|].
  assert (E : exists s0 sa q, iter_new toy 4 8 (fl 2) = Ret s0 /\ loop_body toy s0 true 30 = Ret (inl sa) /\ nth_error (it_top sa) 3 = Some q /\
     tk_is_complete q = false /\ In (Motiflet [0; 4; 8] (fl 3)) (tk_top q) /\ tk_emitted q = []).
  { eexists. eexists. eexists. split; [vm_compute; reflexivity|]. split; [vm_compute; reflexivity|]. split; [reflexivity|]. split; [reflexivity|]. split; [left; reflexivity|reflexivity]. }
  destruct E as (s0 & sa & q & E0 & Ea & R). exists s0, sa, q. split; [|split; [|exact R]].
  - exists [], 30. split; [|exact Ea]. apply trace_step; [apply trace_new; exact E0|exists true, 30; left; exact Ea].
  - intros e e' _ H. exact H.
Qed.
