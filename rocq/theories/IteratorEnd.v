From Coq Require Import Floats.SpecFloat Permutation.
From Verif Require Import Base F64 HashValue HashSpec Overlaps OverlapsSpec Enumerator EnumSpec Moves MovesProofs
  Profile Brute BruteSpec TopK TopKSpec TopKProofs Graph GraphSpec GraphProofs Iterator IteratorSpec IteratorProofs IteratorLoop IteratorCalls IteratorSteps.

(** ** Runs that end *)
Lemma count_heads_all n : forall coin i, (forall j, coin j = true) -> count_heads coin i n = n.
Proof. induction n as [|n IH]; intros coin i H; [reflexivity|]. cbn [count_heads]. rewrite (H i), IH by exact H. reflexivity. Qed.
Lemma count_all_heads coin batches : (forall i j, coin i j = true) -> forall i, count_all coin i batches = length (concat batches).
Proof.
  intros H. induction batches as [|b l IH]; intros i; [reflexivity|]. cbn [count_all concat]. rewrite app_length, IH, count_heads_all; auto.
Qed.

(** a turn in a repetition that is new for this prefix evaluates something *)
Lemma turn_progress p seed s s' fuel : sound p -> fruitful p -> (forall c i j, p_coin p c i j = true) -> inv p seed s -> turn p s fuel = Ret s' ->
  it_candidates s <= it_candidates s' /\ (c_check (it_conf s) = false -> it_candidates s < it_candidates s') /\
  exists nx, config_move (it_conf s) nx = Ret (it_conf s').
Proof.
  intros Sd Fr Co I E. destruct (turn_inv p seed s s' fuel Sd I E) as (_ & Mo & _ & _ & ch & Mv).
  split; [exact Mo|]. split; [|eauto]. intros Ck. unfold turn in E.
  destruct (update_graph_ok p seed s Sd I) as (s1 & t & k & th & bs & pos & new & R & I1 & A1 & A2 & A3 & A4 & Tt & Tk & Lk & _ & _ & NDp & Ch & F2 & A5 & _).
  destruct (update_graph p s fuel) as [s1'| |] eqn:E1; cbn [bind] in E; try discriminate.
  pose proof (ret_returns _ _ _ _ (update_graph_mono p s) E1 R) as ->.
  destruct (emit_confirmed_ok p seed s1 Sd I1) as (s2 & new2 & E2 & I2 & B1 & B2 & B3 & B4 & B5). rewrite E2 in E. cbn [bind] in E.
  destruct (0 <? p_n p); cbn [assert_] in E; [|discriminate].
  destruct (advance_inv p seed s2 s' I2 E) as (I3 & C1 & C2 & C3 & _).
  rewrite C3, B4, A5, count_all_heads, <- (Forall2_len _ _ _ F2) by auto.
  destruct (inv_conf _ _ _ I) as (_ & Hp & _).
  destruct (Fr (c_rep (it_conf s)) k (c_prefix (it_conf s)) ltac:(lia) ltac:(lia)) as (x & y & Hc & Hl & Ht). rewrite <- Tk in Hc, Hl, Ht.
  assert (In (x, y) pos) as Hin.
  { apply Ch. split; [exact Hc|]. split; [exact Hl|]. split; [|exact Ht]. intros (H & _). congruence. }
  destruct pos; [destruct Hin|]. cbn [length]. lia.
Qed.

Definition left_here (p : problem) (s : iter) : nat :=
  (match c_prev_reps (it_conf s) with Some r => r | None => 0 end - c_rep (it_conf s)) + (p_threshold p + 1 - it_candidates s).
Lemma turn_measure p seed s s' fuel : sound p -> fruitful p -> (forall c i j, p_coin p c i j = true) -> p_stop p = true -> inv p seed s -> goes_on p s ->
  turn p s fuel = Ret s' ->
  c_prefix (it_conf s') < c_prefix (it_conf s) \/ (c_prefix (it_conf s') = c_prefix (it_conf s) /\ left_here p s' < left_here p s).
Proof.
  intros Sd Fr Co Hs I (_ & _ & G) E. destruct (turn_progress p seed s s' fuel Sd Fr Co I E) as (M1 & M2 & nx & Mv).
  rewrite Hs, andb_true_r in G. apply Nat.ltb_ge in G. destruct (inv_conf _ _ _ I) as (_ & Hp & _).
  unfold config_move in Mv. destruct (Nat.leb_spec (c_prefix (it_conf s)) nx) as [L|L]; cbn [c_prefix] in Mv.
  - destruct (0 <? _); cbn [assert_] in Mv; [|discriminate]. apply Ret_inj in Mv. rewrite <- Mv. cbn [c_prefix]. right. split; [reflexivity|].
    unfold left_here. rewrite <- Mv. cbn [c_prev_reps c_rep]. unfold c_check in M2.
    destruct (Nat.ltb_spec (c_rep (it_conf s)) (match c_prev_reps (it_conf s) with Some r => r | None => 0 end)) as [Lr|Lr]; [lia|].
    specialize (M2 eq_refl). lia.
  - destruct (0 <? _); cbn [assert_] in Mv; [|discriminate]. apply Ret_inj in Mv. rewrite <- Mv. cbn [c_prefix]. left. lia.
Qed.

(** induction on what is left to do *)
Lemma search_ind p (Q : iter -> Prop) :
  (forall s, (forall s', c_prefix (it_conf s') < c_prefix (it_conf s) \/
                (c_prefix (it_conf s') = c_prefix (it_conf s) /\ (left_here p s' < left_here p s \/
                   (left_here p s' = left_here p s /\ length (it_return s') < length (it_return s)))) -> Q s') -> Q s) ->
  forall s, Q s.
Proof.
  intros H.
  assert (G : forall P M R s, c_prefix (it_conf s) = P -> left_here p s = M -> length (it_return s) = R -> Q s).
  { induction P as [P IH1] using lt_wf_ind. induction M as [M IH2] using lt_wf_ind. induction R as [R IH3] using lt_wf_ind.
    intros s <- <- <-. apply H. intros s' [L|(E & [L|(E2 & L)])].
    - eapply IH1; eauto.
    - eapply IH2; eauto.
    - eapply IH3; eauto. }
  intros s. eapply G; reflexivity.
Qed.

Section Ends.
  Variables (p : problem) (a b : nat) (d : f64).
  Hypotheses (Sd : sound p) (So : seed_ok p a b d) (W : well_behaved p d) (Fr : fruitful p)
    (Co : forall c i j, p_coin p c i j = true) (Hs : p_stop p = true).

  Lemma live_call s : live p a b d s -> forall cb, exists s' x, call p cb s s' x.
  Proof.
    induction s as [s IH] using (search_ind p). intros L cb.
    destruct (it_return s) as [|m0 r0] eqn:Er.
    - destruct (cb 0) eqn:Ecb.
      + destruct (forallb tk_is_complete (it_top s)) eqn:Ef.
        { exists s, End. exists 0, s. split; [constructor|]. split; [lia|]. exists 0. unfold loop_body. rewrite Er, Ecb. cbn [negb]. rewrite Ef. reflexivity. }
        destruct ((p_threshold p <? it_candidates s) && p_stop p) eqn:Et.
        { destruct (emit_everything_ok p _ s (proj1 L)) as (s1 & new & E1 & _). destruct (pop s1) as [s2 o] eqn:Ep.
          exists s2, (answer_of o). exists 0, s. split; [constructor|]. split; [lia|]. exists 0. unfold loop_body. rewrite Er, Ecb, Ef, Et, E1. cbn [negb bind]. rewrite Ep. reflexivity. }
        assert (G : goes_on p s) by (split; [exact Er|split; assumption]).
        destruct (live_turn p a b d s Sd So W L) as (s1 & (f & R) & L1 & _). specialize (R f ltac:(lia)).
        destruct (IH s1) with (cb := fun j => cb (S j)) as (s' & x & (n & s2 & T & C & fu & B)).
        { destruct (turn_measure p _ s s1 f Sd Fr Co Hs (proj1 L) G R) as [|[E1 E2]]; auto. }
        { exact L1. }
        exists s', x. exists (S n), s2. split; [econstructor; eauto|]. split; [intros [|j] Hj; [exact Ecb|apply C; lia]|eauto].
      + exists s, Interrupted. exists 0, s. split; [constructor|]. split; [lia|]. exists 0. unfold loop_body. rewrite Er, Ecb. reflexivity.
    - destruct (pop s) as [s2 o] eqn:Ep. exists s2, (answer_of o). exists 0, s. split; [constructor|]. split; [lia|]. exists 0.
      unfold loop_body. rewrite Er, Ep. reflexivity.
  Qed.
  Lemma live_call_live s cb s' x : live p a b d s -> call p cb s s' x -> live p a b d s'.
  Proof.
    intros L C. destruct (call_next _ _ _ _ _ C) as (n & R). specialize (R n ltac:(lia)).
    destruct (live_next p a b d cb s n Sd So W L) as (_ & H). eapply H; eauto.
  Qed.
  Lemma live_returns cbs : forall s, live p a b d s -> exists s' l, returns (calls p cbs s) (s', l).
  Proof.
    induction cbs as [|cb cbs IH]; intros s L; [exists s, []; exists 0; reflexivity|].
    destruct (live_call s L cb) as (s1 & x & C). destruct (IH s1 (live_call_live s cb s1 x L C)) as (s2 & l & R).
    exists s2, (x :: l). eapply calls_cons; eauto.
  Qed.

  Lemma calls_after_turn s s1 n s' l : goes_on p s -> (exists f, turn p s f = Ret s1) ->
    returns (calls p (repeat yes (S n)) s1) (s', l) -> returns (calls p (repeat yes (S n)) s) (s', l).
  Proof.
    intros G T (m & R). specialize (R m ltac:(lia)). cbn [repeat] in *. destruct (calls_split _ _ _ _ _ _ _ R) as (s2 & x & l' & C & E & ->).
    apply (calls_cons p yes _ s s2 x s' l').
    - destruct C as (q & s3 & T' & _ & f & B). exists (S q), s3. split; [econstructor; eauto|]. split; [reflexivity|]. exists f. exact B.
    - apply (fmono_returns _ m); [apply calls_mono|exact E].
  Qed.
  Lemma drained s : forallb tk_is_complete (it_top s) = true ->
    exists n s' l, returns (calls p (repeat yes (S n)) s) (s', l ++ [End]).
  Proof.
    intros C. exists (length (it_return s)). destruct (drain p (S (length (it_return s))) s C) as (s' & R).
    exists s', (map Item (rev (it_return s))).
    assert (E : firstn (S (length (it_return s))) (map Item (rev (it_return s)) ++ repeat End (S (length (it_return s)))) = map Item (rev (it_return s)) ++ [End]).
    { rewrite firstn_app, map_length, rev_length. rewrite firstn_all2 by (rewrite map_length, rev_length; lia).
      replace (S (length (it_return s)) - length (it_return s)) with 1 by lia. reflexivity. }
    rewrite <- E. exact R.
  Qed.
  Lemma exhausts s : live p a b d s -> exists n s' l, returns (calls p (repeat yes (S n)) s) (s', l ++ [End]).
  Proof.
    induction s as [s IH] using (search_ind p). intros L.
    destruct (forallb tk_is_complete (it_top s)) eqn:Ef; [apply drained, Ef|].
    destruct (it_return s) as [|m0 r0] eqn:Er.
    - destruct ((p_threshold p <? it_candidates s) && p_stop p) eqn:Et.
      + destruct (emit_everything_ok p _ s (proj1 L)) as (s1 & new & E1 & I1 & R1 & C1 & _).
        destruct (drained s1 C1) as (n & s' & l & (m & R)). specialize (R (S m) ltac:(lia)). exists n, s', l.
        apply (fmono_returns _ (S m)); [apply calls_mono|]. cbn [repeat calls] in R |- *.
        assert (Eq : next_interruptible p yes s (S m) = next_interruptible p yes s1 (S m)).
        { unfold next_interruptible. cbn [loop]. unfold loop_body, yes. rewrite Er, Ef, Et. cbn [negb]. rewrite E1. cbn [bind].
          destruct (it_return s1) as [|x t] eqn:Ex; [|reflexivity]. unfold pop. rewrite Ex. cbn [rev]. rewrite C1. reflexivity. }
        rewrite Eq. exact R.
      + assert (G : goes_on p s) by (split; [exact Er|split; assumption]).
        destruct (live_turn p a b d s Sd So W L) as (s1 & (f & R) & L1 & _). specialize (R f ltac:(lia)).
        destruct (IH s1) as (n & s' & l & R').
        { destruct (turn_measure p _ s s1 f Sd Fr Co Hs (proj1 L) G R) as [|[E1 E2]]; auto. }
        { exact L1. }
        exists n, s', l. eapply calls_after_turn; eauto.
    - pose proof (pop_inv p _ s (proj1 L)) as P. destruct (pop s) as [s2 o] eqn:Ep. cbn [fst snd] in P. destruct P as (I2 & P1 & P2 & P3 & P4 & P5).
      assert (C : call p yes s s2 (answer_of o)).
      { exists 0, s. split; [constructor|]. split; [lia|]. exists 0. unfold loop_body. rewrite Er, Ep. reflexivity. }
      destruct o as [m|]; [|destruct P1 as [P1 _]; congruence]. destruct P1 as [P1 _].
      destruct (IH s2) as (n & s' & l & R').
      { right. split; [congruence|]. right. unfold left_here. rewrite P4, P5. split; [reflexivity|]. rewrite <- Er, P1, app_length. cbn [length]. lia. }
      { split; [exact I2|]. rewrite P4. apply (proj2 L). }
      exists (S n), s', (Item m :: l). cbn [app]. change (repeat yes (S (S n))) with (yes :: repeat yes (S n)). eapply calls_cons; eauto.
  Qed.
End Ends.

(** ** Runs that do not end *)
Definition no_support (p : problem) (k : nat) : Prop :=
  forall l, length l = k -> (forall i, In i l -> indexed p i) -> ~ pairwise_apart (p_ez p) l.
Lemma never_complete p a b d h k : sound p -> seed_ok p a b d -> p_stop p = false -> 0 < p_top_k p -> 2 < k <= p_max_k p -> no_support p k ->
  trace p a b d h -> exists s l, h = s :: l /\ forallb tk_is_complete (it_top s) = false.
Proof.
  intros Sd So Hs Hk Lk Ns T.
  assert (Fl : exists s l, h = s :: l /\ forall t, nth_error (it_top s) k = Some t -> tk_disabled t = false).
  { clear - T Hs Lk. induction T as [s E|s s' l T IH St].
    - exists s, []. split; [reflexivity|]. intros t. apply (new_disabled p a b d s E). lia.
    - destruct IH as (s0 & l0 & Eq & H). injection Eq as <- <-. exists s', (s :: l). split; [reflexivity|]. intros t Ht.
      pose proof (step_disabled p s s' Hs St) as M.
      assert (E : nth_error (map tk_disabled (it_top s)) k = Some (tk_disabled t)) by (rewrite <- M, nth_error_map, Ht; reflexivity).
      rewrite nth_error_map in E. destruct (nth_error (it_top s) k) as [t0|] eqn:E0; [|discriminate]. cbn in E. injection E as <-. apply H. reflexivity. }
  destruct (trace_inv p a b d h Sd So T) as (s & l & -> & I). destruct Fl as (s0 & l0 & Eq & Fl). injection Eq as <- <-.
  exists s, l. split; [reflexivity|]. destruct (forallb tk_is_complete (it_top s)) eqn:E; [|reflexivity]. exfalso.
  destruct (inv_queues _ _ _ I) as [Lt Q]. destruct (nth_error (it_top s) k) as [t|] eqn:Et; [|apply nth_error_None in Et; lia].
  rewrite forallb_forall in E. specialize (E t (nth_error_In _ _ Et)). unfold tk_is_complete in E. rewrite (Fl t eq_refl) in E. cbn [orb] in E.
  apply Nat.eqb_eq in E. destruct (Q k t Et) as [_ Qk _ _ Qm _ _ _]. destruct (tk_emitted t) as [|m r]; [cbn in E; lia|].
  destruct (Qm m (or_intror (or_introl eq_refl))) as (Lm & [(_ & V2 & V3 & _)| ->]); [|cbn in Lm; lia].
  apply (Ns (ml_indices m) Lm V2 V3).
Qed.
