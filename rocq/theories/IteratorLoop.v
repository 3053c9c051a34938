(** Lemmas about the main loop of the iterator. *)
From Coq Require Import Floats.SpecFloat Permutation.
From Verif Require Import Base F64 HashValue HashSpec Overlaps OverlapsSpec OverlapsProofs Enumerator EnumSpec EnumProofs
  Moves Profile ProfileProofs Brute BruteSpec BruteProofs TopK TopKSpec TopKProofs Graph GraphSpec GraphProofs GraphFlagProofs
  Iterator IteratorSpec IteratorProofs.

Lemma ret_returns {A} (f : nat -> res A) n x y : fmono f -> f n = Ret x -> returns f y -> x = y.
Proof.
  intros M E (n0 & R). specialize (R (n + n0) ltac:(lia)). rewrite (M n (n + n0)), E in R by (lia || congruence). congruence.
Qed.
Lemma panic_returns {A} (f : nat -> res A) n y : fmono f -> f n = Panic -> returns f y -> False.
Proof.
  intros M E (n0 & R). specialize (R (n + n0) ltac:(lia)). rewrite (M n (n + n0)), E in R by (lia || congruence). congruence.
Qed.

Lemma turn_mono p s : fmono (turn p s).
Proof.
  unfold turn. apply (fmono_bind (update_graph p s) (fun n s => let! s := emit_confirmed p s in assert_ (0 <? p_n p) (advance p s))); [apply update_graph_mono|].
  intros s1. apply fmono_const.
Qed.
Lemma loop_body_mono p s go : fmono (loop_body p s go).
Proof.
  unfold loop_body. destruct (it_return s); [|apply fmono_const]. destruct (negb go); [apply fmono_const|].
  destruct (forallb _ _); [apply fmono_const|]. destruct (_ && _); [apply fmono_const|].
  apply (fmono_bind (turn p s) (fun n s => Ret (inl s))); [apply turn_mono|]. intros; apply fmono_const.
Qed.
Lemma next_mono p cb s : fmono (next_interruptible p cb s).
Proof.
  unfold next_interruptible.
  apply (fmono_loop (fun n (st : iter * nat) =>
       let '(s, i) := st in
       let! r := loop_body p s (cb i) n in
       match r with
       | inl s => Ret (inl (s, S i))
       | inr x => Ret (inr x)
       end)).
  intros [s1 i].
  apply (fmono_bind (loop_body p s1 (cb i)) (fun n r => match r with inl s => Ret (inl (s, S i)) | inr x => Ret (inr x) end)); [apply loop_body_mono|].
  intros; apply fmono_const.
Qed.
Lemma calls_mono p cbs : forall s, fmono (calls p cbs s).
Proof.
  induction cbs as [|cb cbs IH]; intros s; cbn [calls]; [apply fmono_const|].
  apply (fmono_bind (next_interruptible p cb s) (fun n r => let '(s, a) := r in let! '(s, l) := calls p cbs s n in Ret (s, a :: l))); [apply next_mono|].
  intros [s1 a]. apply (fmono_bind (calls p cbs s1) (fun n r => let '(s, l) := r in Ret (s, a :: l))); [apply IH|]. intros; apply fmono_const.
Qed.
Lemma session_mono p a b d cbs : fmono (session p a b d cbs).
Proof.
  unfold session. apply (fmono_bind (fun _ => iter_new p a b d) (fun n s => calls p cbs s n)); [apply fmono_const|]. intros; apply calls_mono.
Qed.

(** ** The next configuration *)
Lemma advance_inv p seed s s' : inv p seed s -> advance p s = Ret s' ->
  inv p seed s' /\ it_top s' = it_top s /\ it_return s' = it_return s /\ it_candidates s' = it_candidates s /\
  (exists more, it_tables s' = it_tables s ++ more /\ length more <= 1) /\
  exists choice, config_move (it_conf s) (if must_stay (it_conf s) then c_prefix (it_conf s) else choice) = Ret (it_conf s').
Proof.
  intros [Ig Ib Iq Ir (It0 & It) In_ (Ic1 & Ic2 & Ic3)] E. unfold advance in E.
  destruct (next_prefix p s) as [nx| |] eqn:En; cbn [bind] in E; try discriminate.
  destruct (if c_prefix (it_conf s) <=? nx then _ else _) as [tb| |] eqn:Et; cbn [bind] in E; try discriminate.
  destruct (config_move (it_conf s) nx) as [c| |] eqn:Ec; cbn [bind] in E; try discriminate.
  apply Ret_inj in E. subst s'. cbn [it_top it_return it_candidates it_tables it_conf].
  assert (Hmore : exists more, tb = it_tables s ++ more /\ length more <= 1 /\
            (c_prefix (it_conf s) <= nx -> c_rep (it_conf s) + 1 < length tb) /\
            (forall r t, nth_error tb r = Some t -> exists k, c_prefix (it_conf s) <= k <= K /\ t = p_table p r k)).
  { destruct (Nat.leb_spec (c_prefix (it_conf s)) nx) as [L|L].
    - destruct (Nat.leb_spec (length (it_tables s)) (c_rep (it_conf s) + 1)) as [L2|L2].
      + unfold add_repetitions in Et. destruct (Nat.ltb_spec (length (it_tables s)) (c_rep (it_conf s) + 1 + 1)); cbn [assert_] in Et; [|discriminate].
        destruct (Nat.leb_spec (nx + 1) K); cbn [assert_] in Et; [|discriminate]. apply Ret_inj in Et. subst tb.
        eexists. split; [reflexivity|]. rewrite !app_length, map_length, seq_length. split; [lia|]. split; [lia|].
        intros r t Hr. destruct (Nat.lt_ge_cases r (length (it_tables s))) as [Lr|Lr].
        * rewrite nth_error_app1 in Hr by exact Lr. apply It, Hr.
        * rewrite nth_error_app2 in Hr by exact Lr. rewrite nth_error_map in Hr.
          destruct (nth_error (seq _ _) (r - length (it_tables s))) as [r'|] eqn:Es; [|discriminate].
          assert (Ls : r - length (it_tables s) < c_rep (it_conf s) + 1 + 1 - length (it_tables s))
            by (rewrite <- (seq_length (c_rep (it_conf s) + 1 + 1 - length (it_tables s)) (length (it_tables s))); apply nth_error_Some; congruence).
          rewrite nth_error_nth' with (d := 0) in Es by (rewrite seq_length; exact Ls). rewrite seq_nth in Es by exact Ls.
          cbn in Hr. injection Hr as <-. injection Es as <-. exists (nx + 1). split; [lia|]. f_equal. lia.
      + apply Ret_inj in Et. subst tb. exists []. rewrite app_nil_r. cbn. split; [reflexivity|]. split; [lia|]. split; [lia|exact It].
    - apply Ret_inj in Et. subst tb. exists []. rewrite app_nil_r. cbn. split; [reflexivity|]. split; [lia|]. split; [lia|exact It]. }
  destruct Hmore as (more & -> & Lm & Lr & Hm).
  assert (Ec' := Ec). unfold config_move in Ec'.
  split; [|split; [reflexivity|]; split; [reflexivity|]; split; [reflexivity|]; split; [eauto|]].
  - destruct (Nat.leb_spec (c_prefix (it_conf s)) nx) as [L|L].
    + cbn [c_prefix] in Ec'. destruct (0 <? c_prefix (it_conf s)); cbn [assert_] in Ec'; [|discriminate]. apply Ret_inj in Ec'. subst c.
      split; cbn [it_graph it_buffer it_top it_return it_tables it_conf it_next c_rep c_prefix c_prev]; auto.
      split; [rewrite app_length; lia|exact Hm].
    + cbn [c_prefix] in Ec'. destruct (Nat.ltb_spec 0 (c_prefix (it_conf s) - 1)); cbn [assert_] in Ec'; [|discriminate]. apply Ret_inj in Ec'. subst c.
      split; cbn [it_graph it_buffer it_top it_return it_tables it_conf it_next c_rep c_prefix c_prev]; auto.
      * split; [rewrite app_length; lia|]. intros r t Hr. destruct (Hm r t Hr) as (k & Hk & ->). exists k. split; [lia|reflexivity].
      * split; [rewrite app_length; lia|]. split; [lia|]. intros pp Hpp. injection Hpp as <-. exact Ic2.
  - exists nx. destruct (must_stay (it_conf s)) eqn:Es; [|exact Ec].
    unfold next_prefix in En. rewrite Es in En. apply Ret_inj in En. rewrite En. exact Ec.
Qed.

(** ** Emitting everything *)
Lemma emit_everything_ok p seed s : inv p seed s ->
  exists s' new, emit_everything s = Ret s' /\ inv p seed s' /\ it_return s' = it_return s ++ new /\
    forallb tk_is_complete (it_top s') = true /\ it_conf s' = it_conf s /\ it_tables s' = it_tables s /\
    it_candidates s' = it_candidates s /\
    (0 < p_ez p -> no_ties p seed -> accounted (it_top s) (it_top s') new).
Proof.
  intros [Ig Ib (Lq & Iq) Ir It In_ Ic]. unfold emit_everything.
  match goal with |- context [foreach ?l ?b ?st] =>
    destruct (foreach_inv b (fun pre (acc : list topk * list motiflet) =>
      length (fst acc) = length pre /\ (forall k t, nth_error (fst acc) k = Some t -> queue_ok p seed k t) /\ forallb tk_is_complete (fst acc) = true /\
      exists new, snd acc = it_return s ++ new /\ (forall m, In m new -> mine p seed m) /\
        (0 < p_ez p -> no_ties p seed -> accounted pre (fst acc) new)) l st) as ((top' & ret') & E & L' & Q' & C' & new & En & Hn & Ha)
  end.
  - cbn. split; [reflexivity|]. split; [intros [|k]; discriminate|]. split; [reflexivity|]. exists []. rewrite app_nil_r. split; [reflexivity|].
    split; [intros ? []|]. intros _ _ [|k]; reflexivity.
  - intros pre t post (tp & rt) El (L & Q & C & new & En & Hn & Ha). cbn [fst snd] in *.
    assert (Ht : nth_error (it_top s) (length pre) = Some t) by (rewrite El, nth_error_app2, Nat.sub_diag by lia; reflexivity).
    destruct (queue_emit p seed (length pre) t (fun _ => true) (Iq _ _ Ht)) as (t' & out & Et & Qt' & _ & _ & Ho & _ & Hex). rewrite Et. cbn [bind].
    eexists. split; [reflexivity|]. cbn [fst snd]. split; [rewrite !app_length, L; reflexivity|]. split; [|split].
    + intros k x Hx. destruct (Nat.lt_ge_cases k (length tp)) as [Lk|Lk].
      * rewrite nth_error_app1 in Hx by exact Lk. apply Q, Hx.
      * rewrite nth_error_app2 in Hx by exact Lk. destruct (k - length tp) as [|z] eqn:Ek; cbn in Hx; [|destruct z; discriminate].
        injection Hx as <-. replace k with (length pre) by lia. apply queue_disable, Qt'.
    + rewrite forallb_app, C. reflexivity.
    + exists (new ++ out). split; [subst rt; rewrite app_assoc; reflexivity|]. split; [intros m Hm; apply in_app_or in Hm; destruct Hm as [Hm|Hm]; [auto|apply Ho, Hm]|].
      intros Hz Hnt j. specialize (Ha Hz Hnt j). rewrite of_support_app. unfold emitted_at in *. destruct (Nat.lt_trichotomy j (length pre)) as [Lj|[->|Lj]].
      * rewrite !nth_error_app1 by lia. rewrite (of_support_none (length pre) j out), app_nil_r by (lia || (intros m Hm; apply Ho, Hm)). exact Ha.
      * rewrite !nth_error_app2, L, !Nat.sub_diag by lia. cbn [nth_error tk_emitted tk_disable].
        rewrite (proj2 (nth_error_None tp (length pre))), (proj2 (nth_error_None pre (length pre))) in Ha by lia. cbn [app] in Ha.
        rewrite (of_support_all (length pre) out) by (intros m Hm; apply Ho, Hm). apply Permutation_nil in Ha. rewrite Ha. cbn [app]. apply Hex; assumption.
      * rewrite (of_support_none (length pre) j out), app_nil_r by (lia || (intros m Hm; apply Ho, Hm)).
        rewrite (proj2 (nth_error_None (tp ++ _) j)), (proj2 (nth_error_None (pre ++ _) j)) by (rewrite app_length; cbn; lia).
        rewrite (proj2 (nth_error_None tp j)), (proj2 (nth_error_None pre j)) in Ha by lia. exact Ha.
  - cbn [fst snd] in *. rewrite E. cbn [bind]. eexists. exists new. split; [reflexivity|]. cbn [it_top it_return it_conf it_tables].
    split; [|split; [exact En|]; split; [exact C'|]; split; [reflexivity|]; split; [reflexivity|]; split; [reflexivity|exact Ha]].
    split; cbn [it_graph it_buffer it_top it_return it_tables it_conf it_next]; auto.
    + split; [congruence|exact Q'].
    + subst ret'. intros m Hm. apply in_app_or in Hm. destruct Hm; auto.
Qed.

(** ** One turn *)
Lemma turn_inv p seed s s' fuel : sound p -> inv p seed s -> turn p s fuel = Ret s' ->
  inv p seed s' /\ it_candidates s <= it_candidates s' /\
  (exists new, it_return s' = it_return s ++ new /\ (no_ties p seed -> accounted (it_top s) (it_top s') new)) /\
  (exists more, it_tables s' = it_tables s ++ more /\ length more <= 1) /\
  exists choice, config_move (it_conf s) (if must_stay (it_conf s) then c_prefix (it_conf s) else choice) = Ret (it_conf s').
Proof.
  intros Sd I E. unfold turn in E.
  destruct (update_graph_ok p seed s Sd I) as (s1 & t & k & th & bs & pos & new & R & I1 & A1 & A2 & A3 & A4 & _ & _ & _ & _ & _ & _ & _ & _ & A5 & _).
  destruct (update_graph p s fuel) as [s1'| |] eqn:E1; cbn [bind] in E; try discriminate.
  pose proof (ret_returns _ _ _ _ (update_graph_mono p s) E1 R) as ->.
  destruct (emit_confirmed_ok p seed s1 Sd I1) as (s2 & new2 & E2 & I2 & B1 & B2 & B3 & B4 & B5). rewrite E2 in E. cbn [bind] in E.
  destruct (0 <? p_n p); cbn [assert_] in E; [|discriminate].
  destruct (advance_inv p seed s2 s' I2 E) as (I3 & C1 & C2 & C3 & (more & C4 & C4') & ch & C5).
  split; [exact I3|]. split; [rewrite C3, B4, A5; lia|]. split; [exists new2; split; [congruence|]; rewrite C1; rewrite <- A1; exact B5|]. split; [exists more; split; [congruence|exact C4']|].
  exists ch. assert (Ec : it_conf s2 = it_conf s) by congruence. rewrite Ec in C5. exact C5.
Qed.

Lemma pop_inv p seed s : inv p seed s -> inv p seed (fst (pop s)) /\
  match snd (pop s) with
  | Some m => it_return s = it_return (fst (pop s)) ++ [m] /\ mine p seed m
  | None => it_return s = [] /\ fst (pop s) = s
  end /\ it_top (fst (pop s)) = it_top s /\ it_tables (fst (pop s)) = it_tables s /\ it_conf (fst (pop s)) = it_conf s /\
  it_candidates (fst (pop s)) = it_candidates s.
Proof.
  intros I. unfold pop. destruct (rev (it_return s)) as [|m t] eqn:E; cbn [fst snd].
  - assert (it_return s = []) by (rewrite <- (rev_involutive (it_return s)), E; reflexivity). auto 8.
  - assert (Er : it_return s = rev t ++ [m]) by (rewrite <- (rev_involutive (it_return s)), E; reflexivity).
    destruct I as [Ig Ib Iq Ir It In_ Ic]. split.
    { split; cbn [it_graph it_buffer it_top it_return it_tables it_conf it_next]; auto.
      intros x Hx. apply Ir. rewrite Er. apply in_or_app. auto. }
    cbn [it_return it_top it_tables it_conf it_candidates]. split; [split; [exact Er|]|auto]. apply Ir. rewrite Er. apply in_or_app. right. left. reflexivity.
Qed.

(** all the ways one turn of the loop can end *)
Lemma loop_body_cases p seed s go fuel r : sound p -> inv p seed s -> loop_body p s go fuel = Ret r ->
  match r with
  | inl s' => it_return s = [] /\ go = true /\ forallb tk_is_complete (it_top s) = false /\
      (p_threshold p <? it_candidates s) && p_stop p = false /\ turn p s fuel = Ret s' /\ inv p seed s'
  | inr (s', Interrupted) => s' = s /\ it_return s = [] /\ go = false
  | inr (s', Item m) => inv p seed s' /\ mine p seed m /\
      ((it_return s = it_return s' ++ [m] /\ it_top s' = it_top s) \/
       (it_return s = [] /\ go = true /\ forallb tk_is_complete (it_top s) = false /\
        (p_threshold p <? it_candidates s) && p_stop p = true /\
        exists s1, emit_everything s = Ret s1 /\ it_return s1 = it_return s' ++ [m] /\ it_top s' = it_top s1 /\
          (no_ties p seed -> accounted (it_top s) (it_top s1) (it_return s1)))) /\
      it_tables s' = it_tables s /\ it_conf s' = it_conf s
  | inr (s', End) => inv p seed s' /\ it_return s' = [] /\ forallb tk_is_complete (it_top s') = true /\ go = true /\
      it_tables s' = it_tables s /\ it_conf s' = it_conf s /\
      (s' = s \/ (it_return s = [] /\ (p_threshold p <? it_candidates s) && p_stop p = true /\
         exists s1, emit_everything s = Ret s1 /\ s' = s1 /\ (no_ties p seed -> accounted (it_top s) (it_top s1) [])))
  end.
Proof.
  intros Sd I E. unfold loop_body in E.
  destruct (it_return s) as [|m0 rt] eqn:Er.
  - destruct go; cbn [negb] in E; [|apply Ret_inj in E; subst r; auto].
    destruct (forallb tk_is_complete (it_top s)) eqn:Ef; [apply Ret_inj in E; subst r; auto 8|].
    destruct ((p_threshold p <? it_candidates s) && p_stop p) eqn:Et.
    + destruct (emit_everything_ok p seed s I) as (s1 & new & E1 & I1 & R1 & C1 & D1 & D2 & D3 & D4). rewrite Er in R1. cbn [app] in R1. rewrite <- R1 in D4. specialize (D4 (sound_zone p Sd)). rewrite E1 in E. cbn [bind] in E.
      pose proof (pop_inv p seed s1 I1) as P. destruct (pop s1) as [s2 o]. cbn [fst snd] in P.
      apply Ret_inj in E. subst r. destruct P as (I2 & P1 & P2 & P3 & P4 & P5). destruct o as [m|]; cbn [answer_of].
      * destruct P1 as [P1 M]. split; [exact I2|]. split; [exact M|]. split; [|split; congruence]. right. split; [reflexivity|]. split; [reflexivity|]. split; [reflexivity|]. split; [reflexivity|]. exists s1. auto.
      * destruct P1 as [P1 ->]. split; [exact I1|]. split; [exact P1|]. split; [exact C1|]. split; [reflexivity|]. split; [congruence|]. split; [congruence|]. right. split; [reflexivity|]. split; [reflexivity|]. exists s1. rewrite P1 in D4. auto.
    + destruct (turn p s fuel) as [s1| |] eqn:E1; cbn [bind] in E; try discriminate. apply Ret_inj in E. subst r.
      split; [reflexivity|]. split; [reflexivity|]. split; [reflexivity|]. split; [reflexivity|]. split; [reflexivity|]. apply (turn_inv p seed s s1 fuel Sd I E1).
  - pose proof (pop_inv p seed s I) as P. destruct (pop s) as [s2 o]. cbn [fst snd] in P.
    apply Ret_inj in E. subst r. destruct P as (I2 & P1 & P2 & P3 & P4 & P5). destruct o as [m|]; cbn [answer_of].
    + destruct P1 as [P1 M]. rewrite Er in P1. split; [exact I2|]. split; [exact M|]. split; [left; auto|auto].
    + destruct P1 as [P1 _]. congruence.
Qed.

(** ** One call *)
(** the loop seen from a given turn on *)
Definition next_from (p : problem) (callback : nat -> bool) (s : iter) (i : nat) (fuel n : nat) : res (iter * answer) :=
  loop n
    (fun st : iter * nat =>
       let '(s, i) := st in
       let! r := loop_body p s (callback i) fuel in
       match r with
       | inl s => Ret (inl (s, S i))
       | inr x => Ret (inr x)
       end) (s, i).

(** ** Creation *)
Lemma new_inv p a b d s : sound p -> seed_ok p a b d -> iter_new p a b d = Ret s ->
  inv p (Motiflet [a; b] d) s /\ 2 <= p_max_k p /\ it_return s = [] /\ it_candidates s = 0 /\
  (forall k, emitted_at (it_top s) k = []) /\
  length (it_tables s) = INITIAL_REPETITIONS /\
  exists p0, first_meaningful_prefix (p_expected p) = Ret p0 /\ it_conf s = config_start p0.
Proof.
  intros Sd (Sa & Sb & St & Sn) E. unfold iter_new in E.
  assert (T0 : add_repetitions p [] 1 K = Ret [p_table p 0 K]) by reflexivity. rewrite T0 in E. cbn [bind] in E.
  assert (T1 : add_repetitions p [p_table p 0 K] INITIAL_REPETITIONS K = Ret (map (fun r => p_table p r K) (seq 0 INITIAL_REPETITIONS))) by reflexivity.
  rewrite T1 in E. cbn [bind] in E.
  destruct (calibration_prefix (p_expected p)) as [?| |]; cbn [bind] in E; try discriminate.
  destruct (first_meaningful_prefix (p_expected p)) as [p0| |] eqn:Ep; cbn [bind] in E; try discriminate.
  destruct (Nat.ltb_spec 0 p0) as [Lp|]; cbn [assert_] in E; [|discriminate].
  assert (Lp0 : p0 <= K).
  { unfold first_meaningful_prefix in Ep. destruct (rfind_ge1 0 (p_expected p)) as [r|] eqn:Er; [|discriminate]. apply Ret_inj in Ep. subst p0.
    destruct (rfind_ge1_spec _ _ _ Er) as (k & -> & (c & Ec & _) & _). assert (k < length (p_expected p)) by (apply nth_error_Some; congruence).
    rewrite (sound_profile p Sd) in H. unfold K in *. lia. }
  set (seed := Motiflet [a; b] d) in *.
  assert (Q0 : forall k, 2 <= k -> queue_ok p seed k (tk_new (p_top_k p) (p_ez p))).
  { intros k Hk. split; cbn; auto using wf_new; try lia; try discriminate; try tauto; intros; constructor. }
  assert (Qd : forall k, queue_ok p seed k (tk_disable (tk_new (p_top_k p) (p_ez p)))).
  { intros k. split; try exact (wf_new (p_top_k p) (p_ez p)); cbn; auto; try lia; try discriminate; try tauto; intros; constructor. }
  destruct (p_max_k p) as [|[|K2]] eqn:Ek; [discriminate|discriminate|].
  replace (S (S K2) + 1) with (S (S (S K2))) in E by lia.
  unfold get, put in E. cbn [repeat nth_error bind set_nth option_map] in E.
  destruct (tk_insert (tk_new (p_top_k p) (p_ez p)) seed) as [t2| |] eqn:Ei; cbn [bind] in E; try discriminate.
  destruct (queue_insert p seed 2 (tk_new (p_top_k p) (p_ez p)) seed (Q0 2 ltac:(lia))) as (t2' & Ei' & Q2 & Ee & _);
    [reflexivity|right; reflexivity|exact Sn|].
  rewrite Ei in Ei'. apply Ret_inj in Ei'. subst t2'.
  apply Ret_inj in E. subst s.
  cbn [it_return it_candidates it_tables it_conf]. split; [|split; [lia|]; split; [reflexivity|]; split; [reflexivity|]; split; [|split; [reflexivity|]; exists p0; auto]].
  2: { intros k. unfold emitted_at. destruct k as [|[|[|k]]]; cbn [nth_error it_top]; try reflexivity; [exact Ee|].
    destruct (nth_error _ k) as [t|] eqn:Et; [|reflexivity]. apply nth_error_In, repeat_spec in Et. subst t. reflexivity. }
  split; cbn [it_graph it_buffer it_top it_return it_tables it_conf it_next].
  - exists []. split; [apply graph_inv_new|intros ? ? ? []].
  - split; [|apply repeat_length]. intros e x y H. apply buffer_ops_in in H. destruct H as (H & _ & H2). apply repeat_spec in H. injection H as -> -> ->.
    exfalso. apply H2. pose proof (sound_zone p Sd). unfold too_close. lia.
  - split; [cbn [length]; rewrite repeat_length; lia|]. intros k t H. destruct k as [|[|[|k]]]; cbn [nth_error] in H.
    + injection H as <-. apply Qd.
    + injection H as <-. apply Qd.
    + injection H as <-. exact Q2.
    + apply nth_error_In, repeat_spec in H. subst t. apply Q0. lia.
  - intros m [].
  - split; [cbn; unfold INITIAL_REPETITIONS; lia|]. intros r t Hr. exists K. cbn [c_prefix config_start].
    split.
    + lia.
    + rewrite nth_error_map in Hr. destruct (nth_error (seq 0 INITIAL_REPETITIONS) r) as [r'|] eqn:Es; [|discriminate].
      assert (Ls : r < INITIAL_REPETITIONS) by (rewrite <- (seq_length INITIAL_REPETITIONS 0); apply nth_error_Some; congruence).
      rewrite nth_error_nth' with (d := 0) in Es by (rewrite seq_length; exact Ls). rewrite seq_nth in Es by exact Ls.
      cbn in Hr. injection Hr as <-. injection Es as <-. reflexivity.
  - intros x Hx. injection Hx as <-. exists seed. split; [right; reflexivity|split; [reflexivity|exact Sn]].
  - cbn [config_start c_rep c_prefix c_prev]. split; [cbn; lia|]. split; [lia|discriminate].
Qed.
