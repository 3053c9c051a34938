From Coq Require Import Floats.SpecFloat Permutation.
From Verif Require Import Base F64 F64Arith HashValue HashSpec HashProofs Overlaps OverlapsSpec OverlapsProofs Enumerator EnumSpec Moves MovesProofs
  Profile ProfileProofs Brute BruteSpec TopK TopKSpec TopKProofs Graph GraphSpec GraphProofs Iterator IteratorSpec IteratorProofs IteratorLoop IteratorCalls.

(** ** Histories *)
Lemma loop_body_step p s go fuel r : loop_body p s go fuel = Ret r -> step p s (match r with inl s' => s' | inr (s', _) => s' end).
Proof. intros E. exists go, fuel. destruct r as [s'|[s' a]]; eauto. Qed.

Lemma turns_trace p a b d s n s' : turns p s n s' -> forall l, trace p a b d (s :: l) -> exists l', trace p a b d (s' :: l').
Proof.
  intros T. induction T as [s|s s1 n s' G (f & E) T IH]; intros l H; [eauto|].
  apply (IH (s :: l)). constructor; [exact H|]. exists true, f. left. rewrite loop_body_go by exact G. rewrite E. reflexivity.
Qed.
Lemma calls_trace p a b d cbs : forall s fuel s' l, calls p cbs s fuel = Ret (s', l) ->
  forall h, trace p a b d (s :: h) -> exists h', trace p a b d (s' :: h').
Proof.
  induction cbs as [|cb cbs IH]; intros s fuel s' l E h H.
  - cbn [calls] in E. apply Ret_inj in E. injection E as <- <-. eauto.
  - destruct (calls_split _ _ _ _ _ _ _ E) as (s1 & x & l' & (n & s2 & T & _ & f & B) & E' & ->).
    destruct (turns_trace p a b d _ _ _ T _ H) as (h1 & H1).
    apply (IH s1 fuel s' l' E' (s2 :: h1)). constructor; [exact H1|]. eexists. eexists. right. eexists. exact B.
Qed.
Lemma reachable_trace p a b d s : reachable p a b d s -> exists h, trace p a b d (s :: h).
Proof.
  intros (cbs & fuel & l & E). unfold session in E. destruct (iter_new p a b d) as [s0| |] eqn:E0; cbn [bind] in E; try discriminate.
  apply (calls_trace p a b d cbs s0 fuel s l E []). constructor. exact E0.
Qed.

(** a step is a turn, or leaves everything but the queues and what is to be returned *)
Lemma step_cases p seed s s' : sound p -> inv p seed s -> step p s s' ->
  inv p seed s' /\
  ((goes_on p s /\ exists fuel, turn p s fuel = Ret s') \/
   (~ (exists fuel, loop_body p s true fuel = Ret (inl s')) /\ it_conf s' = it_conf s /\ it_tables s' = it_tables s /\ it_candidates s' = it_candidates s /\ it_graph s' = it_graph s) \/
   (s' = s)).
Proof.
  intros Sd I (go & fuel & [E|(x & E)]).
  - destruct (loop_body_inl _ _ _ _ _ E) as (_ & G & T). split; [eapply turn_inv; eauto|]. eauto.
  - pose proof (loop_body_cases p seed s go fuel _ Sd I E) as C. cbn beta iota in C.
    destruct (loop_body p s true fuel) as [[s2|[s2 y]]| |] eqn:Eb.
    + (* interrupted *)
      destruct x as [|m|].
      * destruct C as (-> & _). auto.
      * destruct (loop_body_answer p s go fuel s' (Item m) ltac:(discriminate) E) as (E2 & _). rewrite E2 in Eb. discriminate.
      * destruct (loop_body_answer p s go fuel s' End ltac:(discriminate) E) as (E2 & _). rewrite E2 in Eb. discriminate.
    + destruct x as [|m|].
      * destruct C as (-> & _). auto.
      * destruct C as (I' & _ & _ & T & Cf). split; [exact I'|]. right. left.
        destruct (loop_body_answer p s go fuel s' (Item m) ltac:(discriminate) E) as (E2 & NG).
        split; [intros (f & F); apply loop_body_inl in F; tauto|]. split; [exact Cf|]. split; [exact T|].
        clear - E2. unfold loop_body in E2. destruct (it_return s).
        -- cbn [negb] in E2. destruct (forallb _ _); [discriminate|]. destruct (_ && _).
           ++ unfold emit_everything in E2. destruct (foreach _ _ _) as [[tp rt]| |]; cbn [bind] in E2; try discriminate.
              unfold pop in E2. cbn [it_return] in E2. destruct (rev rt); cbn [answer_of] in E2; apply Ret_inj in E2; injection E2 as <- _; auto.
           ++ destruct (turn p s fuel) as [s9| |]; cbn [bind] in E2; discriminate.
        -- unfold pop in E2. destruct (rev _); cbn [answer_of] in E2; apply Ret_inj in E2; injection E2 as <- _; auto.
      * destruct C as (I' & _ & _ & _ & T & Cf & _). split; [exact I'|]. right. left.
        destruct (loop_body_answer p s go fuel s' End ltac:(discriminate) E) as (E2 & NG).
        split; [intros (f & F); apply loop_body_inl in F; tauto|]. split; [exact Cf|]. split; [exact T|].
        clear - E2. unfold loop_body in E2. destruct (it_return s).
        -- cbn [negb] in E2. destruct (forallb _ _); [apply Ret_inj in E2; injection E2 as <-; auto|]. destruct (_ && _).
           ++ unfold emit_everything in E2. destruct (foreach _ _ _) as [[tp rt]| |]; cbn [bind] in E2; try discriminate.
              unfold pop in E2. cbn [it_return] in E2. destruct (rev rt); cbn [answer_of] in E2; apply Ret_inj in E2; injection E2 as <-; auto.
           ++ destruct (turn p s fuel) as [s9| |]; cbn [bind] in E2; discriminate.
        -- unfold pop in E2. destruct (rev _); cbn [answer_of] in E2; apply Ret_inj in E2; injection E2 as <-; auto.
    + destruct x as [|m|].
      * destruct C as (-> & _). auto.
      * destruct (loop_body_answer p s go fuel s' (Item m) ltac:(discriminate) E) as (E2 & _). rewrite E2 in Eb. discriminate.
      * destruct (loop_body_answer p s go fuel s' End ltac:(discriminate) E) as (E2 & _). rewrite E2 in Eb. discriminate.
    + destruct x as [|m|].
      * destruct C as (-> & _). auto.
      * destruct (loop_body_answer p s go fuel s' (Item m) ltac:(discriminate) E) as (E2 & _). rewrite E2 in Eb. discriminate.
      * destruct (loop_body_answer p s go fuel s' End ltac:(discriminate) E) as (E2 & _). rewrite E2 in Eb. discriminate.
Qed.

Lemma trace_inv p a b d h : sound p -> seed_ok p a b d -> trace p a b d h ->
  exists s l, h = s :: l /\ inv p (Motiflet [a; b] d) s.
Proof.
  intros Sd So T. induction T as [s E|s s' l T IH St].
  - exists s, []. split; [reflexivity|]. eapply new_inv; eauto.
  - destruct IH as (s1 & l1 & Eq & I). injection Eq as <- <-. exists s', (s :: l). split; [reflexivity|].
    destruct (step_cases p _ s s' Sd I St) as (I' & _). exact I'.
Qed.

(** ** No pair twice *)
(** positions of a table that were evaluated: repetition and two positions *)
Definition logged (past : list config) (tables : list table) (e : nat * nat * nat) : Prop :=
  let '(r, x, y) := e in
  exists c t, In c past /\ c_rep c = r /\ nth_error tables r = Some t /\ collide (fst t) (c_prefix c) x y.

Lemma collide_shorter hs q r x y : q <= r -> collide hs r x y -> collide hs q x y.
Proof.
  intros L (Lx & hx & hy & Hx & Hy & A). split; [exact Lx|]. exists hx, hy. split; [exact Hx|]. split; [exact Hy|].
  eapply agree_shorter; eauto.
Qed.
(** what was evaluated in the current repetition is recognised as seen before *)
Lemma logged_seen past c (t : table) x y c' : hist_inv past c -> In c' past -> c_rep c' = c_rep c -> collide (fst t) (c_prefix c') x y ->
  seen_before (fst t) (c_prev c) (c_check c) x y.
Proof.
  intros H Hin Er Cl.
  assert (NP : c_prefix c' <> c_prefix c).
  { intros E. assert (V : visited past (c_rep c) (c_prefix c)) by (exists c'; auto). apply (hi_cur _ _ H) in V. lia. }
  pose proof (hi_nocur _ _ H c' Hin) as Ge.
  destruct (c_prev c) as [q|] eqn:Ep; [|exfalso; apply NP; apply (hi_first _ _ H); assumption].
  destruct (c_prev_reps c) as [m|] eqn:Em; [|exfalso; pose proof (proj2 (hi_none _ _ H) Em); congruence].
  destruct (hi_prev _ _ H q m Ep Em) as (-> & _ & Hm). specialize (Hm c' Hin NP).
  split.
  - unfold c_check. rewrite Em. apply Nat.ltb_lt. lia.
  - exists (S (c_prefix c)). split; [reflexivity|]. apply (collide_shorter _ _ (c_prefix c')); [lia|exact Cl].
Qed.

Lemma count_heads_le n : forall coin i, count_heads coin i n <= n.
Proof. induction n as [|n IH]; intros coin i; [reflexivity|]. cbn [count_heads]. specialize (IH coin (S i)). destruct (coin i); cbn; lia. Qed.
Lemma count_all_le coin batches : forall i, count_all coin i batches <= length (concat batches).
Proof.
  induction batches as [|b l IH]; intros i; [reflexivity|]. cbn [count_all concat]. rewrite app_length. specialize (IH (S i)).
  pose proof (count_heads_le (length b) (coin i) 0). lia.
Qed.
Lemma Forall2_len {A B} (R : A -> B -> Prop) l l' : Forall2 R l l' -> length l = length l'.
Proof. intros F. induction F; cbn [length]; congruence. Qed.

Lemma turn_log p seed s s' fuel past log : sound p -> inv p seed s -> turn p s fuel = Ret s' ->
  hist_inv past (it_conf s) -> NoDup log -> (forall e, In e log -> logged past (it_tables s) e) -> it_candidates s <= length log ->
  exists log', hist_inv (past ++ [it_conf s]) (it_conf s') /\ NoDup log' /\
    (forall e, In e log' -> logged (past ++ [it_conf s]) (it_tables s') e) /\ it_candidates s' <= length log'.
Proof.
  intros Sd I E H ND Hl Hc. destruct (turn_inv p seed s s' fuel Sd I E) as (_ & _ & _ & (more & Et & _) & ch & Mv).
  unfold turn in E.
  destruct (update_graph_ok p seed s Sd I) as (s1 & t & k & th & bs & pos & new & R & I1 & A1 & A2 & A3 & A4 & Tt & _ & _ & _ & _ & NDp & Ch & F2 & A5 & _).
  destruct (update_graph p s fuel) as [s1'| |] eqn:E1; cbn [bind] in E; try discriminate.
  pose proof (ret_returns _ _ _ _ (update_graph_mono p s) E1 R) as ->.
  destruct (emit_confirmed_ok p seed s1 Sd I1) as (s2 & new2 & E2 & I2 & B1 & B2 & B3 & B4 & B5). rewrite E2 in E. cbn [bind] in E.
  destruct (0 <? p_n p); cbn [assert_] in E; [|discriminate].
  destruct (advance_inv p seed s2 s' I2 E) as (I3 & C1 & C2 & C3 & _).
  exists (log ++ map (fun xy => (c_rep (it_conf s), fst xy, snd xy)) pos).
  split; [exact (hist_step _ _ _ _ H Mv)|]. split; [|split].
  - apply NoDup_app; [exact ND| |].
    + apply FinFun.Injective_map_NoDup; [|exact NDp]. intros [x y] [x' y'] Eq. cbn in Eq. congruence.
    + intros [[r x] y] Hin1 Hin2. apply in_map_iff in Hin2. destruct Hin2 as ([x' y'] & Eq & Hp). cbn [fst snd] in Eq. injection Eq as <- <- <-.
      destruct (Hl _ Hin1) as (c' & t' & Hin' & Er & Tt' & Cl). rewrite Tt in Tt'. injection Tt' as <-.
      apply Ch in Hp. destruct Hp as (_ & _ & NS & _). apply NS. eapply logged_seen; eauto.
  - intros e He. apply in_app_or in He. destruct He as [He|He].
    + destruct e as [[r x] y]. destruct (Hl _ He) as (c' & t' & Hin' & Er & Tt' & Cl). exists c', t'. split; [apply in_or_app; auto|].
      split; [exact Er|]. split; [|exact Cl]. rewrite Et, nth_error_app1; [exact Tt'|]. apply nth_error_Some. congruence.
    + apply in_map_iff in He. destruct He as ([x' y'] & <- & Hp). cbn [fst snd]. exists (it_conf s), t. split; [apply in_or_app; right; left; reflexivity|].
      split; [reflexivity|]. split; [rewrite Et, nth_error_app1; [exact Tt|apply nth_error_Some; congruence]|]. apply Ch, Hp.
  - rewrite app_length, map_length, C3, B4, A5, (Forall2_len _ _ _ F2). pose proof (count_all_le (p_coin p (it_conf s)) bs 0). lia.
Qed.

Lemma trace_log p a b d h : sound p -> seed_ok p a b d -> trace p a b d h ->
  exists s l past log, h = s :: l /\ hist_inv past (it_conf s) /\ NoDup log /\
    (forall e, In e log -> logged past (it_tables s) e) /\ it_candidates s <= length log /\
    (* what happened in the turns before is in the history, and tables are never changed *)
    (forall pre s2 s1 post, h = pre ++ s2 :: s1 :: post -> (exists fuel, loop_body p s1 true fuel = Ret (inl s2)) -> In (it_conf s1) past) /\
    (forall s1, In s1 h -> exists more, it_tables s = it_tables s1 ++ more).
Proof.
  intros Sd So T. induction T as [s E|s s' l T IH St].
  - destruct (new_inv p a b d s Sd So E) as (I & _ & _ & Ec & _ & _ & p0 & _ & Ep). exists s, [], [], [].
    split; [reflexivity|]. split; [destruct (inv_conf _ _ _ I) as (_ & Hp & _); rewrite Ep in Hp |- *; apply hist_start; cbn in Hp; lia|].
    split; [constructor|]. split; [intros ? []|]. split; [rewrite Ec; reflexivity|]. split.
    + intros [|x [|y pre]] s2 s1 post Eq; discriminate.
    + intros s1 [<-|[]]. exists []. rewrite app_nil_r. reflexivity.
  - destruct IH as (s0 & l0 & past & log & Eq & H & ND & Hl & Hc & Hp & Ht). injection Eq as <- <-.
    destruct (trace_inv p a b d _ Sd So T) as (s0 & l0 & Eq & I). injection Eq as <- <-.
    destruct (step_cases p _ s s' Sd I St) as (I' & C).
    assert (Split : forall (P : iter -> iter -> Prop), (forall pre s2 s1 post, s :: l = pre ++ s2 :: s1 :: post -> P s2 s1) -> P s' s ->
       forall pre s2 s1 post, s' :: s :: l = pre ++ s2 :: s1 :: post -> P s2 s1).
    { intros P H1 H2 pre s2 s1 post Eq. destruct pre as [|x pre]; cbn [app] in Eq.
      - injection Eq as <- <- _. exact H2.
      - injection Eq as <- Eq. apply (H1 pre s2 s1 post Eq). }
    destruct C as [(G & f & Et)|[(NT & C1 & C2 & C3 & _)| ->]].
    + destruct (turn_log p _ s s' f past log Sd I Et H ND Hl Hc) as (log' & H' & ND' & Hl' & Hc').
      exists s', (s :: l), (past ++ [it_conf s]), log'. split; [reflexivity|]. split; [exact H'|]. split; [exact ND'|]. split; [exact Hl'|]. split; [exact Hc'|]. split.
      * apply (Split (fun s2 s1 => (exists fuel, loop_body p s1 true fuel = Ret (inl s2)) -> In (it_conf s1) (past ++ [it_conf s]))).
        -- intros pre s2 s1 post Eq Hb. apply in_or_app. left. eapply Hp; eauto.
        -- intros _. apply in_or_app. right. left. reflexivity.
      * destruct (turn_inv p _ s s' f Sd I Et) as (_ & _ & _ & (more & Em & _) & _).
        intros s1 [<-|Hin]; [exists []; rewrite app_nil_r; reflexivity|]. destruct (Ht s1 Hin) as (m1 & E1). exists (m1 ++ more). rewrite Em, E1, app_assoc. reflexivity.
    + exists s', (s :: l), past, log. rewrite C1, C2, C3. split; [reflexivity|]. split; [exact H|]. split; [exact ND|]. split; [exact Hl|]. split; [exact Hc|]. split.
      * apply (Split (fun s2 s1 => (exists fuel, loop_body p s1 true fuel = Ret (inl s2)) -> In (it_conf s1) past)); [exact Hp|]. intros Hb. contradiction.
      * intros s1 [<-|Hin]; [exists []; rewrite app_nil_r; congruence|]. apply Ht, Hin.
    + exists s, (s :: l), past, log. split; [reflexivity|]. split; [exact H|]. split; [exact ND|]. split; [exact Hl|]. split; [exact Hc|]. split.
      * apply (Split (fun s2 s1 => (exists fuel, loop_body p s1 true fuel = Ret (inl s2)) -> In (it_conf s1) past)); [exact Hp|].
        intros (f & Hb). exfalso. destruct (loop_body_inl _ _ _ _ _ Hb) as (_ & G & Et).
        destruct (turn_inv p _ s s f Sd I Et) as (_ & _ & _ & _ & ch & Mv).
        clear - Mv. unfold config_move in Mv. set (nx := if must_stay _ then _ else _) in Mv. clearbody nx.
        destruct (Nat.leb_spec (c_prefix (it_conf s)) nx) as [L|L].
        -- destruct (0 <? _); cbn [assert_] in Mv; [|discriminate]. apply Ret_inj in Mv. apply (f_equal c_rep) in Mv. cbn in Mv. lia.
        -- destruct (0 <? _); cbn [assert_] in Mv; [|discriminate]. apply Ret_inj in Mv. apply (f_equal c_prefix) in Mv. cbn in Mv. lia.
      * intros s1 [<-|Hin]; [exists []; rewrite app_nil_r; reflexivity|]. apply Ht, Hin.
Qed.

(** the pairs of positions of a list of tables *)
Definition pairs_below (n : nat) : list (nat * nat) := flat_map (fun y => map (fun x => (x, y)) (seq 0 y)) (seq 0 n).
Lemma pairs_below_in n x y : In (x, y) (pairs_below n) <-> x < y < n.
Proof.
  unfold pairs_below. rewrite in_flat_map. split.
  - intros (y' & Hy & Hin). apply in_map_iff in Hin. destruct Hin as (x' & Eq & Hx). injection Eq as <- <-. apply in_seq in Hx, Hy. lia.
  - intros (L1 & L2). exists y. split; [apply in_seq; lia|]. apply in_map_iff. exists x. split; [reflexivity|]. apply in_seq. lia.
Qed.
Lemma pairs_below_length n : 2 * length (pairs_below n) = n * (n - 1).
Proof.
  unfold pairs_below. induction n as [|n IH]; [reflexivity|]. rewrite seq_S, flat_map_app, app_length. cbn [flat_map app Nat.add].
  rewrite app_nil_r, map_length, seq_length. rewrite Nat.mul_add_distr_l, IH. clear. destruct n; cbn [Nat.sub]; [reflexivity|]. rewrite !Nat.sub_0_r. lia.
Qed.
Fixpoint all_pairs (r : nat) (tables : list table) : list (nat * nat * nat) :=
  match tables with
  | [] => []
  | t :: l => map (fun xy => (r, fst xy, snd xy)) (pairs_below (length (fst t))) ++ all_pairs (S r) l
  end.
Lemma all_pairs_in tables : forall r q t x y, nth_error tables q = Some t -> x < y < length (fst t) -> In (r + q, x, y) (all_pairs r tables).
Proof.
  induction tables as [|t0 l IH]; intros r [|q] t x y Ht L; try discriminate; cbn in Ht; cbn [all_pairs]; apply in_or_app.
  - injection Ht as ->. left. apply in_map_iff. exists (x, y). split; [cbn; f_equal; f_equal; lia|]. apply pairs_below_in, L.
  - right. replace (r + S q) with (S r + q) by lia. eapply IH; eauto.
Qed.
Lemma all_pairs_length tables : forall r, length (all_pairs r tables) = list_sum (map (fun t => length (fst t) * (length (fst t) - 1) / 2) tables).
Proof.
  induction tables as [|t l IH]; intros r; [reflexivity|]. cbn [all_pairs map list_sum fold_right]. rewrite app_length, map_length, IH. f_equal.
  rewrite <- pairs_below_length, Nat.mul_comm, Nat.div_mul; lia.
Qed.

(** ** The control loop does not abort *)
Lemma best_cost_index nf l : forall i best j c, best_cost nf i l best = (j, c) -> (j, c) = best \/ i <= j < i + length l.
Proof.
  induction l as [|[c0 r0] l IH]; intros i best j c E; cbn [best_cost length] in *; [auto|].
  destruct (total_lt nf c0 (snd best)).
  - destruct (IH _ _ _ _ E) as [Eq|L]; [injection Eq as -> ->; right; lia|right; lia].
  - destruct (IH _ _ _ _ E) as [Eq|L]; [auto|right; lia].
Qed.
Lemma needed_at_least_one p d q : flt (p_delta p) f_one = true -> fst (needed_repetitions p d q) < p_max_repetitions p -> 1 <= fst (needed_repetitions p d q).
Proof.
  intros Hd. unfold needed_repetitions.
  set (go := fix go (rest nreps : nat) (fp : f64) {struct rest} : nat * f64 := _).
  assert (G : forall rest n fp, n <= fst (go rest n fp)).
  { induction rest as [|rest IH]; intros n fp; cbn [go fst]; [lia|]. destruct (flt (p_delta p) fp); [|cbn [fst]; lia].
    etransitivity; [|apply IH]. lia. }
  destruct (p_max_repetitions p) as [|r]; [cbn; lia|]. intros _. cbn [go]. rewrite Hd. apply (G r 1).
Qed.
Lemma cost_zero p d0 ir d : well_behaved p d0 -> fst (cost_to_confirm p ir d 0 f_inf) = f_inf.
Proof.
  intros W. unfold cost_to_confirm. pose proof (needed_at_least_one p d 0 (wb_delta _ _ W)) as N.
  destruct (needed_repetitions p d 0) as [n fp]. cbn [fst] in N.
  destruct (Nat.leb_spec (p_max_repetitions p) n) as [|L]; [reflexivity|]. cbn [fst]. specialize (N L).
  pose proof (wb_repetitions _ _ W). destruct (wb_setup _ _ W).
  apply cost_infinite; auto; try lia. apply (wb_collision _ _ W).
Qed.

Lemma next_is_finite p a b d s x : well_behaved p d -> inv p (Motiflet [a; b] d) s -> it_next s = Some x -> is_finite x = true.
Proof.
  intros W I E. destruct (inv_next _ _ _ I x E) as (m & M & Em & Nx). destruct M as [(L & Ix & _ & (_ & _ & Mx))| ->].
  - destruct (Mx ltac:(lia)) as (? & ? & u & v & _ & Hu & Hv & E2). rewrite <- Em in Nx |- *. rewrite E2 in Nx |- *.
    pose proof (wb_finite _ _ W v u (Ix v (nth_error_In _ _ Hv)) (Ix u (nth_error_In _ _ Hu))) as F. destruct (p_zeucl p v u); try discriminate; reflexivity.
  - cbn in Em. subst x. apply (wb_seed _ _ W).
Qed.

Lemma next_prefix_ok p a b d s : sound p -> well_behaved p d -> inv p (Motiflet [a; b] d) s ->
  exists nx, next_prefix p s = Ret nx /\ 1 <= nx <= c_prefix (it_conf s).
Proof.
  intros Sd W I. destruct (inv_conf _ _ _ I) as (_ & Hp & _). unfold next_prefix.
  destruct (must_stay (it_conf s)); [eexists; split; [reflexivity|lia]|].
  destruct (it_next s) as [x|] eqn:En; [|eexists; split; [reflexivity|lia]].
  rewrite (next_is_finite p a b d s x W I En). unfold costs_to_confirm. rewrite (sound_profile p Sd).
  destruct (Nat.ltb_spec (c_prefix (it_conf s)) (K + 1)) as [_|]; [|lia]. cbn [assert_ bind].
  destruct (p_expected p) as [|e0 es] eqn:Ee; [pose proof (wb_first _ _ W) as F; rewrite Ee in F; discriminate|].
  assert (e0 = f_inf) as -> by (pose proof (wb_first _ _ W) as F; rewrite Ee in F; cbn in F; congruence).
  replace (c_prefix (it_conf s) + 1) with (S (c_prefix (it_conf s))) by lia. cbn [seq combine map fst snd].
  pose proof (cost_zero p d (length (it_tables s)) x W) as C0. destruct (cost_to_confirm p (length (it_tables s)) x 0 f_inf) as [c0 n0]. cbn [fst] in C0. subst c0.
  destruct (best_cost _ _ _ _) as [j c] eqn:Eb.
  destruct (best_cost_index _ _ _ _ _ _ Eb) as [Eq|L].
  - injection Eq as -> ->. cbn [is_infinite f_inf]. eexists. split; [reflexivity|lia].
  - rewrite map_length, combine_length, seq_length in L.
    destruct (is_infinite c); eexists; (split; [reflexivity|lia]).
Qed.

Lemma advance_total p a b d s : sound p -> well_behaved p d -> inv p (Motiflet [a; b] d) s -> c_prefix (it_conf s) < K ->
  exists s', advance p s = Ret s' /\ c_prefix (it_conf s') <= c_prefix (it_conf s).
Proof.
  intros Sd W I LK. destruct (next_prefix_ok p a b d s Sd W I) as (nx & En & L). destruct (inv_conf _ _ _ I) as (Hr & Hp & _).
  unfold advance. rewrite En. cbn [bind].
  destruct (Nat.leb_spec (c_prefix (it_conf s)) nx) as [L1|L1].
  - assert (exists tb, (if length (it_tables s) <=? c_rep (it_conf s) + 1 then add_repetitions p (it_tables s) (c_rep (it_conf s) + 1 + 1) (nx + 1) else Ret (it_tables s)) = Ret tb) as (tb & ->).
    { destruct (Nat.leb_spec (length (it_tables s)) (c_rep (it_conf s) + 1)) as [L2|L2]; [|eauto].
      unfold add_repetitions. destruct (Nat.ltb_spec (length (it_tables s)) (c_rep (it_conf s) + 1 + 1)); [|lia]. cbn [assert_].
      destruct (Nat.leb_spec (nx + 1) K); [|lia]. cbn [assert_]. eauto. }
    cbn [bind]. unfold config_move. destruct (Nat.leb_spec (c_prefix (it_conf s)) nx); [|lia]. cbn [c_prefix].
    destruct (Nat.ltb_spec 0 (c_prefix (it_conf s))); [|lia]. cbn [assert_ bind]. eexists. split; [reflexivity|]. cbn. lia.
  - cbn [bind]. unfold config_move. destruct (Nat.leb_spec (c_prefix (it_conf s)) nx); [lia|]. cbn [c_prefix].
    destruct (Nat.ltb_spec 0 (c_prefix (it_conf s) - 1)); [|lia]. cbn [assert_ bind]. eexists. split; [reflexivity|]. cbn. lia.
Qed.

(** the states of runs that do not abort *)
Definition live (p : problem) (a b : nat) (d : f64) (s : iter) : Prop :=
  inv p (Motiflet [a; b] d) s /\ c_prefix (it_conf s) < K.
Lemma live_new p a b d s : sound p -> seed_ok p a b d -> well_behaved p d -> iter_new p a b d = Ret s -> live p a b d s.
Proof.
  intros Sd So W E. destruct (new_inv p a b d s Sd So E) as (I & _ & _ & _ & _ & _ & p0 & E0 & Ec). split; [exact I|]. rewrite Ec. apply (wb_start _ _ W _ E0).
Qed.
Lemma live_turn p a b d s : sound p -> seed_ok p a b d -> well_behaved p d -> live p a b d s ->
  exists s', returns (turn p s) s' /\ live p a b d s' /\ c_prefix (it_conf s') <= c_prefix (it_conf s).
Proof.
  intros Sd So W (I & L).
  destruct (update_graph_ok p _ s Sd I) as (s1 & t & k & th & bs & pos & new & R & I1 & A1 & A2 & A3 & A4 & _).
  destruct (emit_confirmed_ok p _ s1 Sd I1) as (s2 & new2 & E2 & I2 & B1 & B2 & B3 & B4 & B5).
  destruct (advance_total p a b d s2 Sd W I2) as (s3 & E3 & L3); [congruence|].
  exists s3. assert (Rt : returns (turn p s) s3).
  { destruct R as (n0 & R). exists n0. intros m Hm. unfold turn. rewrite R by exact Hm. cbn [bind]. rewrite E2. cbn [bind].
    destruct So as (Ha & _). destruct (Nat.ltb_spec 0 (p_n p)); [|lia]. exact E3. }
  split; [exact Rt|]. assert (Ec : it_conf s2 = it_conf s) by congruence. rewrite Ec in L3. split; [|exact L3]. split; [|lia].
  destruct Rt as (n0 & Rt). apply (turn_inv p _ s s3 n0 Sd I (Rt n0 ltac:(lia))).
Qed.
Lemma live_step p a b d s s' : sound p -> seed_ok p a b d -> well_behaved p d -> live p a b d s -> step p s s' -> live p a b d s'.
Proof.
  intros Sd So W (I & L) St. destruct (step_cases p _ s s' Sd I St) as (I' & [(G & f & E)|[(_ & C & _)| ->]]).
  - destruct (live_turn p a b d s Sd So W (conj I L)) as (s2 & R & L2 & _). rewrite (ret_returns _ _ _ _ (turn_mono p s) E R). exact L2.
  - split; [exact I'|]. rewrite C. exact L.
  - split; assumption.
Qed.
Lemma live_body p a b d s go fuel : sound p -> seed_ok p a b d -> well_behaved p d -> live p a b d s -> loop_body p s go fuel <> Panic.
Proof.
  intros Sd So W L. unfold loop_body. destruct (it_return s).
  - destruct go; cbn [negb]; [|discriminate]. destruct (forallb _ _); [discriminate|]. destruct (_ && _).
    + destruct (emit_everything_ok p _ s (proj1 L)) as (s1 & new & E1 & _). rewrite E1. cbn [bind]. destruct (pop s1). discriminate.
    + destruct (live_turn p a b d s Sd So W L) as (s2 & (n0 & R) & _).
      destruct (turn p s fuel) as [s3| |] eqn:E; cbn [bind]; try discriminate.
      pose proof (turn_mono p s fuel (Nat.max n0 fuel) ltac:(lia)) as M. rewrite E, R in M by lia. specialize (M ltac:(discriminate)). discriminate.
  - destruct (pop s). discriminate.
Qed.
Lemma live_next p a b d cb s fuel : sound p -> seed_ok p a b d -> well_behaved p d -> live p a b d s ->
  next_interruptible p cb s fuel <> Panic /\ forall s' x, next_interruptible p cb s fuel = Ret (s', x) -> live p a b d s'.
Proof.
  intros Sd So W L. unfold next_interruptible. split.
  - apply (loop_safe _ (fun st : iter * nat => live p a b d (fst st))); [|exact L]. intros [s1 i] L1. cbn [fst] in L1.
    pose proof (live_body p a b d s1 (cb i) fuel Sd So W L1) as NP. destruct (loop_body p s1 (cb i) fuel) as [[s2|x]| |] eqn:E; cbn [bind]; try congruence.
    + split; [discriminate|]. intros st Eq. apply Ret_inj in Eq. injection Eq as <-. cbn [fst]. apply (live_step p a b d s1 s2 Sd So W L1). exact (loop_body_step _ _ _ _ _ E).
    + split; [discriminate|]. intros st Eq. discriminate.
    + split; [discriminate|]. intros st Eq. discriminate.
  - intros s' x. apply (loop_inv _ (fun st : iter * nat => live p a b d (fst st)) (fun r : iter * answer => live p a b d (fst r))); [|exact L].
    intros [s1 i] L1 y Ey. cbn [fst] in L1. destruct (loop_body p s1 (cb i) fuel) as [[s2|[s2 z]]| |] eqn:E; cbn [bind] in Ey; try discriminate.
    + apply Ret_inj in Ey. subst y. cbn [fst]. apply (live_step p a b d s1 s2 Sd So W L1). exact (loop_body_step _ _ _ _ _ E).
    + apply Ret_inj in Ey. subst y. cbn [fst]. apply (live_step p a b d s1 s2 Sd So W L1). exact (loop_body_step _ _ _ _ _ E).
Qed.
Lemma live_calls p a b d cbs fuel : sound p -> seed_ok p a b d -> well_behaved p d -> forall s, live p a b d s -> calls p cbs s fuel <> Panic.
Proof.
  intros Sd So W. induction cbs as [|cb cbs IH]; intros s L; cbn [calls]; [discriminate|].
  destruct (live_next p a b d cb s fuel Sd So W L) as (NP & Lv). destruct (next_interruptible p cb s fuel) as [[s1 x]| |]; cbn [bind]; try congruence.
  specialize (Lv s1 x eq_refl). specialize (IH s1 Lv). destruct (calls p cbs s1 fuel) as [[s2 l]| |]; cbn [bind]; congruence.
Qed.

(** ** Repetitions *)
Lemma trace_tables p a b d h : sound p -> seed_ok p a b d -> trace p a b d h ->
  exists s l, h = s :: l /\ length (it_tables s) <= list_max (INITIAL_REPETITIONS :: map (fun s => c_rep (it_conf s) + 1) h).
Proof.
  intros Sd So T. induction T as [s E|s s' l T IH St].
  - destruct (new_inv p a b d s Sd So E) as (_ & _ & _ & _ & _ & L & _). exists s, []. split; [reflexivity|]. cbn [map list_max fold_right]. lia.
  - destruct IH as (s0 & l0 & Eq & L). injection Eq as <- <-. exists s', (s :: l). split; [reflexivity|].
    destruct (trace_inv p a b d _ Sd So T) as (s0 & l0 & Eq & I). injection Eq as <- <-.
    cbn [map list_max fold_right] in *.
    destruct (step_cases p _ s s' Sd I St) as (I' & [(G & f & E)|[(_ & C & C2 & _)| ->]]); [|rewrite C2; lia|lia].
    enough (H : length (it_tables s') <= Nat.max (length (it_tables s)) (c_rep (it_conf s') + 1)) by lia.
    unfold turn in E. destruct (update_graph_ok p _ s Sd I) as (s1 & t & k & th & bs & pos & new & R & I1 & A1 & A2 & A3 & A4 & _).
    destruct (update_graph p s f) as [s1'| |] eqn:E1; cbn [bind] in E; try discriminate.
    pose proof (ret_returns _ _ _ _ (update_graph_mono p s) E1 R) as ->.
    destruct (emit_confirmed_ok p _ s1 Sd I1) as (s2 & new2 & E2 & I2 & B1 & B2 & B3 & B4 & B5). rewrite E2 in E. cbn [bind] in E.
    destruct (0 <? p_n p); cbn [assert_] in E; [|discriminate]. rewrite <- A4, <- B3. clear - E.
    unfold advance in E. destruct (next_prefix p s2) as [nx| |]; cbn [bind] in E; try discriminate.
    destruct (Nat.leb_spec (c_prefix (it_conf s2)) nx) as [Lp|Lp].
    + destruct (Nat.leb_spec (length (it_tables s2)) (c_rep (it_conf s2) + 1)) as [Lt|Lt].
      * unfold add_repetitions in E. destruct (_ <? _) eqn:Ex; cbn [assert_ bind] in E; [|discriminate]. destruct (nx + 1 <=? K); cbn [assert_ bind] in E; [|discriminate].
        unfold config_move in E. destruct (Nat.leb_spec (c_prefix (it_conf s2)) nx); [|lia]. destruct (0 <? _); cbn [assert_ bind] in E; [|discriminate].
        apply Ret_inj in E. subst s'. cbn [it_tables it_conf c_rep]. rewrite app_length, map_length, seq_length. apply Nat.ltb_lt in Ex. lia.
      * cbn [bind] in E. destruct (config_move _ _) as [c| |]; cbn [bind] in E; try discriminate. apply Ret_inj in E. subst s'. cbn [it_tables]. lia.
    + cbn [bind] in E. destruct (config_move _ _) as [c| |]; cbn [bind] in E; try discriminate. apply Ret_inj in E. subst s'. cbn [it_tables]. lia.
Qed.

(** ** Queues are disabled only when the search stops *)
Lemma foreach_keeps {A S} (body : A -> S -> res S) (I : S -> Prop) l :
  (forall a s s', I s -> body a s = Ret s' -> I s') -> forall s s', I s -> foreach l body s = Ret s' -> I s'.
Proof.
  intros H. induction l as [|a l IH]; intros s s' Hs E; cbn [foreach] in E; [apply Ret_inj in E; subst; exact Hs|].
  destruct (body a s) as [s1| |] eqn:Eb; cbn [bind] in E; try discriminate. eauto.
Qed.
Lemma insert_disabled t m t' : tk_insert t m = Ret t' -> tk_disabled t' = tk_disabled t.
Proof.
  unfold tk_insert. destruct (tk_is_complete t); [intros E; apply Ret_inj in E; subst; reflexivity|].
  destruct (beyond_last t m); [intros E; apply Ret_inj in E; subst; reflexivity|].
  destruct (bt_insert m (tk_top t)) as [top| |]; cbn [bind]; try discriminate.
  destruct (tk_threshold t <? length top).
  - unfold tk_cleanup. cbn [tk_k tk_ez tk_threshold tk_top tk_emitted tk_sned tk_disabled]. destruct (cleanup_loop _ _ _ _ _) as [cl| |]; cbn [bind]; try discriminate.
    destruct (_ <=? _); cbn [assert_]; [|discriminate]. intros E. apply Ret_inj in E. subst t'. reflexivity.
  - cbn [bind]. destruct (_ <=? _); cbn [assert_]; [|discriminate]. intros E. apply Ret_inj in E. subst t'. reflexivity.
Qed.
Lemma emit_disabled t pr t' out : tk_emit t pr = Ret (t', out) -> tk_disabled t' = tk_disabled t.
Proof.
  unfold tk_emit. destruct (emit_loop _ _ _ _ _ _ _) as [[[e o] sn]| |]; cbn [bind]; try discriminate.
  intros E. apply Ret_inj in E. injection E as <- _. reflexivity.
Qed.
Lemma put_disabled top k t t' top' : get top k = Ret t -> put top k t' = Ret top' -> tk_disabled t' = tk_disabled t ->
  map tk_disabled top' = map tk_disabled top.
Proof.
  intros G P E. unfold get in G. destruct (nth_error top k) as [t0|] eqn:G0; [|discriminate]. apply Ret_inj in G. subst t0.
  unfold put in P. destruct (set_nth top k t') as [l|] eqn:S0; [|discriminate]. apply Ret_inj in P. subst l.
  revert k top' G0 S0. induction top as [|x top IH]; intros [|k] top' G S0; try discriminate; cbn in G; cbn [set_nth] in S0.
  - injection G as ->. injection S0 as <-. cbn [map]. congruence.
  - destruct (set_nth top k t') as [l|] eqn:S'; [|discriminate]. cbn [option_map] in S0. injection S0 as <-. cbn [map]. f_equal. eapply IH; eauto.
Qed.
Lemma turn_disabled p s fuel s' : turn p s fuel = Ret s' -> map tk_disabled (it_top s') = map tk_disabled (it_top s).
Proof.
  unfold turn. destruct (update_graph p s fuel) as [s1| |] eqn:E1; cbn [bind]; try discriminate.
  destruct (emit_confirmed p s1) as [s2| |] eqn:E2; cbn [bind]; try discriminate.
  destruct (0 <? p_n p); cbn [assert_]; [|discriminate]. intros E3.
  assert (T1 : it_top s1 = it_top s).
  { unfold update_graph in E1. destruct (_ <? _); cbn [assert_] in E1; [|discriminate].
    destruct (graph_threshold p s) as [th| |]; cbn [bind] in E1; try discriminate. destruct (get _ _) as [t| |]; cbn [bind] in E1; try discriminate.
    destruct (all_batches _ _ _ _) as [bs| |]; cbn [bind] in E1; try discriminate. destruct (foreach _ _ _) as [[[g bf] cnt]| |]; cbn [bind] in E1; try discriminate.
    apply Ret_inj in E1. subst s1. reflexivity. }
  assert (T3 : it_top s' = it_top s2).
  { unfold advance in E3. destruct (next_prefix p s2) as [nx| |]; cbn [bind] in E3; try discriminate.
    destruct (if c_prefix (it_conf s2) <=? nx then _ else _) as [tb| |]; cbn [bind] in E3; try discriminate. destruct (config_move _ _) as [c| |]; cbn [bind] in E3; try discriminate.
    apply Ret_inj in E3. subst s'. reflexivity. }
  rewrite T3, <- T1. clear - E2. unfold emit_confirmed in E2.
  destruct (g_neighborhoods _ _) as [[g nbs]| |]; cbn [bind] in E2; try discriminate.
  destruct (foreach nbs _ _) as [tp| |] eqn:Ea; cbn [bind] in E2; try discriminate.
  destruct (emit_queues _ _ _ _) as [[tp2 rt]| |] eqn:Eq; cbn [bind] in E2; try discriminate.
  destruct (min_distance _) as [nx| |]; cbn [bind] in E2; try discriminate. apply Ret_inj in E2. subst s2. cbn [it_top].
  transitivity (map tk_disabled tp).
  - unfold emit_queues in Eq.
    refine (foreach_keeps _ (fun st : list topk * list motiflet => map tk_disabled (fst st) = map tk_disabled tp) _ _ (tp, it_return s1) (tp2, rt) eq_refl Eq).
    intros k [a b] [a' b'] H E. cbn [fst] in *. destruct (get a k) as [t| |] eqn:Eg; cbn [bind] in E; try discriminate.
    destruct (tk_is_complete t); [apply Ret_inj in E; injection E as <- _; exact H|].
    destruct (tk_emit t _) as [[t' new]| |] eqn:Et; cbn [bind] in E; try discriminate.
    destruct (put a k t') as [a2| |] eqn:Ep; cbn [bind] in E; try discriminate. apply Ret_inj in E. injection E as <- _.
    rewrite (put_disabled _ _ _ _ _ Eg Ep (emit_disabled _ _ _ _ Et)). exact H.
  - refine (foreach_keeps _ (fun tp => map tk_disabled tp = map tk_disabled (it_top s1)) _ _ (it_top s1) tp eq_refl Ea).
    intros nb a a' H E. unfold add_neighbourhood in E. destruct (worth a (snd nb)); [|apply Ret_inj in E; subst; exact H].
    destruct (compute_extents _ _) as [ex| |]; cbn [bind] in E; try discriminate. unfold insert_prefixes in E.
    refine (foreach_keeps _ (fun tp => map tk_disabled tp = map tk_disabled (it_top s1)) _ _ a a' H E).
    intros i b b' Hb Eb. destruct (get ex i) as [e| |]; cbn [bind] in Eb; try discriminate. destruct (i + 1 <=? p_max_k p); [|apply Ret_inj in Eb; subst; exact Hb].
    destruct (get b (i + 1)) as [t| |] eqn:Eg; cbn [bind] in Eb; try discriminate. destruct (tk_insert t _) as [t'| |] eqn:Ei; cbn [bind] in Eb; try discriminate.
    rewrite (put_disabled _ _ _ _ _ Eg Eb (insert_disabled _ _ _ Ei)). exact Hb.
Qed.
Lemma new_disabled p a b d s : iter_new p a b d = Ret s -> forall k t, 2 <= k -> nth_error (it_top s) k = Some t -> tk_disabled t = false.
Proof.
  intros E k t Lk Ht. unfold iter_new in E.
  destruct (add_repetitions p [] 1 K) as [t0| |]; cbn [bind] in E; try discriminate.
  destruct (add_repetitions p t0 _ K) as [t1| |]; cbn [bind] in E; try discriminate.
  destruct (calibration_prefix (p_expected p)) as [?| |]; cbn [bind] in E; try discriminate.
  destruct (first_meaningful_prefix (p_expected p)) as [p0| |] eqn:Ep; cbn [bind] in E; try discriminate.
  destruct (0 <? p0); cbn [assert_] in E; [|discriminate].
  destruct (p_max_k p) as [|[|K2]] eqn:Ek; [discriminate|discriminate|].
  replace (S (S K2) + 1) with (S (S (S K2))) in E by lia.
  unfold get, put in E. cbn [repeat nth_error bind set_nth option_map] in E.
  destruct (tk_insert (tk_new (p_top_k p) (p_ez p)) _) as [t2| |] eqn:Ei; cbn [bind] in E; try discriminate.
  apply Ret_inj in E. subst s. cbn [it_top] in Ht. destruct k as [|[|[|k]]]; [lia|lia| |]; cbn [nth_error] in Ht.
  - injection Ht as <-. rewrite (insert_disabled _ _ _ Ei). reflexivity.
  - apply nth_error_In, repeat_spec in Ht. subst t. reflexivity.
Qed.
Lemma step_disabled p s s' : p_stop p = false -> step p s s' -> map tk_disabled (it_top s') = map tk_disabled (it_top s).
Proof.
  intros Hs (go & fuel & [E|(x & E)]).
  - apply loop_body_inl in E. eapply turn_disabled. apply E.
  - unfold loop_body in E. rewrite Hs in E. destruct (it_return s).
    + destruct go; cbn [negb] in E; [|apply Ret_inj in E; injection E as <- _; reflexivity].
      destruct (forallb _ _); [apply Ret_inj in E; injection E as <- _; reflexivity|]. rewrite andb_false_r in E.
      destruct (turn p s fuel) as [s1| |]; cbn [bind] in E; discriminate.
    + unfold pop in E. destruct (rev _); apply Ret_inj in E; injection E as <- _; reflexivity.
Qed.
