(** C88: when the search goes to a shorter prefix. *)
From Coq Require Import Floats.SpecFloat.
From Verif Require Import Base F64 HashValue Overlaps OverlapsSpec OverlapsProofs Enumerator EnumSpec Moves MovesProofs
  TopK TopKSpec TopKProofs Graph GraphSpec GraphProofs GraphFlagProofs
  Iterator IteratorSpec IteratorProofs IteratorLoop IteratorCalls IteratorSteps P_Iterator P_Iterator2 GuaranteeSpec GuaranteeProofs GuaranteeTrace P_Guarantee
  Profile ScheduleSpec.

(** ** the repetitions charged *)
Lemma needed_charged p d q : flt (p_delta p) f_one = true -> charged p d q (fst (needed_repetitions p d q)) /\ fst (needed_repetitions p d q) <= p_max_repetitions p.
Proof.
  intros Hd. unfold needed_repetitions.
  set (go := fix go (rest nreps : nat) (fp : f64) {struct rest} : nat * f64 := _).
  assert (G : forall rest n fp, n + rest = p_max_repetitions p -> (forall r, r + 1 < n -> ~ enough p d q r) ->
    (n = 0 /\ fp = f_one \/ exists r, n = r + 1 /\ fp = p_failure p d r q None None) ->
    charged p d q (fst (go rest n fp)) /\ fst (go rest n fp) <= p_max_repetitions p).
  { induction rest as [|rest IH]; intros n fp Hn Hr Hf; cbn [go fst].
    - split; [|lia]. destruct Hf as [[-> ->]|(r & -> & ->)].
      + right. split; [lia|]. intros r Lr. lia.
      + destruct (flt (p_delta p) (p_failure p d r q None None)) eqn:E.
        * right. split; [lia|]. intros r' Lr. destruct (Nat.eq_dec r' r) as [->|N]; [unfold enough; congruence|apply Hr; lia].
        * left. exists r. split; [reflexivity|]. split; [lia|]. split; [exact E|]. intros r' Lr. apply Hr. lia.
    - destruct (flt (p_delta p) fp) eqn:E.
      + apply IH; [lia| |right; exists n; split; [lia|reflexivity]].
        intros r Lr. destruct (Nat.eq_dec (r + 1) n) as [Eq|N]; [|apply Hr; lia].
        destruct Hf as [[-> _]|(r' & -> & ->)]; [lia|]. assert (r = r') as -> by lia. unfold enough. congruence.
      + cbn [fst]. split; [|lia]. destruct Hf as [[-> ->]|(r & -> & ->)]; [congruence|].
        left. exists r. split; [reflexivity|]. split; [lia|]. split; [exact E|]. intros r' Lr. apply Hr. lia. }
  apply G; [lia|intros r Lr; lia|left; auto].
Qed.

Lemma charged_unique p d q n m : charged p d q n -> charged p d q m -> n = m.
Proof.
  assert (H : forall n m, charged p d q n -> charged p d q m -> n <= m).
  { clear. intros n m [(r & -> & L & E & F)|(-> & F)] [(r' & -> & L' & E' & F')|(-> & F')]; auto.
    - destruct (Nat.le_gt_cases r r'); [lia|]. destruct (F r' ltac:(lia) E').
    - destruct (F r' ltac:(lia) E'). }
  intros A B. pose proof (H _ _ A B). pose proof (H _ _ B A). lia.
Qed.

Lemma cost_costs p have d q coll : flt (p_delta p) f_one = true -> nth_error (p_expected p) q = Some coll -> costs p have d q (fst (cost_to_confirm p have d q coll)).
Proof.
  intros Hd Hq. destruct (needed_charged p d q Hd) as (C & L). unfold cost_to_confirm.
  destruct (needed_repetitions p d q) as [n fp]. cbn [fst] in C, L. exists n, coll. split; [exact C|]. split; [exact Hq|].
  destruct (Nat.leb_spec (p_max_repetitions p) n); [left; split; [lia|reflexivity]|right; split; [lia|reflexivity]].
Qed.
Lemma costs_unique p have d q x y : costs p have d q x -> costs p have d q y -> x = y.
Proof.
  intros (n & c & C & E & X) (m & c' & C' & E' & Y). pose proof (charged_unique _ _ _ _ _ C C') as <-. rewrite E in E'. injection E' as <-.
  destruct X as [(A & ->)|(A & ->)], Y as [(B & ->)|(B & ->)]; try lia; reflexivity.
Qed.

(** ** the first of the cheapest *)
Definition number (x : f64) : Prop := is_nan x = false /\ is_sign_negative x = false.
Lemma total_lt_number nf x y : number x -> number y -> total_lt nf x y = flt x y.
Proof.
  intros (A & B) (C & D). unfold total_lt, flt, SFltb. rewrite B, D. cbn [negb andb].
  destruct x, y; cbn in *; try discriminate; try reflexivity.
  all: match goal with |- context [match ?e with _ => _ end] => destruct e as [[]|] end; reflexivity.
Qed.

Definition first_min (l : list f64) (j : nat) (c : f64) : Prop :=
  nth_error l j = Some c /\ forall q x, nth_error l q = Some x -> fle c x = true /\ (q < j -> flt c x = true).
Lemma best_first nf l : forall pre b c j c', (forall x, In x l -> number (fst x)) -> (forall x, In x pre -> number x) ->
  first_min pre b c -> best_cost nf (length pre) l (b, c) = (j, c') -> first_min (pre ++ map fst l) j c'.
Proof.
  induction l as [|[x nx] l IH]; intros pre b c j c' Hl Hp F E; cbn [best_cost] in E.
  - injection E as <- <-. cbn. rewrite app_nil_r. exact F.
  - destruct F as (F1 & F2). assert (Nx : number x) by (apply (Hl (x, nx)); left; reflexivity).
    assert (Nc : number c) by (apply Hp; eapply nth_error_In; exact F1).
    cbn [snd map fst] in *. rewrite (total_lt_number nf x c Nx Nc) in E.
    replace (pre ++ x :: map fst l) with ((pre ++ [x]) ++ map fst l) by (rewrite <- app_assoc; reflexivity).
    replace (S (length pre)) with (length (pre ++ [x])) in E by (rewrite app_length; cbn; lia).
    assert (Lb : b < length pre) by (apply nth_error_Some; congruence).
    assert (G : exists b1 c1, (if flt x c then (length pre, x) else (b, c)) = (b1, c1) /\ first_min (pre ++ [x]) b1 c1).
    { destruct (flt x c) eqn:Ex; eexists; eexists; (split; [reflexivity|]).
      - split; [rewrite nth_error_app2, Nat.sub_diag by lia; reflexivity|]. intros q y Hy.
        destruct (Nat.lt_ge_cases q (length pre)) as [Lq|Lq].
        + rewrite nth_error_app1 in Hy by lia. destruct (F2 q y Hy) as (A & B).
          assert (T : flt x y = true) by (eapply flt_fle_trans; eauto). split; [apply flt_fle, T|auto].
        + rewrite nth_error_app2 in Hy by lia. destruct (q - length pre) as [|k] eqn:Ek; [|destruct k; discriminate].
          cbn in Hy. injection Hy as <-. split; [apply fle_refl, Nx|lia].
      - split; [rewrite nth_error_app1 by lia; exact F1|]. intros q y Hy.
        destruct (Nat.lt_ge_cases q (length pre)) as [Lq|Lq]; [rewrite nth_error_app1 in Hy by lia; apply F2, Hy|].
        rewrite nth_error_app2 in Hy by lia. destruct (q - length pre) as [|k] eqn:Ek; [|destruct k; discriminate].
        cbn in Hy. injection Hy as <-. split; [|lia].
        rewrite (fle_not_flt c x (proj1 Nc) (proj1 Nx)), Ex. reflexivity. }
    destruct G as (b1 & c1 & Eb & F3). rewrite Eb in E.
    apply (IH (pre ++ [x]) b1 c1 j c'); [intros y Hy; apply Hl; right; exact Hy| |exact F3|exact E].
    intros y Hy. apply in_app_or in Hy. destruct Hy as [Hy|[<-|[]]]; auto.
Qed.

Lemma map_cost_nth p have d n q x : n <= length (p_expected p) ->
  nth_error (map fst (map (fun pc => cost_to_confirm p have d (fst pc) (snd pc)) (combine (seq 0 n) (p_expected p)))) q = Some x <->
  q < n /\ exists coll, nth_error (p_expected p) q = Some coll /\ x = fst (cost_to_confirm p have d q coll).
Proof.
  rewrite map_map. cbn [fst]. generalize (p_expected p) as l. intros l Ln.
  assert (G : forall l n k q x, n <= length l -> nth_error (map (fun pc => fst (cost_to_confirm p have d (fst pc) (snd pc))) (combine (seq k n) l)) q = Some x <->
    q < n /\ exists coll, nth_error l q = Some coll /\ x = fst (cost_to_confirm p have d (k + q) coll)).
  { clear. induction l as [|c l IH]; intros n k q x Ln; (destruct n as [|n]; cbn [seq combine map]; [split; [destruct q; discriminate|intros (H & _); lia]|]).
    - cbn in Ln. lia.
    - cbn [length] in Ln. destruct q as [|q]; cbn [nth_error fst snd].
      + rewrite Nat.add_0_r. split; [intros E; injection E as <-; split; [lia|]; eauto|intros (_ & coll & E & ->)]. injection E as ->. reflexivity.
      + rewrite (IH n (S k) q x ltac:(lia)). replace (S k + q) with (k + S q) by lia. split; intros (H & R); (split; [lia|exact R]). }
  apply (G l n 0 q x Ln).
Qed.

Lemma next_prefix_down p a b d s nx : sound p -> inv p (Motiflet [a; b] d) s -> flt (p_delta p) f_one = true ->
  (forall q x e, q <= c_prefix (it_conf s) -> it_next s = Some e -> costs p (length (it_tables s)) e q x -> number x) ->
  next_prefix p s = Ret nx -> nx <= c_prefix (it_conf s) /\
  (nx < c_prefix (it_conf s) <-> must_stay (it_conf s) = false /\ exists x, it_next s = Some x /\
     (is_finite x = true /\ shorter_is_no_worse p (length (it_tables s)) x (c_prefix (it_conf s)) \/
      is_finite x = false /\ p_max_repetitions p <= c_rep (it_conf s))).
Proof.
  intros Sd I Hd Hn E. destruct (inv_conf _ _ _ I) as (_ & Hp & _). set (c := it_conf s) in *. unfold next_prefix in E. fold c in E.
  destruct (must_stay c); [apply Ret_inj in E; subst nx; split; [lia|split; [lia|intros (H & _); discriminate]]|].
  destruct (it_next s) as [e|] eqn:En; [|apply Ret_inj in E; subst nx; split; [lia|split; [lia|intros (_ & x & H & _); discriminate]]].
  destruct (is_finite e) eqn:Fe.
  - unfold costs_to_confirm in E. pose proof (sound_profile p Sd) as Lp. rewrite Lp in E.
    destruct (Nat.ltb_spec (c_prefix c) (K + 1)) as [Lc|]; [|lia]. cbn [assert_ bind] in E.
    pose proof (fun q x => map_cost_nth p (length (it_tables s)) e (c_prefix c + 1) q x ltac:(lia)) as Nth.
    remember (map (fun pc => cost_to_confirm p (length (it_tables s)) e (fst pc) (snd pc)) (combine (seq 0 (c_prefix c + 1)) (p_expected p))) as L eqn:EL.
    assert (NthC : forall q x, nth_error (map fst L) q = Some x <-> q < c_prefix c + 1 /\ costs p (length (it_tables s)) e q x).
    { intros q x. rewrite Nth. split; intros (H1 & H2); (split; [exact H1|]).
      - destruct H2 as (coll & H2 & ->). apply cost_costs; auto.
      - destruct (nth_error (p_expected p) q) as [coll|] eqn:Ec; [|apply nth_error_None in Ec; lia].
        exists coll. split; [reflexivity|]. apply (costs_unique _ _ _ _ _ _ H2). apply cost_costs; auto. }
    assert (NumL : forall x, In x (map fst L) -> number x).
    { intros x Hx. apply In_nth_error in Hx. destruct Hx as (q & Hq). apply NthC in Hq. apply (Hn q x e); [lia|reflexivity|apply Hq]. }
    clear EL. destruct L as [|[c0 n0] t]; [discriminate|].
    destruct (best_cost (p_nan_first p) 1 t (0, c0)) as [j cj] eqn:Eb.
    assert (FM : first_min ([c0] ++ map fst t) j cj).
    { apply (best_first (p_nan_first p) t [c0] 0 c0 j cj); [| |split; [reflexivity|]|exact Eb].
      - intros x Hx. apply NumL. right. apply in_map. exact Hx.
      - intros x [<-|[]]. apply NumL. left. reflexivity.
      - intros [|q] x Hx; [|destruct q; discriminate]. cbn in Hx. injection Hx as <-. split; [|lia]. apply fle_refl, NumL. left. reflexivity. }
    change ([c0] ++ map fst t) with (map fst ((c0, n0) :: t)) in FM. destruct FM as (Fj & Fm).
    assert (Hj : j < c_prefix c + 1 /\ costs p (length (it_tables s)) e j cj) by (apply NthC; exact Fj). destruct Hj as (Lj & Cj).
    assert (exists z, nth_error (map fst ((c0, n0) :: t)) (c_prefix c) = Some z) as (z & Hz).
    { destruct (nth_error (p_expected p) (c_prefix c)) as [coll|] eqn:Ec; [|apply nth_error_None in Ec; lia].
      eexists. apply Nth. split; [lia|]. eauto. }
    assert (Cz : costs p (length (it_tables s)) e (c_prefix c) z) by (apply NthC in Hz; apply Hz).
    destruct (is_infinite cj) eqn:Ij; apply Ret_inj in E; subst nx; (split; [lia|]); split.
    + lia.
    + intros (_ & x & Ex & [(_ & q & y & z' & Lq & Cy & _ & Iy & _)|(F & _)]); [|congruence]. injection Ex as <-. exfalso.
      assert (Hy : nth_error (map fst ((c0, n0) :: t)) q = Some y) by (apply NthC; split; [lia|exact Cy]).
      destruct (Fm q y Hy) as (Le & _). pose proof (NumL _ (nth_error_In _ _ Fj)) as (_ & Sj).
      destruct cj as [| [] | |]; try discriminate. destruct y as [| [] | |]; discriminate.
    + intros Lj'. split; [reflexivity|]. exists e. split; [reflexivity|]. left. split; [exact Fe|].
      exists j, cj, z. split; [exact Lj'|]. split; [exact Cj|]. split; [exact Cz|]. split; [exact Ij|]. apply (Fm _ _ Hz).
    + intros (_ & x & Ex & [(_ & q & y & z' & Lq & Cy & Cz' & Iy & Le)|(F & _)]); [|congruence]. injection Ex as <-.
      pose proof (costs_unique _ _ _ _ _ _ Cz Cz') as <-.
      assert (Hy : nth_error (map fst ((c0, n0) :: t)) q = Some y) by (apply NthC; split; [lia|exact Cy]).
      destruct (Nat.eq_dec j (c_prefix c)) as [->|]; [|lia]. exfalso.
      assert (cj = z) as -> by congruence. destruct (Fm q y Hy) as (_ & F2). specialize (F2 Lq).
      pose proof (flt_fle_trans _ _ _ F2 Le) as F3. rewrite flt_irrefl in F3. discriminate.
  - destruct (Nat.ltb_spec (c_rep c) (p_max_repetitions p)) as [L|L]; apply Ret_inj in E; subst nx; (split; [lia|]); split.
    + lia.
    + intros (_ & x & Ex & [(F & _)|(_ & H)]); [congruence|lia].
    + intros _. split; [reflexivity|]. exists e. split; [reflexivity|]. right. auto.
    + lia.
Qed.

Lemma must_stay_leave past c : hist_inv past c -> must_stay c = false <-> may_leave c.
Proof.
  intros H. pose proof (hi_none _ _ H) as N. unfold must_stay, may_leave, owed, INITIAL_REPETITIONS. rewrite orb_false_iff, andb_false_iff, !Nat.ltb_ge.
  destruct (c_prev_reps c) as [r|], (c_prev c) as [q|].
  - split; [intros (_ & L); exact L|intros L; split; [right; reflexivity|exact L]].
  - destruct N as [N _]. discriminate (N eq_refl).
  - destruct N as [_ N]. discriminate (N eq_refl).
  - split; [intros (_ & L); exact L|intros L; split; [left; exact L|exact L]].
Qed.

Lemma advance_view p s s' : advance p s = Ret s' -> exists nx, next_prefix p s = Ret nx /\
  it_next s' = it_next s /\
  (c_prefix (it_conf s) <= nx /\ stays_on (it_conf s) (it_conf s') /\
     (c_rep (it_conf s) + 1 < length (it_tables s) /\ it_tables s' = it_tables s \/
      length (it_tables s) <= c_rep (it_conf s) + 1 /\ add_repetitions p (it_tables s) (c_rep (it_conf s) + 2) (nx + 1) = Ret (it_tables s')) \/
   nx < c_prefix (it_conf s) /\ steps_down (it_conf s) (it_conf s') /\ it_tables s' = it_tables s).
Proof.
  intros E. unfold advance in E. destruct (next_prefix p s) as [nx| |]; cbn [bind] in E; try discriminate.
  exists nx. split; [reflexivity|].
  destruct (if c_prefix (it_conf s) <=? nx then _ else _) as [tb| |] eqn:Et; cbn [bind] in E; try discriminate.
  destruct (config_move (it_conf s) nx) as [c| |] eqn:Ec; cbn [bind] in E; try discriminate. apply Ret_inj in E. subst s'. cbn [it_next it_conf it_tables].
  split; [reflexivity|]. unfold config_move in Ec. destruct (Nat.leb_spec (c_prefix (it_conf s)) nx) as [L|L].
  - left. split; [exact L|]. destruct (0 <? _); cbn [assert_] in Ec; [|discriminate]. apply Ret_inj in Ec. subst c. split; [unfold stays_on; cbn; auto|].
    destruct (Nat.leb_spec (length (it_tables s)) (c_rep (it_conf s) + 1)) as [L2|L2].
    + right. split; [exact L2|]. replace (c_rep (it_conf s) + 2) with (c_rep (it_conf s) + 1 + 1) by lia. exact Et.
    + left. split; [exact L2|]. apply Ret_inj in Et. auto.
  - right. split; [exact L|]. apply Ret_inj in Et. destruct (0 <? _) eqn:E0; cbn [assert_] in Ec; [|discriminate]. apply Ret_inj in Ec. subst c.
    split; [|auto]. apply Nat.ltb_lt in E0. cbn [c_prefix] in E0. unfold steps_down. cbn. split; [reflexivity|]. split; [lia|]. auto.
Qed.

Lemma turn_before_advance p a b d s s' : sound p -> seed_ok p a b d -> turn_of p a b d s s' ->
  exists s2, advance p s2 = Ret s' /\ inv p (Motiflet [a; b] d) s2 /\ it_conf s2 = it_conf s /\ it_tables s2 = it_tables s /\
    exists past, hist_inv past (it_conf s).
Proof.
  intros Sd So (h & fuel & T & B). inversion T as [|s0 s1 l T' St]; subst.
  destruct (trace_log p a b d _ Sd So T') as (sx & lx & past & log & Eq & Hi & _). injection Eq as <- <-.
  destruct (trace_inv p a b d _ Sd So T') as (s0 & l0 & Eq & I). injection Eq as <- <-.
  destruct (loop_body_inl _ _ _ _ _ B) as (_ & _ & E). unfold turn in E.
  destruct (update_graph_ok p _ s Sd I) as (s1 & t & k & th & bs & pos & new & Ru & I1 & A1 & A2 & A3 & A4 & _).
  destruct (update_graph p s fuel) as [s1'| |] eqn:E1; cbn [bind] in E; try discriminate.
  pose proof (ret_returns _ _ _ _ (update_graph_mono p s) E1 Ru) as ->.
  destruct (emit_confirmed_ok p _ s1 Sd I1) as (s2 & nw & E2 & I2 & _ & C2 & T2 & _). rewrite E2 in E. cbn [bind] in E.
  destruct (0 <? p_n p); cbn [assert_] in E; [|discriminate].
  exists s2. split; [exact E|]. split; [exact I2|]. split; [congruence|]. split; [congruence|]. eauto.
Qed.

(** * C88: when the search goes to a shorter prefix *)
(** Each turn either goes on with the next repetition at the same prefix, or starts again
    from the first repetition at a prefix shorter by one.  The latter happens exactly when
    the repetitions owed at this prefix are done, some distance is still to be confirmed,
    and some shorter prefix would confirm it at a cost that is not higher (or, for an
    infinite distance, the repetitions are exhausted). *)
Theorem c88_schedule :
  forall (p : problem) (a b : nat) (d : f64) (s s' : iter),
    sound p -> seed_ok p a b d -> flt (p_delta p) f_one = true -> turn_of p a b d s s' ->
    (forall q x e, q <= c_prefix (it_conf s) -> it_next s' = Some e -> costs p (length (it_tables s)) e q x ->
       is_nan x = false /\ is_sign_negative x = false) ->
    (stays_on (it_conf s) (it_conf s') \/ steps_down (it_conf s) (it_conf s')) /\
    (steps_down (it_conf s) (it_conf s') <->
       may_leave (it_conf s) /\ exists x, it_next s' = Some x /\
       (is_finite x = true /\ shorter_is_no_worse p (length (it_tables s)) x (c_prefix (it_conf s)) \/
        is_finite x = false /\ p_max_repetitions p <= c_rep (it_conf s))).
Proof.
  intros p a b d s s' Sd So Hd T Hn. destruct (turn_before_advance p a b d s s' Sd So T) as (s2 & E & I2 & C2 & T2 & past & Hi).
  destruct (advance_view p s2 s' E) as (nx & En & Ex & V). rewrite C2, T2 in V. rewrite Ex in Hn |- *. clear Ex.
  assert (Hn' : forall q x e, q <= c_prefix (it_conf s2) -> it_next s2 = Some e -> costs p (length (it_tables s2)) e q x -> number x).
  { rewrite C2, T2. exact Hn. }
  destruct (next_prefix_down p a b d s2 nx Sd I2 Hd Hn' En) as (L & Iff). rewrite C2, T2, (must_stay_leave past _ Hi) in Iff. rewrite C2 in L.
  destruct V as [(L1 & V & _)|(L1 & V & _)].
  - split; [left; exact V|]. split; [intros (_ & W & _); destruct V as (_ & V & _); lia|]. intros H. apply Iff in H. lia.
  - split; [right; exact V|]. split; [intros _; apply Iff, L1|intros _; exact V].
Qed.
Print Assumptions c88_schedule.

(** Repetitions are computed one at a time, when the search gets to them, with one hash
    value more than the prefix needs; going to a shorter prefix computes none. *)
Theorem c88_repetitions_on_demand :
  forall (p : problem) (a b : nat) (d : f64) (s s' : iter),
    sound p -> seed_ok p a b d -> turn_of p a b d s s' ->
    it_tables s' = it_tables s \/
    stays_on (it_conf s) (it_conf s') /\ length (it_tables s) = c_rep (it_conf s) + 1 /\
    exists k, k <= K /\ c_prefix (it_conf s) < k /\ it_tables s' = it_tables s ++ [p_table p (length (it_tables s)) k].
Proof.
  intros p a b d s s' Sd So T. destruct (turn_before_advance p a b d s s' Sd So T) as (s2 & E & I2 & C2 & T2 & past & Hi).
  destruct (advance_view p s2 s' E) as (nx & En & Ex & V). rewrite C2, T2 in V.
  destruct V as [(L1 & V & [(_ & V2)|(L2 & V2)])|(_ & _ & V2)]; auto. right. split; [exact V|].
  destruct (inv_conf _ _ _ I2) as (H1 & H2 & _). rewrite C2, T2 in H1. rewrite C2 in H2. assert (Lt : length (it_tables s) = c_rep (it_conf s) + 1) by lia. split; [exact Lt|].
  unfold add_repetitions in V2. destruct (length (it_tables s) <? c_rep (it_conf s) + 2); cbn [assert_] in V2; [|discriminate].
  destruct (Nat.leb_spec (nx + 1) K) as [Lk|Lk]; cbn [assert_] in V2; [|discriminate]. apply Ret_inj in V2.
  replace (c_rep (it_conf s) + 2 - length (it_tables s)) with 1 in V2 by lia. cbn [seq map] in V2.
  exists (nx + 1). split; [exact Lk|]. split; [lia|]. rewrite V2. reflexivity.
Qed.
Print Assumptions c88_repetitions_on_demand.

(** the toy search, but nothing can be confirmed at prefix 6: it takes eight repetitions, then goes to prefix 5 *)
Definition toy_hard : problem := {|
  p_n := 13; p_ez := 2; p_max_k := 3; p_top_k := 1;
  p_zeucl := toy_distance; p_zeucl_threshold := below toy_distance;
  p_table := fun _ _ => (toy_hashes, [0; 4; 8; 12]%N);
  p_failure := fun _ reps prefix _ _ => if (prefix <? 6) && (3 <=? reps) then f_zero else fl 1;
  p_delta := half; p_coin := fun _ _ _ => true;
  p_expected := toy_expected; p_setup_cost := fl 1; p_collision_cost := fl 1; p_max_repetitions := 100;
  p_buffer := 4; p_threshold := 7; p_stop := false; p_nan_first := true |}.
Lemma toy_hard_sound : sound toy_hard.
Proof. destruct toy_sound; split; assumption. Qed.

Fixpoint nth_state (p : problem) (n : nat) (s : iter) : res iter :=
  match n with
  | O => Ret s
  | S n => let! s1 := nth_state p n s in let! r := loop_body p s1 true 30 in match r with inl s2 => Ret s2 | inr _ => Panic end
  end.
Lemma nth_trace p a b d s0 : iter_new p a b d = Ret s0 -> forall n s, nth_state p n s0 = Ret s -> exists h, trace p a b d (s :: h).
Proof.
  intros E0. induction n as [|n IH]; intros s E; cbn [nth_state] in E.
  - apply Ret_inj in E. subst s. exists []. apply trace_new, E0.
  - destruct (nth_state p n s0) as [s1| |]; cbn [bind] in E; try discriminate. destruct (IH s1 eq_refl) as (h & T).
    destruct (loop_body p s1 true 30) as [[s2|x]| |] eqn:B; cbn [bind] in E; try discriminate. apply Ret_inj in E. subst s2.
    exists (s1 :: h). apply trace_step; [exact T|]. exists true, 30. left. exact B.
Qed.
Lemma nth_turn p a b d s0 n s s' : iter_new p a b d = Ret s0 -> nth_state p n s0 = Ret s -> nth_state p (S n) s0 = Ret s' -> turn_of p a b d s s'.
Proof.
  intros E0 E E'. destruct (nth_trace p a b d s0 E0 n s E) as (h & T). cbn [nth_state] in E'. rewrite E in E'. cbn [bind] in E'.
  destruct (loop_body p s true 30) as [[s2|x]| |] eqn:B; cbn [bind] in E'; try discriminate. apply Ret_inj in E'. subst s2.
  exists h, 30. split; [|exact B]. apply trace_step; [exact T|]. exists true, 30. left. exact B.
Qed.

Example c88_case : sound toy_hard /\ seed_ok toy_hard 4 8 (fl 2) /\ flt (p_delta toy_hard) f_one = true /\
  exists s6 s7 s8, turn_of toy_hard 4 8 (fl 2) s6 s7 /\ turn_of toy_hard 4 8 (fl 2) s7 s8 /\
    stays_on (it_conf s6) (it_conf s7) /\ steps_down (it_conf s7) (it_conf s8) /\ c_prefix (it_conf s7) = 6 /\
    it_next s8 = Some (fl 1) /\
    (forall q x e, q <= c_prefix (it_conf s7) -> it_next s8 = Some e -> costs toy_hard (length (it_tables s7)) e q x ->
       is_nan x = false /\ is_sign_negative x = false).
Proof.
  split; [exact toy_hard_sound|]. split; [exact toy_seed|]. split; [reflexivity|].
  assert (E : exists s0 s6 s7 s8, iter_new toy_hard 4 8 (fl 2) = Ret s0 /\ nth_state toy_hard 6 s0 = Ret s6 /\ nth_state toy_hard 7 s0 = Ret s7 /\ nth_state toy_hard 8 s0 = Ret s8 /\
     stays_on (it_conf s6) (it_conf s7) /\ steps_down (it_conf s7) (it_conf s8) /\ c_prefix (it_conf s7) = 6 /\ it_next s8 = Some (fl 1) /\ length (it_tables s7) = 8).
  { eexists. eexists. eexists. eexists. split; [vm_compute; reflexivity|]. split; [vm_compute; reflexivity|]. split; [vm_compute; reflexivity|]. split; [vm_compute; reflexivity|].
    split; [repeat split|]. split; [repeat split|]. repeat split. }
  destruct E as (s0 & s6 & s7 & s8 & E0 & E6 & E7 & E8 & G1 & G2 & G3 & G4 & G5). exists s6, s7, s8.
  split; [eapply nth_turn; eauto|]. split; [eapply nth_turn; eauto|]. split; [exact G1|]. split; [exact G2|]. split; [exact G3|]. split; [exact G4|].
  intros q x e Lq Ee C. rewrite G3 in Lq. rewrite G4 in Ee. injection Ee as <-. rewrite G5 in C.
  destruct (nth_error (p_expected toy_hard) q) as [coll|] eqn:Ec.
  - pose proof (costs_unique _ _ _ _ _ _ C (cost_costs toy_hard 8 (fl 1) q coll eq_refl Ec)) as ->. clear C.
    do 7 (destruct q as [|q]; [cbn in Ec; injection Ec as <-; split; vm_compute; reflexivity|]). lia.
  - destruct C as (n & c & _ & H & _). congruence.
Qed.
