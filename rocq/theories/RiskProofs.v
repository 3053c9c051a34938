(** The probability of missing a pair: the union over the configurations. *)
From Coq Require Import Reals Lra.
From Verif Require Import Base F64 HashValue OverlapsSpec EnumSpec BruteSpec RSpec Moves MovesProofs TopK Iterator IteratorSpec IteratorProofs IteratorLoop IteratorCalls IteratorSteps
  GuaranteeSpec GuaranteeProofs GuaranteeTrace P_Guarantee ScheduleSpec Collision CollisionSpec CollisionProofs P_Collision RiskSpec.

Lemma trace_tail p a b d s s' h : trace p a b d (s' :: s :: h) -> trace p a b d (s :: h).
Proof. intros T. inversion T; subst. assumption. Qed.

(** ** Tables are only added *)
Section Run.
  Variables (p : problem) (a b : nat) (d : f64).
  Hypotheses (Sd : sound p) (So : seed_ok p a b d).

  Lemma trace_grows h : trace p a b d h -> forall s s1, nth_error h 0 = Some s -> In s1 h -> length (it_tables s1) <= length (it_tables s).
  Proof.
    intros T s s1 E H. destruct (trace_log p a b d h Sd So T) as (s0 & l & past & log & -> & _ & _ & _ & _ & _ & Tb). injection E as <-.
    destruct (Tb s1 H) as (more & ->). rewrite app_length. lia.
  Qed.
  Lemma turns_grow s n s' : turns p s n s' -> forall h, trace p a b d (s :: h) -> length (it_tables s) <= length (it_tables s').
  Proof.
    intros T. induction T as [s|s s1 n s' G (f & E) T IH]; intros h Tr; [lia|].
    assert (T1 : trace p a b d (s1 :: s :: h)) by (constructor; [exact Tr|]; exists true, f; left; rewrite (loop_body_go p s f G), E; reflexivity).
    specialize (IH _ T1). pose proof (trace_grows _ T1 s1 s eq_refl (or_intror (or_introl eq_refl))). lia.
  Qed.
  Lemma calls_grow cbs : forall s fuel s' l h, calls p cbs s fuel = Ret (s', l) -> trace p a b d (s :: h) -> length (it_tables s) <= length (it_tables s').
  Proof.
    induction cbs as [|cb cbs IH]; intros s fuel s' l h E T.
    - cbn [calls] in E. apply Ret_inj in E. injection E as <- <-. lia.
    - destruct (calls_split _ _ _ _ _ _ _ E) as (s1 & x & l' & (n & s2 & Tn & _ & f & B) & E' & ->).
      destruct (turns_trace p a b d _ _ _ Tn _ T) as (h1 & H1).
      assert (T' : trace p a b d (s1 :: s2 :: h1)) by (constructor; [exact H1|]; eexists; eexists; right; eexists; exact B).
      pose proof (IH s1 fuel s' l' _ E' T'). pose proof (turns_grow _ _ _ Tn _ T). pose proof (trace_grows _ T' s1 s2 eq_refl (or_intror (or_introl eq_refl))). lia.
  Qed.

  (** a property of everything emitted while there are at most [N] tables *)
  Section Items.
    Variables (N : nat) (Q : motiflet -> Prop).
    Hypothesis Ns : p_stop p = false.
    Hypothesis Qturn : forall s s' m, turn_of p a b d s s' -> length (it_tables s) <= N -> In m (it_return s') -> Q m.

    Lemma trace_return_within h : trace p a b d h -> exists s l, h = s :: l /\ (length (it_tables s) <= N -> forall m, In m (it_return s) -> Q m).
    Proof.
      intros T. induction T as [s E|s s' l T IH St].
      - exists s, []. split; [reflexivity|]. destruct (new_inv p a b d s Sd So E) as (_ & _ & -> & _). intros _ m [].
      - destruct IH as (s0 & l0 & Eq & IH). injection Eq as <- <-. exists s', (s :: l). split; [reflexivity|]. intros L.
        assert (T' : trace p a b d (s' :: s :: l)) by (constructor; assumption).
        pose proof (trace_grows _ T' s' s eq_refl (or_intror (or_introl eq_refl))) as Ls.
        destruct (step_view p s s' St) as [(f & G & Et)|[(_ & _ & _ & _ & _ & Inc)|(S1 & _)]]; [| |congruence].
        + intros m Hm. apply (Qturn s s'); [|lia|exact Hm]. exists l, f. split; [exact T'|]. rewrite (loop_body_go p s f G), Et. reflexivity.
        + intros m Hm. apply IH; [lia|]. auto.
    Qed.
    Lemma calls_items_within cbs : forall s fuel s' l h, calls p cbs s fuel = Ret (s', l) -> trace p a b d (s :: h) -> length (it_tables s') <= N -> forall m, In m (items l) -> Q m.
    Proof.
      induction cbs as [|cb cbs IH]; intros s fuel s' l h E T L m Hm.
      - cbn [calls] in E. apply Ret_inj in E. injection E as <- <-. destruct Hm.
      - destruct (calls_split _ _ _ _ _ _ _ E) as (s1 & x & l' & (n & s2 & Tn & _ & f & B) & E' & ->).
        destruct (turns_trace p a b d _ _ _ Tn _ T) as (h1 & H1).
        assert (T' : trace p a b d (s1 :: s2 :: h1)) by (constructor; [exact H1|]; eexists; eexists; right; eexists; exact B).
        unfold items in Hm. cbn [flat_map] in Hm. apply in_app_or in Hm. destruct Hm as [Hm|Hm]; [|eapply IH; eauto].
        pose proof (calls_grow cbs s1 fuel s' l' _ E' T') as L1. pose proof (trace_grows _ T' s1 s2 eq_refl (or_intror (or_introl eq_refl))) as L2.
        destruct x as [|m0|]; [destruct Hm| |destruct Hm]. destruct Hm as [->|[]].
        destruct (trace_return_within _ H1) as (s0 & l0 & Eq & Ret2). injection Eq as <- <-.
        destruct (trace_inv p a b d _ Sd So H1) as (s0 & l0 & Eq & I). injection Eq as <- <-.
        destruct (loop_body_cases p (Motiflet [a; b] d) s2 _ f _ Sd I B) as (_ & _ & C).
        destruct C as ([[C _]|(_ & _ & _ & St0 & _)] & _).
        + apply Ret2; [lia|]. rewrite C. apply in_or_app. right. left. reflexivity.
        + apply andb_true_iff in St0. destruct St0 as [_ St0]. congruence.
    Qed.
    Lemma session_items_within cbs fuel s l : session p a b d cbs fuel = Ret (s, l) -> length (it_tables s) <= N -> forall m, In m (items l) -> Q m.
    Proof.
      intros E. unfold session in E. destruct (iter_new p a b d) as [s0| |] eqn:E0; cbn [bind] in E; try discriminate.
      intros L m Hm. apply (calls_items_within cbs s0 fuel s l [] E); [constructor; exact E0|exact L|exact Hm].
    Qed.
  End Items.

  (** what was done at the previous prefix *)
  Definition conf_ok (c : config) (N : nat) : Prop :=
    c_rep c < N /\ 1 <= c_prefix c <= 8 /\
    ((c_prev c = None /\ c_prev_reps c = None) \/ exists m, c_prev c = Some (c_prefix c + 1) /\ c_prev_reps c = Some m /\ 1 <= m <= N /\ c_prefix c + 1 <= 8).
  Lemma conf_more c N M : N <= M -> conf_ok c N -> conf_ok c M.
  Proof. intros L (H1 & H2 & [H3|(m & H3 & H4 & H5 & H6)]); (split; [lia|]); (split; [exact H2|]); [left; exact H3|right; exists m; repeat split; auto; lia]. Qed.
  Lemma trace_conf h : trace p a b d h -> exists s l, h = s :: l /\ conf_ok (it_conf s) (length (it_tables s)).
  Proof.
    intros T. induction T as [s E|s s' l T IH St].
    - exists s, []. split; [reflexivity|]. destruct (new_inv p a b d s Sd So E) as (I & _ & _ & _ & _ & _ & p0 & _ & Ec).
      destruct (inv_conf _ _ _ I) as (L1 & L2 & _). split; [exact L1|]. split; [exact L2|]. left. rewrite Ec. split; reflexivity.
    - destruct IH as (s0 & l0 & Eq & IH). injection Eq as <- <-. exists s', (s :: l). split; [reflexivity|].
      destruct (trace_inv p a b d _ Sd So T) as (s0 & l0 & Eq & I). injection Eq as <- <-.
      destruct (step_cases p _ s s' Sd I St) as (I' & [(_ & f & E)|[(_ & -> & -> & _)| ->]]); [|exact IH|exact IH].
      destruct (turn_inv p _ s s' f Sd I E) as (_ & _ & _ & (more & Et & _) & ch & Ec).
      destruct (inv_conf _ _ _ I') as (L1 & L2 & _). split; [exact L1|]. split; [exact L2|].
      destruct IH as (H1 & H2 & H3). unfold config_move in Ec. destruct (c_prefix (it_conf s) <=? _) eqn:El in Ec.
      + cbn [c_prefix] in Ec. destruct (0 <? _) in Ec; cbn [assert_] in Ec; [|discriminate]. apply Ret_inj in Ec. rewrite <- Ec. cbn [c_prev c_prev_reps c_prefix].
        destruct H3 as [H3|(m & H3 & H4 & H5 & H6)]; [left; exact H3|]. right. exists m. rewrite Et, app_length. repeat split; auto; lia.
      + cbn [c_prefix] in Ec. destruct (0 <? _) eqn:Ez in Ec; cbn [assert_] in Ec; [|discriminate]. apply Nat.ltb_lt in Ez. apply Ret_inj in Ec. rewrite <- Ec. cbn [c_prev c_prev_reps c_prefix].
        right. exists (c_rep (it_conf s) + 1). rewrite Et, app_length. replace (c_prefix (it_conf s) - 1 + 1) with (c_prefix (it_conf s)) by lia. repeat split; try lia; reflexivity.
  Qed.
End Run.

(** ** A pair farther apart is returned only if the closer one was not met *)
(** the visits of a configuration that count: its failure probability is about these (C43) *)
Definition visits (c : config) : list (nat * nat) :=
  match c_prev c, c_prev_reps c with Some q, Some m => pass m q | _, _ => [] end ++ pass (c_rep c + 1) (c_prefix c).
Definition failure_of (width distance : R) (c : config) : R := failure_probability width distance (c_rep c + 1) (c_prefix c) (c_prev c) (c_prev_reps c).

Lemma in_visits c N r q : conf_ok c N -> In (r, q) (visits c) ->
  r < N /\ 1 <= q <= 8 /\ ((q = c_prefix c /\ r < c_rep c + 1) \/ exists m, c_prev c = Some q /\ c_prev_reps c = Some m /\ r < m).
Proof.
  intros (H1 & H2 & H3) H. unfold visits in H. apply in_app_or in H. destruct H as [H|H].
  - destruct H3 as [(E1 & E2)|(m & E1 & E2 & L & L')]; rewrite E1 in H; [destruct H|]; rewrite E2 in H. unfold pass in H. apply in_map_iff in H. destruct H as (r' & E & Hr). injection E as <- <-.
    apply in_seq in Hr. split; [lia|]. split; [lia|]. right. exists m. repeat split; auto; lia.
  - unfold pass in H. apply in_map_iff in H. destruct H as (r' & E & Hr). injection E as <- <-. apply in_seq in Hr. split; [lia|]. split; [lia|]. left. split; [reflexivity|lia].
Qed.

Lemma farther_missed x n u v D width distance limit o :
  search_of x n u v D o -> calibrated (x_problem x o) D width distance limit -> returns_farther x n D o ->
  exists s s', turn_of (x_problem x o) (x_first x o) (x_second x o) (x_extent x o) s s' /\
    conf_ok (it_conf s) n /\ (failure_of width distance (it_conf s) < limit)%R /\ never_met (visits (it_conf s)) o = true.
Proof.
  intros [Sd So Ex Hd H1 Ns Hz Ha Ht] Cal (cbs & fuel & s & answers & m & E & Ln & Hm & L2 & F).
  set (p := x_problem x o) in *. set (a := x_first x o) in *. set (b := x_second x o) in *. set (d := x_extent x o) in *.
  pose proof (exact_coherent p d Sd Ex) as Co.
  destruct (session_items_within p a b d Sd So n (fun m => exists s1 s2, turn_of p a b d s1 s2 /\ length (it_tables s1) <= n /\ flt (failure_after p s1 (ml_extent m)) (p_delta p) = true /\
    best_emitted p (p_zeucl p) s1 (c_rep (it_conf s1) + 1) m) Ns) with (cbs := cbs) (fuel := fuel) (s := s) (l := answers) (m := m) as (s1 & s2 & Tn & L1 & Fl & Be);
    [|exact E|exact Ln|apply item_in, Hm|].
  { intros s1 s2 m0 Tr L H. exists s1, s2. split; [exact Tr|]. split; [exact L|]. split; [eapply turn_emits; eauto|]. eapply turn_best; eauto. }
  exists s1, s2. split; [exact Tn|]. pose proof Tn as (h & fl & Tr & B). pose proof (trace_tail _ _ _ _ _ _ _ Tr) as T'.
  destruct (trace_conf p a b d Sd So _ T') as (s0 & l0 & Eq & Cf). injection Eq as <- <-.
  destruct (trace_inv p a b d _ Sd So T') as (s0 & l0 & Eq & I). injection Eq as <- <-.
  split; [eapply conf_more; eauto|]. split; [apply (Cal (ml_extent m)); [apply flt_fle; exact F|exact Fl]|].
  unfold never_met. apply forallb_forall. intros (r & q) Hv. destruct (collides_at q (nth r o [])) eqn:Ec; [|reflexivity]. exfalso.
  destruct (in_visits _ _ _ _ Cf Hv) as (Lr & Lq & W).
  assert (Mt : meet (it_tables s1) (p_ez p) q r u v).
  { split; [exact Ha|]. destruct (nth_error (it_tables s1) r) as [t|] eqn:Et; [|apply nth_error_None in Et; lia].
    destruct (proj2 (inv_tables _ _ _ I) _ _ Et) as (k & Lk & ->). change K with 8 in Lk. pose proof (inv_conf _ _ _ I) as (_ & Lp & _).
    destruct (Ht r k q ltac:(lia) ltac:(lia) Lq Ec) as (y & z & Hs). exists (p_table p r k), y, z. split; [reflexivity|exact Hs]. }
  assert (Hs : searched p s1 (c_rep (it_conf s1) + 1) u v).
  { destruct W as [(-> & W)|(m' & W1 & W2 & W3)]; [left; exists r; auto|right; exists q, m', r; auto]. }
  destruct (pair_best p d _ s1 _ m Sd Co Be L2 u v Hs) as (y & z & _ & _ & _ & L & [F'|F']);
    pose proof (fle_trans _ _ _ F' L) as C; rewrite Hz in C; pose proof (flt_fle_trans _ _ _ F C) as C'; rewrite flt_irrefl in C'; discriminate.
Qed.

(** ** Probabilities *)
Local Open Scope R_scope.
Lemma visits_probability width distance p n c : 0 < width -> 0 <= distance -> collision_probability_at width distance <= p <= 1 -> conf_ok c n ->
  probability p n 8 (never_met (visits c)) <= failure_of width distance c.
Proof.
  intros W Dd Hp (H1 & H2 & H3). pose proof (collision_unit width distance W Dd) as U.
  assert (P : forall q m, 0 <= (1 - p ^ q) ^ m <= (1 - collision_probability_at width distance ^ q) ^ m).
  { intros q m. assert (0 <= p ^ q <= 1 /\ collision_probability_at width distance ^ q <= p ^ q) as ((A1 & A2) & A3).
    { split; [split; [apply pow_le; lra|rewrite <- (pow1 q); apply pow_incr; lra]|apply pow_incr; lra]. }
    split; [apply pow_le; lra|apply pow_incr; lra]. }
  unfold visits, failure_of, failure_probability. destruct H3 as [(E1 & E2)|(m & E1 & E2 & L & L')]; rewrite E1, ?E2.
  - cbn [app]. rewrite (missed_probability p (c_rep c + 1) (c_prefix c) 0 (c_prefix c) n 8);
      [|try lia..|intros o _; apply (never_met_rows [] (c_rep c + 1) (c_prefix c) 0 (c_prefix c) n o); try lia; intros r q []]; [|lia..].
    cbn [Nat.sub pow]. apply Rmult_le_compat_r; [lra|]. apply P.
  - rewrite (missed_probability p (c_rep c + 1) (c_prefix c) m (c_prefix c + 1) n 8); [|lia..|intros o _; apply (never_met_rows [] (c_rep c + 1) (c_prefix c) m (c_prefix c + 1) n o); try lia; intros r q []].
    apply Rmult_le_compat; apply P.
Qed.

Lemma total_app l l' : total (l ++ l') = total l + total l'.
Proof. unfold total. induction l as [|x l IH]; cbn [app fold_right]; [lra|]. rewrite IH. lra. Qed.
Lemma total_zero {A} (l : list A) : total (map (fun _ => 0) l) = 0.
Proof. induction l as [|x l IH]; [reflexivity|]. cbn. unfold total in IH. rewrite IH. lra. Qed.
Lemma total_plus {A} (f g : A -> R) l : total (map (fun x => f x + g x) l) = total (map f l) + total (map g l).
Proof. induction l as [|x l IH]; unfold total in *; cbn; [lra|]. rewrite IH. lra. Qed.
Lemma total_nonneg {A} (f : A -> R) l : (forall x, In x l -> 0 <= f x) -> 0 <= total (map f l).
Proof. intros H. induction l as [|x l IH]; unfold total in *; cbn; [lra|]. pose proof (H x (or_introl eq_refl)). specialize (IH (fun y Hy => H y (or_intror Hy))). lra. Qed.
Lemma total_one {A} (f : A -> R) l x : (forall y, In y l -> 0 <= f y) -> In x l -> f x <= total (map f l).
Proof.
  intros H Hx. induction l as [|y l IH]; [destruct Hx|]. pose proof (total_nonneg f l (fun z Hz => H z (or_intror Hz))) as T.
  unfold total in *. cbn. destruct Hx as [->|Hx]; [lra|]. specialize (IH (fun z Hz => H z (or_intror Hz)) Hx). pose proof (H y (or_introl eq_refl)). lra.
Qed.
Lemma total_bound {A} (f : A -> R) l m : (forall x, In x l -> f x <= m) -> total (map f l) <= INR (length l) * m.
Proof.
  intros H. induction l as [|x l IH]; unfold total in *; [cbn; lra|]. cbn [map fold_right length]. rewrite S_INR. pose proof (H x (or_introl eq_refl)). specialize (IH (fun y Hy => H y (or_intror Hy))). lra.
Qed.
Lemma union {A C} (w : A -> R) (e : A -> bool) (g : C -> A -> bool) (L : list C) l : (forall o, 0 <= w o) ->
  (forall o, In o l -> e o = true -> exists c, In c L /\ g c o = true) ->
  total (map w (filter e l)) <= total (map (fun c => total (map w (filter (g c) l))) L).
Proof.
  intros Hw. induction l as [|o l IH]; intros H.
  - cbn [filter map]. unfold total at 1. cbn [fold_right]. rewrite total_zero. lra.
  - specialize (IH (fun o' Ho' => H o' (or_intror Ho'))).
    assert (E : total (map (fun c => total (map w (filter (g c) (o :: l)))) L) = total (map (fun c => (if g c o then w o else 0) + total (map w (filter (g c) l))) L)).
    { f_equal. apply map_ext. intros c. cbn [filter]. destruct (g c o); unfold total; cbn; lra. }
    rewrite E, total_plus.
    assert (Hn : forall c, In c L -> 0 <= (if g c o then w o else 0)) by (intros c _; pose proof (Hw o); destruct (g c o); lra).
    assert (total (map w (filter e (o :: l))) = (if e o then w o else 0) + total (map w (filter e l))) as -> by (cbn [filter]; destruct (e o); unfold total; cbn; lra).
    destruct (e o) eqn:Eo.
    + destruct (H o (or_introl eq_refl) Eo) as (c & Hc & Gc). pose proof (total_one (fun c => if g c o then w o else 0) L c Hn Hc) as B. cbn beta in B. rewrite Gc in B. lra.
    + pose proof (total_nonneg _ L Hn). lra.
Qed.
Lemma weight_nonneg p o : 0 <= p <= 1 -> 0 <= weight p o.
Proof. intros H. apply (proj1 (c43_space p 0 0 H)). Qed.

(** the least repetition that confirms, for each prefix and what was done at the previous one *)
Definition pasts (n : nat) : list (nat * option nat) := map (fun q => (q, None)) (seq 1 8) ++ flat_map (fun q => map (fun m => (q, Some m)) (seq 1 n)) (seq 1 7).
Definition conf_at (t : nat * option nat) (r : nat) : config := Config r (fst t) (match snd t with Some _ => Some (fst t + 1)%nat | None => None end) (snd t).
Definition confirms (width distance limit : R) (c : config) : bool := if Rlt_dec (failure_of width distance c) limit then true else false.
Definition first_confirming (width distance limit : R) (n : nat) : list config :=
  flat_map (fun t => match find (confirms width distance limit) (map (conf_at t) (seq 0 n)) with Some c => [c] | None => [] end) (pasts n).

Lemma pasts_length n : length (pasts n) = (8 + 7 * n)%nat.
Proof. unfold pasts. cbn [seq map app flat_map length]. rewrite !app_length, !map_length, !seq_length. cbn [length]. lia. Qed.
Lemma flat_map_short {A B} (f : A -> list B) l : (forall x, length (f x) <= 1)%nat -> (length (flat_map f l) <= length l)%nat.
Proof. intros H. induction l as [|x l IH]; cbn [flat_map length]; [lia|]. rewrite app_length. specialize (H x). lia. Qed.
Lemma first_confirming_length width distance limit n : (length (first_confirming width distance limit n) <= 8 + 7 * n)%nat.
Proof. rewrite <- pasts_length. apply flat_map_short. intros t. destruct (find _ _); cbn; lia. Qed.
Lemma in_pasts n q o : In (q, o) (pasts n) <-> match o with None => (1 <= q <= 8)%nat | Some m => (1 <= q <= 7 /\ 1 <= m <= n)%nat end.
Proof.
  unfold pasts. rewrite in_app_iff, in_map_iff, in_flat_map. split.
  - intros [(q' & E & H)|(q' & H & H')].
    + injection E as <- <-. apply in_seq in H. lia.
    + apply in_map_iff in H'. destruct H' as (m & E & Hm). injection E as <- <-. apply in_seq in H. apply in_seq in Hm. lia.
  - destruct o as [m|]; intros H.
    + right. exists q. split; [apply in_seq; lia|]. apply in_map_iff. exists m. split; [reflexivity|apply in_seq; lia].
    + left. exists q. split; [reflexivity|apply in_seq; lia].
Qed.
Lemma first_confirming_ok width distance limit n c : In c (first_confirming width distance limit n) -> conf_ok c n /\ failure_of width distance c < limit.
Proof.
  intros H. apply in_flat_map in H. destruct H as ((q & o) & Ht & H). destruct (find _ _) as [c'|] eqn:F; [|destruct H]. destruct H as [->|[]].
  apply find_some in F. destruct F as (F1 & F2). split; [|unfold confirms in F2; destruct (Rlt_dec _ _); [assumption|discriminate]].
  apply in_map_iff in F1. destruct F1 as (r & <- & Hr). apply in_seq in Hr. apply in_pasts in Ht. unfold conf_ok, conf_at. cbn [c_rep c_prefix c_prev c_prev_reps fst snd].
  destruct o as [m|]; (split; [lia|]); (split; [lia|]); [right; exists m; repeat split; try lia; reflexivity|left; split; reflexivity].
Qed.
Lemma find_least {A} (f : A -> bool) (g : nat -> A) n r : (r < n)%nat -> f (g r) = true -> exists r', (r' <= r)%nat /\ find f (map g (seq 0 n)) = Some (g r') /\ f (g r') = true.
Proof.
  intros L H. assert (G : forall k b, (b <= r < b + k)%nat -> exists r', (r' <= r)%nat /\ find f (map g (seq b k)) = Some (g r') /\ f (g r') = true).
  { induction k as [|k IH]; intros b Hb; [lia|]. cbn [seq map find]. destruct (f (g b)) eqn:E; [exists b; repeat split; [lia|exact E]|].
    apply IH. destruct (Nat.eq_dec b r) as [->|]; [congruence|lia]. }
  apply G. lia.
Qed.
Lemma never_met_incl v v' o : incl v v' -> never_met v' o = true -> never_met v o = true.
Proof. unfold never_met. rewrite !forallb_forall. intros I H x Hx. apply H, I, Hx. Qed.
Lemma pass_more m m' q : (m <= m')%nat -> incl (pass m q) (pass m' q).
Proof. intros L (r & q') H. unfold pass in *. apply in_map_iff in H. destruct H as (r' & E & Hr). apply in_map_iff. exists r'. split; [exact E|]. apply in_seq in Hr. apply in_seq. lia. Qed.
Lemma some_first width distance limit n c o : conf_ok c n -> failure_of width distance c < limit -> never_met (visits c) o = true ->
  exists c', In c' (first_confirming width distance limit n) /\ never_met (visits c') o = true.
Proof.
  intros (H1 & H2 & H3) F M. set (t := (c_prefix c, c_prev_reps c)).
  assert (Et : conf_at t (c_rep c) = c).
  { unfold conf_at, t. cbn [fst snd]. destruct c as [r q pv pr]. cbn in *. destruct H3 as [(-> & ->)|(m & -> & -> & _)]; reflexivity. }
  assert (Ft : confirms width distance limit (conf_at t (c_rep c)) = true) by (rewrite Et; unfold confirms; destruct (Rlt_dec _ _); [reflexivity|contradiction]).
  destruct (find_least (confirms width distance limit) (conf_at t) n (c_rep c) H1 Ft) as (r' & Lr & Ff & _).
  exists (conf_at t r'). split.
  - apply in_flat_map. exists t. split; [|rewrite Ff; left; reflexivity]. unfold t. apply in_pasts. destruct H3 as [(_ & ->)|(m & _ & -> & L1 & L2)]; lia.
  - revert M. apply never_met_incl. rewrite <- Et. unfold visits, conf_at. cbn [c_rep c_prefix c_prev c_prev_reps fst snd].
    apply incl_app; [apply incl_appl, incl_refl|apply incl_appr, pass_more; lia].
Qed.

(** ** A schedule that is the same for all outcomes *)
Local Close Scope R_scope.
Lemma collides_longer q q' row : q <= q' -> collides_at q' row = true -> collides_at q row = true.
Proof.
  unfold collides_at. rewrite !forallb_forall. intros L H b Hb. apply H. rewrite <- (firstn_skipn q' row), firstn_app in Hb.
  rewrite <- (firstn_skipn q (firstn q' row)). rewrite firstn_firstn. replace (Nat.min q q') with q by lia. apply in_or_app. left.
  replace (firstn q row) with (firstn q (firstn q' row)) by (rewrite firstn_firstn; f_equal; lia).
  apply in_app_or in Hb. destruct Hb as [Hb|Hb]; [exact Hb|]. rewrite firstn_length in Hb. destruct (Nat.le_gt_cases q' (length row)) as [C|C].
  - replace (q - Nat.min q' (length row)) with 0 in Hb by lia. destruct Hb.
  - rewrite skipn_all2 in Hb by lia. rewrite firstn_nil in Hb. destruct Hb.
Qed.
Section Plan.
  Variables (plan : nat -> config).
  Hypotheses (P0 : exists p0, 1 <= p0 <= 8 /\ plan 0 = config_start p0)
    (P1 : forall i, stays_on (plan i) (plan (S i)) \/ (may_leave (plan i) /\ steps_down (plan i) (plan (S i)))).

  Definition most (c : config) : nat := Nat.max (c_rep c + 1) (match c_prev_reps c with Some m => m | None => 0 end).
  Lemma plan_inv i : c_prefix (plan i) <= 8 /\ ((c_prev (plan i) = None /\ c_prev_reps (plan i) = None) \/
    exists m, c_prev (plan i) = Some (c_prefix (plan i) + 1) /\ c_prev_reps (plan i) = Some m /\ 1 <= m /\ c_prefix (plan i) + 1 <= 8).
  Proof.
    induction i as [|i (IH1 & IH2)]; [destruct P0 as (p0 & L & ->); cbn; split; [lia|left; auto]|].
    destruct (P1 i) as [(E1 & E2 & E3 & E4)|(_ & (E1 & E2 & E3 & E4))].
    - rewrite E2, E3, E4. auto.
    - split; [lia|]. right. exists (c_rep (plan i) + 1). rewrite E3, E4, E2. repeat split; lia.
  Qed.
  Lemma plan_most i j : i <= j -> most (plan i) <= most (plan j) /\ c_prefix (plan j) <= c_prefix (plan i).
  Proof.
    intros L. induction L as [|j L (IH1 & IH2)]; [lia|]. destruct (P1 j) as [(E1 & E2 & E3 & E4)|(Ml & (E1 & E2 & E3 & E4))]; unfold most in *.
    - rewrite E1, E2, E4. lia.
    - rewrite E1, E4. unfold may_leave, owed in Ml. destruct (c_prev_reps (plan j)); lia.
  Qed.
  Lemma plan_ok i j n : i <= j -> conf_ok (plan j) n -> conf_ok (plan i) n.
  Proof.
    intros L (H1 & H2 & H3). destruct (plan_most i j L) as (M1 & M2). destruct (plan_inv i) as (I1 & I2).
    assert (M : most (plan j) <= n).
    { unfold most. destruct H3 as [(_ & ->)|(m & _ & -> & Lm & _)]; lia. }
    unfold most in M1, M. split; [lia|]. split; [lia|]. destruct I2 as [I2|(m & E1 & E2 & E3 & E4)]; [left; exact I2|]. right. exists m. rewrite E2 in *. repeat split; auto; lia.
  Qed.
  Lemma plan_visits i j o : i <= j -> never_met (visits (plan j)) o = true -> never_met (visits (plan i)) o = true.
  Proof.
    intros L. induction L as [|j L IH]; [auto|]. intros H. apply IH. clear IH. destruct (P1 j) as [(E1 & E2 & E3 & E4)|(Ml & (E1 & E2 & E3 & E4))].
    - revert H. apply never_met_incl. unfold visits. rewrite E1, E2, E3, E4. apply incl_app; [apply incl_appl, incl_refl|apply incl_appr, pass_more; lia].
    - unfold visits in H. rewrite E3, E4 in H. unfold never_met in *. rewrite forallb_forall in *. intros (r & q) Hin.
      assert (G : forall r, r < c_rep (plan j) + 1 -> collides_at (c_prefix (plan j)) (nth r o []) = false).
      { intros r0 Hr0. apply negb_true_iff. apply (H (r0, c_prefix (plan j))). apply in_or_app. left. apply in_map_iff. exists r0. split; [reflexivity|apply in_seq; lia]. }
      apply negb_true_iff. unfold visits in Hin. apply in_app_or in Hin. destruct Hin as [Hin|Hin].
      + destruct (plan_inv j) as (_ & [(F1 & F2)|(m & F1 & F2 & F3 & F4)]); rewrite F1 in Hin; [destruct Hin|]. rewrite F2 in Hin.
        unfold pass in Hin. apply in_map_iff in Hin. destruct Hin as (r' & E & Hr). injection E as <- <-. apply in_seq in Hr.
        unfold may_leave, owed in Ml. rewrite F2 in Ml. destruct (collides_at (c_prefix (plan j) + 1) (nth r' o [])) eqn:C; [|reflexivity].
        apply (collides_longer (c_prefix (plan j))) in C; [|lia]. rewrite G in C by lia. discriminate.
      + unfold pass in Hin. apply in_map_iff in Hin. destruct Hin as (r' & E & Hr). injection E as <- <-. apply in_seq in Hr. apply G. lia.
  Qed.
End Plan.
Lemma least_index (f : nat -> bool) i : f i = true -> exists j, j <= i /\ f j = true /\ forall k, f k = true -> j <= k.
Proof.
  induction i as [i IH] using lt_wf_ind. intros H. destruct (existsb f (seq 0 i)) eqn:E.
  - apply existsb_exists in E. destruct E as (k & Hk & Fk). apply in_seq in Hk. destruct (IH k ltac:(lia) Fk) as (j & Lj & Fj & Mj). exists j. split; [lia|auto].
  - exists i. split; [lia|]. split; [exact H|]. intros k Fk. destruct (Nat.le_gt_cases i k) as [|C]; [assumption|]. exfalso.
    assert (existsb f (seq 0 i) = true) by (apply existsb_exists; exists k; split; [apply in_seq; lia|exact Fk]). congruence.
Qed.
