From Coq Require Import Floats.SpecFloat Permutation.
From Verif Require Import Base F64 F64Arith HashValue HashSpec HashProofs Overlaps OverlapsSpec OverlapsProofs Enumerator EnumSpec Moves MovesProofs
  Profile ProfileProofs Brute BruteSpec BruteProofs TopK TopKSpec TopKProofs Graph GraphSpec GraphProofs GraphFlagProofs
  Iterator IteratorSpec IteratorProofs IteratorLoop IteratorCalls IteratorSteps GuaranteeSpec.

(** ** Queues *)
Definition fresh (t : topk) : Prop := tk_emitted t = [] /\ tk_disabled t = false.
Definition best_below (top : list topk) (k : nat) (x : f64) : Prop :=
  forall t, nth_error top k = Some t -> fresh t -> exists m rest, tk_top t = m :: rest /\ fle (ml_extent m) x = true.
Definition nested (top : list topk) : Prop :=
  forall k k' t m, 2 <= k <= k' -> nth_error top k' = Some t -> In m (tk_top t) -> best_below top k (ml_extent m).
Definition improves (top top' : list topk) : Prop := forall k x, best_below top k x -> best_below top' k x.

Lemma best_below_le top k x y : best_below top k x -> fle x y = true -> best_below top k y.
Proof. intros B L t Ht F. destruct (B t Ht F) as (m & r & E & H). exists m, r. split; [exact E|]. eapply fle_trans; eauto. Qed.
Lemma improves_refl top : improves top top.
Proof. intros k x H. exact H. Qed.
Lemma improves_trans a b c : improves a b -> improves b c -> improves a c.
Proof. intros H1 H2 k x H. auto. Qed.

Lemma fresh_open p seed k t : 1 <= p_top_k p -> queue_ok p seed k t -> fresh t -> tk_is_complete t = false.
Proof. intros H Q (E & D). unfold tk_is_complete. rewrite D, E, (q_k _ _ _ _ Q). cbn. destruct (p_top_k p); [lia|reflexivity]. Qed.

Lemma max_pairwise_le d l e e' : max_pairwise d l e -> max_pairwise d l e' -> 2 <= length l -> fle e e' = true.
Proof. intros (_ & _ & C) (_ & B & _) L. destruct (C L) as (a & b & x & y & Lab & Ex & Ey & ->). eauto. Qed.

Lemma insert_prefixes_best p seed ids extents top : sound p -> 1 <= p_top_k p -> ids_ok p ids -> length extents = length ids ->
  (forall i e, nth_error extents i = Some e -> max_pairwise (p_zeucl p) (firstn (S i) ids) e) ->
  queues_ok p seed top ->
  exists top', insert_prefixes p ids extents top = Ret top' /\ queues_ok p seed top' /\ improves top top' /\
    (forall k e, 2 <= k <= p_max_k p -> nth_error extents (k - 1) = Some e -> best_below top' k e) /\
    (forall k t m, nth_error top' k = Some t -> In m (tk_top t) ->
       (exists t0, nth_error top k = Some t0 /\ In m (tk_top t0)) \/ nth_error extents (k - 1) = Some (ml_extent m)).
Proof.
  intros Sd H1 Hi Le Me Q. unfold insert_prefixes.
  match goal with |- context [foreach ?l ?b ?s] =>
    destruct (foreach_inv b (fun pre t => queues_ok p seed t /\ improves top t /\
      (forall k e, 2 <= k <= p_max_k p -> In (k - 1) pre -> nth_error extents (k - 1) = Some e -> best_below t k e) /\
      (forall k q m, nth_error t k = Some q -> In m (tk_top q) ->
       (exists t0, nth_error top k = Some t0 /\ In m (tk_top t0)) \/ nth_error extents (k - 1) = Some (ml_extent m))) l s)
      as (top' & E & Q' & I' & B' & M')
  end.
  - split; [exact Q|]. split; [apply improves_refl|]. split; [intros k e _ []|]. intros k t m Ht Hm. left. eauto.
  - intros pre i post s El (Q1 & I1 & B1 & M1).
    assert (Hin : In i (seq 1 (length ids - 1))) by (rewrite El; apply in_elt). apply in_seq in Hin.
    destruct (nth_error extents i) as [e|] eqn:Ee; [|apply nth_error_None in Ee; lia].
    rewrite (get_some _ _ _ Ee). cbn [bind]. destruct (Nat.leb_spec (i + 1) (p_max_k p)) as [Lk|Lk].
    2:{ exists s. split; [reflexivity|]. split; [exact Q1|]. split; [exact I1|]. split; [|exact M1].
        intros k e' Hk Hp. apply in_app_or in Hp. destruct Hp as [Hp|[Hp|[]]]; [eauto|lia]. }
    destruct (queues_get p seed s (i + 1) Q1 Lk) as (t & Eg & En & Qt). rewrite Eg. cbn [bind].
    assert (Lf : length (firstn (i + 1) ids) = i + 1) by (rewrite firstn_length; lia).
    assert (Sub : forall x, In x (firstn (i + 1) ids) -> In x ids) by (intros x; apply In_firstn_in).
    assert (M : max_pairwise (p_zeucl p) (firstn (i + 1) ids) e) by (rewrite Nat.add_1_r; apply Me, Ee).
    assert (Ap : ids_ok p (firstn (i + 1) ids)).
    { destruct Hi as [Ap In_]. split.
      - intros a b x y L Ex Ey.
        assert (b < i + 1) by (rewrite <- Lf; apply nth_error_Some; congruence).
        rewrite nth_error_firstn in Ex, Ey by lia. exact (Ap a b x y L Ex Ey).
      - intros _ x Hx. apply In_; [lia|auto]. }
    set (m0 := Motiflet (firstn (i + 1) ids) e).
    assert (Nm : is_nan (ml_extent m0) = false).
    { apply (max_pairwise_nan (p_zeucl p) (firstn (i + 1) ids)); [apply ids_numbers; assumption|exact M]. }
    destruct (queue_insert p seed (i + 1) t m0 Qt) as (t' & Et & Qt' & E1 & E2); [exact Lf| |exact Nm|].
    { left. split; [cbn [ml_indices m0]; rewrite Lf; lia|]. split.
      * intros x Hx. cbn [ml_indices m0] in Hx. destruct Ap as [_ In_]. exact (In_ ltac:(lia) x Hx).
      * split; [apply Ap|exact M]. }
    rewrite Et. cbn [bind]. destruct (queues_put p seed s (i + 1) t' Q1) as (s' & Ep & Q2 & P2); [destruct Q1; lia|exact Qt'|].
    exists s'. split; [exact Ep|]. split; [exact Q2|].
    destruct (insert_ok t m0 (q_wf _ _ _ _ Qt) Nm) as (t2 & Et2 & _ & _ & _ & Em & Ed & Mt & _). rewrite Et in Et2. apply Ret_inj in Et2. subst t2.
    assert (Fr : fresh t' -> fresh t) by (intros [A B]; split; congruence).
    assert (Best : forall x, best_below s (i + 1) x -> fresh t' -> exists m r, tk_top t' = m :: r /\ fle (ml_extent m) x = true /\ fle (ml_extent m) e = true).
    { intros x B F. apply Fr in F. destruct (B t En F) as (mx & rx & Ex & Lx).
      destruct (insert_best t m0 t' [mx]) with (m := mx) as (m & r & Er & Lm); auto.
      - rewrite (q_k _ _ _ _ Qt). exact H1.
      - apply (q_wf _ _ _ _ Qt).
      - eapply fresh_open; eauto.
      - intros z [<-|[]]. exists mx, rx. split; [exact Ex|]. apply fle_refl. apply (proj1 (q_wf _ _ _ _ Qt)). rewrite Ex. left. reflexivity.
      - right. left. reflexivity.
      - exists m, r. split; [exact Er|]. split; [eapply fle_trans; eauto|].
        destruct (insert_best t m0 t' []) with (m := m0) as (m2 & r2 & Er2 & Lm2); auto.
        + rewrite (q_k _ _ _ _ Qt). exact H1.
        + apply (q_wf _ _ _ _ Qt).
        + eapply fresh_open; eauto.
        + intros z [].
        + left. reflexivity.
        + rewrite Er in Er2. injection Er2 as <- <-. exact Lm2. }
    assert (I2 : improves s s').
    { intros k x B q Hq F. rewrite P2 in Hq. destruct (Nat.eqb_spec k (i + 1)) as [->|]; [|exact (B q Hq F)].
      injection Hq as <-. destruct (Best x B F) as (m & r & A & C & _). eauto. }
    split; [eapply improves_trans; eauto|]. split.
    + intros k e' Hk Hp He. apply in_app_or in Hp. destruct Hp as [Hp|[Hp|[]]]; [apply I2; eauto|].
      assert (k = i + 1) by lia. subst k. replace (i + 1 - 1) with i in He by lia. rewrite Ee in He. injection He as <-.
      intros q Hq F. rewrite P2, Nat.eqb_refl in Hq. injection Hq as <-.
      destruct (insert_best t m0 t' []) with (m := m0) as (m2 & r2 & Er2 & Lm2); auto.
      * rewrite (q_k _ _ _ _ Qt). exact H1.
      * apply (q_wf _ _ _ _ Qt).
      * eapply fresh_open; eauto.
      * intros z [].
      * left. reflexivity.
      * eauto.
    + intros k q m Hq Hm. rewrite P2 in Hq. destruct (Nat.eqb_spec k (i + 1)) as [->|]; [|eauto].
      injection Hq as <-. destruct (Mt m Hm) as [->|Hm']; [right; replace (i + 1 - 1) with i by lia; exact Ee|]. eauto.
  - exists top'. split; [exact E|]. split; [exact Q'|]. split; [exact I'|]. split; [|exact M'].
    intros k e Hk He. apply (B' k e Hk); [|exact He]. apply in_seq.
    assert (k - 1 < length extents) by (apply nth_error_Some; congruence). lia.
Qed.

Lemma kth_loop_in k ez l : forall acc E, (forall m, In m acc -> exists x, x = m) -> kth_loop k ez l acc = Some E ->
  exists m, (In m acc \/ In m l) /\ ml_extent m = E.
Proof.
  induction l as [|m l IH]; intros acc E H Ek; cbn [kth_loop] in Ek; [discriminate|].
  set (acc' := if ml_overlaps_iter m acc ez then acc else acc ++ [m]) in *.
  assert (Sub : forall x, In x acc' -> In x acc \/ x = m).
  { intros x Hx. unfold acc' in Hx. destruct (ml_overlaps_iter m acc ez); [auto|]. apply in_app_or in Hx. destruct Hx as [Hx|[<-|[]]]; auto. }
  destruct (length acc' =? k).
  - clearbody acc'. destruct acc' as [|a acc2 _] using rev_ind; [discriminate|]. rewrite map_app in Ek. cbn [map] in Ek. rewrite last_last in Ek. cbn [option_map] in Ek. injection Ek as <-.
    exists a. split; [|reflexivity]. destruct (Sub a) as [H0| ->]; [apply in_or_app; right; left; reflexivity|auto|right; left; reflexivity].
  - destruct (IH acc' E ltac:(eauto) Ek) as (x & [Hx|Hx] & Ex); exists x; (split; [|exact Ex]).
    + destruct (Sub x Hx) as [H0| ->]; [auto|right; left; reflexivity].
    + right. right. exact Hx.
Qed.
Lemma kth_in t E : tk_kth_distance t = Some E -> exists m, In m (tk_top t) /\ ml_extent m = E.
Proof. intros H. destruct (kth_loop_in _ _ _ _ _ ltac:(eauto) H) as (m & [[]|Hm] & Em). eauto. Qed.

Lemma worth_false top ds : worth top ds = false -> forall k t x, 2 <= k -> nth_error top k = Some t -> nth_error ds (k - 1) = Some x ->
  flt x (match tk_kth_distance t with Some e => e | None => f_inf end) = false.
Proof.
  intros W k t x Hk Ht Hx. unfold worth in W.
  destruct (flt x _) eqn:E; [|reflexivity]. exfalso.
  assert (T : existsb (fun dl : f64 * option f64 => flt (fst dl) (match snd dl with Some e => e | None => f_inf end))
    (combine (skipn 1 ds) (map tk_kth_distance (skipn 2 top))) = true); [|congruence].
  apply existsb_exists. exists (x, tk_kth_distance t). split; [|exact E].
  apply (nth_error_In _ (k - 2)).
  assert (C : forall (A B : Type) (l : list A) (l' : list B) n a b, nth_error l n = Some a -> nth_error l' n = Some b -> nth_error (combine l l') n = Some (a, b)).
  { clear. induction l as [|u l IH]; intros l' n a b Ha Hb; destruct n; try discriminate; destruct l'; try discriminate; cbn in *; [congruence|auto]. }
  assert (Sk : forall (A : Type) (l : list A) n m a, nth_error l (m + n) = Some a -> nth_error (skipn m l) n = Some a).
  { clear. induction l as [|u l IH]; intros n m a H; destruct m; cbn [skipn Nat.add nth_error] in *; auto; discriminate. }
  apply C; [apply Sk; replace (1 + (k - 2)) with (k - 1) by lia; exact Hx|].
  rewrite nth_error_map, (Sk _ _ (k - 2) 2 t); [reflexivity|]. replace (2 + (k - 2)) with k by lia. exact Ht.
Qed.

(** what is known of a neighbourhood: the distances are those from its root *)
Definition rooted (T : nat -> nat -> f64) (nb : list nat * list f64) : Prop :=
  exists i, nth_error (fst nb) 0 = Some i /\ length (snd nb) = length (fst nb) /\
    forall q j, nth_error (fst nb) (S q) = Some j -> nth_error (snd nb) (S q) = Some (T i j) /\ is_finite (T i j) = true.

(** the best candidate is at least as good as what can be made of the neighbourhood, or as the
    distance at which its last member was found *)
Definition handled (p : problem) (T : nat -> nat -> f64) (top : list topk) (nb : list nat * list f64) : Prop :=
  forall k e, 2 <= k <= p_max_k p -> k <= length (fst nb) -> max_pairwise (p_zeucl p) (firstn k (fst nb)) e ->
    best_below top k e \/
    exists i j, nth_error (fst nb) 0 = Some i /\ nth_error (fst nb) (k - 1) = Some j /\ best_below top k (T i j).

Lemma add_neighbourhood_best p T seed nb top : sound p -> 1 <= p_top_k p -> ids_ok p (fst nb) -> rooted T nb ->
  queues_ok p seed top -> nested top ->
  exists top', add_neighbourhood p nb top = Ret top' /\ queues_ok p seed top' /\ improves top top' /\ nested top' /\ handled p T top' nb.
Proof.
  intros Sd H1 Hi (i & R0 & Rl & Rd) Q N. unfold add_neighbourhood. destruct (worth top (snd nb)) eqn:W.
  - destruct (compute_extents_ok (p_zeucl p) (sound_nonneg p Sd) (fst nb) (ids_numbers p _ Sd Hi)) as (ext & E & L & M & Mono).
    rewrite E. cbn [bind].
    destruct (insert_prefixes_best p seed (fst nb) ext top Sd H1 Hi L M Q) as (top' & E' & Q' & I' & B' & M').
    exists top'. split; [exact E'|]. split; [exact Q'|]. split; [exact I'|]. split.
    + intros k k' t m Hk Ht Hm. destruct (M' k' t m Ht Hm) as [(t0 & Ht0 & Hm0)|Hx].
      * apply I'. eapply N; eauto.
      * assert (L1 : k' - 1 < length ext) by (apply nth_error_Some; congruence).
        destruct (nth_error ext (k - 1)) as [e|] eqn:Ee; [|apply nth_error_None in Ee; lia].
        assert (Lk : k' <= p_max_k p).
        { destruct Q' as [Lq _]. assert (k' < length top') by (apply nth_error_Some; congruence). lia. }
        apply (best_below_le _ _ e); [apply B'; [lia|exact Ee]|]. eapply Mono; [|exact Ee|exact Hx]. lia.
    + intros k e Hk Lk Me. destruct (nth_error ext (k - 1)) as [e0|] eqn:Ee; [|apply nth_error_None in Ee; lia].
      left. apply (best_below_le _ _ e0); [apply B'; [lia|exact Ee]|].
      pose proof (M _ _ Ee) as M0. replace (S (k - 1)) with k in M0 by lia.
      apply (max_pairwise_le (p_zeucl p) (firstn k (fst nb))); auto. rewrite firstn_length. lia.
  - exists top. split; [reflexivity|]. split; [exact Q|]. split; [apply improves_refl|]. split; [exact N|].
    intros k e Hk Lk _. right.
    destruct (nth_error (fst nb) (k - 1)) as [j|] eqn:Ej; [|apply nth_error_None in Ej; lia].
    exists i, j. split; [exact R0|]. split; [reflexivity|]. intros t Ht F. destruct k as [|[|k]]; [lia|lia|]. replace (S (S k) - 1) with (S k) in Ej by lia.
    destruct (Rd k j Ej) as [Ed Fd].
    pose proof (worth_false top (snd nb) W (S (S k)) t _ ltac:(lia) Ht Ed) as Wf.
    destruct (tk_kth_distance t) as [E|] eqn:Ek; [|rewrite (finite_flt_inf _ Fd) in Wf; discriminate].
    destruct (kth_in t E Ek) as (m & Hm & Em).
    destruct (N (S (S k)) (S (S k)) t m ltac:(lia) Ht Hm t Ht F) as (m0 & rest & E0 & L0).
    exists m0, rest. split; [exact E0|]. eapply fle_trans; [exact L0|].
    assert (Nm : is_nan (ml_extent m) = false).
    { destruct Q as [_ Q]. apply (proj1 (q_wf _ _ _ _ (Q _ _ Ht)) m Hm). }
    rewrite Em in *. rewrite fle_not_flt; [rewrite Wf; reflexivity|exact Nm|apply finite_not_nan, Fd].
Qed.

Lemma handled_improves p T top top' nb : improves top top' -> handled p T top nb -> handled p T top' nb.
Proof. intros I H k e A B C. destruct (H k e A B C) as [H0|(i & j & Hi & Hj & H0)]; [left; apply I, H0|right; exists i, j; auto]. Qed.

Lemma add_all_best p T seed nbs : sound p -> 1 <= p_top_k p -> (forall nb, In nb nbs -> ids_ok p (fst nb) /\ rooted T nb) ->
  forall top, queues_ok p seed top -> nested top ->
  exists top', foreach nbs (fun nb top => add_neighbourhood p nb top) top = Ret top' /\ queues_ok p seed top' /\ improves top top' /\ nested top' /\
    forall nb, In nb nbs -> handled p T top' nb.
Proof.
  intros Sd H1. induction nbs as [|nb nbs IH]; intros H top Q N; cbn [foreach].
  - exists top. split; [reflexivity|]. split; [exact Q|]. split; [apply improves_refl|]. split; [exact N|]. intros ? [].
  - destruct (H nb (or_introl eq_refl)) as [Hi Hr].
    destruct (add_neighbourhood_best p T seed nb top Sd H1 Hi Hr Q N) as (t1 & E1 & Q1 & I1 & N1 & H1').
    rewrite E1. cbn [bind]. destruct (IH (fun x Hx => H x (or_intror Hx)) t1 Q1 N1) as (t2 & E2 & Q2 & I2 & N2 & H2).
    exists t2. split; [exact E2|]. split; [exact Q2|]. split; [eapply improves_trans; eauto|]. split; [exact N2|].
    intros x [<-|Hx]; [eapply handled_improves; eauto|auto].
Qed.

(** ** Emission *)
Lemma emit_loop_predicate k ez pr l : forall emitted out sned e' o' s', emit_loop k ez pr l emitted out sned = Ret (e', o', s') ->
  forall m, In m o' -> In m out \/ (In m l /\ pr (ml_extent m) = true).
Proof.
  induction l as [|x l IH]; intros em out sn e' o' s' E m Hm; cbn [emit_loop] in E.
  - apply Ret_inj in E. injection E as _ <- _. auto.
  - destruct (k <=? length em); [apply Ret_inj in E; injection E as _ <- _; auto|].
    destruct (ml_overlaps_iter x em ez).
    { destruct (IH _ _ _ _ _ _ E m Hm) as [H|[H H']]; [auto|]. right. split; [right; exact H|exact H']. }
    destruct (pr (ml_extent x)) eqn:Px; [|apply Ret_inj in E; injection E as _ <- _; auto].
    destruct (bt_insert x em) as [em2| |]; cbn [bind] in E; try discriminate.
    destruct (IH _ _ _ _ _ _ E m Hm) as [H|[H H']]; [|right; split; [right; exact H|exact H']].
    apply in_app_or in H. destruct H as [H|[<-|[]]]; [auto|]. right. split; [left; reflexivity|exact Px].
Qed.
Lemma emit_loop_full k ez pr l em sned e' o' s' : k <= length em -> emit_loop k ez pr l em [] sned = Ret (e', o', s') -> o' = [].
Proof.
  intros H E. destruct l as [|x l]; cbn [emit_loop] in E; [apply Ret_inj in E; injection E as _ <- _; reflexivity|].
  destruct (Nat.leb_spec k (length em)); [|lia]. apply Ret_inj in E. injection E as _ <- _. reflexivity.
Qed.
Lemma emit_loop_first ez pr l sned e' o' s' : emit_loop 1 ez pr l [] [] sned = Ret (e', o', s') -> forall m, In m o' -> exists rest, l = m :: rest.
Proof.
  intros E m Hm. destruct l as [|x l]; cbn [emit_loop length Nat.leb ml_overlaps_iter existsb] in E.
  - apply Ret_inj in E. injection E as _ <- _. destruct Hm.
  - destruct (pr (ml_extent x)).
    + cbn [bt_insert bind app] in E. destruct l as [|y l]; cbn [emit_loop length Nat.leb] in E; apply Ret_inj in E; injection E as _ <- _;
      destruct Hm as [<-|[]]; eauto.
    + apply Ret_inj in E. injection E as _ <- _. destruct Hm.
Qed.

(** where an emitted motiflet comes from *)
Definition from_queue (p : problem) (open_ : bool) (pr : f64 -> bool) (top : list topk) (m : motiflet) : Prop :=
  exists k t, nth_error top k = Some t /\ (open_ = true -> tk_disabled t = false) /\ length (ml_indices m) = k /\ In m (tk_top t) /\ pr (ml_extent m) = true /\
    (p_top_k p = 1 -> tk_emitted t = [] /\ exists rest, tk_top t = m :: rest).

Lemma emit_from p seed open_ k t pr t' out top : queue_ok p seed k t -> nth_error top k = Some t -> (open_ = true -> tk_disabled t = false) ->
  tk_emit t pr = Ret (t', out) -> forall m, In m out -> from_queue p open_ pr top m.
Proof.
  intros Q Ht Op E m Hm. unfold tk_emit in E.
  destruct (emit_loop _ _ _ _ _ _ _) as [[[e1 o1] s1]| |] eqn:El; cbn [bind] in E; try discriminate.
  apply Ret_inj in E. injection E as _ <-.
  destruct (emit_loop_predicate _ _ _ _ _ _ _ _ _ _ El m Hm) as [[]|[H1 H2]].
  exists k, t. split; [exact Ht|]. split; [exact Op|]. split; [apply (q_members _ _ _ _ Q); auto|]. split; [exact H1|]. split; [exact H2|].
  intros Hk. assert (Ek : tk_k t = 1) by (rewrite (q_k _ _ _ _ Q); exact Hk). rewrite Ek in El.
  destruct (tk_emitted t) as [|x em] eqn:Ee; [split; [reflexivity|]; eapply emit_loop_first; eauto|].
  apply emit_loop_full in El; [|cbn [length]; lia]. rewrite El in Hm. destruct Hm.
Qed.

(** emission leaves the candidates where they are *)
Definition same_candidates (top top' : list topk) : Prop :=
  forall k t', nth_error top' k = Some t' -> exists t, nth_error top k = Some t /\ tk_top t' = tk_top t /\ (fresh t' -> fresh t).
Lemma same_best top top' k x : same_candidates top top' -> best_below top k x -> best_below top' k x.
Proof. intros S B t' Ht F. destruct (S k t' Ht) as (t & Et & -> & Fr). eauto. Qed.
Lemma same_nested top top' : same_candidates top top' -> nested top -> nested top'.
Proof.
  intros S N k k' t m Hk Ht Hm. apply (same_best top); [exact S|]. destruct (S k' t Ht) as (t0 & Et & E & _). rewrite E in Hm. eapply N; eauto.
Qed.

Lemma emit_queues_from p seed c top ret top' ret' : queues_ok p seed top -> emit_queues p c top ret = Ret (top', ret') ->
  same_candidates top top' /\ exists new, ret' = ret ++ new /\ forall m, In m new -> from_queue p true (confirmed p c) top m.
Proof.
  intros Q E. unfold emit_queues in E.
  match type of E with foreach ?l ?b ?s = _ =>
    destruct (foreach_inv b (fun pre (st : list topk * list motiflet) => queues_ok p seed (fst st) /\ same_candidates top (fst st) /\
      (forall k, ~ In k pre -> nth_error (fst st) k = nth_error top k) /\
      exists new, snd st = ret ++ new /\ forall m, In m new -> from_queue p true (confirmed p c) top m) l s) as ((tp & rt) & E' & Q' & S' & _ & new & En & Hn)
  end.
  - cbn [fst snd]. split; [exact Q|]. split; [intros k t Ht; exists t; auto|]. split; [reflexivity|]. exists []. rewrite app_nil_r. split; [reflexivity|intros ? []].
  - intros pre k post (tp & rt) El (Q1 & S1 & U1 & new & En & Hn). cbn [fst snd] in *.
    assert (Hin : In k (seq 0 (p_max_k p + 1))) by (rewrite El; apply in_elt). apply in_seq in Hin.
    assert (Np : ~ In k pre).
    { pose proof (seq_NoDup (p_max_k p + 1) 0) as ND. rewrite El in ND. apply NoDup_remove_2 in ND. intros H. apply ND, in_or_app. auto. }
    destruct (queues_get p seed tp k Q1 ltac:(lia)) as (t & Eg & Ent & Qt). rewrite Eg. cbn [bind].
    destruct (tk_is_complete t) eqn:Ic.
    { exists (tp, rt). split; [reflexivity|]. cbn [fst snd]. split; [exact Q1|]. split; [exact S1|]. split; [|eauto].
      intros j Hj. apply U1. intros H. apply Hj, in_or_app. auto. }
    destruct (queue_emit p seed k t (confirmed p c) Qt) as (t' & out & Et & Qt' & T1 & D1 & _ & Le & _). rewrite Et. cbn [bind].
    destruct (queues_put p seed tp k t' Q1) as (tp' & Ep & Q2 & Pp); [destruct Q1; lia|exact Qt'|]. rewrite Ep. cbn [bind].
    exists (tp', rt ++ out). split; [reflexivity|]. cbn [fst snd]. split; [exact Q2|]. split.
    { intros j x Hx. rewrite Pp in Hx. destruct (Nat.eqb_spec j k) as [->|]; [|apply S1, Hx]. injection Hx as <-.
      destruct (S1 k t Ent) as (t0 & Et0 & A & B). exists t0. split; [exact Et0|]. split; [congruence|]. intros [F1 F2]. apply B. split; [|congruence].
      rewrite F1 in Le. destruct (tk_emitted t); [reflexivity|cbn in Le; lia]. }
    split.
    { intros j Hj. rewrite Pp. destruct (Nat.eqb_spec j k) as [->|]; [exfalso; apply Hj, in_or_app; right; left; reflexivity|]. apply U1. intros H. apply Hj, in_or_app. auto. }
    exists (new ++ out). split; [rewrite En, app_assoc; reflexivity|]. intros m Hm. apply in_app_or in Hm. destruct Hm as [Hm|Hm]; [auto|].
    apply (emit_from p seed true k t (confirmed p c) t' out top Qt); [| |exact Et|exact Hm]; [rewrite <- (U1 k Np); exact Ent|].
    intros _. unfold tk_is_complete in Ic. apply orb_false_elim in Ic. tauto.
  - rewrite E in E'. apply Ret_inj in E'. injection E' as <- <-. cbn [fst snd] in *. split; [exact S'|]. eauto.
Qed.

Lemma emit_everything_from p seed s s' : inv p seed s -> emit_everything s = Ret s' ->
  (exists new, it_return s' = it_return s ++ new /\ forall m, In m new -> from_queue p false (fun _ => true) (it_top s) m) /\
  (forall k t, nth_error (it_top s') k = Some t -> tk_disabled t = true).
Proof.
  intros I E. unfold emit_everything in E.
  match type of E with context [foreach ?l ?b ?st] =>
    destruct (foreach_inv b (fun pre (acc : list topk * list motiflet) =>
      (forall t, In t (fst acc) -> tk_disabled t = true) /\
      exists new, snd acc = it_return s ++ new /\ forall m, In m new -> from_queue p false (fun _ => true) (it_top s) m) l st) as ((tp & rt) & E' & D' & new & En & Hn)
  end.
  - cbn [fst snd]. split; [intros ? []|]. exists []. rewrite app_nil_r. split; [reflexivity|intros ? []].
  - intros pre t post (tp & rt) El (D1 & new & En & Hn). cbn [fst snd] in *.
    assert (Ht : nth_error (it_top s) (length pre) = Some t) by (rewrite El, nth_error_app2, Nat.sub_diag by lia; reflexivity).
    destruct (inv_queues _ _ _ I) as [_ Q]. pose proof (Q _ _ Ht) as Qt.
    destruct (queue_emit p seed (length pre) t (fun _ => true) Qt) as (t' & out & Et & _). rewrite Et. cbn [bind].
    eexists. split; [reflexivity|]. cbn [fst snd]. split.
    + intros x Hx. apply in_app_or in Hx. destruct Hx as [Hx|[<-|[]]]; [auto|reflexivity].
    + exists (new ++ out). split; [rewrite En, app_assoc; reflexivity|]. intros m Hm. apply in_app_or in Hm. destruct Hm as [Hm|Hm]; [auto|].
      eapply emit_from; eauto. discriminate.
  - rewrite E' in E. cbn [bind] in E. apply Ret_inj in E. subst s'. cbn [fst snd it_return it_top] in *. split; [eauto|].
    intros k t Ht. apply D'. eapply nth_error_In; eauto.
Qed.
