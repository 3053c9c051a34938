(** C36: the order in which motiflets that wait to be returned come out. *)
From Coq Require Import Sorted.
From Verif Require Import Base F64 OverlapsSpec OverlapsProofs TopK TopKSpec TopKProofs Moves Iterator IteratorSpec IteratorProofs IteratorLoop IteratorCalls P_Iterator.

(** ** Lists in the order in which they are kept *)
(** what is returned later stays earlier in the list *)
Definition kept_before (x y : motiflet) : Prop :=
  length (ml_indices x) < length (ml_indices y) \/
  (length (ml_indices x) = length (ml_indices y) /\ flt (ml_extent x) (ml_extent y) = true).
Definition ordered (l : list motiflet) : Prop := StronglySorted kept_before l.

Lemma sorted_app {A} (R : A -> A -> Prop) a b : StronglySorted R a -> StronglySorted R b ->
  (forall x y, In x a -> In y b -> R x y) -> StronglySorted R (a ++ b).
Proof.
  intros Sa Sb H. induction Sa as [|x a Sa IH Fa]; [exact Sb|]. cbn [app]. constructor.
  - apply IH. intros u v Hu Hv. apply H; [right|]; assumption.
  - apply Forall_app. split; [exact Fa|]. apply Forall_forall. intros y Hy. apply H; [left; reflexivity|exact Hy].
Qed.
Lemma sorted_app_inv {A} (R : A -> A -> Prop) a b : StronglySorted R (a ++ b) ->
  StronglySorted R a /\ forall x y, In x a -> In y b -> R x y.
Proof.
  induction a as [|z a IH]; intros S; [split; [constructor|intros ? ? []]|].
  cbn [app] in S. inversion S as [|? ? S' F]; subst. destruct (IH S') as [Sa H]. apply Forall_app in F. destruct F as [Fa Fb].
  split; [constructor; assumption|]. intros x y [<-|Hx] Hy; [|auto]. rewrite Forall_forall in Fb. auto.
Qed.

(** what a queue gives comes out in the order of the queue *)
Lemma emit_loop_sorted k ez pr l : by_extent l -> forall em out sn e' o' s',
  emit_loop k ez pr l em out sn = Ret (e', o', s') -> by_extent out -> (forall x y, In x out -> In y l -> flt (ml_extent x) (ml_extent y) = true) ->
  by_extent o'.
Proof.
  induction l as [|m l IH]; intros S em out sn e' o' s' E So H; cbn [emit_loop] in E.
  - apply Ret_inj in E. injection E as _ <- _. exact So.
  - inversion S as [|? ? S' F]; subst.
    destruct (k <=? length em); [apply Ret_inj in E; injection E as _ <- _; exact So|].
    destruct (ml_overlaps_iter m em ez).
    { apply (IH S' _ _ _ _ _ _ E So). intros x y Hx Hy. apply H; [exact Hx|right; exact Hy]. }
    destruct (pr (ml_extent m)); [|apply Ret_inj in E; injection E as _ <- _; exact So].
    destruct (bt_insert m em) as [em2| |]; cbn [bind] in E; try discriminate.
    apply (IH S' _ _ _ _ _ _ E).
    + apply sorted_app; [exact So|constructor; [constructor|constructor]|]. intros x y Hx [<-|[]]. apply H; [exact Hx|left; reflexivity].
    + intros x y Hx Hy. apply in_app_or in Hx. destruct Hx as [Hx|[<-|[]]]; [apply H; [exact Hx|right; exact Hy]|].
      rewrite Forall_forall in F. apply F, Hy.
Qed.
Lemma emit_sorted t pr t' out : wf t -> tk_emit t pr = Ret (t', out) -> by_extent out.
Proof.
  intros (_ & S & _) E. unfold tk_emit in E. destruct (emit_loop _ _ _ _ _ _ _) as [[[e o] s]| |] eqn:El; cbn [bind] in E; try discriminate.
  apply Ret_inj in E. injection E as _ <-. apply (emit_loop_sorted _ _ _ _ S _ _ _ _ _ _ El); [constructor|intros ? ? []].
Qed.
Lemma of_one_support k l : by_extent l -> (forall m, In m l -> length (ml_indices m) = k) -> ordered l.
Proof.
  intros S H. induction S as [|x l S IH F]; [constructor|]. constructor.
  - apply IH. intros m Hm. apply H. right. exact Hm.
  - rewrite Forall_forall in *. intros y Hy. right. split; [|apply F, Hy]. rewrite (H x (or_introl eq_refl)), (H y (or_intror Hy)). reflexivity.
Qed.
(** motiflets of smaller supports followed by those of one support *)
Lemma next_support k l out : ordered l -> (forall m, In m l -> length (ml_indices m) < k) ->
  by_extent out -> (forall m, In m out -> length (ml_indices m) = k) ->
  ordered (l ++ out) /\ forall m, In m (l ++ out) -> length (ml_indices m) < S k.
Proof.
  intros Sl Hl So Ho. split.
  - apply sorted_app; [exact Sl|apply (of_one_support k); assumption|]. intros x y Hx Hy. left. rewrite (Ho y Hy). apply Hl, Hx.
  - intros m Hm. apply in_app_or in Hm. destruct Hm as [Hm|Hm]; [specialize (Hl m Hm)|specialize (Ho m Hm)]; lia.
Qed.

Lemma emit_queues_ordered p seed c top top' ret' : queues_ok p seed top -> emit_queues p c top [] = Ret (top', ret') -> ordered ret'.
Proof.
  intros Q E. unfold emit_queues in E.
  match type of E with foreach ?l ?b ?s = _ =>
    destruct (foreach_inv b (fun pre (st : list topk * list motiflet) => queues_ok p seed (fst st) /\ ordered (snd st) /\
      forall m, In m (snd st) -> length (ml_indices m) < length pre) l s) as ((top2 & ret2) & E2 & _ & O & _)
  end.
  - cbn [fst snd]. split; [exact Q|]. split; [constructor|intros ? []].
  - intros pre k post (tp & rt) El (Q1 & O & L). cbn [fst snd] in *.
    assert (Hk : k = length pre /\ k < p_max_k p + 1).
    { assert (Hn : nth_error (seq 0 (p_max_k p + 1)) (length pre) = Some k) by (rewrite El, nth_error_app2, Nat.sub_diag by lia; reflexivity).
      assert (length pre < p_max_k p + 1) by (rewrite <- (seq_length (p_max_k p + 1) 0); apply nth_error_Some; congruence).
      rewrite nth_error_nth' with (d := 0) in Hn by (rewrite seq_length; assumption). rewrite seq_nth in Hn by assumption. injection Hn as <-. cbn. lia. }
    destruct Hk as [Hk Lk].
    destruct (queues_get p seed tp k Q1 ltac:(lia)) as (t & Eg & Ent & Qt). rewrite Eg. cbn [bind]. rewrite app_length. cbn [length].
    destruct (tk_is_complete t); [exists (tp, rt); split; [reflexivity|]; cbn [fst snd]; split; [exact Q1|]; split; [exact O|]; intros m Hm; specialize (L m Hm); lia|].
    destruct (queue_emit p seed k t (confirmed p c) Qt) as (t' & out & Et & Qt' & _ & _ & Ho & _ & _). rewrite Et. cbn [bind].
    destruct (queues_put p seed tp k t' Q1) as (tp' & Ep & Q2 & _); [destruct Q1; lia|exact Qt'|]. rewrite Ep. cbn [bind].
    exists (tp', rt ++ out). split; [reflexivity|]. cbn [fst snd]. split; [exact Q2|].
    rewrite <- Hk in *. destruct (next_support k rt out O L) as [O2 L2].
    + apply (emit_sorted t (confirmed p c) t'); [apply Qt|exact Et].
    + intros m Hm. apply Ho, Hm.
    + split; [exact O2|]. intros m Hm. specialize (L2 m Hm). lia.
  - rewrite E2 in E. apply Ret_inj in E. injection E as _ <-. exact O.
Qed.

Lemma emit_everything_ordered p seed s s' : inv p seed s -> it_return s = [] -> emit_everything s = Ret s' -> ordered (it_return s').
Proof.
  intros I Er E. unfold emit_everything in E. rewrite Er in E. destruct (inv_queues _ _ _ I) as [_ Iq].
  match type of E with bind (foreach ?l ?b ?st) _ = _ =>
    destruct (foreach_inv b (fun pre (acc : list topk * list motiflet) => ordered (snd acc) /\
      forall m, In m (snd acc) -> length (ml_indices m) < length pre) l st) as ((top2 & ret2) & E2 & O & _)
  end.
  - cbn [snd]. split; [constructor|intros ? []].
  - intros pre t post (tp & rt) El (O & L). cbn [snd] in *.
    assert (Ht : nth_error (it_top s) (length pre) = Some t) by (rewrite El, nth_error_app2, Nat.sub_diag by lia; reflexivity).
    destruct (queue_emit p seed (length pre) t (fun _ => true) (Iq _ _ Ht)) as (t' & out & Et & _ & _ & _ & Ho & _ & _). rewrite Et. cbn [bind].
    eexists. split; [reflexivity|]. cbn [snd]. rewrite app_length. cbn [length].
    destruct (next_support (length pre) rt out O L) as [O2 L2].
    + apply (emit_sorted t (fun _ => true) t'); [apply (Iq _ _ Ht)|exact Et].
    + intros m Hm. apply Ho, Hm.
    + split; [exact O2|]. intros m Hm. specialize (L2 m Hm). lia.
  - cbn [snd] in *. rewrite E2 in E. cbn [bind] in E. apply Ret_inj in E. subst s'. exact O.
Qed.

Lemma turn_ordered p seed s s' fuel : sound p -> inv p seed s -> it_return s = [] -> turn p s fuel = Ret s' -> ordered (it_return s').
Proof.
  intros Sd I Er E. unfold turn in E.
  destruct (update_graph_ok p seed s Sd I) as (s1 & t & k & th & bs & pos & new & R & I1 & A1 & A2 & _).
  destruct (update_graph p s fuel) as [s1'| |] eqn:E1; cbn [bind] in E; try discriminate.
  pose proof (ret_returns _ _ _ _ (update_graph_mono p s) E1 R) as ->.
  destruct (emit_confirmed p s1) as [s2| |] eqn:E2; cbn [bind] in E; try discriminate.
  destruct (emit_confirmed_ok p seed s1 Sd I1) as (s2' & new2 & E2' & I2 & _). assert (s2' = s2) by congruence. subst s2'.
  destruct (0 <? p_n p); cbn [assert_] in E; [|discriminate].
  destruct (advance_inv p seed s2 s' I2 E) as (_ & _ & -> & _).
  unfold emit_confirmed in E2. rewrite A2, Er in E2.
  destruct I1 as [(ops & V & Ho) _ Iq _ _ _ _].
  destruct (neighborhoods_ok p ops (it_graph s1) (p_max_k p + 1) Ho V) as (g' & nbs & En & _ & Hn). rewrite En in E2. cbn [bind] in E2.
  destruct (add_all_ok p seed nbs Sd Hn (it_top s1) Iq) as (t1 & Ea & Q1 & _). rewrite Ea in E2. cbn [bind] in E2.
  destruct (emit_queues p (it_conf s1) t1 []) as [[t2 ret]| |] eqn:Eq; cbn [bind] in E2; try discriminate.
  destruct (min_distance (next_distances t2)) as [nx| |]; cbn [bind] in E2; try discriminate.
  apply Ret_inj in E2. subst s2. cbn [it_return]. apply (emit_queues_ordered _ _ _ _ _ _ Q1 Eq).
Qed.
Lemma turns_ordered p seed s n s' : sound p -> turns p s n s' -> inv p seed s -> ordered (it_return s) -> ordered (it_return s').
Proof.
  intros Sd T. induction T as [s|s s1 n s' G (f & E) T IH]; intros I O; [exact O|].
  apply IH; [eapply turn_inv; eauto|]. eapply turn_ordered; eauto. apply G.
Qed.
(** the motiflet returned was the last of an ordered list *)
Lemma call_ordered p seed cb s s' a : sound p -> inv p seed s -> ordered (it_return s) -> call p cb s s' a ->
  ordered (it_return s') /\ forall m, a = Item m -> ordered (it_return s' ++ [m]).
Proof.
  intros Sd I O (n & s1 & T & _ & f & B). pose proof (turns_inv _ _ _ _ _ Sd T I) as I1.
  pose proof (turns_ordered _ _ _ _ _ Sd T I O) as O1.
  pose proof (loop_body_cases p seed s1 _ f _ Sd I1 B) as C. cbn beta iota in C. destruct a as [|m|].
  - destruct C as (-> & _). split; [exact O1|discriminate].
  - destruct C as (_ & _ & C & _). assert (Om : ordered (it_return s' ++ [m])).
    { destruct C as [[<- _]|(Er & _ & _ & _ & s2 & E2 & <- & _)]; [exact O1|]. apply (emit_everything_ordered p seed s1 s2 I1 Er E2). }
    split; [apply (sorted_app_inv _ _ _ Om)|]. intros m' Hm. injection Hm as <-. exact Om.
  - destruct C as (_ & Er & _). rewrite Er. split; [constructor|discriminate].
Qed.

(** calls that are interrupted at once return what waits, from the end *)
Lemma waiting_calls p n : forall s fuel s' l, calls p (repeat (fun _ => false) n) s fuel = Ret (s', l) ->
  l = map Item (firstn n (rev (it_return s))) ++ repeat Interrupted (n - length (it_return s)).
Proof.
  induction n as [|n IH]; intros s fuel s' l E; cbn [repeat] in E.
  - cbn [calls] in E. apply Ret_inj in E. injection E as _ <-. reflexivity.
  - destruct (calls_split _ _ _ _ _ _ _ E) as (s1 & a & l' & (m & s2 & T & H & f & B) & E' & ->).
    assert (m = 0) by (destruct m as [|m]; [reflexivity|specialize (H 0 ltac:(lia)); discriminate]). subst m.
    inversion T; subst. specialize (IH _ _ _ _ E'). unfold loop_body in B.
    destruct (it_return s2) as [|x t] eqn:Er.
    + cbn [negb] in B. apply Ret_inj in B. injection B as <- <-. rewrite IH, Er. cbn [rev length]. rewrite !Nat.sub_0_r, !firstn_nil. reflexivity.
    + unfold pop in B. rewrite Er in B. destruct (rev (x :: t)) as [|y r] eqn:Ey; [apply (f_equal (@length _)) in Ey; rewrite rev_length in Ey; discriminate|].
      apply Ret_inj in B. injection B as <- <-. cbn [it_return] in IH. rewrite rev_involutive, rev_length in IH. cbn [answer_of firstn map app]. rewrite IH.
      apply (f_equal (@length _)) in Ey. rewrite rev_length in Ey. rewrite Ey. cbn [length Nat.sub]. reflexivity.
Qed.

(** * C118 *)
(** Everything that can be had without further work (that is, by calls that are told to
    stop at once) after a call comes out in a fixed order, the motiflet returned by that
    call included: larger supports first and, among motiflets of the same support, the
    largest extent first.  The order of what different turns confirm depends on the hash
    functions. *)
Definition returned_before (x y : motiflet) : Prop :=
  length (ml_indices y) < length (ml_indices x) \/
  (length (ml_indices y) = length (ml_indices x) /\ flt (ml_extent y) (ml_extent x) = true).
Theorem c118_waiting :
  forall (p : problem) (a b : nat) (d : f64) (cbs : list (nat -> bool)) (n fuel : nat) (s : iter) (answers : list answer)
         (i j : nat) (x y : motiflet),
    sound p -> seed_ok p a b d ->
    session p a b d (cbs ++ repeat (fun _ => false) n) fuel = Ret (s, answers) ->
    length cbs - 1 <= i < j ->
    nth_error answers i = Some (Item x) -> nth_error answers j = Some (Item y) ->
    returned_before x y.
Proof.
  intros p a b d cbs n fuel s answers i j x y Sd So E L Hi Hj.
  unfold session in E. destruct (iter_new p a b d) as [s0| |] eqn:E0; cbn [bind] in E; try discriminate.
  destruct (new_inv p a b d s0 Sd So E0) as (I0 & _ & Er & _).
  assert (O0 : ordered (it_return s0)) by (rewrite Er; constructor).
  assert (W : forall l k i j s1, ordered (it_return s1 ++ l) ->
     nth_error (map Item (rev l) ++ map Item (firstn n (rev (it_return s1))) ++ repeat Interrupted k) i = Some (Item x) ->
     nth_error (map Item (rev l) ++ map Item (firstn n (rev (it_return s1))) ++ repeat Interrupted k) j = Some (Item y) -> i < j -> returned_before x y).
  { clear. intros l k i j s1 O Hi Hj L. rewrite app_assoc, <- map_app in Hi, Hj.
    set (q := rev l ++ firstn n (rev (it_return s1))) in *.
    assert (G : forall i z, nth_error (map Item q ++ repeat Interrupted k) i = Some (Item z) -> nth_error (rev (it_return s1 ++ l)) i = Some z).
    { intros i0 z H. destruct (Nat.lt_ge_cases i0 (length (map Item q))) as [Li|Li].
      - rewrite nth_error_app1, nth_error_map in H by exact Li. destruct (nth_error q i0) as [z'|] eqn:Ez; cbn in H; [|discriminate].
        injection H as ->. rewrite rev_app_distr. rewrite map_length in Li.
        rewrite <- (firstn_skipn n (rev (it_return s1))), app_assoc. fold q. rewrite nth_error_app1 by exact Li. exact Ez.
      - rewrite nth_error_app2 in H by exact Li. apply nth_error_In, repeat_spec in H. discriminate. }
    apply G in Hi. apply G in Hj. clear G q. remember (it_return s1 ++ l) as r eqn:Eqr. clear Eqr s1 l.
    apply nth_error_split in Hi. destruct Hi as (l1 & l2 & Es & Ll). rewrite Es in Hj. rewrite nth_error_app2 in Hj by lia.
    destruct (j - length l1) as [|z] eqn:Ez; [lia|]. cbn [nth_error] in Hj. apply nth_error_In in Hj.
    apply (f_equal (@rev _)) in Es. rewrite rev_involutive, rev_app_distr in Es. cbn [rev] in Es. rewrite Es in O.
    apply sorted_app_inv in O. destruct O as [O _]. apply sorted_app_inv in O. destruct O as [_ O].
    destruct (O y x) as [H|[H1 H2]]; [apply in_rev; rewrite rev_involutive; exact Hj|left; reflexivity|left; exact H|right; auto]. }
  clear E0 Er So. revert s0 I0 O0 answers i j E L Hi Hj. induction cbs as [|cb cbs IH]; intros s0 I0 O0 answers i j E L Hi Hj.
  - cbn [app] in E. apply waiting_calls in E. subst answers. apply (W [] (n - length (it_return s0)) i j s0); [rewrite app_nil_r; exact O0|exact Hi|exact Hj|lia].
  - cbn [app] in E. destruct (calls_split _ _ _ _ _ _ _ E) as (s1 & a1 & l' & C & E' & ->).
    destruct (call_inv p _ cb s0 s1 a1 Sd I0 C) as [I1 _]. destruct (call_ordered p _ cb s0 s1 a1 Sd I0 O0 C) as [O1 Om].
    cbn [length] in L. destruct cbs as [|cb2 cbs].
    + cbn [app] in E'. apply waiting_calls in E'. subst l'. destruct i as [|i].
      * cbn [nth_error] in Hi. injection Hi as ->. specialize (Om x eq_refl).
        apply (W [x] (n - length (it_return s1)) 0 j s1 Om); [reflexivity|exact Hj|lia].
      * destruct j as [|j]; [lia|]. cbn [nth_error] in Hi, Hj.
        apply (W [] (n - length (it_return s1)) i j s1); [rewrite app_nil_r; exact O1|exact Hi|exact Hj|lia].
    + destruct i as [|i]; [cbn [length] in L; lia|]. destruct j as [|j]; [lia|]. cbn [nth_error] in Hi, Hj.
      apply (IH s1 I1 O1 l' i j E'); [cbn [length] in *; lia|exact Hi|exact Hj].
Qed.
Print Assumptions c118_waiting.
(** both pairs of [two_pairs] are confirmed in the first turn *)
Example c118_case : sound two_pairs /\ seed_ok two_pairs 8 12 (fl 2) /\
  exists s x y, session two_pairs 8 12 (fl 2) ([always] ++ repeat (fun _ => false) 2) 30 = Ret (s, [Item x; Item y; Interrupted]) /\
    flt (ml_extent y) (ml_extent x) = true.
Proof.
  split; [exact two_pairs_sound|]. split; [repeat split; cbn; try lia; unfold too_close; lia|].
  eexists. eexists. eexists. split; [vm_compute; reflexivity|reflexivity].
Qed.
