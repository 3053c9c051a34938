(** Property theorems C31-C32 and C71 (the public buffer of the best motifs).
    Specification: OverlapsSpec.v.  Model: MotifTopK.v. *)
From Coq Require Import Floats.SpecFloat.
From Verif Require Import Base F64 Overlaps OverlapsSpec OverlapsProofs Brute MotifBfProofs MotifTopK MotifTopKProofs.

(** the motif of positions [a], [b] and distance [d] (a positive integer) *)
Definition mo (d : positive) (a b : nat) : bmotif := BMotif (Motif a b (S754_finite false d 0)) false.
Definition positions (m : motif) : list nat := [m_a m; m_b m].

(** * C31: insertion never aborts *)
(** k = 1: five motifs far from each other *)
Theorem c31_insert_refuted :
  exists (k ez : nat) (motifs : list bmotif),
    (forall m, In m motifs -> is_finite (m_dist (bm m)) = true /\ ~ too_close ez (m_a (bm m)) (m_b (bm m))) /\
    mt_run false (mt_new k ez) (map MtInsert motifs) = Panic.
Proof.
  exists 1, 5, [mo 1 0 10; mo 2 20 30; mo 3 40 50; mo 4 60 70; mo 5 80 90]. split.
  - intros m Hm. repeat (destruct Hm as [<-|Hm]; [split; [reflexivity|cbn; unfold too_close; lia]|]). destruct Hm.
  - reflexivity.
Qed.
Print Assumptions c31_insert_refuted.
(** with debug assertions two motifs at the same distance are enough *)
Theorem c31_insert_debug_refuted :
  exists (k ez : nat) (x y : bmotif),
    is_finite (m_dist (bm x)) = true /\ is_finite (m_dist (bm y)) = true /\
    mt_run true (mt_new k ez) [MtInsert x; MtInsert y] = Panic /\
    mt_run false (mt_new k ez) [MtInsert x; MtInsert y] <> Panic.
Proof. exists 1, 5, (mo 1 20 30), (mo 1 0 10). repeat split; try reflexivity. vm_compute. discriminate. Qed.
Print Assumptions c31_insert_debug_refuted.

(** Without debug assertions, when no more than k + 2 of the inserted motifs are pairwise
    non-overlapping.  Missing: more than k + 2. *)
Theorem c31_insert_partial :
  forall (k ez : nat) (ops : list mt_op),
    (forall m, In m (mt_inserted ops) -> is_nan (m_dist m) = false /\ ~ too_close ez (m_a m) (m_b m)) ->
    (forall l : list motif,
       (forall m, In m l -> In m (mt_inserted ops)) ->
       (forall i j x y, i < j -> nth_error l i = Some x -> nth_error l j = Some y ->
          ~ sets_conflict ez (positions x) (positions y)) ->
       length l <= k + 2) ->
    exists s, mt_run false (mt_new k ez) ops = Ret s.
Proof.
  intros k ez ops N H. apply (mt_run_ok ops (mt_new k ez) [] (k + 2) (mt_inv_new k ez)).
  - intros m Hm. apply N, Hm.
  - intros c Hc F. apply H; [exact Hc|]. cbn [app] in Hc. clear H.
    induction F as [|x l F P IH]; intros [|i] [|j] a b L Ea Eb; try discriminate; try lia.
    + cbn in Ea. injection Ea as <-. cbn in Eb. apply nth_error_In in Eb.
      rewrite Forall_forall in F. specialize (F b Eb). unfold mt_new in F. cbn [mt_ez] in F.
      rewrite <- (motif_overlaps_spec (m_a x) (m_b x) (m_a b) (m_b b)); [congruence| |].
      * apply N, Hc. left. reflexivity.
      * apply N, Hc. right. exact Eb.
    + cbn in Ea, Eb. refine (IH _ i j a b ltac:(lia) Ea Eb). intros m Hm. apply Hc. right. exact Hm.
  - cbn. lia.
Qed.
Print Assumptions c31_insert_partial.
(** any number of motifs that all use position 0 *)
Example c31_example : forall n, exists s,
  mt_run false (mt_new 2 5) (map (fun i => MtInsert (mo (Pos.of_succ_nat i) 0 (5 + i))) (seq 0 n)) = Ret s.
Proof.
  intros n. 
  assert (Hm : forall m, In m (mt_inserted (map (fun i => MtInsert (mo (Pos.of_succ_nat i) 0 (5 + i))) (seq 0 n))) ->
    m_a m = 0 /\ 5 <= m_b m /\ is_nan (m_dist m) = false).
  { intros m Hm. unfold mt_inserted in Hm. apply in_flat_map in Hm. destruct Hm as (op & Hop & Hm).
    apply in_map_iff in Hop. destruct Hop as (i & <- & _). destruct Hm as [<-|[]]. cbn. repeat split; lia. }
  apply c31_insert_partial.
  - intros m H. destruct (Hm m H) as (A & B & C). split; [exact C|]. rewrite A. unfold too_close. lia.
  - intros l Hl Ha. destruct l as [|x [|y l]]; cbn; try lia. exfalso.
    apply (Ha 0 1 x y ltac:(lia) eq_refl eq_refl).
    destruct (Hm x) as (A & _); [apply Hl; left; reflexivity|].
    destruct (Hm y) as (B & _); [apply Hl; right; left; reflexivity|].
    exists 0, 0. unfold positions. rewrite A, B. repeat split; try (left; reflexivity); lia.
Qed.

(** With debug assertions, when moreover motifs at the same distance start at the same
    position.  Missing: more than k + 2, and other motifs at the same distance. *)
Theorem c31_insert_debug_partial :
  forall (k ez : nat) (ops : list mt_op),
    (forall m, In m (mt_inserted ops) -> is_nan (m_dist m) = false /\ ~ too_close ez (m_a m) (m_b m)) ->
    (forall l : list motif,
       (forall m, In m l -> In m (mt_inserted ops)) ->
       (forall i j x y, i < j -> nth_error l i = Some x -> nth_error l j = Some y ->
          ~ sets_conflict ez (positions x) (positions y)) ->
       length l <= k + 2) ->
    (forall x y, In x (mt_inserted ops) -> In y (mt_inserted ops) -> feq (m_dist x) (m_dist y) = true -> m_a x = m_a y) ->
    exists s, mt_run true (mt_new k ez) ops = Ret s.
Proof.
  intros k ez ops N H T. rewrite (mt_run_debug ops (mt_new k ez) [] (mt_inv_new k ez)); [|intros m Hm; apply N, Hm|exact T].
  apply c31_insert_partial; assumption.
Qed.
Print Assumptions c31_insert_debug_partial.
Example c31_debug_example : forall n, exists s,
  mt_run true (mt_new 2 5) (map (fun i => MtInsert (mo (Pos.of_succ_nat i) 0 (5 + i))) (seq 0 n)) = Ret s.
Proof.
  intros n.
  assert (Hm : forall m, In m (mt_inserted (map (fun i => MtInsert (mo (Pos.of_succ_nat i) 0 (5 + i))) (seq 0 n))) ->
    m_a m = 0 /\ 5 <= m_b m /\ is_nan (m_dist m) = false).
  { intros m Hm. unfold mt_inserted in Hm. apply in_flat_map in Hm. destruct Hm as (op & Hop & Hm).
    apply in_map_iff in Hop. destruct Hop as (i & <- & _). destruct Hm as [<-|[]]. cbn. repeat split; lia. }
  apply c31_insert_debug_partial.
  - intros m H. destruct (Hm m H) as (A & B & C). split; [exact C|]. rewrite A. unfold too_close. lia.
  - intros l Hl Ha. destruct l as [|x [|y l]]; cbn; try lia. exfalso.
    apply (Ha 0 1 x y ltac:(lia) eq_refl eq_refl).
    destruct (Hm x) as (A & _); [apply Hl; left; reflexivity|].
    destruct (Hm y) as (B & _); [apply Hl; right; left; reflexivity|].
    exists 0, 0. unfold positions. rewrite A, B. repeat split; try (left; reflexivity); lia.
  - intros x y Hx Hy _. destruct (Hm x Hx) as (-> & _), (Hm y Hy) as (-> & _). reflexivity.
Qed.

(** * C32: what the buffer reports *)
(** k = 1 and two motifs available: the accessor of the k-th motif returns nothing *)
Theorem c32_kth_refuted :
  exists (k ez : nat) (motifs : list bmotif) (s : mtop),
    mt_run false (mt_new k ez) (map MtInsert motifs) = Ret s /\
    1 <= k <= length (snd (mt_to_vec s)) /\
    snd (mt_k_th s) = None.
Proof.
  exists 1, 5, [mo 1 0 10; mo 2 20 30]. eexists. split; [reflexivity|]. split; [cbn; lia|reflexivity].
Qed.
Print Assumptions c32_kth_refuted.

(** Everything else, and the k-th when exactly k are available.  Missing: the k-th accessor
    when more than k are available. *)
Theorem c32_reported_partial :
  forall (debug : bool) (k ez : nat) (ops : list mt_op) (s : mtop) (reported : list bmotif),
    (forall m, In m (mt_inserted ops) -> is_nan (m_dist m) = false /\ ~ too_close ez (m_a m) (m_b m)) ->
    mt_run debug (mt_new k ez) ops = Ret s ->
    snd (mt_to_vec s) = reported ->
    (* only inserted motifs *)
    (forall x, In x reported -> In (bm x) (mt_inserted ops)) /\
    (* by distance, disjoint *)
    (forall i j x y, i < j -> nth_error reported i = Some x -> nth_error reported j = Some y ->
       fle (m_dist (bm x)) (m_dist (bm y)) = true /\ ~ sets_conflict ez (positions (bm x)) (positions (bm y))) /\
    (* the first one is the best of all those inserted *)
    (1 <= k -> forall m, In m (mt_inserted ops) ->
       exists first, nth_error reported 0 = Some first /\ fle (m_dist (bm first)) (m_dist m) = true) /\
    (* the k-th *)
    (1 <= k -> snd (mt_k_th s) = if length reported =? k then nth_error reported (k - 1) else None).
Proof.
  intros debug k ez ops s rep N E R.
  destruct (mt_run_inv debug ops (mt_new k ez) [] s (mt_inv_new k ez) (fun m Hm => proj1 (N m Hm)) E) as (V & Ek & Ez).
  cbn [app mt_new mt_k mt_ez] in *. pose proof (mt_inv_update s _ V) as V'.
  destruct (mt_update_fields s) as (Uk & Uz & Ut).
  assert (Upd : mt_should_update (mt_update s) = false) by (unfold mt_update; destruct (mt_should_update s) eqn:Q; auto).
  destruct V' as (Nn & O & C & I & H & U). specialize (U Upd). rewrite Uk, Uz, Ut, Ek, Ez in *.
  cbn [snd mt_to_vec] in R. unfold mt_to_vec in R. cbn [snd] in R. rewrite R in U.
  set (g := mt_greedy ez [] (mt_top s)) in *.
  assert (Og : ordered g) by (apply mt_greedy_ordered; exact O).
  assert (Ag : apart ez g) by (apply mt_greedy_apart; constructor).
  assert (Ig : forall x, In x g -> In (bm x) (mt_inserted ops)).
  { intros x Hx. apply mt_greedy_in in Hx. destruct Hx as [[]|Hx]. auto. }
  assert (Nth : forall i x, nth_error rep i = Some x -> exists y, nth_error g i = Some y /\ bm y = bm x).
  { intros i x Hx. assert (Q : nth_error (map bm g) i = Some (bm x)) by (rewrite <- U; apply map_nth_error; exact Hx).
    rewrite nth_error_map in Q. destruct (nth_error g i) as [y|]; [|discriminate]. cbn in Q. injection Q as Q. eauto. }
  split.
  { intros x Hx. apply In_nth_error in Hx. destruct Hx as (i & Hx). destruct (Nth i x Hx) as (y & Hy & <-). apply Ig. eapply nth_error_In; eauto. }
  split.
  { intros i j x y L Hx Hy. destruct (Nth i x Hx) as (x' & Hx' & <-). destruct (Nth j y Hy) as (y' & Hy' & <-).
    assert (P : fle (dist x') (dist y') = true /\ bm_overlaps ez x' y' = false).
    { clear - Og Ag L Hx' Hy'. revert i j L Hx' Hy'. induction g as [|z l IH]; intros [|i] [|j] L Hx Hy; try discriminate; try lia.
      - cbn in Hx, Hy. injection Hx as ->. apply nth_error_In in Hy. apply StronglySorted_inv in Og. destruct Og as [_ F].
        inversion Ag as [|? ? F' A']; subst. rewrite Forall_forall in F, F'. auto.
      - cbn in Hx, Hy. apply StronglySorted_inv in Og. destruct Og as [O' _]. inversion Ag as [|? ? F' A']; subst.
        exact (IH O' A' i j ltac:(lia) Hx Hy). }
    destruct P as [P1 P2]. split; [exact P1|]. unfold bm_overlaps in P2.
    unfold positions. rewrite <- (motif_overlaps_spec (m_a (bm x')) (m_b (bm x')) (m_a (bm y')) (m_b (bm y'))); [congruence| |].
    - apply N, Ig. eapply nth_error_In; eauto.
    - apply N, Ig. eapply nth_error_In; eauto. }
  split.
  { intros Hk m Hm. destruct (H Hk m Hm) as (x & t & Ex & Lx).
    assert (G : exists t', g = x :: t').
    { unfold g. rewrite Ex. cbn [mt_greedy existsb app]. destruct (mt_greedy_prefix ez t [x]) as (t' & ->). exists t'. reflexivity. }
    destruct G as (t' & G). rewrite G in U. destruct rep as [|f rep]; [discriminate|]. cbn in U. injection U as U _.
    exists f. split; [reflexivity|]. rewrite U. exact Lx. }
  intros Hk. unfold mt_k_th. cbn [snd]. rewrite R, Uk. destruct (Nat.eqb_spec (length rep) k) as [L|]; [|reflexivity].
  destruct rep as [|f rep] using rev_ind; [cbn in L; lia|]. rewrite map_app. cbn [map]. rewrite last_last.
  rewrite app_length in L. cbn in L. rewrite nth_error_app2 by lia. replace (k - 1 - length rep) with 0 by lia. reflexivity.
Qed.
Print Assumptions c32_reported_partial.
Definition ex_mt_ops : list mt_op :=
  [MtInsert (mo 5 0 50); MtInsert (mo 4 10 60); MtRead; MtInsert (mo 3 12 70); MtForEach (fun m _ => m_a m =? 12);
   MtInsert (mo 2 30 80); MtInsert (mo 1 31 81)].
Example c32_example :
  (forall m, In m (mt_inserted ex_mt_ops) -> is_nan (m_dist m) = false /\ ~ too_close 5 (m_a m) (m_b m)) /\
  match mt_run false (mt_new 3 5) ex_mt_ops with
  | Ret s => map bm (snd (mt_to_vec s)) = [bm (mo 1 31 81); bm (mo 3 12 70); bm (mo 5 0 50)] /\
      option_map bm (snd (mt_k_th s)) = Some (bm (mo 5 0 50))
  | _ => False
  end.
Proof.
  split.
  - intros m Hm. repeat (destruct Hm as [<-|Hm]; [split; [reflexivity|cbn; unfold too_close; lia]|]). destruct Hm.
  - vm_compute. split; reflexivity.
Qed.

(** * C71: flags and merging are seen by the readers *)
(** Confirming a motif after a read, then asking for the last confirmed one: nothing. *)
Theorem c71_confirmed_refuted :
  exists (k ez : nat) (m : bmotif) (s : mtop),
    mt_run false (mt_new k ez) [MtInsert m; MtRead; MtForEach (fun _ _ => true)] = Ret s /\
    mt_confirmed s = [BMotif (bm m) true] /\ snd (mt_last_confirmed s) = None.
Proof. exists 1, 5, (mo 1 0 10). eexists. repeat split; reflexivity. Qed.
Print Assumptions c71_confirmed_refuted.
(** A buffer that was emptied into another one still reports its motifs. *)
Theorem c71_merge_refuted :
  exists (k ez : nat) (m : bmotif) (other self' other' : mtop),
    mt_run false (mt_new k ez) [MtInsert m; MtRead] = Ret other /\
    mt_add_all false (mt_new k ez) other = Ret (self', other') /\
    mt_top other' = [] /\ snd (mt_to_vec other') = [m].
Proof. exists 1, 5, (mo 1 0 10). eexists. eexists. eexists. repeat split; reflexivity. Qed.
Print Assumptions c71_merge_refuted.
(** "First not confirmed" returns a confirmed motif. *)
Theorem c71_first_not_confirmed_refuted :
  exists (k ez : nat) (m : bmotif) (s : mtop) (r : bmotif),
    mt_run false (mt_new k ez) [MtInsert m] = Ret s /\
    snd (mt_first_not_confirmed s) = Some r /\ bm_confirmed r = true.
Proof. exists 1, 5, (BMotif (Motif 0 10 f_zero) true). eexists. eexists. repeat split; reflexivity. Qed.
Print Assumptions c71_first_not_confirmed_refuted.

(** When an insertion happened after the last read, the readers see the current flags.
    Missing: reads between, and the state of a buffer emptied into another one. *)
Theorem c71_flags_partial :
  forall (debug : bool) (s s1 s2 : mtop) (m : bmotif) (f : motif -> bool -> bool),
    mt_insert debug s m = Ret s1 ->
    s2 = mt_for_each s1 f ->
    (forall x, In x (snd (mt_to_vec s2)) -> In x (mt_top s2)) /\
    match snd (mt_last_confirmed s2) with
    | Some r => In r (mt_confirmed s2)
    | None => forall x, In x (snd (mt_to_vec s2)) -> bm_confirmed x = false
    end.
Proof.
  intros debug s s1 s2 m f E ->. unfold mt_insert, assert_ in E.
  destruct (_ || _); [|discriminate]. destruct (_ <=? _); [|discriminate]. apply Ret_inj in E.
  assert (U : mt_should_update (mt_for_each s1 f) = true) by (subst s1; reflexivity). clear E.
  set (t := mt_for_each s1 f) in *. unfold mt_to_vec, mt_last_confirmed, mt_update. rewrite U. cbn [snd mt_current].
  assert (I : forall x, In x (mt_greedy (mt_ez t) [] (mt_top t)) -> In x (mt_top t)).
  { intros x Hx. apply mt_greedy_in in Hx. destruct Hx as [[]|Hx]. exact Hx. }
  split; [exact I|]. set (g := mt_greedy _ _ _) in *.
  destruct (filter bm_confirmed g) as [|y l] eqn:F using rev_ind.
  - cbn. intros x Hx. destruct (bm_confirmed x) eqn:Q; [|reflexivity]. exfalso.
    assert (In x (filter bm_confirmed g)) by (apply filter_In; auto). rewrite F in H. destruct H.
  - clear IHl. rewrite map_app. cbn [map]. rewrite last_last. unfold mt_confirmed.
    assert (In y (filter bm_confirmed g)) by (rewrite F; apply in_or_app; right; left; reflexivity).
    apply filter_In in H. apply filter_In. split; [apply I, H|apply H].
Qed.
Print Assumptions c71_flags_partial.
Example c71_example :
  match mt_insert false (mt_new 1 5) (mo 1 0 10) with
  | Ret s1 => snd (mt_last_confirmed (mt_for_each s1 (fun _ _ => true))) = Some (BMotif (bm (mo 1 0 10)) true)
  | _ => False
  end.
Proof. reflexivity. Qed.
