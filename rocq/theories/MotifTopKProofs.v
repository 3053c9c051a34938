(** Proofs about the motif buffer. *)
From Verif Require Import Base F64 Overlaps OverlapsSpec OverlapsProofs Brute MotifBfProofs MotifTopK.

Notation dist x := (m_dist (bm x)).
Definition ordered (l : list bmotif) : Prop := StronglySorted (fun x y => fle (dist x) (dist y) = true) l.

Lemma bm_overlaps_sym ez x y : bm_overlaps ez x y = bm_overlaps ez y x.
Proof. apply motif_overlaps_sym. Qed.

(** ** Insertion *)
Lemma mt_place_perm m l : Permutation (mt_place m l) (m :: l).
Proof.
  induction l as [|x l IH]; cbn [mt_place]; [reflexivity|].
  destruct (fle _ _); [|reflexivity]. rewrite IH. apply perm_swap.
Qed.
Lemma mt_place_ordered m l : is_nan (dist m) = false -> (forall x, In x l -> is_nan (dist x) = false) ->
  ordered l -> ordered (mt_place m l).
Proof.
  intros Nm. induction l as [|x l IH]; intros N S; cbn [mt_place].
  - repeat constructor.
  - apply StronglySorted_inv in S. destruct S as [S F].
    destruct (fle _ _) eqn:E.
    + constructor; [apply IH; [intros y Hy; apply N; right; exact Hy|exact S]|].
      rewrite Forall_forall in F |- *. intros y Hy. apply (Permutation_in _ (mt_place_perm m l)) in Hy.
      destruct Hy as [<-|Hy]; [exact E|auto].
    + assert (L : fle (dist m) (dist x) = true).
      { destruct (fle_total (dist m) (dist x) Nm (N x (or_introl eq_refl))) as [H|H]; [exact H|congruence]. }
      constructor; [constructor; assumption|]. rewrite Forall_forall in F |- *.
      intros y [<-|Hy]; [exact L|]. exact (fle_trans _ _ _ L (F y Hy)).
Qed.

(** ** Cleanup *)
Definition clean (k ez : nat) (l : list bmotif) : Prop :=
  forall a x b, l = a ++ x :: b -> length (filter (bm_overlaps ez x) a) < k.
Lemma clean_snoc k ez l x : clean k ez l -> length (filter (bm_overlaps ez x) l) < k -> clean k ez (l ++ [x]).
Proof.
  intros C H a y b E. destruct b as [|z b] using rev_ind.
  - apply app_inj_tail in E. destruct E as [-> ->]. exact H.
  - rewrite app_comm_cons, app_assoc in E. apply app_inj_tail in E. destruct E as [E _]. exact (C a y b E).
Qed.
Lemma mt_cleanup_clean k ez l : forall kept, clean k ez kept -> clean k ez (mt_cleanup k ez kept l).
Proof.
  induction l as [|x l IH]; intros kept C; cbn [mt_cleanup]; [exact C|].
  destruct (Nat.leb_spec k (length (filter (bm_overlaps ez x) kept))); [auto|]. apply IH, clean_snoc; assumption.
Qed.
Lemma mt_cleanup_in k ez l x : forall kept, In x (mt_cleanup k ez kept l) -> In x kept \/ In x l.
Proof.
  induction l as [|y l IH]; intros kept H; cbn [mt_cleanup] in H; [auto|].
  destruct (_ <=? _); apply IH in H; [cbn; tauto|]. rewrite in_app_iff in H. cbn in *. tauto.
Qed.
Lemma mt_cleanup_ordered k ez l : forall kept, ordered (kept ++ l) -> ordered (mt_cleanup k ez kept l).
Proof.
  induction l as [|x l IH]; intros kept S; cbn [mt_cleanup]; [rewrite app_nil_r in S; exact S|].
  destruct (_ <=? _).
  - apply IH. clear - S. induction kept as [|y kept IH]; cbn in *.
    + apply StronglySorted_inv in S. apply S.
    + apply StronglySorted_inv in S. destruct S as [S F]. constructor; [apply IH, S|].
      rewrite Forall_forall in *. intros z Hz. apply F. rewrite in_app_iff in *. cbn. tauto.
  - apply IH. rewrite <- app_assoc. exact S.
Qed.
Lemma mt_cleanup_prefix k ez l : forall kept, exists t, mt_cleanup k ez kept l = kept ++ t.
Proof.
  induction l as [|x l IH]; intros kept; cbn [mt_cleanup]; [exists []; rewrite app_nil_r; reflexivity|].
  destruct (_ <=? _); [apply IH|]. destruct (IH (kept ++ [x])) as (t & ->). exists (x :: t). rewrite <- app_assoc. reflexivity.
Qed.
Lemma mt_cleanup_head k ez x l : 1 <= k -> exists t, mt_cleanup k ez [] (x :: l) = x :: t.
Proof.
  intros Hk. cbn [mt_cleanup filter length]. destruct (Nat.leb_spec k 0); [lia|]. cbn [app].
  destruct (mt_cleanup_prefix k ez l [x]) as (t & ->). exists t. reflexivity.
Qed.
Lemma mt_cleanup_length k ez l : forall kept, length (mt_cleanup k ez kept l) <= length kept + length l.
Proof.
  induction l as [|x l IH]; intros kept; cbn [mt_cleanup length]; [lia|].
  destruct (_ <=? _); [specialize (IH kept)|specialize (IH (kept ++ [x])); rewrite app_length in IH; cbn in IH]; lia.
Qed.

(** ** A clean list is a union of k lists of pairwise non-overlapping motifs *)
Definition apart (ez : nat) (l : list bmotif) : Prop := ForallOrdPairs (fun x y => bm_overlaps ez x y = false) l.
Lemma filter_length_perm {A} (f : A -> bool) l l' : Permutation l l' -> length (filter f l) = length (filter f l').
Proof.
  induction 1; cbn; try (destruct (f x)); try (destruct (f y)); cbn; try lia.
Qed.
Lemma filter_concat_length {A} (f : A -> bool) (c : list (list A)) :
  (forall l, In l c -> exists x, In x l /\ f x = true) -> length c <= length (filter f (concat c)).
Proof.
  induction c as [|l c IH]; intros H; cbn; [lia|]. rewrite filter_app, app_length.
  destruct (H l (or_introl eq_refl)) as (x & Hx & Fx).
  assert (In x (filter f l)) by (apply filter_In; auto).
  destruct (filter f l); [contradiction|]. cbn. specialize (IH (fun l' H' => H l' (or_intror H'))). lia.
Qed.
Lemma clean_classes k ez l : clean k ez l ->
  exists c : list (list bmotif), length c = k /\ Permutation (concat c) l /\ Forall (apart ez) c.
Proof.
  induction l as [|x l IH] using rev_ind; intros C.
  - exists (repeat [] k). split; [apply repeat_length|]. split.
    + induction k as [|k IHk]; cbn; [reflexivity|apply IHk]. intros a x b E. destruct a; discriminate.
    + apply Forall_forall. intros y Hy. apply repeat_spec in Hy. subst. constructor.
  - destruct IH as (c & Lc & P & F).
    { intros a y b E. apply (C a y (b ++ [x])). rewrite E, <- app_assoc. reflexivity. }
    specialize (C l x [] eq_refl). rewrite <- (filter_length_perm _ _ _ P) in C.
    assert (Ex : exists y, In y c /\ existsb (bm_overlaps ez x) y = false).
    { destruct (existsb (fun y => negb (existsb (bm_overlaps ez x) y)) c) eqn:E.
      - apply existsb_exists in E. destruct E as (y & Hy & E). exists y. split; [exact Hy|]. apply negb_true_iff, E.
      - exfalso. assert (H : length c <= length (filter (bm_overlaps ez x) (concat c))); [|lia].
        apply filter_concat_length. intros y Hy.
        assert (Q : existsb (bm_overlaps ez x) y = true).
        { destruct (existsb (bm_overlaps ez x) y) eqn:Q; [reflexivity|]. exfalso.
          assert (existsb (fun y => negb (existsb (bm_overlaps ez x) y)) c = true); [|congruence].
          apply existsb_exists. exists y. split; [exact Hy|]. rewrite Q. reflexivity. }
        apply existsb_exists in Q. exact Q. }
    destruct Ex as (y & Hy & Ey). apply in_split in Hy. destruct Hy as (c1 & c2 & ->).
    exists (c1 ++ (x :: y) :: c2). split; [rewrite app_length in *; exact Lc|]. split.
    + rewrite <- Permutation_cons_append, <- P, !concat_app. cbn [concat]. cbn [app].
      symmetry. apply Permutation_middle.
    + apply Forall_app in F. destruct F as [F1 F2]. inversion F2 as [|? ? Fy F3]; subst.
      apply Forall_app. split; [exact F1|]. constructor; [|exact F3]. constructor; [|exact Fy].
      apply Forall_forall. intros z Hz. destruct (bm_overlaps ez x z) eqn:Q; [|reflexivity].
      assert (existsb (bm_overlaps ez x) y = true); [|congruence]. apply existsb_exists. eauto.
Qed.
Lemma clean_bound k ez l A : clean k ez l ->
  (forall c, (forall x, In x c -> In x l) -> apart ez c -> length c <= A) -> length l <= k * A.
Proof.
  intros C H. destruct (clean_classes k ez l C) as (c & Lc & P & F). subst k. rewrite <- (Permutation_length P).
  assert (I : forall y x, In y c -> In x y -> In x l).
  { intros y x Hy Hx. apply (Permutation_in _ P). apply in_concat. eauto. }
  clear P C. induction c as [|y c IH]; cbn; [lia|]. rewrite app_length. inversion F as [|? ? Fy F']; subst.
  specialize (H y). assert (length y <= A) by (apply H; [intros x; apply I; left; reflexivity|exact Fy]).
  specialize (IH F' (fun y' x Hy => I y' x (or_intror Hy))). lia.
Qed.

(** ** Greedy selection *)
Lemma mt_greedy_prefix ez l : forall cur, exists t, mt_greedy ez cur l = cur ++ t.
Proof.
  induction l as [|x l IH]; intros cur; cbn [mt_greedy]; [exists []; rewrite app_nil_r; reflexivity|].
  destruct (existsb _ _); [apply IH|]. destruct (IH (cur ++ [x])) as (t & ->). exists (x :: t). rewrite <- app_assoc. reflexivity.
Qed.
Lemma mt_greedy_in ez l x : forall cur, In x (mt_greedy ez cur l) -> In x cur \/ In x l.
Proof.
  induction l as [|y l IH]; intros cur H; cbn [mt_greedy] in H; [auto|].
  destruct (existsb _ _); apply IH in H; [cbn; tauto|]. rewrite in_app_iff in H. cbn in *. tauto.
Qed.
Lemma mt_greedy_ordered ez l : forall cur, ordered (cur ++ l) -> ordered (mt_greedy ez cur l).
Proof.
  induction l as [|x l IH]; intros cur S; cbn [mt_greedy]; [rewrite app_nil_r in S; exact S|].
  destruct (existsb _ _).
  - apply IH. clear - S. induction cur as [|y cur IH]; cbn in *.
    + apply StronglySorted_inv in S. apply S.
    + apply StronglySorted_inv in S. destruct S as [S F]. constructor; [apply IH, S|].
      rewrite Forall_forall in *. intros z Hz. apply F. rewrite in_app_iff in *. cbn. tauto.
  - apply IH. rewrite <- app_assoc. exact S.
Qed.
Lemma apart_snoc ez l x : apart ez l -> existsb (bm_overlaps ez x) l = false -> apart ez (l ++ [x]).
Proof.
  induction l as [|y l IH]; intros A E; cbn in *.
  - repeat constructor.
  - apply orb_false_iff in E. destruct E as [E1 E2]. inversion A as [|? ? F A']; subst.
    constructor; [|apply IH; assumption]. rewrite Forall_forall in *. intros z Hz. apply in_app_or in Hz.
    destruct Hz as [Hz|[<-|[]]]; [auto|]. rewrite bm_overlaps_sym. exact E1.
Qed.
Lemma mt_greedy_apart ez l : forall cur, apart ez cur -> apart ez (mt_greedy ez cur l).
Proof.
  induction l as [|x l IH]; intros cur A; cbn [mt_greedy]; [exact A|].
  destruct (existsb _ _) eqn:E; [auto|]. apply IH, apart_snoc; assumption.
Qed.
Lemma mt_greedy_complete ez l x : forall cur, In x l -> In x (mt_greedy ez cur l) \/ existsb (bm_overlaps ez x) (mt_greedy ez cur l) = true.
Proof.
  induction l as [|y l IH]; intros cur H; [destruct H|]. cbn [mt_greedy].
  destruct H as [->|H].
  - destruct (existsb _ cur) eqn:E.
    + right. destruct (mt_greedy_prefix ez l cur) as (t & ->). rewrite existsb_app, E. reflexivity.
    + left. destruct (mt_greedy_prefix ez l (cur ++ [x])) as (t & ->). rewrite !in_app_iff. cbn. tauto.
  - destruct (existsb _ _); auto.
Qed.

(** the selection only looks at positions, not at flags *)
Lemma mt_greedy_map ez (f : bmotif -> bmotif) l : (forall x, bm (f x) = bm x) -> forall cur cur',
  map bm cur = map bm cur' -> map bm (mt_greedy ez cur (map f l)) = map bm (mt_greedy ez cur' l).
Proof.
  intros Hf. induction l as [|x l IH]; intros cur cur' E; cbn [mt_greedy map]; [exact E|].
  assert (B : existsb (bm_overlaps ez (f x)) cur = existsb (bm_overlaps ez x) cur').
  { clear - E Hf. revert cur' E. induction cur as [|y cur IH]; intros [|z cur'] E; try discriminate; [reflexivity|].
    cbn in *. injection E as E1 E2. rewrite (IH _ E2). unfold bm_overlaps. rewrite Hf, E1. reflexivity. }
  rewrite B. destruct (existsb _ cur'); [auto|]. apply IH. rewrite !map_app. cbn. rewrite E, Hf. reflexivity.
Qed.

(** ** The invariant *)
Definition mt_inv (s : mtop) (ins : list motif) : Prop :=
  (forall m, In m ins -> is_nan (m_dist m) = false) /\
  ordered (mt_top s) /\ clean (mt_k s) (mt_ez s) (mt_top s) /\
  (forall x, In x (mt_top s) -> In (bm x) ins) /\
  (1 <= mt_k s -> forall m, In m ins -> exists x t, mt_top s = x :: t /\ fle (dist x) (m_dist m) = true) /\
  (mt_should_update s = false -> map bm (mt_current s) = map bm (mt_greedy (mt_ez s) [] (mt_top s))).

Lemma mt_inv_new k ez : mt_inv (mt_new k ez) [].
Proof.
  split; [intros ? []|]. split; [constructor|]. split; [intros a x b E; destruct a; discriminate|].
  split; [intros ? []|]. split; [intros _ ? []|]. reflexivity.
Qed.

Lemma mt_inv_insert debug s ins m s' : mt_inv s ins -> is_nan (dist m) = false ->
  mt_insert debug s m = Ret s' -> mt_inv s' (bm m :: ins) /\ mt_k s' = mt_k s /\ mt_ez s' = mt_ez s.
Proof.
  intros (N & O & C & I & H & U) Nm E. unfold mt_insert, assert_ in E.
  destruct (_ || _); [|discriminate]. destruct (_ <=? _); [|discriminate]. apply Ret_inj in E. subst s'.
  assert (NT : forall x, In x (mt_top s) -> is_nan (dist x) = false) by (intros x Hx; apply N, I, Hx).
  pose proof (mt_place_ordered m _ Nm NT O) as PO. cbn [mt_k mt_ez]. split; [|auto].
  split; [intros x [<-|Hx]; auto|]. split; [apply mt_cleanup_ordered; exact PO|].
  split; [apply mt_cleanup_clean; intros a x b E; destruct a; discriminate|].
  split.
  { intros x Hx. cbn [mt_top] in Hx. apply mt_cleanup_in in Hx. destruct Hx as [[]|Hx].
    apply (Permutation_in _ (mt_place_perm m _)) in Hx. destruct Hx as [<-|Hx]; [left; reflexivity|right; auto]. }
  split; [|discriminate].
  intros Hk x Hx. cbn [mt_top mt_k mt_ez]. 
  destruct (mt_place m (mt_top s)) as [|y l] eqn:Ep.
  { pose proof (mt_place_perm m (mt_top s)) as P. rewrite Ep in P. apply Permutation_nil in P. discriminate. }
  destruct (mt_cleanup_head (mt_k s) (mt_ez s) y l Hk) as (t & ->). exists y, t. split; [reflexivity|].
  assert (HY : forall z, In z (m :: mt_top s) -> fle (dist y) (dist z) = true).
  { intros z Hz. apply (Permutation_in _ (Permutation_sym (mt_place_perm m _))) in Hz. rewrite Ep in Hz.
    apply StronglySorted_inv in PO. destruct PO as [_ F]. rewrite Forall_forall in F. destruct Hz as [<-|Hz]; [|auto].
    apply fle_refl. assert (HI : In y (m :: mt_top s)) by (apply (Permutation_in _ (mt_place_perm m _)); rewrite Ep; left; reflexivity).
    destruct HI as [<-|HI]; auto. }
  destruct Hx as [<-|Hx]; [apply HY; left; reflexivity|].
  destruct (H Hk x Hx) as (z & t' & Ez & Lz). refine (fle_trans _ _ _ (HY z _) Lz). right. rewrite Ez. left. reflexivity.
Qed.

Lemma clean_map k ez (f : bmotif -> bmotif) l : (forall x, bm (f x) = bm x) -> clean k ez l -> clean k ez (map f l).
Proof.
  intros Hf C a x b E. 
  assert (G : exists a' x' b', l = a' ++ x' :: b' /\ a = map f a' /\ x = f x' /\ b = map f b').
  { clear C. revert a E. induction l as [|y l IH]; intros [|z a] E; cbn in E; try discriminate.
    - injection E as <- <-. exists [], y, l. auto.
    - injection E as <- E. destruct (IH a E) as (a' & x' & b' & -> & -> & -> & ->). exists (y :: a'), x', b'. auto. }
  destruct G as (a' & x' & b' & -> & -> & -> & ->). specialize (C a' x' b' eq_refl).
  replace (length (filter (bm_overlaps ez (f x')) (map f a'))) with (length (filter (bm_overlaps ez x') a')); [exact C|].
  clear - Hf. induction a' as [|y a IH]; [reflexivity|]. cbn [map filter].
  replace (bm_overlaps ez (f x') (f y)) with (bm_overlaps ez x' y) by (unfold bm_overlaps; rewrite !Hf; reflexivity).
  destruct (bm_overlaps ez x' y); cbn [length]; rewrite IH; reflexivity.
Qed.
Lemma ordered_map (f : bmotif -> bmotif) l : (forall x, bm (f x) = bm x) -> ordered l -> ordered (map f l).
Proof.
  intros Hf. induction 1 as [|x l S IH F]; cbn; constructor; [exact IH|].
  rewrite Forall_forall in *. intros y Hy. apply in_map_iff in Hy. destruct Hy as (z & <- & Hz). rewrite !Hf. auto.
Qed.
Lemma mt_inv_for_each s ins f : mt_inv s ins -> mt_inv (mt_for_each s f) ins.
Proof.
  intros (N & O & C & I & H & U). set (g := fun m => BMotif (bm m) (f (bm m) (bm_confirmed m))).
  assert (Hg : forall x, bm (g x) = bm x) by reflexivity.
  split; [exact N|]. unfold mt_for_each. cbn [mt_k mt_ez mt_top mt_current mt_should_update]. fold g.
  split; [apply ordered_map; assumption|]. split; [apply clean_map; assumption|].
  split; [intros x Hx; apply in_map_iff in Hx; destruct Hx as (y & <- & Hy); rewrite Hg; auto|].
  split; [intros Hk m Hm; destruct (H Hk m Hm) as (x & t & E & L); exists (g x), (map g t); rewrite E; split; [reflexivity|exact L]|].
  intros E. rewrite (mt_greedy_map (mt_ez s) g (mt_top s) Hg [] [] eq_refl). auto.
Qed.
Lemma mt_inv_update s ins : mt_inv s ins -> mt_inv (mt_update s) ins.
Proof.
  intros V. unfold mt_update. destruct (mt_should_update s) eqn:E; [|exact V]. destruct V as (N & O & C & I & H & U).
  split; [exact N|]. cbn [mt_k mt_ez mt_top mt_current mt_should_update]. split; [exact O|]. split; [exact C|]. split; [exact I|].
    split; [exact H|]. reflexivity.
Qed.

Lemma mt_inserted_app a b : mt_inserted (a ++ b) = mt_inserted a ++ mt_inserted b.
Proof. apply flat_map_app. Qed.
Lemma mt_update_fields s : mt_k (mt_update s) = mt_k s /\ mt_ez (mt_update s) = mt_ez s /\ mt_top (mt_update s) = mt_top s.
Proof. unfold mt_update. destruct (mt_should_update s); auto. Qed.

Lemma mt_inv_ext s ins ins' : (forall m, In m ins <-> In m ins') -> mt_inv s ins -> mt_inv s ins'.
Proof.
  intros X (N & O & C & I & H & U). split; [intros m Hm; apply N, X, Hm|]. split; [exact O|]. split; [exact C|].
  split; [intros x Hx; apply X, I, Hx|]. split; [intros Hk m Hm; apply H; [exact Hk|apply X, Hm]|exact U].
Qed.

Lemma mt_run_inv debug ops : forall s ins s', mt_inv s ins ->
  (forall m, In m (mt_inserted ops) -> is_nan (m_dist m) = false) ->
  mt_run debug s ops = Ret s' -> mt_inv s' (ins ++ mt_inserted ops) /\ mt_k s' = mt_k s /\ mt_ez s' = mt_ez s.
Proof.
  induction ops as [|op ops IH]; intros s ins s' V N E.
  - apply Ret_inj in E. subst. rewrite app_nil_r. auto.
  - change (mt_run debug s (op :: ops)) with (let! s1 := mt_step debug s op in mt_run debug s1 ops) in E.
    destruct (mt_step debug s op) as [s1| |] eqn:E1; try discriminate. cbn [bind] in E.
    assert (V1 : mt_inv s1 (ins ++ mt_inserted [op]) /\ mt_k s1 = mt_k s /\ mt_ez s1 = mt_ez s).
    { destruct op as [m|f|]; cbn [mt_step] in E1.
      - destruct (mt_inv_insert debug s ins m s1 V (N (bm m) (or_introl eq_refl)) E1) as (V1 & A & B). split; [|auto].
        eapply mt_inv_ext; [|exact V1]. intros x. cbn. rewrite in_app_iff. cbn. tauto.
      - apply Ret_inj in E1. subst s1. cbn. rewrite app_nil_r. split; [apply mt_inv_for_each, V|auto].
      - apply Ret_inj in E1. subst s1. cbn. rewrite app_nil_r. split; [apply mt_inv_update, V|].
        split; apply mt_update_fields. }
    destruct V1 as (V1 & A & B).
    destruct (IH s1 _ s' V1 (fun m Hm => N m (in_or_app _ _ _ (or_intror Hm))) E) as (V2 & A2 & B2).
    split; [|split; congruence]. rewrite <- app_assoc in V2.
    change (op :: ops) with ([op] ++ ops). rewrite mt_inserted_app. exact V2.
Qed.

(** ** No abort *)
Lemma mt_insert_ok s ins m A : mt_inv s ins -> is_nan (dist m) = false ->
  (forall c, (forall x, In x c -> In x (bm m :: ins)) ->
     ForallOrdPairs (fun x y => motif_overlaps (m_a x) (m_b x) (m_a y) (m_b y) (mt_ez s) = false) c -> length c <= A) ->
  mt_k s * A <= (mt_k s + 1) * (mt_k s + 1) ->
  exists s', mt_insert false s m = Ret s'.
Proof.
  intros V Nm H L. unfold mt_insert. cbn [negb orb assert_]. unfold assert_.
  set (top := mt_cleanup _ _ _ _).
  assert (C : clean (mt_k s) (mt_ez s) top) by (apply mt_cleanup_clean; intros a x b E; destruct a; discriminate).
  assert (B : length top <= mt_k s * A).
  { apply (clean_bound (mt_k s) (mt_ez s)); [exact C|]. intros c Hc Ac.
    rewrite <- (map_length bm). apply H.
    - intros x Hx. apply in_map_iff in Hx. destruct Hx as (y & <- & Hy). apply Hc in Hy. apply mt_cleanup_in in Hy.
      destruct Hy as [[]|Hy]. apply (Permutation_in _ (mt_place_perm m _)) in Hy.
      destruct Hy as [<-|Hy]; [left; reflexivity|]. right. apply V. exact Hy.
    - clear - Ac. induction Ac as [|x l F Ac IH]; cbn; constructor; [|exact IH].
      rewrite Forall_forall in *. intros y Hy. apply in_map_iff in Hy. destruct Hy as (z & <- & Hz). exact (F z Hz). }
  destruct (Nat.leb_spec (length top) ((mt_k s + 1) * (mt_k s + 1))); [eauto|lia].
Qed.

Lemma mt_run_ok ops : forall s ins A, mt_inv s ins ->
  (forall m, In m (mt_inserted ops) -> is_nan (m_dist m) = false) ->
  (forall c, (forall x, In x c -> In x (ins ++ mt_inserted ops)) ->
     ForallOrdPairs (fun x y => motif_overlaps (m_a x) (m_b x) (m_a y) (m_b y) (mt_ez s) = false) c -> length c <= A) ->
  mt_k s * A <= (mt_k s + 1) * (mt_k s + 1) ->
  exists s', mt_run false s ops = Ret s'.
Proof.
  induction ops as [|op ops IH]; intros s ins A V N H L.
  - exists s. reflexivity.
  - assert (E1 : exists s1, mt_step false s op = Ret s1).
    { destruct op as [m|f|]; cbn [mt_step]; [|eauto|eauto].
      apply (mt_insert_ok s ins m A V (N (bm m) (or_introl eq_refl))); [|exact L].
      intros c Hc. apply H. intros x Hx. apply Hc in Hx. rewrite in_app_iff. cbn in *. tauto. }
    destruct E1 as (s1 & E1).
    destruct (mt_run_inv false [op] s ins s1 V) as (V1 & A1 & B1).
    { intros m Hm. apply N. change (op :: ops) with ([op] ++ ops). rewrite mt_inserted_app. apply in_or_app; left; exact Hm. }
    { unfold mt_run. cbn [foreach]. rewrite E1. reflexivity. }
    destruct (IH s1 (ins ++ mt_inserted [op]) A V1) as (s2 & E2).
    + intros m Hm. apply N. change (op :: ops) with ([op] ++ ops). rewrite mt_inserted_app. apply in_or_app; right; exact Hm.
    + intros c Hc F. apply H; [|rewrite <- B1; exact F]. intros x Hx. apply Hc in Hx.
      change (op :: ops) with ([op] ++ ops). rewrite mt_inserted_app, app_assoc. exact Hx.
    + rewrite A1. exact L.
    + exists s2. unfold mt_run in *. cbn [foreach]. rewrite E1. exact E2.
Qed.

(** ** With debug assertions *)
(** motifs at the same distance start at the same position *)
Definition no_ties (ins : list motif) : Prop :=
  forall x y, In x ins -> In y ins -> feq (m_dist x) (m_dist y) = true -> m_a x = m_a y.
Lemma mt_is_sorted_ok l : ordered l -> (forall x, In x l -> is_nan (dist x) = false) -> no_ties (map bm l) -> mt_is_sorted l = true.
Proof.
  induction 1 as [|x l S IH F]; intros N T; [reflexivity|]. destruct l as [|y l]; [reflexivity|].
  change (mt_is_sorted (x :: y :: l)) with (motif_le (bm x) (bm y) && mt_is_sorted (y :: l)).
  rewrite (IH (fun z Hz => N z (or_intror Hz))); [|intros a b Ha Hb; apply T; right; assumption]. rewrite andb_true_r.
  inversion F as [|? ? L _]; subst. unfold motif_le.
  destruct (flt (dist x) (dist y)) eqn:E; [reflexivity|]. cbn [orb].
  assert (Q : feq (dist x) (dist y) = true).
  { apply fle_antisym; [exact L|]. rewrite flt_not_fle in E; [|apply N; cbn; auto|apply N; cbn; auto]. destruct (fle (dist y) (dist x)); [reflexivity|discriminate]. }
  rewrite Q. cbn [andb]. rewrite (T (bm x) (bm y)); [apply Nat.leb_refl|cbn; auto|cbn; auto|exact Q].
Qed.
Lemma mt_insert_debug s ins m : mt_inv s ins -> is_nan (dist m) = false -> no_ties (bm m :: ins) -> mt_insert true s m = mt_insert false s m.
Proof.
  intros (N & O & C & I & H & U) Nm T. unfold mt_insert. cbn [negb orb].
  assert (NT : forall x, In x (mt_top s) -> is_nan (dist x) = false) by (intros x Hx; apply N, I, Hx).
  rewrite mt_is_sorted_ok; [reflexivity|apply mt_place_ordered; assumption| |].
  - intros x Hx. apply (Permutation_in _ (mt_place_perm m _)) in Hx. destruct Hx as [<-|Hx]; auto.
  - assert (J : forall x, In x (map bm (mt_place m (mt_top s))) -> In x (bm m :: ins)).
    { intros x Hx. apply in_map_iff in Hx as (y & <- & Hy). apply (Permutation_in _ (mt_place_perm m _)) in Hy.
      destruct Hy as [<-|Hy]; [left; reflexivity|right; auto]. }
    intros x y Hx Hy. apply T; auto.
Qed.
Lemma mt_run_debug ops : forall s ins, mt_inv s ins ->
  (forall m, In m (mt_inserted ops) -> is_nan (m_dist m) = false) -> no_ties (ins ++ mt_inserted ops) ->
  mt_run true s ops = mt_run false s ops.
Proof.
  induction ops as [|op ops IH]; intros s ins V N T; [reflexivity|].
  change (mt_run true s (op :: ops)) with (let! s1 := mt_step true s op in mt_run true s1 ops).
  change (mt_run false s (op :: ops)) with (let! s1 := mt_step false s op in mt_run false s1 ops).
  change (op :: ops) with ([op] ++ ops) in N, T. rewrite mt_inserted_app in N, T.
  assert (E : mt_step true s op = mt_step false s op).
  { destruct op as [m|f|]; try reflexivity. cbn [mt_step]. apply (mt_insert_debug s ins); [exact V|apply N; left; reflexivity|].
    intros x y Hx Hy. apply T; rewrite in_app_iff; cbn in *; tauto. }
  rewrite E. destruct (mt_step false s op) as [s1| |] eqn:E1; cbn [bind]; try reflexivity.
  apply (IH s1 (ins ++ mt_inserted [op])).
  - apply (mt_run_inv false [op] s ins s1 V); [intros m Hm; apply N, in_or_app; left; exact Hm|].
    unfold mt_run. cbn [foreach]. rewrite E1. reflexivity.
  - intros m Hm. apply N, in_or_app. right. exact Hm.
  - rewrite <- app_assoc. exact T.
Qed.
