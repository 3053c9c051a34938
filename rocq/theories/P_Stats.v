(** Property theorems C113 (the statistics of the neighbour graph).
    Specification: StatsSpec.v, GraphSpec.v.  Model: Graph.v. *)
From Coq Require Import Floats.SpecFloat.
From Verif Require Import Base F64 Overlaps Graph GraphSpec GraphProofs StatsSpec.

(** ** Nodes without duplicates *)
Lemma marked_ids k ez l : forall ind, map snd (marked k ez ind l) = map snd l.
Proof.
  induction l as [|e l IH]; intros ind; cbn [marked]; [reflexivity|].
  destruct (length ind <? k); [|reflexivity]. destruct (negb _); cbn [map]; rewrite IH; reflexivity.
Qed.
Lemma tidy_nodup es nn t : node_inv es nn -> tidy nn t ->
  (forall d d' j, In (d, j) es -> In (d', j) es -> d = d') -> (forall d j j', In (d, j) es -> In (d, j') es -> j = j') ->
  NoDup (map snd t).
Proof.
  intros V T S N. pose proof (tidy_node _ _ _ V T) as (Nt & It & _). pose proof (tidy_sorted _ _ T) as L. pose proof (tidy_adjacent _ _ T) as A. clear V T.
  assert (G : forall t, Forall num t -> (forall e, In e t -> In (dwf_distance (fst e), snd e) es) -> lt_sorted t -> Sorted (fun x y => snd x <> snd y) t ->
     StronglySorted (fun x y : entry => flt (dwf_distance (fst x)) (dwf_distance (fst y)) = true) t).
  { clear t Nt It L A. intros t Nt It L A. apply Sorted_StronglySorted; [intros x y z; apply flt_trans|].
    induction t as [|x t IH]; [constructor|]. inversion Nt as [|? ? Nx Nt']; subst. apply StronglySorted_inv in L as (L & F). apply Sorted_inv in A as (A & H).
    constructor; [apply IH; auto; intros e He; apply It; right; exact He|].
    destruct t as [|y t]; [constructor|]. constructor. inversion H as [|? ? Hne]; subst. inversion F as [|? ? Fy _]; subst. inversion Nt' as [|? ? Ny _]; subst.
    pose proof (entry_lt_dist x y Nx Ny Fy) as Le.
    destruct (flt (dwf_distance (fst x)) (dwf_distance (fst y))) eqn:E; [reflexivity|]. exfalso. apply Hne.
    apply (N (dwf_distance (fst x))); [apply It; left; reflexivity|].
    assert (Q : dwf_distance (fst x) = dwf_distance (fst y)).
    { apply feq_abs. apply fle_antisym; [exact Le|]. rewrite flt_not_fle in E by (unfold dwf_distance; rewrite abs_nan; assumption).
      destruct (fle (dwf_distance (fst y)) (dwf_distance (fst x))) eqn:E'; [exact E'|discriminate]. }
    rewrite Q. apply It. right. left. reflexivity. }
  specialize (G t Nt It L A). clear L A Nt. induction G as [|x t G IH F]; [constructor|]. cbn [map]. constructor.
  - intros I. apply in_map_iff in I as (y & E & Hy). rewrite Forall_forall in F. specialize (F y Hy).
    assert (Q : dwf_distance (fst y) = dwf_distance (fst x)) by (apply (S _ _ (snd x)); [rewrite <- E; apply It; right; exact Hy|apply It; left; reflexivity]).
    rewrite Q, flt_irrefl in F. discriminate F.
  - apply IH. intros e He. apply It. right. exact He.
Qed.

(** ** A round *)
Definition untouched_ok (n : nat) (ops : list g_op) (g : graph) : Prop :=
  forall i nn, i < n -> nth_error (g_nn g) i = Some nn -> touched ops i = false -> NoDup (map snd nn).
Definition all_ok (n : nat) (g : graph) : Prop := forall i nn, i < n -> nth_error (g_nn g) i = Some nn -> NoDup (map snd nn).
Lemma well_formed_prefix n a b : well_formed n (a ++ b) -> well_formed n a.
Proof. intros W d x y H. apply W, in_or_app. left. exact H. Qed.

Lemma inserts_ok n ez pairs : forall ops g, graph_inv n ez ops g -> untouched_ok n ops g ->
  let ins := map (fun p : f64 * nat * nat => GInsert (fst (fst p)) (snd (fst p)) (snd p)) pairs in
  well_formed n (ops ++ ins) ->
  exists g' out, g_run g ins = Ret (g', out) /\ graph_inv n ez (ops ++ ins) g' /\ untouched_ok n (ops ++ ins) g'.
Proof.
  induction pairs as [|[[d a] b] pairs IH]; intros ops g V U ins W.
  - exists g, []. unfold ins. cbn. rewrite app_nil_r. auto.
  - subst ins. cbn [map fst snd] in *.
    replace (ops ++ GInsert d a b :: map (fun p => GInsert (fst (fst p)) (snd (fst p)) (snd p)) pairs)
      with ((ops ++ [GInsert d a b]) ++ map (fun p => GInsert (fst (fst p)) (snd (fst p)) (snd p)) pairs) in * by (rewrite <- app_assoc; reflexivity).
    pose proof (well_formed_prefix _ _ _ W) as W1.
    destruct (graph_step_ok n ez ops g (GInsert d a b) V W1) as (g1 & o1 & E1).
    pose proof (graph_step n ez ops g _ g1 o1 V W1 E1) as V1.
    assert (U1 : untouched_ok n (ops ++ [GInsert d a b]) g1).
    { intros i nn Li En T. unfold touched in T. rewrite touched_since_app in T. cbn [touched_since] in T.
      apply orb_false_iff in T as (T & Tb). apply orb_false_iff in T as (T & Ta).
      pose proof V as (_ & Ln & Lu & H). destruct (W1 d a b ltac:(apply in_or_app; right; left; reflexivity)) as (La & Lb & _ & _).
      cbn [g_step] in E1. destruct (g_insert_spec g d a b n Ln Lu La Lb) as (g1' & E1' & _ & _ & _ & P). rewrite E1' in E1. cbn [bind] in E1. apply Ret_inj in E1. injection E1 as -> _.
      destruct (H i Li) as (_ & nn0 & En0 & _). destruct (P i Li) as (_ & Pn). specialize (Pn nn0 En0). rewrite Ta, Tb in Pn. cbn [app] in Pn. rewrite app_nil_r in Pn.
      assert (nn = nn0) by congruence. subst nn. exact (U i nn0 Li En0 T). }
    destruct (IH _ g1 V1 U1 W) as (g2 & o2 & E2 & V2 & U2). exists g2, (o1 ++ o2). split; [|auto].
    cbn [g_run]. rewrite E1. cbn [bind]. rewrite E2. reflexivity.
Qed.
Definition unique (es : list (f64 * nat)) : Prop :=
  (forall d d' j, In (d, j) es -> In (d', j) es -> d = d') /\ (forall d j j', In (d, j) es -> In (d, j') es -> j = j').
Lemma round_ok n ez k pairs ops g : graph_inv n ez ops g -> all_ok n g -> well_formed n (ops ++ round k pairs) ->
  (forall i, unique (edges (ops ++ round k pairs) i)) ->
  exists g' out, g_run g (round k pairs) = Ret (g', out) /\ graph_inv n ez (ops ++ round k pairs) g' /\ all_ok n g'.
Proof.
  intros V A W Q. unfold round in *. set (ins := map (fun p : f64 * nat * nat => GInsert (fst (fst p)) (snd (fst p)) (snd p)) pairs) in *.
  replace (ops ++ GReset :: ins ++ [GRead k]) with (((ops ++ [GReset]) ++ ins) ++ [GRead k]) in * by (rewrite <- !app_assoc; reflexivity).
  pose proof (well_formed_prefix _ _ _ W) as W2. pose proof (well_formed_prefix _ _ _ W2) as W1.
  destruct (graph_step_ok n ez ops g GReset V W1) as (g1 & o1 & E1). pose proof (graph_step n ez ops g _ g1 o1 V W1 E1) as V1.
  assert (U1 : untouched_ok n (ops ++ [GReset]) g1).
  { intros i nn Li En _. cbn [g_step] in E1. apply Ret_inj in E1. injection E1 as <- _. exact (A i nn Li En). }
  destruct (inserts_ok n ez pairs _ g1 V1 U1 W2) as (g2 & o2 & E2 & V2 & U2). fold ins in E2, V2, U2.
  destruct (g_read_spec n ez _ g2 k V2) as (g3 & r & E3 & Z3 & F3 & L3 & Lr & P).
  assert (E3' : g_step g2 (GRead k) = Ret (g3, flat_map (fun p : list entry * option (list nat * list f64) => match snd p with Some x => [x] | None => [] end) r)) by exact E3.
  pose proof (graph_step n ez _ g2 _ g3 _ V2 W E3') as V3.
  exists g3. eexists. split; [|split; [exact V3|]].
  - cbn [g_run]. rewrite E1. cbn [bind]. rewrite g_run_app, E2. cbn [bind g_run]. rewrite E3'. cbn [bind]. reflexivity.
  - intros i nn Li En. destruct (P i Li) as (nn0 & nn' & o & En0 & En' & _ & R). assert (nn = nn') by congruence. subst nn'.
    unfold read_node in R. destruct (touched _ i) eqn:T.
    + destruct R as (t & Ty & -> & _). rewrite marked_ids.
      destruct V2 as (_ & _ & _ & H). destruct (H i Li) as (_ & nn1 & En1 & Hn). assert (nn1 = nn0) by congruence. subst nn1.
      destruct (Q i) as (S & N). rewrite edges_app in S, N. cbn [edges] in S, N. rewrite app_nil_r in S, N. exact (tidy_nodup _ _ _ Hn Ty S N).
    + destruct R as (-> & _). exact (U2 i nn0 Li En0 T).
Qed.
Lemma rounds_ok n ez k l : forall ops g, graph_inv n ez ops g -> all_ok n g -> well_formed n (ops ++ rounds k l) ->
  (forall i, unique (edges (ops ++ rounds k l) i)) ->
  exists g' out, g_run g (rounds k l) = Ret (g', out) /\ graph_inv n ez (ops ++ rounds k l) g' /\ all_ok n g'.
Proof.
  induction l as [|pairs l IH]; intros ops g V A W Q.
  - exists g, []. cbn. rewrite app_nil_r. auto.
  - change (rounds k (pairs :: l)) with (round k pairs ++ rounds k l) in *. rewrite app_assoc in *.
    destruct (round_ok n ez k pairs ops g V A (well_formed_prefix _ _ _ W)) as (g1 & o1 & E1 & V1 & A1).
    { intros i. specialize (Q i). rewrite edges_app in Q. destruct Q as (S & N). split; intros; [eapply S|eapply N]; apply in_or_app; left; eassumption. }
    destruct (IH _ g1 V1 A1 W Q) as (g2 & o2 & E2 & V2 & A2). exists g2, (o1 ++ o2). split; [|auto]. rewrite g_run_app, E1. cbn [bind]. rewrite E2. reflexivity.
Qed.

(** ** Counting *)
Lemma node_degree es nn : node_inv es nn -> NoDup (map snd nn) -> length nn = length (nodup Nat.eq_dec (map snd es)).
Proof.
  intros (_ & I & R) N. rewrite <- (map_length snd nn). apply Permutation_length, NoDup_Permutation; [exact N|apply NoDup_nodup|].
  intros j. rewrite nodup_In. split; intros H; apply in_map_iff in H as (e & <- & He).
  - apply I in He. apply in_map_iff. exists (dwf_distance (fst e), snd e). auto.
  - destruct e as [d j]. destruct (R d j He) as (e & He' & E & _). apply in_map_iff. exists e. auto.
Qed.
Lemma lengths_are n (nn : list (list entry)) (f : nat -> nat) : length nn = n ->
  (forall i l, i < n -> nth_error nn i = Some l -> length l = f i) -> map (@length entry) nn = map f (seq 0 n).
Proof.
  intros L H. apply nth_error_ext. intros i. rewrite !nth_error_map. destruct (Nat.lt_ge_cases i n) as [Li|Li].
  - destruct (nth_error nn i) as [l|] eqn:E; [|apply nth_error_None in E; lia]. cbn. rewrite (H i l Li E).
    rewrite (nth_error_nth' (seq 0 n) 0) by (rewrite seq_length; exact Li). rewrite seq_nth by exact Li. reflexivity.
  - rewrite (proj2 (nth_error_None nn i)) by lia. rewrite (proj2 (nth_error_None (seq 0 n) i)) by (rewrite seq_length; exact Li). reflexivity.
Qed.
Lemma fold_max_spec l : forall x, (forall y, In y (x :: l) -> y <= fold_left Nat.max l x) /\ In (fold_left Nat.max l x) (x :: l).
Proof.
  induction l as [|z l IH]; intros x; cbn [fold_left]; [split; [intros y [<-|[]]; lia|left; reflexivity]|].
  destruct (IH (Nat.max x z)) as (A & B). split.
  - intros y [<-|[<-|Hy]]; [specialize (A _ (or_introl eq_refl)); lia|specialize (A _ (or_introl eq_refl)); lia|apply A; right; exact Hy].
  - destruct B as [<-|B]; [|right; right; exact B]. destruct (Nat.max_spec x z) as [[_ ->]|[_ ->]]; cbn; auto.
Qed.
Lemma memory_sum (nn : list (list entry)) : forall acc,
  fold_left N.add (map (fun l : list entry => N.of_nat (length l) * 16)%N nn) acc = (acc + 16 * N.of_nat (list_sum (map (@length entry) nn)))%N.
Proof. induction nn as [|l nn IH]; intros acc; cbn [map fold_left list_sum fold_right]; [lia|]. rewrite IH. change (fold_right Nat.add 0 (map (@length entry) nn)) with (list_sum (map (@length entry) nn)). lia. Qed.
Lemma nodes_filter (nn : list (list entry)) :
  length (filter (fun l : list entry => match l with [] => false | _ => true end) nn) = length (filter (fun k => 0 <? k) (map (@length entry) nn)).
Proof. induction nn as [|[|e l] nn IH]; cbn [filter map length]; [reflexivity|exact IH|]. cbn. rewrite IH. reflexivity. Qed.
Lemma filter_map {A B} (f : B -> bool) (g : A -> B) l : length (filter f (map g l)) = length (filter (fun x => f (g x)) l).
Proof. induction l as [|x l IH]; cbn; [reflexivity|]. destruct (f (g x)); cbn; rewrite IH; reflexivity. Qed.

(** * C113 *)
(** The number of nodes with an edge is right after any history. *)
Theorem c113_nodes :
  forall (n ez : nat) (ops : list g_op), 0 < n -> well_formed n ops ->
    exists g out stats, g_run (g_new n ez) ops = Ret (g, out) /\ g_stats g = Ret stats /\
      gs_num_nodes stats = length (filter (fun i => 0 <? length (edges ops i)) (seq 0 n)).
Proof.
  intros n ez ops Hn W. destruct (graph_run n ez ops W) as (g & out & E & V). destruct V as (_ & Ln & _ & H).
  unfold g_stats. destruct (map (@length entry) (g_nn g)) as [|x l] eqn:M; [destruct (g_nn g); [cbn in Ln; lia|discriminate]|].
  exists g, out. rewrite M. eexists. split; [exact E|]. split; [cbn [bind]; reflexivity|]. cbn [gs_num_nodes].
  rewrite nodes_filter. clear x l M. set (f := fun i => match nth_error (g_nn g) i with Some l => length l | None => 0 end).
  rewrite (lengths_are n (g_nn g) f Ln) by (intros i l' Li El; unfold f; rewrite El; reflexivity). rewrite filter_map. f_equal. apply filter_ext_in. intros i Hi. apply in_seq in Hi.
  destruct (H i ltac:(lia)) as (_ & nn & En & _ & I & R). unfold f. rewrite En.
  destruct (edges ops i) as [|[d j] es].
  - destruct nn as [|e nn]; [reflexivity|]. destruct (I e (or_introl eq_refl)).
  - destruct (R d j (or_introl eq_refl)) as (e & He & _). destruct nn; [destruct He|reflexivity].
Qed.
Print Assumptions c113_nodes.

(** The other numbers, as the program uses the graph, when no two neighbours of a node are at
    the same distance: every edge is counted once at each of its ends.  Missing: equal
    distances. *)
Theorem c113_counts_partial :
  forall (n ez k : nat) (l : list (list (f64 * nat * nat))) (ops : list g_op),
    ops = rounds k l -> 0 < n -> well_formed n ops -> same_distances ops -> no_ties ops ->
    exists g out stats, g_run (g_new n ez) ops = Ret (g, out) /\ g_stats g = Ret stats /\
      gs_num_edges stats = list_sum (map (degree ops) (seq 0 n)) /\
      (forall i, i < n -> degree ops i <= gs_max_neighborhood_size stats) /\
      (exists i, i < n /\ gs_max_neighborhood_size stats = degree ops i) /\
      gs_used_memory stats = (16 * N.of_nat (gs_num_edges stats))%N.
Proof.
  intros n ez k l ops -> Hn W S T.
  destruct (rounds_ok n ez k l [] (g_new n ez) (graph_inv_new n ez)) as (g & out & E & V & A); [|exact W|intros i; split; [intros d d' j; apply S|intros d j j'; apply T]|].
  { intros i nn Li En. cbn in En. rewrite nth_error_repeat in En by exact Li. injection En as <-. constructor. }
  cbn [app] in V. destruct V as (_ & Ln & _ & H).
  assert (M : map (@length entry) (g_nn g) = map (degree (rounds k l)) (seq 0 n)).
  { apply lengths_are; [exact Ln|]. intros i nn Li En. destruct (H i Li) as (_ & nn' & En' & Hn'). assert (nn' = nn) by congruence. subst nn'.
    apply node_degree; [exact Hn'|]. exact (A i nn Li En). }
  exists g, out. unfold g_stats. rewrite M, memory_sum, M. destruct n as [|n]; [lia|]. cbn [seq map].
  eexists. split; [exact E|]. split; [cbn [bind]; reflexivity|]. cbn [gs_num_edges gs_max_neighborhood_size gs_used_memory].
  split; [reflexivity|]. destruct (fold_max_spec (map (degree (rounds k l)) (seq 1 n)) (degree (rounds k l) 0)) as (B & C).
  split; [|split; [|apply N.add_0_l]].
  - intros i Li. apply B. change (degree (rounds k l) 0 :: map (degree (rounds k l)) (seq 1 n)) with (map (degree (rounds k l)) (seq 0 (Datatypes.S n))).
    apply in_map, in_seq. lia.
  - change (degree (rounds k l) 0 :: map (degree (rounds k l)) (seq 1 n)) with (map (degree (rounds k l)) (seq 0 (Datatypes.S n))) in C.
    apply in_map_iff in C as (i & Ei & Hi). apply in_seq in Hi. exists i. split; [lia|]. congruence.
Qed.
Print Assumptions c113_counts_partial.

(** With ties, and whatever the order of insertions and readings: nothing is missing. *)
Theorem c113_at_least_partial :
  forall (n ez : nat) (ops : list g_op), 0 < n -> well_formed n ops ->
    exists g out stats, g_run (g_new n ez) ops = Ret (g, out) /\ g_stats g = Ret stats /\
      list_sum (map (degree ops) (seq 0 n)) <= gs_num_edges stats /\
      (forall i, i < n -> degree ops i <= gs_max_neighborhood_size stats) /\
      gs_max_neighborhood_size stats <= gs_num_edges stats /\
      gs_used_memory stats = (16 * N.of_nat (gs_num_edges stats))%N.
Proof.
  intros n ez ops Hn W. destruct (graph_run n ez ops W) as (g & out & E & V). destruct V as (_ & Ln & _ & H).
  set (f := fun i => match nth_error (g_nn g) i with Some l => length l | None => 0 end).
  assert (M : map (@length entry) (g_nn g) = map f (seq 0 n)) by (apply lengths_are; [exact Ln|intros i l' Li El; unfold f; rewrite El; reflexivity]).
  assert (D : forall i, i < n -> degree ops i <= f i).
  { intros i Li. destruct (H i Li) as (_ & nn & En & _ & _ & R). unfold f, degree. rewrite En, <- (map_length snd nn).
    apply NoDup_incl_length; [apply NoDup_nodup|]. intros j Hj. apply nodup_In, in_map_iff in Hj as ((d & j') & <- & Hd).
    destruct (R d j' Hd) as (e & He & Ee & _). apply in_map_iff. exists e. auto. }
  exists g, out. unfold g_stats. rewrite M, memory_sum, M. destruct n as [|n]; [lia|]. clear Ln H M W. cbn [seq map].
  eexists. split; [exact E|]. split; [cbn [bind]; reflexivity|]. cbn [gs_num_edges gs_max_neighborhood_size gs_used_memory].
  destruct (fold_max_spec (map f (seq 1 n)) (f 0)) as (B & C).
  change (f 0 :: map f (seq 1 n)) with (map f (seq 0 (Datatypes.S n))) in *. change (degree ops 0 :: map (degree ops) (seq 1 n)) with (map (degree ops) (seq 0 (Datatypes.S n))).
  split; [|split; [|split; [|apply N.add_0_l]]].
  - clear B C E. assert (G : forall l, (forall i, In i l -> i < Datatypes.S n) -> list_sum (map (degree ops) l) <= list_sum (map f l)).
    { induction l as [|i l IH]; intros Hl; cbn [map list_sum fold_right]; [lia|].
      pose proof (D i (Hl i (or_introl eq_refl))). pose proof (IH (fun j Hj => Hl j (or_intror Hj))) as I. unfold list_sum in I. lia. }
    apply G. intros i Hi. apply in_seq in Hi. lia.
  - intros i Li. etransitivity; [exact (D i Li)|]. apply B, in_map, in_seq. lia.
  - revert C. generalize (fold_left Nat.max (map f (seq 1 n)) (f 0)). generalize (map f (seq 0 (Datatypes.S n))). clear.
    induction l as [|x l IH]; intros m C; [destruct C|]. cbn [list_sum fold_right]. destruct C as [->|C]; [lia|]. specialize (IH m C). unfold list_sum in IH. lia.
Qed.
Print Assumptions c113_at_least_partial.

(** Two neighbours at the same distance: the pair found again stays in the list twice, because
    an entry already reported is sorted before all new ones at its distance. *)
Definition tie : f64 := S754_finite false 1 0.
Theorem c113_counts_refuted :
  exists (n ez k : nat) (l : list (list (f64 * nat * nat))) g out stats,
    0 < n /\ 0 < ez /\ well_formed n (rounds k l) /\ same_distances (rounds k l) /\
    g_run (g_new n ez) (rounds k l) = Ret (g, out) /\ g_stats g = Ret stats /\
    list_sum (map (degree (rounds k l)) (seq 0 n)) < gs_num_edges stats.
Proof.
  exists 6, 2, 5, [[(tie, 0, 5)]; [(tie, 0, 3); (tie, 0, 5)]]. do 3 eexists. split; [lia|]. split; [lia|]. split; [|split; [|split; [vm_compute; reflexivity|split; [vm_compute; reflexivity|]]]].
  - intros d a b H. cbn in H. repeat (destruct H as [H|H]; [try discriminate H; injection H as <- <- <-; repeat split; lia|]). destruct H.
  - intros i d d' j H H'. 
    assert (G : forall e, In (e, j) (edges (rounds 5 [[(tie, 0, 5)]; [(tie, 0, 3); (tie, 0, 5)]]) i) -> e = tie).
    { intros e He. cbn [rounds round concat map app edges fst snd] in He. rewrite !in_app_iff in He.
      repeat (destruct He as [He|He]; [match type of He with In _ (if ?b then _ else _) => destruct b end; [destruct He as [He|[]]; congruence|destruct He]|]). destruct He. }
    rewrite (G _ H), (G _ H'). reflexivity.
  - vm_compute. lia.
Qed.
Print Assumptions c113_counts_refuted.

(** a series without windows has no statistics: the call aborts *)
Theorem c113_no_nodes : forall ez : nat, g_stats (g_new 0 ez) = Panic.
Proof. reflexivity. Qed.
Print Assumptions c113_no_nodes.

Example c113_case :
  let l := [[(tie, 0, 5)]; [(SFadd 53 1024 tie tie, 0, 3); (tie, 0, 5)]] in
  exists g out, g_run (g_new 6 2) (rounds 5 l) = Ret (g, out) /\ g_stats g = Ret (GStats 3 4 2 64) /\ no_ties (rounds 5 l).
Proof.
  do 2 eexists. split; [vm_compute; reflexivity|]. split; [vm_compute; reflexivity|].
  intros i d j j' H H'. set (d2 := SFadd 53 1024 tie tie) in *. assert (D : tie <> d2) by (vm_compute; discriminate).
  cbn [rounds round concat map app edges fst snd] in H, H'. clearbody d2. rewrite !in_app_iff in H, H'.
  destruct i as [|[|[|[|[|[|i]]]]]]; cbn in H, H'; intuition congruence.
Qed.
