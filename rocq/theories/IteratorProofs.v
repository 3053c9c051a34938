(** Lemmas about the iterator. *)
From Coq Require Import Floats.SpecFloat Permutation.
From Verif Require Import Base F64 HashValue HashSpec Overlaps OverlapsSpec OverlapsProofs Enumerator EnumSpec EnumProofs
  Moves Profile Brute BruteSpec BruteProofs TopK TopKSpec TopKProofs Graph GraphSpec GraphProofs GraphFlagProofs Iterator IteratorSpec.

(** ** Enumerating with as many buffers as needed *)
Lemma enum_batches_more fuel ez check caps more : forall s,
  match enum_batches fuel caps ez check s with
  | Ret (bs, true) => enum_batches fuel (caps ++ more) ez check s = Ret (bs, true)
  | Panic => enum_batches fuel (caps ++ more) ez check s = Panic
  | _ => True
  end.
Proof.
  induction caps as [|c caps IH]; intros s; cbn [enum_batches app]; [exact I|].
  destruct (enum_next fuel c ez check s) as [[s' [b|]]| |]; cbn [bind]; try reflexivity; try exact I.
  specialize (IH s'). destruct (enum_batches fuel caps ez check s') as [[bs [|]]| |]; cbn [bind]; try exact I; rewrite IH; reflexivity.
Qed.
Lemma repeat_more {A} (x : A) n m : n <= m -> repeat x m = repeat x n ++ repeat x (m - n).
Proof. intros L. rewrite <- repeat_app. f_equal. lia. Qed.

Lemma all_batches_mono p t c : fmono (all_batches p t c).
Proof.
  intros n m L E. unfold all_batches, enumerate in *.
  destruct (enum_new n (fst t) (snd t) (c_prefix c) (c_prev c)) as [s| |] eqn:En; cbn [bind] in *.
  - rewrite (enum_new_mono _ _ _ _ n m L), En by congruence. cbn [bind].
    pose proof (enum_batches_more m (p_ez p) (c_check c) (repeat (p_buffer p) n) (repeat (p_buffer p) (m - n)) s) as H.
    rewrite <- repeat_more in H by exact L.
    pose proof (enum_batches_mono (repeat (p_buffer p) n) (p_ez p) (c_check c) s n m L) as M. cbn beta in M.
    destruct (enum_batches n (repeat (p_buffer p) n) (p_ez p) (c_check c) s) as [[bs fin]| |] eqn:Eb; cbn [bind] in *; [| |congruence].
    + destruct fin; [|congruence]. rewrite M in H by congruence. rewrite H. reflexivity.
    + rewrite M in H by congruence. rewrite H. reflexivity.
  - rewrite (enum_new_mono _ _ _ _ n m L), En by congruence. reflexivity.
  - congruence.
Qed.

(** what is known of a pair that is enumerated *)
Definition pair_ok (p : problem) (ab : N * N) : Prop :=
  let a := N.to_nat (fst ab) in let b := N.to_nat (snd ab) in
  a < b /\ indexed p a /\ indexed p b /\ ~ too_close (p_ez p) a b.

Lemma all_batches_ok p r k c : sound p -> 1 <= k <= K -> 1 <= c_prefix c <= 8 ->
  (forall pp, c_prev c = Some pp -> 1 <= pp <= 8) ->
  exists batches positions,
    returns (all_batches p (p_table p r k) c) batches /\
    (forall b, In b batches -> 1 <= length b <= p_buffer p) /\
    (forall ab, In ab (concat batches) -> pair_ok p ab) /\
    NoDup positions /\
    (forall x y, In (x, y) positions <->
       let hashes := fst (p_table p r k) in let indices := snd (p_table p r k) in
       collide hashes (c_prefix c) x y /\ ~ in_last_bucket hashes (c_prefix c) x /\
       ~ seen_before hashes (c_prev c) (c_check c) x y /\ ~ trivial indices (p_ez p) x y) /\
    Forall2 (report_of (snd (p_table p r k))) positions (concat batches).
Proof.
  intros Sd Hk Hp Hpp. destruct (sound_tables p Sd r k Hk) as [T Hne].
  pose proof (sound_indices p Sd r k) as HI. set (tb := p_table p r k) in *.
  destruct (enumerate_ok (fst tb) (snd tb) (c_prefix c) (c_prev c) (c_check c) (p_ez p) T Hne Hp Hpp)
    as (pos & pairs & ND & Char & F2 & Run).
  destruct (Run (repeat (p_buffer p) (S (length pairs)))) as (bs & fin & R & (rest & Erest & Hrest) & Ln & Sz & Fin).
  { intros x Hx. apply repeat_spec in Hx. subst. apply Sd. }
  rewrite repeat_length in *. rewrite Fin in * by lia. rewrite Hrest, app_nil_r in Erest by reflexivity. subst pairs.
  exists bs, pos. split; [|split; [|split; [|auto]]].
  - destruct R as (n0 & R). exists (n0 + S (length (concat bs))). intros n Ln'. unfold all_batches.
    pose proof (enum_batches_more n (p_ez p) (c_check c) (repeat (p_buffer p) (S (length (concat bs)))) (repeat (p_buffer p) (n - S (length (concat bs))))) as H.
    rewrite <- repeat_more in H by lia. specialize (R n ltac:(lia)). unfold enumerate in *.
    destruct (enum_new n _ _ _ _) as [s| |]; cbn [bind] in *; try discriminate. specialize (H s). rewrite R in H. rewrite H. reflexivity.
  - intros b Hb. apply In_nth_error in Hb. destruct Hb as (i & Hi).
    assert (Li : i < length bs) by (apply nth_error_Some; congruence).
    apply (Sz i b (p_buffer p) Hi). apply nth_error_repeat. lia.
  - intros ab Hab.
    assert (G : exists xy, In xy pos /\ report_of (snd tb) xy ab).
    { clear - F2 Hab. induction F2 as [|xy ab' l l' H F IH]; [destruct Hab|].
      destruct Hab as [->|Hab]; [exists xy; split; [left; reflexivity|exact H]|].
      destruct (IH Hab) as (z & Hz & Rz). exists z. split; [right; exact Hz|exact Rz]. }
    destruct G as ((x, y) & Hxy & (ix & iy & Ex & Ey & Le & EQ)). cbn [fst snd] in Ex, Ey.
    apply Char in Hxy. destruct Hxy as ((Lx & hx & hy & Hx & Hy & A) & NL & _ & NT).
    destruct T as (Hlen & Hu & Hs).
    assert (LN : forall z hz, nth_error (fst tb) z = Some hz -> agree (c_prefix c) hx hz -> hz <> u64_max).
    { intros z hz Hz Az ->. apply NL.
      assert (Lz : z < length (fst tb)) by (apply nth_error_Some; congruence).
      destruct (nth_error (fst tb) (length (fst tb) - 1)) as [hl|] eqn:El.
      - assert (hl = u64_max) as ->.
        { assert (u64_max <= hl)%N by (apply (Hs z (length (fst tb) - 1)); auto; lia).
          assert (is_u64 hl) by (apply Hu; eapply nth_error_In; eauto).
          unfold is_u64, u64_max in *. lia. }
        exists hx, u64_max. auto.
      - apply nth_error_None in El. lia. }
    assert (Ix : indexed p (N.to_nat ix)).
    { split.
      - destruct (HI x ix Hk Ex) as [L|L]; [lia|]. exfalso. apply (LN x hx Hx); [intros ? _; reflexivity|congruence].
      - exists r, k. split; [exact Hk|]. rewrite N2Nat.id. eapply nth_error_In; exact Ex. }
    assert (Iy : indexed p (N.to_nat iy)).
    { split.
      - destruct (HI y iy Hk Ey) as [L|L]; [lia|]. exfalso. apply (LN y hy Hy A). congruence.
      - exists r, k. split; [exact Hk|]. rewrite N2Nat.id. eapply nth_error_In; exact Ey. }
    assert (NT' : ~ too_close (p_ez p) (N.to_nat ix) (N.to_nat iy)) by (intros C; apply NT; exists ix, iy; auto).
    pose proof (sound_zone p Sd). unfold pair_ok. unfold too_close in *.
    destruct EQ as [->| ->]; cbn [fst snd] in *; (split; [lia|split; [assumption|split; [assumption|lia]]]).
Qed.

(** ** One batch *)
Definition entry_of (p : problem) (threshold : f64) (coin : bool) (ab : N * N) : buffer_entry :=
  (N.to_nat (fst ab), N.to_nat (snd ab),
   if coin then match p_zeucl_threshold p (N.to_nat (fst ab)) (N.to_nat (snd ab)) threshold with Some d => d | None => f_inf end
   else f_inf).
Fixpoint count_heads (coin : nat -> bool) (i n : nat) : nat :=
  match n with
  | O => 0
  | S n => (if coin i then 1 else 0) + count_heads coin (S i) n
  end.

Lemma fixup_batch_ok p threshold coin batch : forall i,
  (forall ab, In ab batch -> pair_ok p ab) ->
  exists es, fixup_batch p threshold coin i batch = Ret (es, count_heads coin i (length batch)) /\
    length es = length batch /\
    forall j ab, nth_error batch j = Some ab -> nth_error es j = Some (entry_of p threshold (coin (i + j)) ab).
Proof.
  induction batch as [|ab batch IH]; intros i H; cbn [fixup_batch length count_heads].
  - exists []. split; [reflexivity|]. split; [reflexivity|]. intros [|j]; discriminate.
  - destruct (IH (S i)) as (es & E & L & P); [intros x Hx; apply H; right; exact Hx|].
    destruct (H ab (or_introl eq_refl)) as (A & (B & _) & (C & _) & _).
    unfold fixup. destruct (coin i) eqn:Ec.
    + destruct (Nat.ltb_spec (N.to_nat (fst ab)) (N.to_nat (snd ab))); [|lia]. destruct (Nat.ltb_spec (N.to_nat (snd ab)) (p_n p)); [|lia].
      cbn [assert_ bind]. rewrite E. cbn [bind]. eexists. split; [reflexivity|]. cbn [length]. split; [lia|].
      intros [|j] x Hx; cbn [nth_error] in *.
      * injection Hx as <-. unfold entry_of. rewrite Nat.add_0_r, Ec. reflexivity.
      * rewrite (P j x Hx). do 3 f_equal. lia.
    + cbn [bind]. rewrite E. cbn [bind]. eexists. split; [reflexivity|]. cbn [length]. split; [lia|].
      intros [|j] x Hx; cbn [nth_error] in *.
      * injection Hx as <-. unfold entry_of. rewrite Nat.add_0_r, Ec. reflexivity.
      * rewrite (P j x Hx). do 3 f_equal. lia.
Qed.

(** the edges a buffer gives *)
Definition buffer_ops (p : problem) (buffer : list buffer_entry) : list g_op :=
  flat_map (fun e : buffer_entry => let '(a, b, d) := e in
    if is_finite d && negb (overlaps a b (p_ez p)) then [GInsert d a b] else []) buffer.
(** an edge with both ends in the index *)
Definition edge_ok (p : problem) (d : f64) (a b : nat) : Prop :=
  indexed p a /\ indexed p b /\ a < b /\ ~ too_close (p_ez p) a b /\ is_finite d = true /\ is_sign_negative d = false /\
  exists threshold, p_zeucl_threshold p a b threshold = Some d.
Definition ops_ok (p : problem) (ops : list g_op) : Prop :=
  forall d a b, In (GInsert d a b) ops -> edge_ok p d a b.
Definition buffer_ok (p : problem) (buffer : list buffer_entry) : Prop := ops_ok p (buffer_ops p buffer).

Lemma ops_ok_wf p ops : ops_ok p ops -> well_formed (p_n p) ops.
Proof.
  intros H d a b Hin. destruct (H d a b Hin) as ((A & _) & (B & _) & _ & _ & C & D & _).
  repeat split; auto. apply finite_not_nan, C.
Qed.
Lemma ops_ok_app p a b : ops_ok p a -> ops_ok p b -> ops_ok p (a ++ b).
Proof. intros H1 H2 d x y H. apply in_app_or in H. destruct H; auto. Qed.
Lemma buffer_ops_app p x y : buffer_ops p (x ++ y) = buffer_ops p x ++ buffer_ops p y.
Proof. apply flat_map_app. Qed.

Lemma insert_buffer_ok p ez ops buffer : forall g, graph_inv (p_n p) ez ops g -> ops_ok p ops -> buffer_ok p buffer ->
  exists g', insert_buffer p buffer g = Ret g' /\ graph_inv (p_n p) ez (ops ++ buffer_ops p buffer) g' /\
    g_run g (buffer_ops p buffer) = Ret (g', []).
Proof.
  revert ops. induction buffer as [|[[a b] d] buffer IH]; intros ops g V Ho Hb.
  - exists g. split; [reflexivity|]. cbn [buffer_ops flat_map]. rewrite app_nil_r. split; [exact V|reflexivity].
  - change (insert_buffer p ((a, b, d) :: buffer) g) with
      (let! g := (if is_finite d && negb (overlaps a b (p_ez p)) then g_insert g d a b else Ret g) in insert_buffer p buffer g).
    unfold buffer_ok in Hb. change ((a, b, d) :: buffer) with ([(a, b, d)] ++ buffer) in *. rewrite buffer_ops_app in *.
    cbn [buffer_ops flat_map] in Hb |- *. rewrite app_nil_r in *.
    destruct (is_finite d && negb (overlaps a b (p_ez p))).
    + assert (Ho' : ops_ok p (ops ++ [GInsert d a b])).
      { apply ops_ok_app; [exact Ho|]. intros x y z [H|[]]. apply Hb. left. exact H. }
      destruct (graph_step_ok (p_n p) ez ops g (GInsert d a b) V (ops_ok_wf p _ Ho')) as (g1 & o1 & E1).
      pose proof (graph_step (p_n p) ez ops g (GInsert d a b) g1 o1 V (ops_ok_wf p _ Ho') E1) as V1.
      cbn [g_step] in E1. destruct (g_insert g d a b) as [g2| |] eqn:E2; cbn [bind] in E1; try discriminate.
      apply Ret_inj in E1. injection E1 as -> <-. cbn [bind].
      destruct (IH (ops ++ [GInsert d a b]) g1 V1 Ho') as (g' & E & V' & R'); [intros x y z H; apply Hb; right; exact H|].
      exists g'. split; [exact E|]. rewrite <- app_assoc in V'. split; [exact V'|].
      rewrite g_run_app. cbn [g_run g_step]. rewrite E2. cbn [bind]. fold (buffer_ops p buffer). rewrite R'. reflexivity.
    + cbn [bind]. apply IH; assumption.
Qed.

Lemma buffer_ops_in p buffer d a b : In (GInsert d a b) (buffer_ops p buffer) <->
  In (a, b, d) buffer /\ is_finite d = true /\ ~ too_close (p_ez p) a b.
Proof.
  unfold buffer_ops. rewrite in_flat_map. split.
  - intros (((a', b'), d') & H & H'). destruct (is_finite d' && negb _) eqn:E; [|destruct H']. destruct H' as [H'|[]]. injection H' as -> -> ->.
    apply andb_true_iff in E. destruct E as [E1 E2]. apply negb_true_iff, overlaps_spec_false in E2. auto.
  - intros (H & F & T). exists (a, b, d). split; [exact H|]. rewrite F. apply overlaps_spec_false in T. rewrite T. left. reflexivity.
Qed.

Lemma use_batch_ok p ez threshold coin batch ops g buffer cnt : sound p ->
  (forall ab, In ab batch -> pair_ok p ab) -> 1 <= length batch <= length buffer ->
  graph_inv (p_n p) ez ops g -> ops_ok p ops -> buffer_ok p buffer ->
  exists g' buffer', use_batch p threshold coin batch (g, buffer, cnt) = Ret (g', buffer', cnt + count_heads coin 0 (length batch)) /\
    graph_inv (p_n p) ez (ops ++ buffer_ops p buffer') g' /\ buffer_ok p buffer' /\ length buffer' = length buffer /\
    (forall j ab, nth_error batch j = Some ab -> In (entry_of p threshold (coin j) ab) buffer') /\
    g_run g (buffer_ops p buffer') = Ret (g', []).
Proof.
  intros Sd Hp Hl V Ho Hb. unfold use_batch. destruct (Nat.ltb_spec 0 (length batch)) as [_|]; [|lia]. cbn [assert_].
  destruct (fixup_batch_ok p threshold coin batch 0 Hp) as (es & E & L & P). rewrite E. cbn [bind].
  assert (Hb' : buffer_ok p (es ++ skipn (length batch) buffer)).
  { intros d a b H. apply buffer_ops_in in H. destruct H as (H & F & T). apply in_app_or in H. destruct H as [H|H].
    - apply In_nth_error in H. destruct H as (j & Hj).
      assert (Lj : j < length batch) by (rewrite <- L; apply nth_error_Some; congruence).
      destruct (nth_error batch j) as [ab|] eqn:Ej; [|apply nth_error_None in Ej; lia].
      rewrite (P j ab Ej) in Hj. cbn [Nat.add] in Hj. unfold entry_of in Hj. injection Hj as <- <- <-.
      destruct (Hp ab (nth_error_In _ _ Ej)) as (P1 & P2 & P3 & P4).
      destruct (coin j); [|discriminate].
      destruct (p_zeucl_threshold p (N.to_nat (fst ab)) (N.to_nat (snd ab)) threshold) as [d|] eqn:Ed; [|discriminate].
      repeat split; try apply P2; try apply P3; auto; [apply (sound_threshold p Sd _ _ _ _ Ed)|eauto].
    - apply Hb, buffer_ops_in. split; [|auto]. rewrite <- (firstn_skipn (length batch)). apply in_or_app. auto. }
  destruct (insert_buffer_ok p ez ops _ g V Ho Hb') as (g' & E' & V' & R'). rewrite E'. cbn [bind].
  eexists. eexists. split; [reflexivity|]. split; [exact V'|]. split; [exact Hb'|]. split; [|split; [|exact R']].
  - rewrite app_length, skipn_length. lia.
  - intros j ab Hj. apply in_or_app. left. apply (nth_error_In _ j). rewrite (P j ab Hj). reflexivity.
Qed.

Fixpoint count_all (coin : nat -> nat -> bool) (i : nat) (batches : list (list (N * N))) : nat :=
  match batches with
  | [] => 0
  | b :: t => count_heads (coin i) 0 (length b) + count_all coin (S i) t
  end.

Lemma use_batches_ok p ez threshold coin : sound p -> forall batches i ops g buffer cnt,
  (forall b, In b batches -> 1 <= length b <= length buffer) -> (forall ab, In ab (concat batches) -> pair_ok p ab) ->
  graph_inv (p_n p) ez ops g -> ops_ok p ops -> buffer_ok p buffer ->
  exists g' buffer' new,
    foreach (combine (seq i (length batches)) batches)
      (fun (ib : nat * list (N * N)) s => use_batch p threshold (coin (fst ib)) (snd ib) s) (g, buffer, cnt)
    = Ret (g', buffer', cnt + count_all coin i batches) /\
    graph_inv (p_n p) ez (ops ++ new) g' /\ ops_ok p new /\ (forall op, In op new -> exists d a b, op = GInsert d a b) /\
    buffer_ok p buffer' /\ length buffer' = length buffer /\
    g_run g new = Ret (g', []) /\
    (forall k b j ab d, nth_error batches k = Some b -> nth_error b j = Some ab -> coin (i + k) j = true ->
       p_zeucl_threshold p (N.to_nat (fst ab)) (N.to_nat (snd ab)) threshold = Some d -> is_finite d = true ->
       In (GInsert d (N.to_nat (fst ab)) (N.to_nat (snd ab))) new).
Proof.
  intros Sd. induction batches as [|b batches IH]; intros i ops g buffer cnt Hl Hp V Ho Hb.
  - exists g, buffer, []. cbn [length seq combine foreach count_all]. rewrite Nat.add_0_r, app_nil_r.
    split; [reflexivity|]. split; [exact V|]. split; [intros ? ? ? []|]. split; [intros ? []|]. split; [exact Hb|]. split; [reflexivity|]. split; [reflexivity|].
    intros [|k]; discriminate.
  - cbn [length seq combine foreach count_all fst snd].
    destruct (use_batch_ok p ez threshold (coin i) b ops g buffer cnt Sd) as (g1 & bf1 & E1 & V1 & B1 & L1 & P1 & R1); auto.
    { intros ab Hab. apply Hp. cbn [concat]. apply in_or_app. auto. }
    { apply Hl. left. reflexivity. }
    rewrite E1. cbn [bind].
    destruct (IH (S i) (ops ++ buffer_ops p bf1) g1 bf1 (cnt + count_heads (coin i) 0 (length b))) as (g2 & bf2 & new & E2 & V2 & O2 & I2 & B2 & L2 & R2 & P2); auto.
    { rewrite L1. intros x Hx. apply Hl. right. exact Hx. }
    { intros ab Hab. apply Hp. cbn [concat]. apply in_or_app. auto. }
    { apply ops_ok_app; assumption. }
    exists g2, bf2, (buffer_ops p bf1 ++ new). split; [rewrite E2; do 2 f_equal; lia|]. split; [rewrite app_assoc; exact V2|].
    split; [apply ops_ok_app; assumption|]. split.
    { intros op Hop. apply in_app_or in Hop. destruct Hop as [Hop|Hop]; [|apply I2, Hop].
      unfold buffer_ops in Hop. apply in_flat_map in Hop. destruct Hop as (((a', b'), d') & _ & Hop).
      destruct (_ && _); [destruct Hop as [<-|[]]; eauto|destruct Hop]. }
    split; [exact B2|]. split; [congruence|]. split; [rewrite g_run_app, R1; cbn [bind]; rewrite R2; reflexivity|].
    intros k b' j ab d Hk Hj Hc Hd Hf. apply in_or_app. destruct k as [|k]; cbn [nth_error] in Hk.
    + injection Hk as <-. left. apply buffer_ops_in. pose proof (P1 j ab Hj) as Hin. rewrite Nat.add_0_r in Hc.
      unfold entry_of in Hin. rewrite Hc, Hd in Hin. split; [exact Hin|]. split; [exact Hf|].
      destruct (Hp ab) as (_ & _ & _ & T); [|exact T]. cbn [concat]. apply in_or_app. left. eapply nth_error_In; eauto.
    + right. apply (P2 k b' j ab d Hk Hj); auto. replace (S i + k) with (i + S k) by lia. exact Hc.
Qed.

(** ** Queues *)
Definition mine (p : problem) (seed m : motiflet) : Prop := valid_motiflet p m \/ m = seed.
(** candidates of the same support and extent overlap, or only one is asked for *)
Definition no_ties (p : problem) (seed : motiflet) : Prop :=
  2 <= length (ml_indices seed) /\
  (p_top_k p <= 1 \/
   forall x y, mine p seed x -> mine p seed y -> length (ml_indices x) = length (ml_indices y) ->
     feq (ml_extent x) (ml_extent y) = true -> conflicting (p_ez p) x y).
Definition apart_list (ez : nat) (l : list motiflet) : Prop := pairwise (fun x y => ~ conflicting ez x y) l.
Record queue_ok (p : problem) (seed : motiflet) (k : nat) (t : topk) : Prop := {
  q_wf : wf t;
  q_k : tk_k t = p_top_k p;
  q_ez : tk_ez t = p_ez p;
  q_emitted : length (tk_emitted t) <= tk_k t;
  q_members : forall m, In m (tk_top t) \/ In m (tk_emitted t) -> length (ml_indices m) = k /\ mine p seed m;
  q_sned : forall e, tk_sned t = Some e -> exists m, In m (tk_top t) /\ ml_extent m = e;
  q_low : k < 2 -> tk_disabled t = true;
  q_apart : 0 < p_ez p -> no_ties p seed -> apart_list (p_ez p) (tk_emitted t)
}.
Definition queues_ok (p : problem) (seed : motiflet) (top : list topk) : Prop :=
  length top = p_max_k p + 1 /\ forall k t, nth_error top k = Some t -> queue_ok p seed k t.

Lemma queue_disable p seed k t : queue_ok p seed k t -> queue_ok p seed k (tk_disable t).
Proof. intros [A B C D E F G H]. split; auto. Qed.

Lemma queue_insert p seed k t m : queue_ok p seed k t -> length (ml_indices m) = k -> mine p seed m -> is_nan (ml_extent m) = false ->
  exists t', tk_insert t m = Ret t' /\ queue_ok p seed k t' /\ tk_emitted t' = tk_emitted t /\ tk_is_complete t' = tk_is_complete t.
Proof.
  intros [W A B C D E F G] L Mm N. destruct (insert_ok t m W N) as (t' & I & W' & A' & B' & C' & D' & M' & H).
  exists t'. split; [exact I|]. split; [|split; [exact C'|unfold tk_is_complete; congruence]].
  split; try congruence.
  - intros x Hx. rewrite C' in Hx. destruct Hx as [Hx|Hx]; [|apply D; auto].
    destruct (M' x Hx) as [->|Hx']; [auto|apply D; auto].
  - intros e He. destruct H as [[-> _]|(_ & _ & Hs & _)]; [apply E, He|congruence].
  - intros Hk. rewrite D'. apply F, Hk.
  - rewrite C'. exact G.
Qed.

Lemma emit_one ez pr l : forall sned em' out' sned',
  emit_loop 1 ez pr l [] [] sned = Ret (em', out', sned') -> em' = out' /\ length out' <= 1.
Proof.
  induction l as [|m l IH]; intros sned em' out' sned' E; cbn [emit_loop length Nat.leb ml_overlaps_iter existsb] in E.
  - apply Ret_inj in E. injection E as <- <- _. cbn. auto.
  - destruct (pr (ml_extent m)).
    + cbn [bt_insert bind app] in E. destruct l as [|x l]; cbn [emit_loop length Nat.leb] in E; apply Ret_inj in E; injection E as <- <- _; cbn; auto.
    + apply Ret_inj in E. injection E as <- <- _. cbn. auto.
Qed.
Lemma short_apart ez l : length l <= 1 -> apart_list ez l.
Proof. intros H. destruct l as [|x [|y l]]; cbn in H; [constructor|constructor; constructor|lia]. Qed.

(** with no ties, what is returned is what is recorded as emitted *)
Lemma emit_exact p seed k t pr t' out : 0 < p_ez p -> no_ties p seed ->
  wf t -> tk_k t = p_top_k p -> tk_ez t = p_ez p -> length (tk_emitted t) <= tk_k t ->
  (forall m, In m (tk_top t) \/ In m (tk_emitted t) -> length (ml_indices m) = k /\ mine p seed m) ->
  apart_list (p_ez p) (tk_emitted t) ->
  tk_emit t pr = Ret (t', out) ->
  Permutation (tk_emitted t') (tk_emitted t ++ out) /\ apart_list (p_ez p) (tk_emitted t').
Proof.
  intros Hez (Ls & NT) W A B C D AP E. unfold tk_emit in E.
  destruct (emit_loop _ _ _ _ _ _ _) as [[[em' out'] sn']| |] eqn:El; cbn [bind] in E; try discriminate.
  apply Ret_inj in E. injection E as <- <-. cbn [tk_emitted].
  destruct NT as [L1|NT].
  - rewrite A in El, C. destruct (p_top_k p) as [|[|z]]; [| |lia].
    + destruct (tk_emitted t) as [|x em]; [|cbn in C; lia].
      destruct (tk_top t); cbn in El; apply Ret_inj in El; injection El as <- <- _; (split; [reflexivity|constructor]).
    + destruct (tk_emitted t) as [|x [|y em]]; [| |cbn in C; lia].
      * destruct (emit_one _ _ _ _ _ _ _ El) as [-> L]. split; [reflexivity|apply short_apart, L].
      * destruct (tk_top t); cbn in El; apply Ret_inj in El; injection El as <- <- _; (split; [reflexivity|exact AP]).
  - rewrite A, B in El. destruct W as (N1 & S1 & N2 & S2 & _).
    set (U := fun m => In m (tk_top t) \/ In m (tk_emitted t)).
    assert (Hl : forall m, mine p seed m -> 2 <= length (ml_indices m)) by (intros m [(V & _)| ->]; [lia|exact Ls]).
    destruct (emit_loop_clean (p_top_k p) (p_ez p) U Hez) with (p := pr) (l := tk_top t) (em := tk_emitted t) (out := @nil motiflet) (sned := tk_sned t) (em' := em') (out' := out') (sned' := sn')
      as (new & -> & P & _ & _ & Pw & _); auto.
    + intros m Hm Em. destruct (D m Hm) as [_ M]. apply Hl in M. rewrite Em in M. cbn in M. lia.
    + intros m [Hm|Hm]; [apply N1, Hm|apply N2, Hm].
    + intros x y Hx Hy. destruct (D x Hx), (D y Hy). apply NT; auto. congruence.
    + intros x Hx. left. exact Hx.
    + intros x Hx. right. exact Hx.
    + rewrite <- A. exact C.
Qed.

Lemma emit_loop_sned k ez pr l : forall emitted out sned e' o' s', emit_loop k ez pr l emitted out sned = Ret (e', o', s') ->
  s' = sned \/ exists m, In m l /\ s' = Some (ml_extent m).
Proof.
  induction l as [|m l IH]; intros em out sn e' o' s' E; cbn [emit_loop] in E.
  - apply Ret_inj in E. injection E as _ _ <-. auto.
  - destruct (k <=? length em); [apply Ret_inj in E; injection E as _ _ <-; auto|].
    destruct (ml_overlaps_iter m em ez).
    { destruct (IH _ _ _ _ _ _ E) as [H|(x & Hx & H)]; [auto|right; exists x; split; [right; exact Hx|exact H]]. }
    destruct (pr (ml_extent m)).
    + destruct (bt_insert m em) as [em2| |]; cbn [bind] in E; try discriminate.
      destruct (IH _ _ _ _ _ _ E) as [H|(x & Hx & H)]; [auto|right; exists x; split; [right; exact Hx|exact H]].
    + apply Ret_inj in E. injection E as _ _ <-. right. exists m. split; [left; reflexivity|reflexivity].
Qed.

Lemma queue_emit p seed k t pr : queue_ok p seed k t ->
  exists t' out, tk_emit t pr = Ret (t', out) /\ queue_ok p seed k t' /\ tk_top t' = tk_top t /\ tk_disabled t' = tk_disabled t /\
    (forall m, In m out -> length (ml_indices m) = k /\ mine p seed m) /\
    length (tk_emitted t) <= length (tk_emitted t') /\
    (0 < p_ez p -> no_ties p seed -> Permutation (tk_emitted t') (tk_emitted t ++ out)).
Proof.
  intros [W A B C D E F G]. destruct (emit_ok t pr W) as (t' & out & I & W' & A' & B' & T' & D' & M' & O').
  destruct (emit_emitted_length t pr t' out W I) as [L1 L2].
  exists t', out. split; [exact I|]. split; [|split; [exact T'|split; [exact D'|split; [|split; [exact L1|]]]]].
  - split; try congruence.
    + rewrite A'. apply L2, C.
    + intros x Hx. rewrite T' in Hx. apply D. destruct Hx as [Hx|Hx]; [auto|]. apply M' in Hx. tauto.
    + intros e He. unfold tk_emit in I. destruct (emit_loop _ _ _ _ _ _ _) as [[[e1 o1] s1]| |] eqn:El; cbn [bind] in I; try discriminate.
      apply Ret_inj in I. injection I as <- _. cbn [tk_sned] in He.
      destruct (emit_loop_sned _ _ _ _ _ _ _ _ _ _ El) as [->|(m & Hm & ->)]; [apply E, He|].
      injection He as <-. exists m. auto.
    + intros Hk. rewrite D'. apply F, Hk.
    + intros Hz Ht. apply (emit_exact p seed k t pr t' out Hz Ht W A B C D (G Hz Ht) I).
  - intros m Hm. apply D. left. apply O', Hm.
  - intros Hz Ht. apply (emit_exact p seed k t pr t' out Hz Ht W A B C D (G Hz Ht) I).
Qed.

(** the emissions of support [k] in a list of returned motiflets *)
Definition of_support (k : nat) (l : list motiflet) : list motiflet := filter (fun m => length (ml_indices m) =? k) l.
Definition emitted_at (top : list topk) (k : nat) : list motiflet :=
  match nth_error top k with Some t => tk_emitted t | None => [] end.
Definition accounted (top top' : list topk) (new : list motiflet) : Prop :=
  forall k, Permutation (emitted_at top' k) (emitted_at top k ++ of_support k new).
Lemma of_support_app k a b : of_support k (a ++ b) = of_support k a ++ of_support k b.
Proof. apply filter_app. Qed.
Lemma of_support_all k l : (forall m, In m l -> length (ml_indices m) = k) -> of_support k l = l.
Proof.
  induction l as [|m l IH]; intros H; [reflexivity|]. cbn. rewrite (H m (or_introl eq_refl)), Nat.eqb_refl. f_equal. apply IH. intros x Hx. apply H. right. exact Hx.
Qed.
Lemma of_support_none k j l : (forall m, In m l -> length (ml_indices m) = k) -> j <> k -> of_support j l = [].
Proof.
  induction l as [|m l IH]; intros H N; [reflexivity|]. cbn. rewrite (H m (or_introl eq_refl)). destruct (Nat.eqb_spec k j); [congruence|]. apply IH; auto. intros x Hx. apply H. right. exact Hx.
Qed.
Lemma accounted_trans a b c x y : accounted a b x -> accounted b c y -> accounted a c (x ++ y).
Proof. intros H1 H2 k. rewrite (H2 k), (H1 k), of_support_app, app_assoc. reflexivity. Qed.


Lemma queues_put p seed top k t : queues_ok p seed top -> k < length top -> queue_ok p seed k t ->
  exists top', put top k t = Ret top' /\ queues_ok p seed top' /\
    forall j, nth_error top' j = if j =? k then Some t else nth_error top j.
Proof.
  intros [L Q] Lk H. destruct (put_ok top k t Lk) as (top' & E & L' & P). exists top'. split; [exact E|]. split; [|exact P].
  split; [congruence|]. intros j x Hx. rewrite P in Hx. destruct (Nat.eqb_spec j k) as [->|]; [injection Hx as <-; exact H|apply Q, Hx].
Qed.

Lemma queues_get p seed top k : queues_ok p seed top -> k <= p_max_k p -> exists t, get top k = Ret t /\ nth_error top k = Some t /\ queue_ok p seed k t.
Proof.
  intros [L Q] Lk. destruct (nth_error top k) as [t|] eqn:E; [|apply nth_error_None in E; lia].
  exists t. split; [apply get_some, E|]. auto.
Qed.

(** what stays the same when candidates are added *)
Definition same_progress (top top' : list topk) : Prop :=
  forall k t', nth_error top' k = Some t' -> exists t, nth_error top k = Some t /\ tk_emitted t' = tk_emitted t /\ tk_is_complete t' = tk_is_complete t.
Lemma same_progress_refl top : same_progress top top.
Proof. intros k t H. eauto. Qed.
Lemma same_progress_accounted a b : length a = length b -> same_progress a b -> accounted a b [].
Proof.
  intros L H k. unfold emitted_at. cbn. rewrite app_nil_r. destruct (nth_error b k) as [t'|] eqn:E.
  - destruct (H k t' E) as (t & -> & -> & _). reflexivity.
  - apply nth_error_None in E. rewrite <- L in E. apply nth_error_None in E. rewrite E. reflexivity.
Qed.
Lemma same_progress_trans a b c : same_progress a b -> same_progress b c -> same_progress a c.
Proof. intros H1 H2 k t H. destruct (H2 k t H) as (t1 & E1 & A1 & B1). destruct (H1 k t1 E1) as (t2 & E2 & A2 & B2). exists t2. split; [exact E2|]. split; congruence. Qed.

(** ** Neighbourhoods become candidates *)
Definition ids_ok (p : problem) (ids : list nat) : Prop :=
  pairwise_apart (p_ez p) ids /\ (2 <= length ids -> forall i, In i ids -> indexed p i).

Lemma ids_numbers p ids : sound p -> ids_ok p ids -> all_numbers (p_zeucl p) ids.
Proof.
  intros Sd [A B] a b x y L Ex Ey.
  assert (Lb : b < length ids) by (apply nth_error_Some; congruence).
  apply (sound_numbers p Sd).
  - apply B; [lia|]. eapply nth_error_In; eauto.
  - apply B; [lia|]. eapply nth_error_In; eauto.
  - intros ->. apply (A a b x x L Ex Ey). pose proof (sound_zone p Sd). unfold too_close. lia.
Qed.

Lemma insert_prefixes_ok p seed ids extents : sound p -> ids_ok p ids -> length extents = length ids ->
  (forall i e, nth_error extents i = Some e -> max_pairwise (p_zeucl p) (firstn (S i) ids) e) ->
  forall top, queues_ok p seed top ->
  exists top', insert_prefixes p ids extents top = Ret top' /\ queues_ok p seed top' /\ same_progress top top'.
Proof.
  intros Sd Hi Le Me top Q. unfold insert_prefixes.
  match goal with |- context [foreach ?l ?b ?s] =>
    destruct (foreach_inv b (fun _ t => queues_ok p seed t /\ same_progress top t) l s) as (top' & E & Q' & S')
  end.
  - split; [exact Q|apply same_progress_refl].
  - intros pre i post s El (Q1 & S1).
    assert (Hin : In i (seq 1 (length ids - 1))) by (rewrite El; apply in_elt). apply in_seq in Hin.
    destruct (nth_error extents i) as [e|] eqn:Ee; [|apply nth_error_None in Ee; lia].
    rewrite (get_some _ _ _ Ee). cbn [bind]. destruct (Nat.leb_spec (i + 1) (p_max_k p)) as [Lk|Lk]; [|exists s; auto].
    destruct (queues_get p seed s (i + 1) Q1 Lk) as (t & Eg & En & Qt). rewrite Eg. cbn [bind].
    assert (Lf : length (firstn (i + 1) ids) = i + 1) by (rewrite firstn_length; lia).
    assert (Sub : forall x, In x (firstn (i + 1) ids) -> In x ids) by (intros x; apply In_firstn_in).
    assert (M : max_pairwise (p_zeucl p) (firstn (i + 1) ids) e) by (rewrite Nat.add_1_r; apply Me, Ee).
    assert (Ap : ids_ok p (firstn (i + 1) ids)).
    { destruct Hi as [Ap In_]. split.
      - intros a b x y L Ex Ey.
        assert (b < i + 1) by (rewrite <- Lf; apply nth_error_Some; congruence).
        rewrite nth_error_firstn in Ex, Ey by lia. exact (Ap a b x y L Ex Ey).
      - intros _ x Hx. apply In_; [lia|auto]. }
    destruct (queue_insert p seed (i + 1) t (Motiflet (firstn (i + 1) ids) e) Qt) as (t' & Et & Qt' & E1 & E2).
    + exact Lf.
    + left. split; [cbn [ml_indices]; rewrite Lf; lia|]. split.
      * intros x Hx. cbn [ml_indices] in Hx. destruct Ap as [_ In_]. exact (In_ ltac:(lia) x Hx).
      * split; [apply Ap|exact M].
    + apply (max_pairwise_nan (p_zeucl p) (firstn (i + 1) ids)); [apply ids_numbers; assumption|exact M].
    + rewrite Et. cbn [bind]. destruct (queues_put p seed s (i + 1) t' Q1) as (s' & Ep & Q2 & P2); [destruct Q1; lia|exact Qt'|].
      exists s'. split; [exact Ep|]. split; [exact Q2|]. eapply same_progress_trans; [exact S1|].
      intros k x Hx. rewrite P2 in Hx. destruct (Nat.eqb_spec k (i + 1)) as [->|]; [injection Hx as <-; exists t; auto|exists x; auto].
  - exists top'. auto.
Qed.

Lemma add_neighbourhood_ok p seed nb top : sound p -> ids_ok p (fst nb) -> queues_ok p seed top ->
  exists top', add_neighbourhood p nb top = Ret top' /\ queues_ok p seed top' /\ same_progress top top'.
Proof.
  intros Sd Hi Q. unfold add_neighbourhood. destruct (worth top (snd nb)); [|exists top; auto using same_progress_refl].
  destruct (compute_extents_ok (p_zeucl p) (sound_nonneg p Sd) (fst nb) (ids_numbers p _ Sd Hi)) as (ext & E & L & M & _).
  rewrite E. cbn [bind]. apply insert_prefixes_ok; assumption.
Qed.

Lemma add_all_ok p seed nbs : sound p -> (forall nb, In nb nbs -> ids_ok p (fst nb)) -> forall top, queues_ok p seed top ->
  exists top', foreach nbs (fun nb top => add_neighbourhood p nb top) top = Ret top' /\ queues_ok p seed top' /\ same_progress top top'.
Proof.
  intros Sd. induction nbs as [|nb nbs IH]; intros H top Q; cbn [foreach].
  - exists top. auto using same_progress_refl.
  - destruct (add_neighbourhood_ok p seed nb top Sd) as (t1 & E1 & Q1 & S1); [apply H; left; reflexivity|exact Q|].
    rewrite E1. cbn [bind]. destruct (IH (fun x Hx => H x (or_intror Hx)) t1 Q1) as (t2 & E2 & Q2 & S2).
    exists t2. split; [exact E2|]. split; [exact Q2|]. eapply same_progress_trans; eauto.
Qed.

Lemma edges_in ops i d j : In (d, j) (edges ops i) -> exists a b, In (GInsert d a b) ops /\ ((a = i /\ b = j) \/ (a = j /\ b = i)).
Proof.
  induction ops as [|[d' a b| |k] ops IH]; cbn [edges]; intros H; [destruct H| | |].
  - apply in_app_or in H. destruct H as [H|H].
    { destruct (Nat.eqb_spec a i) as [->|]; [|destruct H]. destruct H as [H|[]]. injection H as -> ->. exists i, j. split; [left; reflexivity|auto]. }
    apply in_app_or in H. destruct H as [H|H].
    { destruct (Nat.eqb_spec b i) as [->|]; [|destruct H]. destruct H as [H|[]]. injection H as -> ->. exists j, i. split; [left; reflexivity|auto]. }
    destruct (IH H) as (x & y & Hxy & E). exists x, y. split; [right; exact Hxy|exact E].
  - destruct (IH H) as (x & y & Hxy & E). exists x, y. split; [right; exact Hxy|exact E].
  - destruct (IH H) as (x & y & Hxy & E). exists x, y. split; [right; exact Hxy|exact E].
Qed.

Lemma neighborhoods_ok p ops g k : ops_ok p ops -> graph_inv (p_n p) (p_ez p) ops g ->
  exists g' nbs, g_neighborhoods g k = Ret (g', nbs) /\ graph_inv (p_n p) (p_ez p) (ops ++ [GRead k]) g' /\
    (forall nb, In nb nbs -> ids_ok p (fst nb)).
Proof.
  intros Ho V. destruct (g_read_spec (p_n p) (p_ez p) ops g k V) as (g' & r & E & _ & _ & _ & Lr & P).
  exists g'. eexists. split; [exact E|]. split.
  - eapply (graph_step (p_n p) (p_ez p) ops g (GRead k) g'); [exact V| |exact E].
    apply ops_ok_wf. apply ops_ok_app; [exact Ho|]. intros ? ? ? [H|[]]. discriminate.
  - intros [ind ds] H. apply nth_error_flat in H. destruct H as (i & nn' & Hi).
    assert (Li : i < p_n p) by (rewrite <- Lr; apply nth_error_Some; congruence).
    destruct (P i Li) as (nn & nn1 & o & En & _ & Hr & R). rewrite Hi in Hr. injection Hr as <- <-.
    unfold read_node in R. destruct (touched ops i); [|destruct R; discriminate].
    destruct R as (t & T & _ & Eo). destruct (existsb _ _); [|discriminate]. injection Eo as -> ->.
    pose proof V as (_ & _ & _ & HV). destruct (HV i Li) as (_ & nn0 & En0 & V0). assert (nn0 = nn) by congruence. subst nn0.
    destruct (node_valid k (p_ez p) i (edges ops i) t) as (NL & N0 & _ & _ & NA & _ & NE & _); [eapply tidy_node; eauto|apply T|].
    cbn [fst app] in *. set (ids := i :: map snd (chosen k (p_ez p) [i] t)) in *. set (dists := f_zero :: _) in *.
    split; [exact NA|]. intros L x Hx.
    assert (Edge : forall q j, nth_error ids (S q) = Some j -> indexed p i /\ indexed p j).
    { intros q j Hj. destruct (nth_error dists (S q)) as [d|] eqn:Ed.
      - pose proof (NE q j d Hj Ed) as He. apply edges_in in He. destruct He as (a & b & Hab & C).
        destruct (Ho d a b Hab) as (A & B & _). destruct C as [[-> ->]|[-> ->]]; auto.
      - apply nth_error_None in Ed. assert (S q < length ids) by (apply nth_error_Some; congruence). lia. }
    apply In_nth_error in Hx. destruct Hx as ([|q] & Hq).
    + change (Some i = Some x) in Hq. injection Hq as <-. destruct (nth_error ids 1) as [j|] eqn:Ej; [apply (Edge 0 j Ej)|].
      apply nth_error_None in Ej. lia.
    + apply (Edge q x Hq).
Qed.

(** ** Emission *)
Lemma emit_queues_ok p seed c : forall top ret, queues_ok p seed top -> (forall m, In m ret -> mine p seed m) ->
  exists top' new, emit_queues p c top ret = Ret (top', ret ++ new) /\ queues_ok p seed top' /\ (forall m, In m new -> mine p seed m) /\
    (0 < p_ez p -> no_ties p seed -> accounted top top' new).
Proof.
  intros top ret Q R. unfold emit_queues.
  match goal with |- context [foreach ?l ?b ?s] =>
    destruct (foreach_inv b (fun _ (st : list topk * list motiflet) => queues_ok p seed (fst st) /\ exists new, snd st = ret ++ new /\ (forall m, In m new -> mine p seed m) /\
      (0 < p_ez p -> no_ties p seed -> accounted top (fst st) new)) l s) as ((top' & ret') & E & Q' & new & En & Hn & Ha)
  end.
  - cbn [fst snd]. split; [exact Q|]. exists []. rewrite app_nil_r. split; [reflexivity|]. split; [intros ? []|].
    intros _ _ k. cbn. rewrite app_nil_r. reflexivity.
  - intros pre k post (tp & rt) El (Q1 & new & En & Hn & Ha). cbn [fst] in Ha. cbn [fst snd] in Q1, En.
    assert (Hin : In k (seq 0 (p_max_k p + 1))) by (rewrite El; apply in_elt). apply in_seq in Hin.
    destruct (queues_get p seed tp k Q1 ltac:(lia)) as (t & Eg & Ent & Qt). rewrite Eg. cbn [bind].
    destruct (tk_is_complete t); [exists (tp, rt); split; [reflexivity|]; cbn; eauto|].
    destruct (queue_emit p seed k t (confirmed p c) Qt) as (t' & out & Et & Qt' & _ & _ & Ho & _ & Hx). rewrite Et. cbn [bind].
    destruct (queues_put p seed tp k t' Q1) as (tp' & Ep & Q2 & Pp); [destruct Q1; lia|exact Qt'|]. rewrite Ep. cbn [bind].
    exists (tp', rt ++ out). split; [reflexivity|]. cbn [fst snd]. split; [exact Q2|]. exists (new ++ out). split; [subst rt; rewrite app_assoc; reflexivity|].
    split; [intros m Hm; apply in_app_or in Hm; destruct Hm as [Hm|Hm]; [auto|]; apply Ho, Hm|].
    intros Hz Ht. apply (accounted_trans _ tp); [auto|]. intros j. unfold emitted_at. rewrite Pp.
    destruct (Nat.eqb_spec j k) as [->|N].
    + rewrite Ent, (of_support_all k out) by (intros m Hm; apply Ho, Hm). auto.
    + rewrite (of_support_none k j out), app_nil_r by (auto; intros m Hm; apply Ho, Hm). reflexivity.
  - cbn [fst snd] in *. subst ret'. exists top', new. auto.
Qed.

Lemma min_distance_ok l : (forall x, In x l -> is_nan x = false) -> exists o, min_distance l = Ret o /\ forall d, o = Some d -> In d l.
Proof.
  intros H. destruct l as [|x t]; cbn [min_distance]; [exists None; split; [reflexivity|discriminate]|].
  match goal with |- context [foreach ?l ?b ?s] =>
    destruct (foreach_inv b (fun _ m => In m (x :: t)) l s) as (m & E & Hm)
  end.
  - left. reflexivity.
  - intros pre y post m El Hm.
    assert (Hy : In y (x :: t)) by (right; rewrite El; apply in_elt).
    destruct (cmp_cases m y (H m Hm) (H y Hy)) as [[C _]|[[C _]|[C _]]]; rewrite C; eauto.
  - rewrite E. cbn [bind]. exists (Some m). split; [reflexivity|]. intros d Hd. injection Hd as <-. exact Hm.
Qed.

(** ** The state *)
Record inv (p : problem) (seed : motiflet) (s : iter) : Prop := {
  inv_graph : exists ops, graph_inv (p_n p) (p_ez p) ops (it_graph s) /\ ops_ok p ops;
  inv_buffer : buffer_ok p (it_buffer s) /\ length (it_buffer s) = p_buffer p;
  inv_queues : queues_ok p seed (it_top s);
  inv_return : forall m, In m (it_return s) -> mine p seed m;
  inv_tables : INITIAL_REPETITIONS <= length (it_tables s) /\
    forall r t, nth_error (it_tables s) r = Some t -> exists k, c_prefix (it_conf s) <= k <= K /\ t = p_table p r k;
  inv_next : forall d, it_next s = Some d -> exists m, mine p seed m /\ ml_extent m = d /\ is_nan d = false;
  inv_conf : c_rep (it_conf s) < length (it_tables s) /\ 1 <= c_prefix (it_conf s) <= K /\
    (forall pp, c_prev (it_conf s) = Some pp -> 1 <= pp <= K)
}.

Lemma emit_confirmed_ok p seed s : sound p -> inv p seed s ->
  exists s' new, emit_confirmed p s = Ret s' /\ inv p seed s' /\ it_return s' = it_return s ++ new /\
    it_conf s' = it_conf s /\ it_tables s' = it_tables s /\ it_candidates s' = it_candidates s /\
    (no_ties p seed -> accounted (it_top s) (it_top s') new).
Proof.
  intros Sd [(ops & V & Ho) Ib Iq Ir It In_ Ic]. unfold emit_confirmed.
  destruct (neighborhoods_ok p ops (it_graph s) (p_max_k p + 1) Ho V) as (g' & nbs & E & V' & Hn). rewrite E. cbn [bind].
  destruct (add_all_ok p seed nbs Sd Hn (it_top s) Iq) as (t1 & E1 & Q1 & SP). rewrite E1. cbn [bind].
  destruct (emit_queues_ok p seed (it_conf s) t1 (it_return s) Q1 Ir) as (t2 & new & E2 & Q2 & Hnew & Hacc). rewrite E2. cbn [bind].
  assert (HN : forall x, In x (next_distances t2) -> exists k t m, nth_error t2 k = Some t /\ In m (tk_top t) /\ ml_extent m = x).
  { intros x Hx. unfold next_distances in Hx. apply in_flat_map in Hx. destruct Hx as (t & Ht & Hx).
    apply In_nth_error in Ht. destruct Ht as (k & Hk). destruct (tk_sned t) as [d|] eqn:Es; [|destruct Hx].
    destruct Hx as [<-|[]]. destruct Q2 as [_ Q2]. destruct (q_sned p seed k t (Q2 k t Hk) d Es) as (m & Hm & Em). eauto 6. }
  destruct (min_distance_ok (next_distances t2)) as (nx & E3 & Hnx).
  { intros x Hx. destruct (HN x Hx) as (k & t & m & Hk & Hm & <-). destruct Q2 as [_ Q2].
    apply (proj1 (q_wf p seed k t (Q2 k t Hk)) m Hm). }
  rewrite E3. cbn [bind]. eexists. exists new. split; [reflexivity|]. split; [|split; [reflexivity|]; split; [reflexivity|]; split; [reflexivity|]; split; [reflexivity|];
    intros Ht; cbn [it_top]; apply (accounted_trans _ t1 _ [] new); [apply same_progress_accounted; [destruct Iq, Q1; congruence|exact SP]|apply Hacc; [apply Sd|exact Ht]]].
  split; cbn [it_graph it_buffer it_top it_return it_tables it_conf]; auto.
  - eexists. split; [exact V'|]. apply ops_ok_app; [exact Ho|]. intros ? ? ? [H|[]]. discriminate.
  - intros m Hm. apply in_app_or in Hm. destruct Hm; auto.
  - intros d Hd. cbn [it_next] in Hd. destruct (HN d (Hnx d Hd)) as (k & t & m & Hk & Hm & Em). exists m. destruct Q2 as [_ Q2].
    split; [apply (q_members p seed k t (Q2 k t Hk)); auto|]. split; [exact Em|]. rewrite <- Em. apply (proj1 (q_wf p seed k t (Q2 k t Hk)) m Hm).
Qed.

Lemma update_graph_mono p s : fmono (update_graph p s).
Proof.
  unfold update_graph. apply (fmono_bind (fun _ => Ret tt) (fun n _ => assert_ (c_rep (it_conf s) <? length (it_tables s)) _)); [apply fmono_const|].
  intros _. unfold assert_. destruct (_ <? _); [|apply fmono_const].
  apply (fmono_bind (fun _ => _) (fun n _ => _)); [apply fmono_const|]. intros th.
  apply (fmono_bind (fun _ => _) (fun n _ => _)); [apply fmono_const|]. intros t.
  apply (fmono_bind (fun n => _) (fun n _ => _)); [apply all_batches_mono|]. intros bs. apply fmono_const.
Qed.

(** C67 needs more: the edges given *)
Lemma update_graph_ok p seed s : sound p -> inv p seed s ->
  exists s' t k threshold batches positions new,
    returns (update_graph p s) s' /\ inv p seed s' /\
    it_top s' = it_top s /\ it_return s' = it_return s /\ it_conf s' = it_conf s /\ it_tables s' = it_tables s /\
    nth_error (it_tables s) (c_rep (it_conf s)) = Some t /\ t = p_table p (c_rep (it_conf s)) k /\ c_prefix (it_conf s) <= k <= K /\
    graph_threshold p s = Ret threshold /\
    returns (all_batches p t (it_conf s)) batches /\
    NoDup positions /\
    (forall x y, In (x, y) positions <->
       collide (fst t) (c_prefix (it_conf s)) x y /\ ~ in_last_bucket (fst t) (c_prefix (it_conf s)) x /\
       ~ seen_before (fst t) (c_prev (it_conf s)) (c_check (it_conf s)) x y /\ ~ trivial (snd t) (p_ez p) x y) /\
    Forall2 (report_of (snd t)) positions (concat batches) /\
    it_candidates s' = it_candidates s + count_all (p_coin p (it_conf s)) 0 batches /\
    (forall i b j ab d, nth_error batches i = Some b -> nth_error b j = Some ab -> p_coin p (it_conf s) i j = true ->
       p_zeucl_threshold p (N.to_nat (fst ab)) (N.to_nat (snd ab)) threshold = Some d -> is_finite d = true ->
       In (GInsert d (N.to_nat (fst ab)) (N.to_nat (snd ab))) new) /\
    ops_ok p new /\
    exists ops, graph_inv (p_n p) (p_ez p) ops (it_graph s) /\ graph_inv (p_n p) (p_ez p) (ops ++ [GReset] ++ new) (it_graph s') /\
    g_run (it_graph s) ([GReset] ++ new) = Ret (it_graph s', []) /\ (forall op, In op new -> exists d a b, op = GInsert d a b) /\
    (forall ab, In ab (concat batches) -> pair_ok p ab).
Proof.
  intros Sd [(ops & V & Ho) (Ib & Ibl) Iq Ir (It0 & It) In_ (Ic1 & Ic2 & Ic3)].
  destruct (nth_error (it_tables s) (c_rep (it_conf s))) as [t|] eqn:Et; [|apply nth_error_None in Et; lia].
  destruct (It _ _ Et) as (k & Hk & Ek).
  destruct (queues_get p seed (it_top s) (p_max_k p) Iq ltac:(lia)) as (tq & Eq & _ & _).
  set (threshold := match tk_kth_distance tq with Some d => d | None => f_inf end).
  destruct (all_batches_ok p (c_rep (it_conf s)) k (it_conf s) Sd ltac:(lia) Ic2 Ic3) as (bs & pos & R & Hl & Hp & ND & Char & F2).
  assert (V0 : graph_inv (p_n p) (p_ez p) (ops ++ [GReset]) (g_reset_updated (it_graph s))).
  { apply (graph_step (p_n p) (p_ez p) ops (it_graph s) GReset _ [] V); [|reflexivity].
    apply ops_ok_wf. apply ops_ok_app; [exact Ho|]. intros ? ? ? [H|[]]. discriminate. }
  assert (Ho0 : ops_ok p (ops ++ [GReset])) by (apply ops_ok_app; [exact Ho|]; intros ? ? ? [H|[]]; discriminate).
  destruct (use_batches_ok p (p_ez p) threshold (p_coin p (it_conf s)) Sd bs 0 (ops ++ [GReset]) (g_reset_updated (it_graph s)) (it_buffer s) (it_candidates s))
    as (g' & bf' & new & E & V' & On & Sn & B' & L' & R' & P'); auto.
  { intros b Hb. rewrite Ibl. apply Hl, Hb. }
  exists (Iter (it_top s) (it_next s) g' (it_return s) (it_tables s) bf' (it_conf s) (it_candidates s + count_all (p_coin p (it_conf s)) 0 bs)),
    t, k, threshold, bs, pos, new.
  split.
  { destruct R as (n0 & R). apply (fmono_returns _ n0); [apply update_graph_mono|].
    unfold update_graph. destruct (Nat.ltb_spec (c_rep (it_conf s)) (length (it_tables s))) as [_|]; [|lia]. cbn [assert_].
    unfold graph_threshold. rewrite Eq. cbn [bind]. fold threshold. rewrite (get_some _ _ _ Et). cbn [bind].
    rewrite Ek, R by lia. cbn [bind]. rewrite E. reflexivity. }
  split.
  { split; cbn [it_graph it_buffer it_top it_return it_tables it_conf]; auto; [|split; [exact B'|congruence]].
    exists ((ops ++ [GReset]) ++ new). split; [exact V'|]. apply ops_ok_app; assumption. }
  cbn [it_top it_return it_conf it_tables it_candidates it_graph].
  split; [reflexivity|]. split; [reflexivity|]. split; [reflexivity|]. split; [reflexivity|]. split; [reflexivity|]. split; [exact Ek|].
  split; [exact Hk|]. split; [unfold graph_threshold; rewrite Eq; reflexivity|]. split; [rewrite Ek; exact R|]. split; [exact ND|].
  split; [subst t; exact Char|]. split; [subst t; exact F2|]. split; [reflexivity|]. split; [exact P'|]. split; [exact On|].
  exists ops. split; [exact V|]. split; [rewrite app_assoc; exact V'|]. split; [|split; [exact Sn|exact Hp]].
  cbn [app g_run g_step bind]. rewrite R'. reflexivity.
Qed.
