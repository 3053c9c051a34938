(** C59, C60, C61, C62, C74, C75: the Python layer. *)
From Coq Require Import Floats.SpecFloat.
From Verif Require Import Base F64 OverlapsSpec Brute BruteSpec TopK Iterator IteratorSpec Python P_Brute P_Iterator.

Lemma pad_more {A} (k a b : nat) (x : A) : forall q, k <= a -> k <= b -> firstn k (q ++ repeat x a) = firstn k (q ++ repeat x b).
Proof.
  intros q. revert k. induction q as [|y q IH]; intros k La Lb.
  - cbn [app]. revert a b La Lb. induction k as [|k IH]; intros [|a] [|b] La Lb; try lia; [reflexivity..|]. cbn [repeat firstn]. f_equal. apply IH; lia.
  - destruct k as [|k]; [reflexivity|]. cbn [app firstn]. f_equal. apply IH; lia.
Qed.

(** * C60: the iterator over precomputed motiflets *)
(** Whatever the number of calls: the motiflets in order, each once, and then the end. *)
Theorem c60_protocol :
  forall (p : problem) (average : f64) (motiflets : list kmotiflet) (cbs : list (nat -> bool)) (fuel : nat),
    exists i, py_calls (py_next p average) cbs (BruteForce 0 motiflets) fuel =
      Ret (i, firstn (length cbs) (map PyItem motiflets ++ repeat PyEnd (length cbs))).
Proof.
  intros p average l cbs fuel.
  assert (G : forall cbs pos, exists i, py_calls (py_next p average) cbs (BruteForce pos l) fuel =
    Ret (i, firstn (length cbs) (map PyItem (skipn pos l) ++ repeat PyEnd (length cbs)))).
  { clear cbs. induction cbs as [|cb cbs IH]; intros pos; [eexists; reflexivity|]. cbn [py_calls py_next length].
    destruct (Nat.leb_spec (length l) pos) as [L|L].
    - destruct (IH pos) as (i & E). cbn [bind]. rewrite E. cbn [bind]. exists i.
      rewrite (skipn_all2 l) by exact L. cbn [map app firstn repeat]. reflexivity.
    - unfold get. destruct (nth_error l pos) as [m|] eqn:Em; [|apply nth_error_None in Em; lia]. cbn [bind].
      destruct (IH (pos + 1)) as (i & E). rewrite E. cbn [bind]. exists i.
      assert (Es : skipn pos l = m :: skipn (pos + 1) l).
      { clear - Em. revert pos Em. induction l as [|x l IH]; intros [|pos] Em; cbn in *; try discriminate; [congruence|apply IH, Em]. }
      rewrite Es. cbn [map app firstn]. rewrite (pad_more (length cbs) (S (length cbs))) with (b := length cbs) by lia. reflexivity. }
  exact (G cbs 0).
Qed.
Print Assumptions c60_protocol.
Example c60_case : exists i,
  py_calls (py_next two_pairs f_zero) [always; always; always; always] (BruteForce 0 [KMotiflet 2 [0; 4] d1 d2; KMotiflet 3 [0; 4; 8] d2 d1]) 0 =
  Ret (i, [PyItem (KMotiflet 2 [0; 4] d1 d2); PyItem (KMotiflet 3 [0; 4; 8] d2 d1); PyEnd; PyEnd]).
Proof. eexists. reflexivity. Qed.

(** * C62: conversion to motifs *)
Theorem c62_motif :
  forall m : contrasted,
    exists r, motif_of_motiflet m = Ret r /\ (r <> None <-> length (cm_indices m) = 2) /\
      forall motif, r = Some motif ->
        mf_a motif <= mf_b motif /\ Permutation [mf_a motif; mf_b motif] (cm_indices m) /\
        mf_distance motif = cm_extent m /\ mf_relative_contrast motif = cm_relative_contrast m.
Proof.
  intros [l e c]. unfold motif_of_motiflet. cbn [cm_indices cm_extent cm_relative_contrast].
  destruct l as [|x [|y [|z l]]]; cbn [length Nat.eqb negb get nth_error bind]; eexists; (split; [reflexivity|]); (split; [split; [congruence || reflexivity|discriminate || lia]|]); intros motif E; try discriminate.
  apply (f_equal (fun o => match o with Some a => a | None => motif end)) in E. subst motif. cbn [mf_a mf_b mf_distance mf_relative_contrast].
  split; [lia|]. split; [|split; reflexivity]. destruct (Nat.le_ge_cases x y); [rewrite Nat.min_l, Nat.max_r by lia; reflexivity|rewrite Nat.min_r, Nat.max_l by lia; apply perm_swap].
Qed.
Print Assumptions c62_motif.
Theorem c62_python_motif :
  forall m : kmotiflet,
    exists r, motif_of_kmotiflet m = Ret r /\ (r <> None <-> length (km_indices m) = 2) /\
      forall motif, r = Some motif ->
        pm_a motif <= pm_b motif /\ Permutation [pm_a motif; pm_b motif] (km_indices m) /\
        pm_distance motif = km_extent m /\ pm_relative_contrast motif = km_relative_contrast m.
Proof.
  intros [k l e c]. unfold motif_of_kmotiflet. cbn [km_indices km_extent km_relative_contrast].
  destruct l as [|x [|y [|z l]]]; cbn [length Nat.eqb negb get nth_error bind]; eexists; (split; [reflexivity|]); (split; [split; [congruence || reflexivity|discriminate || lia]|]); intros motif E; try discriminate.
  apply (f_equal (fun o => match o with Some a => a | None => motif end)) in E. subst motif. cbn [pm_a pm_b pm_distance pm_relative_contrast].
  split; [lia|]. split; [|split; reflexivity]. destruct (Nat.le_ge_cases x y); [rewrite Nat.min_l, Nat.max_r by lia; reflexivity|rewrite Nat.min_r, Nat.max_l by lia; apply perm_swap].
Qed.
Print Assumptions c62_python_motif.
Example c62_case :
  motif_of_motiflet (Contrasted [7; 3] d1 d2) = Ret (Some (MotifFull 3 7 d1 true d2)) /\
  motif_of_kmotiflet (KMotiflet 3 [7; 3; 12] d1 d2) = Ret None.
Proof. split; reflexivity. Qed.

(** * C75: every motiflet handed to Python is valid, on either path *)
(** the brute-force inputs are about the same series as the problem *)
Definition same_series (p : problem) (ts : series) (order : nat -> option (list nat)) (t : split) : Prop :=
  s_n ts = p_n p /\ s_zeucl ts = p_zeucl p /\ nonneg (s_zeucl ts) /\
  (forall from d, from < s_n ts -> distance_profile ts from = Ret d -> sort_outcome d (order from)) /\
  leaves t = seq 0 (s_n ts).
Lemma py_calls_enumerator p average fuel : forall cbs s i answers,
  py_calls (py_next p average) cbs (Enumerator s) fuel = Ret (i, answers) ->
  exists s' l, calls p cbs s fuel = Ret (s', l) /\ i = Enumerator s' /\
    answers = map (fun a => match a with Interrupted => PyInterrupted | Item m => PyItem (with_context (contrasted_new (ml_indices m) (ml_extent m) average)) | End => PyEnd end) l.
Proof.
  induction cbs as [|cb cbs IH]; intros s i answers E; cbn [py_calls calls py_next] in *.
  - apply Ret_inj in E. injection E as <- <-. exists s, []. auto.
  - destruct (next_interruptible p cb s fuel) as [(s1 & a)| |]; cbn [bind] in *; try discriminate.
    destruct (py_calls (py_next p average) cbs (Enumerator s1) fuel) as [(i1 & l1)| |] eqn:E1; cbn [bind] in E; try discriminate.
    apply Ret_inj in E. injection E as <- <-. destruct (IH s1 i1 l1 E1) as (s' & l & -> & -> & ->). cbn [bind]. exists s', (a :: l). auto.
Qed.
Lemma In_firstn_sub {A} (x : A) n l : In x (firstn n l) -> In x l.
Proof. revert n. induction l as [|y l IH]; intros [|n] H; cbn in *; try tauto. destruct H as [->|H]; [left; reflexivity|right; eapply IH, H]. Qed.
Theorem c75_valid :
  forall (p : problem) (a b : nat) (d : f64) (ts : series) (order : nat -> option (list nat)) (t : split) (average : f64) (threshold : nat)
         (cbs : list (nat -> bool)) (fuel : nat) (i0 i : pyiter) (answers : list (pyanswer kmotiflet)) (m : kmotiflet),
    sound p -> seed_ok p a b d -> same_series p ts order t ->
    py_new p a b d ts order t average threshold = Ret i0 ->
    py_calls (py_next p average) cbs i0 fuel = Ret (i, answers) ->
    In (PyItem m) answers ->
    km_support m = length (km_indices m) /\
    2 <= length (km_indices m) <= p_max_k p /\
    (forall x, In x (km_indices m) -> x < p_n p) /\
    pairwise_apart (p_ez p) (km_indices m) /\
    (max_pairwise (p_zeucl p) (km_indices m) (km_extent m) \/ (km_indices m = [a; b] /\ km_extent m = d)) /\
    km_relative_contrast m = SFdiv prec emax average (km_extent m).
Proof.
  intros p a b d ts order t average threshold cbs fuel i0 i answers m Sd So (En & Ez & Hpos & Hord & Hl) E0 Ec Hm.
  unfold py_new, assert_ in E0. destruct (_ <=? _); [|discriminate]. destruct (threshold <? p_n p).
  - destruct (iter_new p a b d) as [s| |] eqn:Ei; cbn [bind] in E0; try discriminate. apply Ret_inj in E0. subst i0.
    destruct (py_calls_enumerator _ _ _ _ _ _ _ Ec) as (s' & l & El & _ & ->). apply in_map_iff in Hm. destruct Hm as (x & Ex & Hx).
    destruct x as [|y|]; try discriminate. injection Ex as <-.
    destruct (c35_returned_motiflets_are_valid p a b d cbs fuel s' l y Sd So) as (V1 & V2 & V3 & V4).
    { unfold session. rewrite Ei. exact El. }
    { exact Hx. }
    cbn. split; [reflexivity|]. split; [exact V1|]. split; [exact V2|]. split; [exact V3|]. split; [|reflexivity].
    destruct V4 as [(_ & V4)| ->]; [left; exact V4|right; split; reflexivity].
  - destruct (brute_force_motiflets ts order (p_max_k p) (p_ez p) t) as [r| |] eqn:Er; cbn [bind] in E0; try discriminate. apply Ret_inj in E0. subst i0.
    match type of Ec with py_calls _ _ (BruteForce 0 ?l) _ = _ => destruct (c60_protocol p average l cbs fuel) as (i' & E') end.
    rewrite E' in Ec. apply Ret_inj in Ec. injection Ec as <- <-. apply In_firstn_sub, in_app_iff in Hm.
    destruct Hm as [Hm|Hm]; [|apply repeat_spec in Hm; discriminate]. apply in_map_iff in Hm. destruct Hm as (x & Ex & Hx). injection Ex as ->.
    apply in_map_iff in Hx. destruct Hx as ((e & l) & <- & Hin). cbn [km_support km_indices km_extent km_relative_contrast].
    destruct (proj1 (c19_motiflets_valid ts order (p_max_k p) (p_ez p) t r Hpos Hord Hl Er) e l Hin) as (V1 & V2 & V3 & V4 & V5).
    split; [reflexivity|]. split; [exact V1|]. split; [rewrite Forall_forall, En in V2; exact V2|]. split; [exact V3|]. split; [|reflexivity].
    left. rewrite <- Ez. exact V5.
Qed.
Print Assumptions c75_valid.

(** * C74: iterating over motifs *)
(** With support two, converting what the inner iterator returns never fails: the calls
    abort, spin or return exactly as those of the inner iterator do. *)
Theorem c74_motifs :
  forall (p : problem) (a b : nat) (d : f64) (ts : series) (order : nat -> option (list nat)) (t : split) (average : f64) (threshold : nat)
         (cbs : list (nat -> bool)) (fuel : nat) (i0 i : pyiter) (answers : list (pyanswer kmotiflet)),
    p_max_k p = 2 ->
    sound p -> seed_ok p a b d -> same_series p ts order t ->
    py_new p a b d ts order t average threshold = Ret i0 ->
    py_calls (py_next p average) cbs i0 fuel = Ret (i, answers) ->
    exists motifs, py_calls (py_next_motif p average) cbs i0 fuel = Ret (i, motifs) /\
      Forall2 (fun x y => match x, y with
        | PyItem m, PyItem motif => km_indices m = [pm_a motif; pm_b motif] \/ km_indices m = [pm_b motif; pm_a motif]
        | PyInterrupted, PyInterrupted | PyEnd, PyEnd => True
        | _, _ => False end) answers motifs.
Proof.
  intros p a b d ts order t average threshold cbs fuel i0 i answers K2 Sd So Hs E0 Ec.
  assert (V : forall m, In (PyItem m) answers -> length (km_indices m) = 2).
  { intros m Hm. destruct (c75_valid _ _ _ _ _ _ _ _ _ _ _ _ _ _ _ Sd So Hs E0 Ec Hm) as (_ & L & _). lia. }
  clear E0. revert i0 i answers Ec V. induction cbs as [|cb cbs IH]; intros i0 i answers Ec V; cbn [py_calls] in *.
  - apply Ret_inj in Ec. injection Ec as <- <-. exists []. split; [reflexivity|constructor].
  - unfold py_next_motif at 1. destruct (py_next p average cb i0 fuel) as [(i1 & x)| |]; cbn [bind] in *; try discriminate.
    destruct (py_calls (py_next p average) cbs i1 fuel) as [(i2 & l)| |] eqn:E1; cbn [bind] in Ec; try discriminate.
    apply Ret_inj in Ec. injection Ec as <- <-. destruct (IH i1 i2 l E1) as (motifs & Em & F); [intros m Hm; apply V; right; exact Hm|].
    destruct x as [|m|]; cbn [bind].
    + rewrite Em. cbn [bind]. eexists. split; [reflexivity|]. constructor; [exact I|exact F].
    + destruct (c62_python_motif m) as (r & Er & Hr & Hm). rewrite Er. cbn [bind].
      destruct r as [motif|]; [|exfalso; apply (proj2 Hr); [apply V; left; reflexivity|reflexivity]]. cbn [bind]. rewrite Em. cbn [bind].
      eexists. split; [reflexivity|]. constructor; [|exact F]. destruct (Hm motif eq_refl) as (_ & P & _).
      apply Permutation_length_2_inv in P. exact P.
    + rewrite Em. cbn [bind]. eexists. split; [reflexivity|]. constructor; [exact I|exact F].
Qed.
Print Assumptions c74_motifs.

(** * C59: several motiflets per support *)
(** The same series, with the same parameters: two motiflets of support two above the
    threshold for brute force, one below. *)
Definition pairs_series : series := Series 17 (fun _ => false) pairs_distance pairs_distance.
Definition pairs_order (from : nat) : option (list nat) :=
  Some (insertion_sort (fun z => if z =? from then f_zero else pairs_distance from z) 17).
Lemma pairs_order_ok from d : from < 17 -> distance_profile pairs_series from = Ret d -> sort_outcome d (pairs_order from).
Proof.
  intros L E. do 17 (destruct from as [|from];
    [vm_compute in E; apply Ret_inj in E; subst d; apply sort_outcome_check; vm_compute; reflexivity|]). lia.
Qed.
Lemma pairs_same : same_series two_pairs pairs_series pairs_order (Leaf (seq 0 17)).
Proof.
  split; [reflexivity|]. split; [reflexivity|]. split.
  - intros x y _. cbn [pairs_series s_zeucl]. destruct (pairs_distance_cases x y) as [->|[->| ->]]; reflexivity.
  - split; [|reflexivity]. intros from d L. apply pairs_order_ok. exact L.
Qed.
Theorem c59_small_series_refuted :
  exists (p : problem) (a b : nat) (d average : f64) (ts : series) (order : nat -> option (list nat)) (t : split) (cbs : list (nat -> bool)) (fuel : nat)
         (i j i' j' : pyiter) (x y z : kmotiflet),
    sound p /\ seed_ok p a b d /\ d = p_zeucl p a b /\ same_series p ts order t /\ p_top_k p = 2 /\
    py_new p a b d ts order t average 10 = Ret i /\
    py_calls (py_next p average) cbs i fuel = Ret (i', [PyItem x; PyItem y; PyEnd]) /\
    km_support x = 2 /\ km_support y = 2 /\ km_indices x <> km_indices y /\
    py_new p a b d ts order t average 1000 = Ret j /\
    py_calls (py_next p average) cbs j fuel = Ret (j', [PyItem z; PyEnd; PyEnd]) /\ km_support z = 2.
Proof.
  exists two_pairs, 8, 12, (fl 2), (fl 5), pairs_series, pairs_order, (Leaf (seq 0 17)), [always; always; always], 30.
  do 7 eexists. split; [exact two_pairs_sound|]. split; [repeat split; cbn; try lia; unfold too_close; lia|]. split; [reflexivity|]. split; [exact pairs_same|].
  split; [reflexivity|]. split; [vm_compute; reflexivity|]. split; [vm_compute; reflexivity|]. split; [reflexivity|]. split; [reflexivity|].
  split; [discriminate|]. split; [vm_compute; reflexivity|]. split; [vm_compute; reflexivity|reflexivity].
Qed.
Print Assumptions c59_small_series_refuted.
(** On a small series at most one motiflet of each support is returned, in the order of the
    supports, whatever [top_k] is.  Missing: the others, for a larger [top_k]. *)
Theorem c59_one_per_support_partial :
  forall (p : problem) (a b : nat) (d average : f64) (ts : series) (order : nat -> option (list nat)) (t : split) (threshold : nat)
         (cbs : list (nat -> bool)) (fuel : nat) (i0 i : pyiter) (answers : list (pyanswer kmotiflet)),
    same_series p ts order t -> p_n p <= threshold ->
    py_new p a b d ts order t average threshold = Ret i0 ->
    py_calls (py_next p average) cbs i0 fuel = Ret (i, answers) ->
    forall x y m m', x < y -> nth_error answers x = Some (PyItem m) -> nth_error answers y = Some (PyItem m') ->
      2 <= km_support m < km_support m' /\ km_support m' <= p_max_k p /\ fle (km_extent m) (km_extent m') = true.
Proof.
  intros p a b d average ts order t threshold cbs fuel i0 i answers (En & Ez & Hpos & Hord & Hl) Ln E0 Ec x y m m' L Ex Ey.
  unfold py_new, assert_ in E0. destruct (_ <=? _); [|discriminate]. replace (threshold <? p_n p) with false in E0 by lia.
  destruct (brute_force_motiflets ts order (p_max_k p) (p_ez p) t) as [r| |] eqn:Er; cbn [bind] in E0; try discriminate. apply Ret_inj in E0. subst i0.
  match type of Ec with py_calls _ _ (BruteForce 0 ?l) _ = _ => destruct (c60_protocol p average l cbs fuel) as (i' & E') end.
  rewrite E' in Ec. apply Ret_inj in Ec. injection Ec as _ <-.
  destruct (c19_motiflets_valid ts order (p_max_k p) (p_ez p) t r Hpos Hord Hl Er) as (V & O).
  assert (G : forall k q, nth_error (firstn (length cbs) (map PyItem (map (fun '(extent, indices) => KMotiflet (length indices) indices extent (SFdiv prec emax average extent)) r) ++ repeat PyEnd (length cbs))) k = Some (PyItem q) ->
    exists e l, nth_error r k = Some (e, l) /\ q = KMotiflet (length l) l e (SFdiv prec emax average e)).
  { intros k q H. assert (Lk : k < length cbs).
    { assert (Hn : nth_error (firstn (length cbs) (map PyItem (map (fun '(extent, indices) => KMotiflet (length indices) indices extent (SFdiv prec emax average extent)) r) ++ repeat PyEnd (length cbs))) k <> None) by congruence.
      apply nth_error_Some in Hn. rewrite firstn_length in Hn. lia. }
    rewrite nth_error_firstn in H by exact Lk.
    destruct (Nat.lt_ge_cases k (length r)) as [Lr|Lr].
    - rewrite nth_error_app1 in H by (rewrite !map_length; exact Lr). rewrite map_map, nth_error_map in H.
      destruct (nth_error r k) as [(e & l)|] eqn:Ee; cbn [option_map] in H; [|discriminate]. exists e, l. split; [reflexivity|]. congruence.
    - rewrite nth_error_app2 in H by (rewrite !map_length; exact Lr). apply nth_error_In, repeat_spec in H. discriminate H. }
  destruct (G x m Ex) as (e & l & E1 & ->). destruct (G y m' Ey) as (e' & l' & E2 & ->). cbn [km_support km_extent].
  destruct (O x y e e' l l' L E1 E2) as (O1 & O2). apply nth_error_In in E1, E2.
  destruct (V e l E1) as (V1 & _). destruct (V e' l' E2) as (V2 & _). split; [lia|]. split; [lia|exact O2].
Qed.
Print Assumptions c59_one_per_support_partial.
Example c59_case : exists i j z,
  same_series two_pairs pairs_series pairs_order (Leaf (seq 0 17)) /\ p_n two_pairs <= 1000 /\
  py_new two_pairs 8 12 (fl 2) pairs_series pairs_order (Leaf (seq 0 17)) (fl 5) 1000 = Ret i /\
  py_calls (py_next two_pairs (fl 5)) [always; always] i 30 = Ret (j, [PyItem z; PyEnd]) /\ km_support z = 2.
Proof.
  do 3 eexists. split; [exact pairs_same|]. split; [apply Nat.leb_le; vm_compute; reflexivity|]. split; [vm_compute; reflexivity|].
  split; [vm_compute; reflexivity|reflexivity].
Qed.
Example c75_case : exists i j answers,
  py_new two_pairs 8 12 (fl 2) pairs_series pairs_order (Leaf (seq 0 17)) (fl 5) 10 = Ret i /\
  py_calls (py_next two_pairs (fl 5)) [always; always] i 30 = Ret (j, answers) /\ length answers = 2 /\ same_series two_pairs pairs_series pairs_order (Leaf (seq 0 17)).
Proof. do 3 eexists. split; [vm_compute; reflexivity|]. split; [vm_compute; reflexivity|]. split; [reflexivity|exact pairs_same]. Qed.
Example c74_case : exists i j x y,
  py_new two_pairs 8 12 (fl 2) pairs_series pairs_order (Leaf (seq 0 17)) (fl 5) 10 = Ret i /\ p_max_k two_pairs = 2 /\
  py_calls (py_next_motif two_pairs (fl 5)) [always; always] i 30 = Ret (j, [PyItem x; PyItem y]) /\ (pm_a x, pm_b x) = (8, 12) /\ (pm_a y, pm_b y) = (0, 4).
Proof. do 4 eexists. split; [vm_compute; reflexivity|]. split; [reflexivity|]. split; [vm_compute; reflexivity|]. split; reflexivity. Qed.

(** * C91: what the constructor accepts *)
(** An accepted support fits: there is room for that many windows without overlaps.  A series
    with fewer windows than [support] exclusion zones is refused, whatever else is passed. *)
Theorem c91_accepted_fits :
  forall (p : problem) (a b : nat) (d : f64) (ts : series) (order : nat -> option (list nat)) (t : split) (average : f64) (threshold : nat) (i : pyiter),
    1 <= p_ez p -> py_new p a b d ts order t average threshold = Ret i ->
    exists l, length l = p_max_k p /\ (forall x, In x l -> x < p_n p) /\ pairwise_apart (p_ez p) l.
Proof.
  intros p a b d ts order t average threshold i Hez E. unfold py_new, assert_ in E. destruct (Nat.leb_spec (p_max_k p * p_ez p) (p_n p)) as [L|L]; [|discriminate]. clear E.
  exists (map (fun x => x * p_ez p) (seq 0 (p_max_k p))). split; [rewrite map_length, seq_length; reflexivity|]. split.
  - intros x Hx. apply in_map_iff in Hx. destruct Hx as (y & <- & Hy). apply in_seq in Hy. nia.
  - intros x y u v Lt Ex Ey. rewrite nth_error_map in Ex, Ey.
    destruct (nth_error (seq 0 (p_max_k p)) x) as [x'|] eqn:E1; [|discriminate]. destruct (nth_error (seq 0 (p_max_k p)) y) as [y'|] eqn:E2; [|discriminate].
    injection Ex as <-. injection Ey as <-.
    assert (Vx : x < p_max_k p) by (rewrite <- (seq_length (p_max_k p) 0); apply nth_error_Some; congruence).
    assert (Vy : y < p_max_k p) by (rewrite <- (seq_length (p_max_k p) 0); apply nth_error_Some; congruence).
    apply nth_error_nth with (d := 0) in E1, E2. rewrite seq_nth in E1, E2 by assumption. subst x' y'. unfold too_close. cbn [Nat.add]. nia.
Qed.
Print Assumptions c91_accepted_fits.
Theorem c91_refused :
  forall (p : problem) (a b : nat) (d : f64) (ts : series) (order : nat -> option (list nat)) (t : split) (average : f64) (threshold : nat),
    p_n p < p_max_k p * p_ez p -> py_new p a b d ts order t average threshold = Panic.
Proof. intros p a b d ts order t average threshold L. unfold py_new, assert_. replace (p_max_k p * p_ez p <=? p_n p) with false by lia. reflexivity. Qed.
Print Assumptions c91_refused.
Example c91_case : (exists i, py_new two_pairs 8 12 (fl 2) pairs_series pairs_order (Leaf (seq 0 17)) (fl 5) 10 = Ret i) /\ 1 <= p_ez two_pairs /\ p_max_k two_pairs = 2.
Proof. split; [eexists; vm_compute; reflexivity|]. split; [cbn; lia|reflexivity]. Qed.

(** * C61: plotting *)
Lemma step_by_nth {A} k : 1 <= k -> forall (l : list A) skip m, nth_error (step_by k skip l) m = nth_error l (skip + m * k).
Proof.
  intros Hk. induction l as [|a l IH]; intros skip m; cbn [step_by].
  - destruct m, (skip + _ * k); reflexivity.
  - destruct skip as [|skip]; [|cbn [Nat.add nth_error]; apply IH].
    destruct m as [|m]; [reflexivity|]. cbn [nth_error]. rewrite IH. replace (0 + S m * k) with (S (k - 1 + m * k)) by nia. reflexivity.
Qed.
Lemma step_by_length {A} k : 1 <= k -> forall (l : list A) m, m < length (step_by k 0 l) <-> m * k < length l.
Proof. intros Hk l m. rewrite <- !nth_error_Some, step_by_nth by exact Hk. reflexivity. Qed.
(** [kept] lists the positions of the samples that are drawn.  Each marker is the place in
    the drawing of the last of them at or before the position it stands for. *)
Theorem c61_plot :
  forall (A : Type) (limit : nat) (data : list A) (indices : list nat),
    1 <= limit -> (forall i, In i indices -> i < length data) ->
    exists drawn markers (kept : nat -> nat), downsample limit data indices = Ret (drawn, markers) /\
      length drawn < 2 * limit /\ (length data <= limit -> drawn = data /\ markers = indices) /\
      (forall m, m < length drawn -> nth_error drawn m = nth_error data (kept m)) /\
      Forall2 (fun i m => m < length drawn /\ kept m <= i /\ forall m', m < m' -> i < kept m') indices markers.
Proof.
  intros A limit data indices Hl Hi. unfold downsample. destruct (Nat.ltb_spec limit (length data)) as [L|L].
  - assert (K : 1 <= length data / limit) by (apply Nat.div_le_lower_bound; lia).
    unfold assert_. replace (limit =? 0) with false by lia. replace (length data / limit =? 0) with false by lia. cbn [negb].
    set (k := length data / limit) in *.
    exists (step_by k 0 data), (map (fun i => i / k) indices), (fun m => m * k). split; [reflexivity|]. split.
    { destruct (Nat.lt_ge_cases (length (step_by k 0 data)) (2 * limit)) as [|G]; [assumption|]. exfalso.
      assert (H : (2 * limit - 1) * k < length data) by (apply step_by_length; lia).
      pose proof (Nat.div_mod (length data) limit ltac:(lia)) as D. fold k in D. pose proof (Nat.mod_upper_bound (length data) limit ltac:(lia)). nia. }
    split; [lia|]. split; [intros m _; apply step_by_nth; exact K|].
    clear L. induction indices as [|i q IH]; cbn [map]; constructor; [|apply IH; intros x Hx; apply Hi; right; exact Hx].
    specialize (Hi i ltac:(left; reflexivity)). pose proof (Nat.div_mod i k ltac:(lia)) as D. pose proof (Nat.mod_upper_bound i k ltac:(lia)).
    split; [apply step_by_length; [exact K|nia]|]. split; [nia|]. intros m' Lm. nia.
  - exists data, indices, (fun m => m). split; [reflexivity|]. split; [lia|]. split; [auto|]. split; [reflexivity|].
    clear L. induction indices as [|i q IH]; constructor; [|apply IH; intros x Hx; apply Hi; right; exact Hx].
    specialize (Hi i ltac:(left; reflexivity)). split; [exact Hi|]. split; [lia|auto].
Qed.
Print Assumptions c61_plot.
Example c61_plot_case : downsample 4 [10; 11; 12; 13; 14; 15; 16; 17; 18; 19; 20; 21; 22; 23] [1; 7; 13] = Ret ([10; 13; 16; 19; 22], [0; 2; 4]).
Proof. reflexivity. Qed.
