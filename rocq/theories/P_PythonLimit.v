(** C148: the limit on collisions of the Python class.
    Specification: [window_pairs] (the pairs of windows, P_Windows.v).  Model: FloatPython.v, Iterator.v. *)
From Coq Require Import Permutation String.
From Coq Require Import Reals Lra Lia Floats.SpecFloat.
From Flocq Require Import Core BinarySingleNaN.
From Verif Require Import Base Overlaps OverlapsSpec OverlapsProofs F64 RSpec RealProofs SeriesProofs FFT FFTProofs SamplingSpec Sampling SamplingProofs TopK Iterator IteratorSpec IteratorSteps Hashing HashingSpec HashValue HashSpec EnumSpec Brute BruteSpec Text TextSpec P_Text Python Main MainSpec P_Main P_Brute P_Python P_Iterator GuaranteeSpec P_Guarantee
  FpOps FloatSeries FloatSpec FloatProofs FloatBound FloatErr FloatMean FloatTerm FloatRoll FloatPair P_Float P_Float2 P_Acc P_Acc2 AccSpec P_Acc3 P_Acc4 P_Acc5 FloatHash ProjSpec P_Proj P_Prof FloatBrute BruteAccSpec P_Brute64 P_Hashing P_Width64 FloatRun P_Run64 FloatSample P_Seed64 P_Avg64 FloatWidth FloatStart FloatMain Decimal P_Decimal P_Whole P_Whole2
  Profile ProfileProofs P_Start P_Starts P_Own FloatPython P_Python64
  MainProofs Counts P_Windows P_Limit IteratorLoop IteratorCalls GuaranteeSpec IteratorProofs IteratorSteps P_Iterator .
From Verif Require P_Budget2.
Import FpOps.
Local Open Scope list_scope.
Local Open Scope R_scope.

Lemma flimit_eq checks n fraction : (1 <= n)%nat -> (N.of_nat n <= 2 ^ 27)%N ->
  flimit checks n fraction = Ret (limit_of (N.of_nat (length (window_pairs n))) fraction) /\ (N.of_nat (length (window_pairs n)) <= 2 ^ 53)%N.
Proof.
  intros L1 L. pose proof (window_pairs_length n) as Q. pose proof (pairs_small _ L) as B.
  assert (P : (N.of_nat n * (N.of_nat n - 1) / 2 = N.of_nat (length (window_pairs n)))%N).
  { symmetry. apply (N.div_unique _ _ _ 0); [reflexivity|]. nia. }
  rewrite P in B. split; [|exact B]. unfold flimit, usize_sub. rewrite (proj2 (N.leb_le _ _)) by lia. cbn [bind]. unfold usize_mul.
  assert (M : (N.of_nat n * (N.of_nat n - 1) < 2 ^ 64)%N).
  { apply N.le_lt_trans with (2 ^ 27 * 2 ^ 27)%N; [apply N.mul_le_mono; lia|reflexivity]. }
  rewrite (proj2 (N.leb_gt _ _)) by exact M. rewrite andb_false_r. cbn [bind]. rewrite N.mod_small by exact M. rewrite P. reflexivity.
Qed.

(** A call past the limit compares no pair of windows and builds no table *)
Lemma next_idle p cb s fuel s' x : p_stop p = true -> (p_threshold p < it_candidates s)%nat ->
  next_interruptible p cb s fuel = Ret (s', x) -> it_candidates s' = it_candidates s /\ it_tables s' = it_tables s.
Proof.
  intros Hs Ht E. unfold next_interruptible in E.
  destruct fuel as [|fuel]; [discriminate|]. cbn [loop] in E. unfold loop_body in E at 1.
  assert (P : forall t t' o, pop t = (t', o) -> it_candidates t' = it_candidates t /\ it_tables t' = it_tables t).
  { intros t t' o Ep. unfold pop in Ep. destruct (rev (it_return t)); injection Ep as <- <-; split; reflexivity. }
  destruct (it_return s) as [|m r] eqn:R.
  - destruct (negb (cb 0%nat)); [apply Ret_inj in E; injection E as <- <-; auto|].
    destruct (forallb _ _); [apply Ret_inj in E; injection E as <- <-; auto|].
    rewrite (proj2 (Nat.ltb_lt _ _) Ht), Hs in E. cbn [andb] in E.
    destruct (emit_everything s) as [t| |] eqn:Em; cbn [bind] in E; try discriminate.
    assert (Q : it_candidates t = it_candidates s /\ it_tables t = it_tables s).
    { unfold emit_everything in Em. destruct (foreach _ _ _) as [[top ret]| |]; cbn [bind] in Em; try discriminate. apply Ret_inj in Em. subst t. auto. }
    destruct (pop t) as [t' o] eqn:Ep. apply Ret_inj in E. injection E as <- <-. destruct (P _ _ _ Ep). destruct Q. split; congruence.
  - destruct (pop s) as [t' o] eqn:Ep. apply Ret_inj in E. injection E as <- <-. exact (P _ _ _ Ep).
Qed.

(** * C148 *)
(** An object that searches, after any calls.  There is a number [limit], the given fraction of
    the pairs of windows rounded down, up to one rounding, with the following effect.  If the
    caller asked to stop, then once more than [limit] pairs collided and were counted, no call
    counts another one or builds another table.  *)
Theorem c148_limit :
  forall (checks : bool) (a : arguments) (n_w : world) (ts : list f64) (fuel : nat) (y : pyobject)
         (cbs : list (nat -> bool)) (fuel' : nat) (i : pyiter) (answers : list (pyanswer kmotiflet)),
    (a_brute_force_threshold a < length ts - a_w a)%nat -> (N.of_nat (length ts - a_w a) <= 2 ^ 27)%N ->
    number (a_fraction_threshold a) -> 0 <= fval (a_fraction_threshold a) <= 1 ->
    fpy_new checks a n_w ts fuel = Ret y -> fpy_calls y cbs fuel' = Ret (i, answers) ->
    exists (s : iter) (limit : nat), i = Enumerator s /\
      (let pairs := INR (length (window_pairs (length ts - a_w a))) in
       fval (a_fraction_threshold a) * pairs - 1 - pairs / 2 ^ 53 < INR limit <= fval (a_fraction_threshold a) * pairs + pairs / 2 ^ 53) /\
      (a_stop_on_threshold a = true -> (limit < it_candidates s)%nat ->
         forall more fuel'' i' answers', fpy_calls (PyObject (o_series y) (o_problem y) (o_average y) i) more fuel'' = Ret (i', answers') ->
           exists s', i' = Enumerator s' /\ it_candidates s' = it_candidates s /\ it_tables s' = it_tables s).
Proof.
  intros checks a n_w ts fuel y cbs fuel' i answers Hb Ln Nf F Ey Ec.
  unfold fpy_new in Ey. destruct (fseries_new (n_zeros n_w) ts (a_w a) false) as [se| |] eqn:Es; cbn [bind] in Ey; try discriminate.
  pose proof (P_Budget2.new_windows _ _ _ _ _ Es) as Hn. rewrite Hn in Ey. unfold assert_ in Ey. destruct (_ <=? _)%nat; [|discriminate].
  destruct (flimit_eq checks (length ts - a_w a) (a_fraction_threshold a) ltac:(lia) Ln) as (El & Bp). rewrite El in Ey. cbn [bind] in Ey.
  rewrite (proj2 (Nat.ltb_lt _ _) Hb) in Ey. set (lim := limit_of _ _) in *.
  destruct (fpy_memory checks a n_w) as [memory| |]; cbn [bind] in Ey; try discriminate.
  destruct (ffft_new _ _ _); cbn [bind] in Ey; try discriminate.
  destruct (findex_width _ _ _ _ _ _ _ _ _ _ _) as [width| |]; cbn [bind] in Ey; try discriminate.
  destruct (faverage_pairwise_distance _ _ _ _ _ _) as [average| |]; cbn [bind] in Ey; try discriminate.
  destruct (fnearest_neighbor_distance_stats _ _ _ _ _ _ _) as [[[minimum av] [u v]]| |]; cbn [bind] in Ey; try discriminate.
  destruct (iter_new _ _ _ _) as [it| |] eqn:Ei; cbn [bind] in Ey; try discriminate. apply Ret_inj in Ey. subst y.
  unfold fpy_calls in Ec. cbn [o_problem o_average o_iter o_series] in *.
  set (p := fpy_search a n_w se width memory lim) in *.
  assert (Ps : p_stop p = a_stop_on_threshold a) by reflexivity. assert (Pt : p_threshold p = N.to_nat lim) by reflexivity. clearbody p.
  assert (En : forall cbs s fuel i answers, py_calls (py_next p average) cbs (Enumerator s) fuel = Ret (i, answers) -> exists s', i = Enumerator s').
  { clear. induction cbs as [|cb cbs IH]; intros s fuel i answers E; cbn [py_calls] in E; [apply Ret_inj in E; injection E as <- <-; eauto|].
    cbn [py_next] in E. destruct (next_interruptible p cb s fuel) as [[s1 x]| |]; cbn [bind] in E; try discriminate.
    destruct (py_calls _ _ _ _) as [[i1 l]| |] eqn:E1; cbn [bind] in E; try discriminate. apply Ret_inj in E. injection E as <- <-. eapply IH, E1. }
  destruct (En _ _ _ _ _ Ec) as (s & ->). exists s, (N.to_nat lim). split; [reflexivity|]. split.
  - cbv zeta. set (n := length (window_pairs (length ts - a_w a))) in *. clearbody n.
    destruct (product (N.of_nat n) (a_fraction_threshold a) Bp Nf F) as (N & _ & (V0 & V1) & A).
    assert (Eq : IZR (Z.of_N (N.of_nat n)) = INR n) by (rewrite nat_N_Z, <- INR_IZR_INZ; reflexivity). rewrite Eq in *.
    assert (T : INR n < IZR (2 ^ 64)) by (rewrite <- Eq; apply IZR_lt; lia).
    pose proof (as_usize_floor _ N ltac:(lra)) as (G1 & G2). fold (limit_of (N.of_nat n) (a_fraction_threshold a)) in G1, G2. fold lim in G1, G2.
    replace (INR (N.to_nat lim)) with (IZR (Z.of_N lim)) by (rewrite INR_IZR_INZ, N_nat_Z; reflexivity).
    apply Rabs_le_inv in A. replace (INR n / 2 ^ 53) with (INR n * bpow radix2 (-53)).
    + set (e := INR n * bpow radix2 (-53)) in *. clearbody e. rewrite (Rmult_comm (fval (a_fraction_threshold a))). lra.
    + unfold Rdiv. f_equal. change (bpow radix2 (-53)) with (/ IZR (2 ^ 53)). f_equal. rewrite pow_IZR. f_equal.
  - intros Hs Hl. rewrite Hs in Ps. rewrite <- Pt in Hl. intros more fuel''. unfold fpy_calls. cbn [o_problem o_average o_iter].
    clear Ec. revert s Hl. induction more as [|cb more IH]; intros s Hl i' answers' E; cbn [py_calls] in E.
    + apply Ret_inj in E. injection E as <- <-. eauto.
    + cbn [py_next] in E. destruct (next_interruptible p cb s fuel'') as [[s1 x]| |] eqn:E1; cbn [bind] in E; try discriminate.
      destruct (py_calls _ _ _ _) as [[i1 l]| |] eqn:E2; cbn [bind] in E; try discriminate. apply Ret_inj in E. injection E as <- <-.
      destruct (next_idle p cb s fuel'' s1 x Ps Hl E1) as (C1 & C2). destruct (IH s1 ltac:(rewrite C1; exact Hl) i1 l E2) as (s' & -> & D1 & D2).
      exists s'. split; [reflexivity|]. split; congruence.
Qed.
Print Assumptions c148_limit.

(** Without a request to stop, and asked for one motiflet of each support, an object that has
    ended has handed out exactly one of each support, whatever the limit. *)
Theorem c148_complete_partial :
  forall (checks : bool) (a : arguments) (n_w : world) (ts : list f64) (s : fseries) (e : Z) (eps err gap : R) (fuel : nat)
         (y : pyobject) (cbs : list (nat -> bool)) (i : pyiter) (answers : list (pyanswer kmotiflet)),
    python_series a n_w ts s e eps -> python_search a n_w ts s eps err gap ->
    (a_brute_force_threshold a < length ts - a_w a)%nat -> a_stop_on_threshold a = false -> a_top_k a = 1%nat ->
    fpy_new checks a n_w ts fuel = Ret y -> fpy_calls y cbs fuel = Ret (i, answers ++ [PyEnd]) ->
    forall k, (2 <= k <= a_support a)%nat ->
      length (filter (fun x => match x with PyItem m => length (km_indices m) =? k | _ => false end)%nat answers) = 1%nat.
Proof.
  intros checks a n_w ts s e eps err gap fuel y cbs i answers Ps Pq Big Hs Ht Ey Ec k Lk.
  destruct (py_started checks a n_w ts s e eps fuel Ps y Big Ey) as (width & memory & limit & minimum & av & u & v & it & _ & Ep & Ei & _ & En & Eit).
  unfold fpy_calls in Ec. rewrite Ei in Ec. destruct (py_calls_enumerator _ _ _ _ _ _ _ Ec) as (s' & l & El & _ & Ea). rewrite Ep in El.
  pose proof (py_whole a n_w ts s e eps err gap Ps width memory limit Pq) as Ws.
  destruct (c127_search _ ts _ false _ (n_sdp n_w) (n_exp n_w) _ _ _ Ws) as (Sd & So). change (fsearch _ _ _ _ _ _ _) with (fpy_search a n_w s width memory limit) in Sd, So.
  assert (Sk : seed_ok (fpy_search a n_w s width memory limit) u v minimum).
  { destruct (py_seed a n_w ts s e eps err gap fuel Ps minimum av u v Pq En) as (La & Lb & Na & _ & _ & ((Nd & _) & _)).
    unfold seed_ok. rewrite (so_n _ _ _ _ _ So). split; [exact La|]. split; [exact Lb|]. split; [exact Na|]. apply number_not_nan, Nd. }
  set (p := fpy_search a n_w s width memory limit) in *.
  assert (Hp : p_stop p = false /\ p_top_k p = 1%nat /\ p_max_k p = a_support a) by (split; [exact Hs|split; [exact Ht|reflexivity]]).
  destruct Hp as (Hp & Hk & Hm). clearbody p. clear So Ws.
  (* the last answer is the end *)
  assert (X : exists l0, l = l0 ++ [End] /\ answers = map (fun a => match a with Interrupted => PyInterrupted | Item m => PyItem (with_context (contrasted_new (ml_indices m) (ml_extent m) (o_average y))) | End => PyEnd end) l0).
  { destruct (exists_last (l := l)) as (l0 & x & ->); [intros ->; destruct answers; discriminate|]. rewrite map_app in Ea. cbn [map] in Ea.
    apply app_inj_tail in Ea. destruct Ea as (-> & Ex). destruct x; try discriminate. exists l0. auto. }
  destruct X as (l0 & -> & ->).
  assert (Q : session p u v minimum cbs fuel = Ret (s', l0 ++ [End])) by (unfold session; rewrite Eit; exact El).
  assert (NT : no_ties p (Motiflet [u; v] minimum)) by (split; [cbn; lia|left; lia]).
  destruct (session_account p u v minimum _ fuel s' _ Sd Sk NT Q) as (I & A). specialize (A k).
  destruct (calls_last p _ it fuel s' l0 El) as (s1 & cb & N).
  destruct (next_end p cb s1 fuel s' End Hp N eq_refl) as (Er & C). rewrite Er, app_nil_r in A.
  destruct (reachable_trace p u v minimum s') as (h & T); [eexists; eexists; eexists; exact Q|].
  destruct (enabled p u v minimum _ k Hp (proj1 Lk) T) as (s2 & h2 & Eq & Ne). injection Eq as <- <-.
  destruct (inv_queues _ _ _ I) as [Lt Qs]. destruct (nth_error (it_top s') k) as [t|] eqn:Et; [|apply nth_error_None in Et; lia].
  rewrite forallb_forall in C. specialize (C t (nth_error_In _ _ Et)). unfold tk_is_complete in C. rewrite (Ne t eq_refl) in C. cbn [orb] in C. apply Nat.eqb_eq in C.
  unfold emitted_at in A. rewrite Et in A. apply Permutation_length in A. rewrite C, (q_k _ _ _ _ (Qs k t Et)), Hk in A. rewrite A.
  clear. induction l0 as [|x l0 IH]; [reflexivity|]. destruct x as [|m|]; cbn in *; try exact IH.
  unfold of_support in *. cbn [filter] in *. destruct (_ =? k)%nat; cbn [length]; rewrite IH; reflexivity.
Qed.
Print Assumptions c148_complete_partial.
(** The series of C136, a motiflet of support 2 and then the end; one tenth of the pairs, without a request to stop *)
Example c148_complete_case :
  python_series long_arguments long_world long_data long_series 0 (/ 2 ^ 36) /\
  python_search long_arguments long_world long_data long_series (/ 2 ^ 36) 0 (40 * / 2 ^ 36) /\
  (a_brute_force_threshold long_arguments < length long_data - a_w long_arguments)%nat /\ a_stop_on_threshold long_arguments = false /\
  a_top_k long_arguments = 1%nat /\ a_support long_arguments = 2%nat /\
  exists y i m, fpy_new true long_arguments long_world long_data 200 = Ret y /\ fpy_calls y [(fun _ => true); (fun _ => true)] 200 = Ret (i, [PyItem m] ++ [PyEnd]) /\
    km_indices m = [0; 2]%nat.
Proof.
  destruct c140_search_case as (A & B & C & y & i & m & E1 & E2 & E3 & _).
  split; [exact A|]. split; [exact B|]. split; [exact C|]. split; [reflexivity|]. split; [reflexivity|]. split; [reflexivity|].
  exists y, i, m. split; [exact E1|]. split; [exact E2|exact E3].
Qed.
(** The same with a limit of no pairs at all and a request to stop, asked for motiflets of
    support 3 too *)
Definition stop_arguments : arguments := Arguments 2 3 1 None (Some 1%nat) 20 f_zero true.
Example c148_limit_case :
  (a_brute_force_threshold stop_arguments < length long_data - a_w stop_arguments)%nat /\ (N.of_nat (length long_data - a_w stop_arguments) <= 2 ^ 27)%N /\
  number (a_fraction_threshold stop_arguments) /\ 0 <= fval (a_fraction_threshold stop_arguments) <= 1 /\
  exists y s l, fpy_new true stop_arguments long_world long_data 200 = Ret y /\ fpy_calls y [(fun _ => true)] 200 = Ret (Enumerator s, l) /\
    (0 < it_candidates s)%nat.
Proof.
  split; [rewrite long_length; cbn; lia|]. split; [vm_compute; discriminate|]. split; [vm_compute; auto|]. split; [cbn; lra|].
  assert (G : match fpy_new true stop_arguments long_world long_data 200 with
    | Ret y => match fpy_calls y [(fun _ => true)] 200 with
      | Ret (Enumerator s, _) => (0 <? it_candidates s)%nat = true
      | _ => False end
    | _ => False end) by (vm_compute; reflexivity).
  destruct (fpy_new _ _ _ _ _) as [y| |]; try contradiction. destruct (fpy_calls y _ _) as [[[s|pos q] l]| |] eqn:E; try contradiction.
  exists y, s, l. split; [reflexivity|]. split; [exact E|]. apply Nat.ltb_lt, G.
Qed.
