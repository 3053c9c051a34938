(** C141: motifs and the brute-force function seen from Python, in floating point. *)
From Coq Require Import String.
From Coq Require Import Reals Lra Lia Permutation Floats.SpecFloat.
From Flocq Require Import Core BinarySingleNaN.
From Verif Require Import Base Overlaps OverlapsSpec OverlapsProofs F64 RSpec RealProofs SeriesProofs FFT FFTProofs SamplingSpec Sampling SamplingProofs TopK Iterator IteratorSpec IteratorSteps Hashing HashingSpec HashValue HashSpec EnumSpec Brute BruteSpec Text TextSpec P_Text Python Main MainSpec P_Main P_Brute P_Python P_Iterator GuaranteeSpec P_Guarantee
  FpOps FloatSeries FloatSpec FloatProofs FloatBound FloatErr FloatMean FloatTerm FloatRoll FloatPair P_Float P_Float2 P_Acc P_Acc2 AccSpec P_Acc3 P_Acc4 P_Acc5 FloatHash ProjSpec P_Proj P_Prof FloatBrute BruteAccSpec P_Brute64 P_Hashing P_Width64 FloatRun P_Run64 FloatSample P_Seed64 P_Avg64 FloatWidth FloatStart FloatMain Decimal P_Decimal P_Whole P_Whole2
  Profile ProfileProofs P_Start P_Starts P_Own FloatPython P_Python64.
Import FpOps.
Local Open Scope list_scope.
Local Open Scope R_scope.

(** An answer of the iterator of motifs, and that of the iterator of motiflets *)
Definition answer_is (x : pyanswer kmotiflet) (y : pyanswer pymotif) : Prop :=
  match x, y with
  | PyItem m, PyItem q => motif_of_kmotiflet m = Ret (Some q)
  | PyInterrupted, PyInterrupted | PyEnd, PyEnd => True
  | _, _ => False
  end.
Lemma motifs_follow p average fuel : forall cbs i0 i answers,
  py_calls (py_next p average) cbs i0 fuel = Ret (i, answers) -> (forall m, In (PyItem m) answers -> length (km_indices m) = 2%nat) ->
  exists motifs, py_calls (py_next_motif p average) cbs i0 fuel = Ret (i, motifs) /\ Forall2 answer_is answers motifs.
Proof.
  induction cbs as [|cb cbs IH]; intros i0 i answers Ec V; cbn [py_calls] in *.
  - apply Ret_inj in Ec. injection Ec as <- <-. exists []. split; [reflexivity|constructor].
  - unfold py_next_motif at 1. destruct (py_next p average cb i0 fuel) as [(i1 & x)| |]; cbn [bind] in *; try discriminate.
    destruct (py_calls (py_next p average) cbs i1 fuel) as [(i2 & l)| |] eqn:E1; cbn [bind] in Ec; try discriminate.
    apply Ret_inj in Ec. injection Ec as <- <-. destruct (IH i1 i2 l E1) as (motifs & Em & F); [intros m Hm; apply V; right; exact Hm|].
    destruct x as [|m|]; cbn [bind].
    + rewrite Em. cbn [bind]. eexists. split; [reflexivity|]. constructor; [exact I|exact F].
    + destruct (c62_python_motif m) as (r & Er & Hr & _). rewrite Er. cbn [bind].
      destruct r as [motif|]; [|exfalso; apply (proj2 Hr); [apply V; left; reflexivity|reflexivity]]. cbn [bind]. rewrite Em. cbn [bind].
      eexists. split; [reflexivity|]. constructor; [exact Er|exact F].
    + rewrite Em. cbn [bind]. eexists. split; [reflexivity|]. constructor; [exact I|exact F].
Qed.
(** if the iterator of motifs answers then so does the other *)
Lemma motifs_back p average fuel : forall cbs i0 i motifs,
  py_calls (py_next_motif p average) cbs i0 fuel = Ret (i, motifs) ->
  exists answers, py_calls (py_next p average) cbs i0 fuel = Ret (i, answers).
Proof.
  induction cbs as [|cb cbs IH]; intros i0 i motifs Ec; cbn [py_calls] in *.
  - apply Ret_inj in Ec. injection Ec as <- <-. exists []. reflexivity.
  - unfold py_next_motif at 1 in Ec. destruct (py_next p average cb i0 fuel) as [(i1 & x)| |]; cbn [bind] in *; try discriminate.
    assert (G : exists l, py_calls (py_next_motif p average) cbs i1 fuel = Ret (i, l)).
    { destruct x as [|m|]; cbn [bind] in Ec; [|destruct (motif_of_kmotiflet m) as [[q|]| |]; cbn [bind] in Ec; try discriminate Ec|];
        (destruct (py_calls (py_next_motif p average) cbs i1 fuel) as [(i2 & l)| |]; cbn [bind] in Ec; try discriminate Ec;
         apply Ret_inj in Ec; injection Ec as <- _; exists l; reflexivity). }
    destruct G as (l & El). destruct (IH i1 i l El) as (answers & ->). cbn [bind]. eexists. reflexivity.
Qed.
Lemma answer_back : forall answers motifs q, Forall2 answer_is answers motifs -> In (PyItem q) motifs -> exists m, In (PyItem m) answers /\ motif_of_kmotiflet m = Ret (Some q).
Proof.
  intros answers motifs q F. induction F as [|x y l l' H F IH]; intros Hin; [destruct Hin|].
  destruct Hin as [->|Hin]; [destruct x as [|m|]; try contradiction H; exists m; split; [left; reflexivity|exact H]|destruct (IH Hin) as (m & A & B); exists m; split; [right; exact A|exact B]].
Qed.
Lemma ends_follow : forall n k l, Forall2 answer_is (firstn n (repeat PyEnd k)) l -> l = firstn n (repeat PyEnd k).
Proof.
  induction n as [|n IH]; intros [|k] l F; cbn in F |- *; inversion F as [|x z l0 l1 H0 F1]; subst; try reflexivity.
  destruct z as [| |]; try contradiction H0. f_equal. apply IH, F1.
Qed.
(** what a motif made from a valid motiflet is *)
Lemma motif_valid ts w ez n m q ex : (forall v, In v (km_indices m) -> (v < n)%nat) -> (n + w <= length ts)%nat -> (1 <= ez)%nat -> pairwise_apart ez (km_indices m) ->
  widest (exact_distance ts w) (km_indices m) ex -> motif_of_kmotiflet m = Ret (Some q) ->
  (pm_a q < pm_b q)%nat /\ (pm_b q < n)%nat /\ In (pm_a q) (km_indices m) /\ In (pm_b q) (km_indices m) /\ ~ too_close ez (pm_a q) (pm_b q) /\
  pm_distance q = km_extent m /\ pm_relative_contrast q = km_relative_contrast m /\ ex = exact_distance ts w (pm_a q) (pm_b q).
Proof.
  intros V L Z Ap (_ & W) Eq. destruct (c62_python_motif m) as (r & Er & _ & Hm). rewrite Eq in Er. apply Ret_inj in Er. destruct (Hm q (eq_sym Er)) as (Le & Pm & Ed & Ec).
  assert (Ia : In (pm_a q) (km_indices m)) by (apply (Permutation_in _ Pm); left; reflexivity).
  assert (Ib : In (pm_b q) (km_indices m)) by (apply (Permutation_in _ Pm); right; left; reflexivity).
  pose proof (V _ Ia) as Va. pose proof (V _ Ib) as Vb.
  assert (Na : ~ too_close ez (pm_a q) (pm_b q) /\ ex = exact_distance ts w (pm_a q) (pm_b q)).
  { destruct W as (i & j & x & y & Lij & Hx & Hy & ->). destruct (Permutation_length_2_inv Pm) as [E|E]; rewrite E in *.
    - destruct i as [|i]; [|destruct i, j as [|[|[|j]]]; try lia; discriminate Hy]. destruct j as [|[|j]]; [lia| |destruct j; discriminate Hy]. cbn in Hx, Hy. injection Hx as <-. injection Hy as <-.
      split; [apply (Ap 0 1)%nat; [lia|reflexivity|reflexivity]|reflexivity].
    - destruct i as [|i]; [|destruct i, j as [|[|[|j]]]; try lia; discriminate Hy]. destruct j as [|[|j]]; [lia| |destruct j; discriminate Hy]. cbn in Hx, Hy. injection Hx as <-. injection Hy as <-.
      split; [|apply exact_sym; lia]. intros T. apply (Ap 0 1 (pm_b q) (pm_a q))%nat; [lia|reflexivity|reflexivity|]. unfold too_close in *. lia. }
  destruct Na as (Na & ->). split; [destruct (Nat.eq_dec (pm_a q) (pm_b q)) as [X|X]; [|lia]; exfalso; apply Na; unfold too_close; lia|].
  split; [exact Vb|]. split; [exact Ia|]. split; [exact Ib|]. split; [exact Na|]. split; [exact Ed|]. split; [exact Ec|reflexivity].
Qed.

(** * C141: the motifs of a search *)
(** The iterator of motifs above [brute_force_threshold] windows (its number of windows per
    motiflet, [a_support], is two): it answers as many calls as that of motiflets, so
    converting a motiflet is never an error; every motif is of two windows of the series in
    order, not flat and not within the exclusion zone of each other; the square of its
    distance is the exact one up to rounding; and its relative contrast is the average
    distance divided by the distance. *)
Theorem c141_motifs :
  forall (checks : bool) (a : arguments) (n_w : world) (ts : list f64) (s : fseries) (e : Z) (eps err gap : R) (fuel : nat)
         (y : pyobject) (cbs : list (nat -> bool)),
    python_series a n_w ts s e eps -> python_search a n_w ts s eps err gap ->
    a_support a = 2%nat -> (a_brute_force_threshold a < length ts - a_w a)%nat ->
    fpy_new checks a n_w ts fuel = Ret y ->
    (forall i, (exists answers, fpy_calls y cbs fuel = Ret (i, answers)) <-> (exists motifs, fpy_motif_calls y cbs fuel = Ret (i, motifs))) /\
    forall i motifs q, fpy_motif_calls y cbs fuel = Ret (i, motifs) -> In (PyItem q) motifs ->
      (pm_a q < pm_b q)%nat /\ (pm_b q < length ts - a_w a)%nat /\ lively s (pm_a q) /\ lively s (pm_b q) /\
      ~ too_close (a_zone a) (pm_a q) (pm_b q) /\ distance_value (pm_distance q) /\
      Rabs (fval (pm_distance q) ^ 2 - exact_distance ts (a_w a) (pm_a q) (pm_b q) ^ 2) <= Rmax (10 * INR (a_w a) * eps) gap /\
      pm_relative_contrast q = relative_contrast (o_average y) (pm_distance q).
Proof.
  intros checks a n_w ts s e eps err gap fuel y cbs Ps Pq S2 Big Ey.
  assert (V : forall i answers m, fpy_calls y cbs fuel = Ret (i, answers) -> In (PyItem m) answers -> length (km_indices m) = 2%nat).
  { intros i answers m Ec Hm. destruct (c140_search checks a n_w ts s e eps err gap fuel y cbs i answers m Ps Pq Big Ey Ec Hm) as (_ & L & _). lia. }
  split.
  { intros i. split; intros (l & El).
    - destruct (motifs_follow _ _ fuel cbs _ i l El) as (motifs & Em & _); [intros m; apply (V i l m El)|]. exists motifs. exact Em.
    - exact (motifs_back _ _ fuel cbs _ i l El). }
  intros i motifs q Em Hq. destruct (motifs_back _ _ fuel cbs _ i motifs Em) as (answers & Ec).
  destruct (motifs_follow _ _ fuel cbs _ i answers Ec) as (motifs' & Em' & F); [intros m; apply (V i answers m Ec)|]. unfold fpy_motif_calls in Em. rewrite Em in Em'. apply Ret_inj in Em'. injection Em' as <-.
  destruct (answer_back answers motifs q F Hq) as (m & Hm & Eq).
  destruct (c140_search checks a n_w ts s e eps err gap fuel y cbs i answers m Ps Pq Big Ey Ec Hm) as (_ & _ & R1 & R2 & R3 & R4 & ex & W & B).
  pose proof (py_windows _ _ _ _ _ _ Ps) as Lw. pose proof (py_zone _ _ _ _ _ _ Ps) as Z.
  destruct (motif_valid ts (a_w a) (a_zone a) (length ts - a_w a) m q ex) as (Q1 & Q2 & Q3 & Q4 & Q5 & Q6 & Q7 & ->); try assumption; [intros v Hv; apply (R1 v Hv)|lia|].
  split; [exact Q1|]. split; [exact Q2|]. split; [apply (R1 _ Q3)|]. split; [apply (R1 _ Q4)|]. split; [exact Q5|]. rewrite Q6. split; [exact R3|]. split; [exact B|]. rewrite Q7. exact R4.
Qed.
Print Assumptions c141_motifs.

(** * C141: the motif of a short series *)
(** With at most [brute_force_threshold] windows there is exactly one motif, whatever [top_k]
    is: the first call hands it out and every later one is [None].  No two windows that are
    not within the exclusion zone of each other are closer, up to rounding. *)
Theorem c141_exact_partial :
  forall (checks : bool) (a : arguments) (n_w : world) (ts : list f64) (s : fseries) (e : Z) (eps err gap : R) (T : nat),
    python_series a n_w ts s e eps ->
    a_support a = 2%nat -> (length ts - a_w a <= a_brute_force_threshold a)%nat -> (2 * a_zone a <= length ts - a_w a)%nat ->
    (forall k, N.of_nat (a_w a) <> 2 ^ k)%N \/ (N.of_nat (a_w a) < 2 ^ 14)%N ->
    (forall i, (i < length ts - a_w a)%nat -> lively s i) ->
    err <= 2 ^ 500 -> BruteAccSpec.dots_within ts (a_w a) s (n_sdp n_w) eps err gap ->
    (forall t, (fst (n_pairs n_w t) < length ts - a_w a)%nat /\ (snd (n_pairs n_w t) < length ts - a_w a)%nat) ->
    (1 <= n_average_samples n_w)%nat -> (Z.of_nat (n_average_samples n_w) <= 2 ^ 40)%Z ->
    length (filter (comparable s (a_zone a)) (draws (n_pairs n_w) T)) = n_average_samples n_w ->
    exists y q, returns (fpy_new checks a n_w ts) y /\
      (forall cbs fuel, exists i, fpy_motif_calls y cbs fuel = Ret (i, firstn (length cbs) (PyItem q :: repeat PyEnd (length cbs)))) /\
      (pm_a q < pm_b q)%nat /\ (pm_b q < length ts - a_w a)%nat /\ ~ too_close (a_zone a) (pm_a q) (pm_b q) /\
      distance_value (pm_distance q) /\
      Rabs (fval (pm_distance q) ^ 2 - exact_distance ts (a_w a) (pm_a q) (pm_b q) ^ 2) <= 10 * INR (a_w a) * eps /\
      pm_relative_contrast q = relative_contrast (o_average y) (pm_distance q) /\
      forall u v, (u < length ts - a_w a)%nat -> (v < length ts - a_w a)%nat -> ~ too_close (a_zone a) u v ->
        exact_distance ts (a_w a) (pm_a q) (pm_b q) ^ 2 <= exact_distance ts (a_w a) u v ^ 2 + 2 * gap + 20 * INR (a_w a) * eps.
Proof.
  intros checks a n_w ts s e eps err gap T Ps S2 Small Room Hw Fl Er Hd Hdr L1 L2 Lp.
  destruct (c140_exact_partial checks a n_w ts s e eps err gap T) as (y & found & Ry & _ & Hc & Hv & Ho & m & i & j & Hm & Em & Cl); rewrite ?S2; try assumption; [apply Nat.le_refl|].
  rewrite S2 in Hv. assert (Ef : found = [m]).
  { destruct found as [|x [|x' l]]; [destruct Hm|destruct Hm as [->|[]]; reflexivity|exfalso].
    destruct (Ho 0 1 x x')%nat as (C & _); [lia|reflexivity|reflexivity|]. destruct (Hv x) as (A & B & _); [left; reflexivity|]. destruct (Hv x') as (A' & B' & _); [right; left; reflexivity|]. lia. }
  subst found. destruct (Hv m Hm) as (_ & V1 & V2 & V3 & V4 & V5 & ex & W & B).
  destruct (c62_python_motif m) as (r & Eq & Hr & _). destruct r as [q|]; [|exfalso; apply (proj2 Hr); [lia|reflexivity]].
  pose proof (py_windows _ _ _ _ _ _ Ps) as Lw. pose proof (py_zone _ _ _ _ _ _ Ps) as Z.
  destruct (motif_valid ts (a_w a) (a_zone a) (length ts - a_w a) m q ex) as (Q1 & Q2 & Q3 & Q4 & Q5 & Q6 & Q7 & Q8); try assumption; [lia|].
  exists y, q. split; [exact Ry|]. split.
  { intros cbs fuel. destruct (Hc cbs fuel) as (it & Ec). exists it.
    destruct (motifs_follow _ _ fuel cbs _ it _ Ec) as (motifs & Emo & F).
    { intros m' Hm'. destruct (length cbs); [destruct Hm'|]. cbn [firstn map app] in Hm'. destruct Hm' as [X|X]; [injection X as <-; lia|].
      exfalso. revert X. generalize n (S n). intros k k'. revert k. induction k' as [|k' IH]; intros [|k] X; cbn in X; try contradiction X. destruct X as [X|X]; [discriminate X|exact (IH k X)]. }
    unfold fpy_motif_calls. rewrite Emo. f_equal. f_equal. destruct (length cbs) as [|n]; cbn [firstn map app] in F |- *; [inversion F; reflexivity|].
    inversion F as [|x0 z l0 l1 H0 F1]; subst. destruct z as [|q'|]; try contradiction H0. cbn [answer_is] in H0. rewrite Eq in H0. apply Ret_inj in H0. injection H0 as <-. f_equal.
    exact (ends_follow n (S n) l1 F1). }
  split; [exact Q1|]. split; [exact Q2|]. split; [exact Q5|]. rewrite Q6. split; [exact V4|]. split; [rewrite <- Q8; exact B|]. split; [rewrite Q7; exact V5|].
  intros u v Lu Lv Nuv. specialize (Cl u v Lu Lv Nuv). destruct W as (_ & a0 & b0 & x & z & Lab & Hx & Hy & ->). rewrite Em in Hx, Hy.
  destruct a0 as [|a0]; [|destruct a0, b0 as [|[|[|b0]]]; try lia; discriminate Hy]. destruct b0 as [|[|b0]]; [lia| |destruct b0; discriminate Hy]. cbn in Hx, Hy. injection Hx as <-. injection Hy as <-.
  rewrite <- Q8. exact Cl.
Qed.
Print Assumptions c141_exact_partial.

(** * C141: the brute-force function *)
Lemma handed_out : forall (l l' : list kmotiflet) N, (length l < N)%nat -> (length l' < N)%nat ->
  firstn N (map (@PyItem kmotiflet) l ++ repeat PyEnd N) = firstn N (map PyItem l' ++ repeat PyEnd N) -> l = l'.
Proof.
  assert (G : forall (l l' : list kmotiflet) N N', (length l < N)%nat -> (length l' < N)%nat -> (0 < N')%nat ->
    firstn N (map (@PyItem kmotiflet) l ++ repeat PyEnd N') = firstn N (map PyItem l' ++ repeat PyEnd N') -> l = l').
  { induction l as [|m l IH]; intros [|m' l'] N N' L L' LN X; [reflexivity| | |]; (destruct N as [|N]; [cbn in L; lia|]); (destruct N' as [|N']; [lia|]); cbn in X; try discriminate X.
    injection X as <- X. f_equal. apply (IH l' N (S N')); [cbn in L; lia|cbn in L'; lia|lia|exact X]. }
  intros l l' N L L' X. apply (G l l' N N); [exact L|exact L'|lia|exact X].
Qed.
(** Up to the threshold [motiflet_brute_force] returns the list that the class hands out, if
    it is called with the same exclusion zone, for every argument.  Without one it takes half
    a window, and the class a whole one. *)
Theorem c141_function :
  forall (a : arguments) (n_w : world) (ts : list f64) (fuel : nat) (motiflets : list kmotiflet),
    (length ts - a_w a <= a_brute_force_threshold a)%nat ->
    (fmotiflet_brute_force n_w ts (a_w a) (a_support a) (Some (a_zone a)) fuel = Ret motiflets <->
     exists y, fpy_new false a n_w ts fuel = Ret y /\
       forall cbs fuel', exists i, fpy_calls y cbs fuel' = Ret (i, firstn (length cbs) (map PyItem motiflets ++ repeat PyEnd (length cbs)))) /\
    fmotiflet_brute_force n_w ts (a_w a) (a_support a) None fuel = fmotiflet_brute_force n_w ts (a_w a) (a_support a) (Some (a_w a / 2)%nat) fuel /\
    (a_exclusion_zone a = None -> a_zone a = a_w a).
Proof.
  intros a n_w ts fuel ms Small. split; [|split; [reflexivity|intros X; unfold a_zone; rewrite X; reflexivity]]. unfold fmotiflet_brute_force, fpy_new, fpy_calls. destruct (fseries_new (n_zeros n_w) ts (a_w a) false) as [s| |] eqn:E; cbn [bind]; [|split; [discriminate|intros (y & X & _); discriminate X]..].
  assert (Hs : fnum_subsequences s = (length ts - a_w a)%nat).
  { unfold fseries_new, assert_ in E. destruct (_ <=? _)%nat; [|discriminate E]. destruct (frolling_stat _ _ _) as [(x & y)| |]; cbn [bind] in E; try discriminate E. apply Ret_inj in E. subst s. reflexivity. }
  unfold assert_. rewrite !Hs. destruct (_ <=? _)%nat; [|split; [discriminate|intros (y & X & _); discriminate X]].
  assert (Li : exists limit, flimit false (length ts - a_w a) (a_fraction_threshold a) = Ret limit).
  { unfold flimit, Counts.usize_sub, Counts.usize_mul. cbn [andb]. destruct (_ <=? _)%N; cbn [bind]; eexists; reflexivity. }
  destruct Li as (limit & ->). cbn [bind]. destruct (Nat.ltb_spec (a_brute_force_threshold a) (length ts - a_w a)) as [X|_]; [lia|].
  destruct (faverage_pairwise_distance _ _ _ _ _ _) as [av| |]; cbn [bind]; [|split; [discriminate|intros (y & X & _); discriminate X]..].
  destruct (ffft_new _ _ _) as [[]| |]; cbn [bind]; [|split; [discriminate|intros (y & X & _); discriminate X]..].
  destruct (brute_force_motiflets _ _ _ _ _) as [l| |]; cbn [bind]; [|split; [discriminate|intros (y & X & _); discriminate X]..].
  set (found := map _ l). split.
  - intros X. apply Ret_inj in X. subst ms. eexists. split; [reflexivity|]. intros cbs fuel'. cbn [o_problem o_average o_iter]. apply c60_protocol.
  - intros (y & X & Hc). apply Ret_inj in X. subst y. cbn [o_problem o_average o_iter] in Hc. f_equal.
    set (cbs := repeat (fun _ : nat => true) (S (length found + length ms))). destruct (Hc cbs 0%nat) as (i & Ec). destruct (c60_protocol (fpy_search a n_w s f_zero 0 limit) av found cbs 0) as (i' & Ec').
    rewrite Ec in Ec'. apply Ret_inj in Ec'. apply (f_equal snd) in Ec'. cbn [snd] in Ec'. unfold cbs in Ec'. rewrite repeat_length in Ec'. symmetry in Ec'. apply handed_out in Ec'; [exact Ec'|lia|lia].
Qed.
Print Assumptions c141_function.

(** ** The zigzag of seventy values: the motif of the search *)
Example c141_motifs_case :
  python_series long_arguments long_world long_data long_series 0 (/ 2 ^ 36) /\
  python_search long_arguments long_world long_data long_series (/ 2 ^ 36) 0 (40 * / 2 ^ 36) /\
  a_support long_arguments = 2%nat /\ (a_brute_force_threshold long_arguments < length long_data - a_w long_arguments)%nat /\
  exists y i q, fpy_new true long_arguments long_world long_data 200 = Ret y /\ fpy_motif_calls y [(fun _ => true); (fun _ => true)] 200 = Ret (i, [PyItem q; PyEnd]) /\
    pm_a q = 0%nat /\ pm_b q = 2%nat /\ pm_distance q = f_zero.
Proof.
  split; [apply long_python|]. split; [apply long_python|]. split; [reflexivity|]. split; [rewrite long_length; cbn; lia|].
  assert (G : match fpy_new true long_arguments long_world long_data 200 with
    | Ret y => match fpy_motif_calls y [(fun _ => true); (fun _ => true)] 200 with
      | Ret (_, [PyItem q; PyEnd]) => pm_a q = 0%nat /\ pm_b q = 2%nat /\ pm_distance q = f_zero
      | _ => False end
    | _ => False end) by (vm_compute; repeat split; reflexivity).
  destruct (fpy_new true long_arguments long_world long_data 200) as [y| |]; try contradiction.
  destruct (fpy_motif_calls y _ 200) as [(i & [|[|q|] [|[| |] [|]]])| |] eqn:Ec; try contradiction. exists y, i, q. split; [reflexivity|]. split; [exact Ec|exact G].
Qed.

(** ** The series of C124: its only motif, with three asked for, and the function *)
Definition pair_arguments : arguments := Arguments 3 2 3 None (Some 1%nat) 1000 one_tenth false.
Example c141_exact_case :
  python_series pair_arguments br_world data_br series_br 2 (/ 2 ^ 40) /\
  (length data_br - 3 <= a_brute_force_threshold pair_arguments)%nat /\ (2 * a_zone pair_arguments <= length data_br - 3)%nat /\ (N.of_nat (a_w pair_arguments) < 2 ^ 14)%N /\
  (forall i, (i < length data_br - 3)%nat -> lively series_br i) /\
  / 2 ^ 40 <= 2 ^ 500 /\ BruteAccSpec.dots_within data_br 3 series_br (n_sdp br_world) (/ 2 ^ 40) (/ 2 ^ 40) (/ 2 ^ 20) /\
  (forall t, (fst (n_pairs br_world t) < length data_br - 3)%nat /\ (snd (n_pairs br_world t) < length data_br - 3)%nat) /\
  length (filter (comparable series_br 1) (draws (n_pairs br_world) 5)) = n_average_samples br_world /\
  exists y i q, fpy_new true pair_arguments br_world data_br 60 = Ret y /\ fpy_motif_calls y (repeat (fun _ => true) 3) 60 = Ret (i, [PyItem q; PyEnd; PyEnd]) /\
    pm_a q = 1%nat /\ pm_b q = 2%nat.
Proof.
  destruct c131_exact_case as (_ & _ & A3 & A4 & A5 & A6 & A7 & A8 & A9 & A10 & A11 & A12 & A13 & A14 & A15 & _).
  split. { assert (L : (N.of_nat (length data_br) <= 2 ^ 32)%N) by (vm_compute; discriminate).
    exact (Build_python_series pair_arguments br_world data_br series_br 2 (/ 2 ^ 40) br_default A4 A5 (Nat.le_refl 1) L A6 A8 A9 A13). }
  split; [cbn; lia|]. split; [cbn; lia|]. split; [exact A7|]. split; [exact A10|]. split; [exact A11|]. split; [exact A12|]. split; [exact A14|]. split; [exact A15|].
  assert (G : match fpy_new true pair_arguments br_world data_br 60 with
    | Ret y => match fpy_motif_calls y (repeat (fun _ => true) 3) 60 with
      | Ret (_, [PyItem q; PyEnd; PyEnd]) => pm_a q = 1%nat /\ pm_b q = 2%nat
      | _ => False end
    | _ => False end) by (vm_compute; split; reflexivity).
  destruct (fpy_new true pair_arguments br_world data_br 60) as [y| |]; try contradiction.
  destruct (fpy_motif_calls y _ 60) as [(i & [|[|q|] [|[| |] [|[| |] [|]]]])| |] eqn:Ec; try contradiction. exists y, i, q. split; [reflexivity|]. split; [exact Ec|exact G].
Qed.
(** With the same zone the function and the class agree; without one the function takes half
    a window, one here, and the class three, which is too much for three windows. *)
Definition no_zone : arguments := Arguments 3 3 1 None None 1000 one_tenth false.
Example c141_function_case :
  (length data_br - a_w br_arguments <= a_brute_force_threshold br_arguments)%nat /\
  (exists m m', fmotiflet_brute_force br_world data_br 3 3 (Some 1%nat) 60 = Ret [m; m'] /\ km_indices m = [1; 2]%nat /\ km_indices m' = [0; 1; 2]%nat) /\
  fmotiflet_brute_force br_world data_br 3 3 None 60 = fmotiflet_brute_force br_world data_br 3 3 (Some 1%nat) 60 /\
  fpy_new false no_zone br_world data_br 60 = Panic.
Proof.
  split; [cbn; lia|]. split; [|split; [reflexivity|vm_compute; reflexivity]].
  assert (G : match fmotiflet_brute_force br_world data_br 3 3 (Some 1%nat) 60 with Ret [m; m'] => km_indices m = [1; 2]%nat /\ km_indices m' = [0; 1; 2]%nat | _ => False end) by (vm_compute; split; reflexivity).
  destruct (fmotiflet_brute_force br_world data_br 3 3 (Some 1%nat) 60) as [[|m [|m' [|]]]| |]; try contradiction. exists m, m'. split; [reflexivity|exact G].
Qed.
