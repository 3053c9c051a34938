(** Property theorems C143: the program and the Python class with the number of repetitions
    computed with machine words.  Model: FloatBudget.v. *)
From Coq Require Import String.
From Coq Require Import Reals Lra Lia Floats.SpecFloat.
From Flocq Require Import Core BinarySingleNaN.
From Verif Require Import Base Overlaps OverlapsSpec F64 RSpec RealProofs SeriesProofs Sampling TopK Iterator IteratorSpec IteratorSteps Hashing HashingSpec HashValue HashSpec HashProofs EnumSpec Brute BruteSpec Text TextSpec P_Text Python Main MainSpec P_Main P_Brute P_Iterator Profile ProfileSpec ProfileProofs Calibrate P_Calibrate2 P_Starts P_Index Counts Budget
  FpOps FloatSeries FloatSpec FloatProofs FloatRoll FloatBound FloatErr FloatMean P_Float P_Float2 P_Acc P_Acc2 AccSpec P_Acc3 P_Acc4 P_Acc5 FloatHash ProjSpec P_Proj P_Prof CoinProofs FloatBrute BruteAccSpec P_Brute64 P_Hashing P_Width64 FloatRun P_Run64 FloatSample P_Seed64 P_Avg64 FloatWidth FloatStart FloatMain Decimal P_Decimal P_Whole P_Whole2 P_Own FloatPython P_Python64 P_Budget FloatBudget.
Import FpOps.
Local Open Scope list_scope.

(** A search allowed at most [m] repetitions, and otherwise as [q]. *)
Definition allowing (q : problem) (m : N) : problem := {|
  p_n := p_n q; p_ez := p_ez q; p_max_k := p_max_k q; p_top_k := p_top_k q;
  p_zeucl := p_zeucl q; p_zeucl_threshold := p_zeucl_threshold q; p_table := p_table q;
  p_failure := p_failure q; p_delta := p_delta q; p_coin := p_coin q;
  p_expected := p_expected q; p_setup_cost := p_setup_cost q; p_collision_cost := p_collision_cost q;
  p_max_repetitions := N.to_nat m; p_buffer := p_buffer q; p_threshold := p_threshold q;
  p_stop := p_stop q; p_nan_first := p_nan_first q |}.
(** The surroundings [n_w] with [budget memory] repetitions at most for an amount of memory. *)
Definition budgeted (n_w : world) (budget : N -> N) : world := {|
  n_parse := n_parse n_w; n_zeros := n_zeros n_w; n_sdp := n_sdp n_w; n_exp := n_exp n_w;
  n_sort_all := n_sort_all n_w; n_sort_trial := n_sort_trial n_w; n_sort := n_sort n_w; n_order := n_order n_w;
  n_split := n_split n_w; n_given := n_given n_w; n_vector := n_vector n_w; n_shifts := n_shifts n_w; n_vectors := n_vectors n_w;
  n_pairs := n_pairs n_w; n_draws := n_draws n_w; n_average_samples := n_average_samples n_w; n_nearest_samples := n_nearest_samples n_w;
  n_rest := fun memory => allowing (n_rest n_w memory) (budget memory); n_memory := n_memory n_w |}.
(** As many repetitions of 12 bytes for each of [n] windows as fit in [memory], but at least 4 (C15). *)
Definition fitting (n memory : N) : N := N.max 4 (memory / (12 * n)).
(** The first number of repetitions that does not fit needs less than 2^64 bytes. *)
Definition in_words (n memory : N) : Prop := (0 < n /\ 60 * n < 2 ^ 64 /\ 12 * n * (memory / (12 * n) + 1) < 2 ^ 64)%N.
(** The memory given by the options of the program, or half of that of the machine *)
Definition allowed (given : option (list N)) (n_w : world) (memory : N) : Prop :=
  match given with Some text => size_text text memory /\ (memory < 2 ^ 64)%N | None => memory = (n_memory n_w / 2)%N end.

Lemma allowed_read checks given n_w memory : allowed given n_w memory ->
  match given with Some text => from_str checks text | None => Ret (Some (n_memory n_w / 2)%N) end = Ret (Some memory).
Proof. destruct given as [text|]; cbn [allowed]; [intros (T & U); exact (c56_value checks text memory T U)|intros ->; reflexivity]. Qed.

(** ** The loops, at every amount of fuel *)
Lemma budget_returns checks n reps mem fuel m : max_repetitions64 checks n reps mem fuel = Ret m -> returns (max_repetitions64 checks n reps mem) m.
Proof. intros E. exists fuel. intros f L. rewrite <- E. unfold max_repetitions64 in *. apply loop_mono; [exact L|]. rewrite E. discriminate. Qed.
Lemma budget_words checks n mem fuel m : in_words n mem -> max_repetitions64 checks n initial_repetitions mem fuel = Ret m -> m = fitting n mem.
Proof.
  intros (H0 & H60 & H) E. apply budget_returns in E.
  exact (returns_det _ _ _ E (proj1 (c138_words checks n initial_repetitions mem 0 H0 H60 H eq_refl))).
Qed.
Lemma budget_ends checks n mem : in_words n mem -> returns (max_repetitions64 checks n initial_repetitions mem) (fitting n mem).
Proof. intros (H0 & H60 & H). exact (proj1 (c138_words checks n initial_repetitions mem 0 H0 H60 H eq_refl)). Qed.
Lemma kept_ends checks n sys mem : in_words n mem -> (sys < 2 ^ 64)%N -> exists m, returns (max_repetitions_in_memory64 checks n sys) m.
Proof.
  intros (H0 & H60 & H) S. destruct (max_in_memory_ok n sys H0) as (m & R & _). exists m.
  exact (proj2 (c138_words checks n initial_repetitions mem sys H0 H60 H S) m R).
Qed.
Lemma budget_largest checks n mem fuel m : (2 ^ 64 - 4 <= mem)%N -> max_repetitions64 checks n initial_repetitions mem fuel <> Ret m.
Proof.
  intros L E. destruct checks.
  - apply budget_returns in E. destruct E as (f & E). destruct (largest_aborts n initial_repetitions mem L) as (g & P). specialize (E (Nat.max f g) ltac:(lia)). rewrite P in E by lia. discriminate E.
  - rewrite (largest_hangs n initial_repetitions mem L fuel) in E. discriminate E.
Qed.

(** ** The searches of the program *)
Lemma same_index o n_w w s width budget memory :
  e_index (fsetting o (budgeted n_w budget) w s width) memory = with_budget (e_index (fsetting o n_w w s width) memory) (budget memory).
Proof. reflexivity. Qed.

Section Program.
  Variables (checks : bool) (show : f64 -> list N) (o : options) (w : nat) (precise : bool) (prefix : option nat) (n_w : world) (file : list N).
  Hypothesis Ho : o_exact o = false.

  (* whatever the limit, what the program gives it gives for some budget *)
  Lemma program_budget ts s memory fuel answer :
    load_from (n_parse n_w) prefix file fuel = Ret (Some ts) -> fseries_new (n_zeros n_w) ts w precise = Ret s ->
    match o_max_memory o with Some text => from_str checks text | None => Ret (Some (n_memory n_w / 2)%N) end = Ret (Some memory) ->
    fprogram64 checks show o w precise prefix n_w file fuel = Ret answer ->
    exists m, max_repetitions64 checks (N.of_nat (fnum_subsequences s)) initial_repetitions memory fuel = Ret m /\
      forall budget, budget memory = m -> fprogram checks show o w precise prefix (budgeted n_w budget) file fuel = Ret answer.
  Proof.
    intros El Es Em H. unfold fprogram64 in H. rewrite El in H. cbn [bind] in H. rewrite Es in H. cbn [bind] in H.
    destruct (fprepare checks o n_w w s fuel) as [width| |] eqn:Ep; cbn [bind] in H; [|discriminate H|discriminate H].
    assert (W : exists x, width = Some x).
    { unfold fprepare in Ep. rewrite Ho, Em in Ep. cbn [bind] in Ep. destruct (ffft_new _ _ _) in Ep; cbn [bind] in Ep; try discriminate Ep.
      destruct (findex_width _ _ _ _ _ _ _ _ _ _ _) in Ep; cbn [bind] in Ep; try discriminate Ep. apply Ret_inj in Ep. eauto. }
    destruct W as (x & ->). rewrite Ho in H. destruct (max_repetitions_in_memory64 _ _ _ _) as [kept| |]; cbn [bind] in H; [|discriminate H|discriminate H].
    unfold find_motiflets64 in H. rewrite Ho in H. cbn [e_memory fsetting] in H. rewrite Em in H. cbn [bind] in H.
    destruct (e_average _ fuel) as [average| |] eqn:Ea; cbn [bind] in H; [|discriminate H|discriminate H].
    destruct (e_seed _ fuel) as [[[a b] d]| |] eqn:Ed; cbn [bind] in H; [|discriminate H|discriminate H].
    change (p_n (with_arguments (e_index (fsetting o n_w w s x) memory) (o_support o) (o_topk o) (e_w (fsetting o n_w w s x) / 2) false)) with (fnum_subsequences s) in H.
    destruct (max_repetitions64 _ _ _ _ _) as [m| |] eqn:Eb; cbn [bind] in H; [|discriminate H|discriminate H].
    exists m. split; [reflexivity|]. intros budget <-. unfold fprogram.
    change (n_parse (budgeted n_w budget)) with (n_parse n_w). rewrite El. cbn [bind]. change (n_zeros (budgeted n_w budget)) with (n_zeros n_w). rewrite Es. cbn [bind].
    change (fprepare checks o (budgeted n_w budget) w s fuel) with (fprepare checks o n_w w s fuel). rewrite Ep. cbn [bind].
    unfold run, find_motiflets. rewrite Ho. change (e_memory (fsetting o (budgeted n_w budget) w s x)) with (n_memory n_w). rewrite Em. cbn [bind].
    change (e_average (fsetting o (budgeted n_w budget) w s x)) with (e_average (fsetting o n_w w s x)). rewrite Ea. cbn [bind].
    change (e_seed (fsetting o (budgeted n_w budget) w s x)) with (e_seed (fsetting o n_w w s x)). rewrite Ed. cbn [bind].
    exact H.
  Qed.

  (* and when the loops end, the programs are the same *)
  Lemma program_same ts s memory kept fuel budget :
    load_from (n_parse n_w) prefix file fuel = Ret (Some ts) -> fseries_new (n_zeros n_w) ts w precise = Ret s ->
    match o_max_memory o with Some text => from_str checks text | None => Ret (Some (n_memory n_w / 2)%N) end = Ret (Some memory) ->
    max_repetitions_in_memory64 checks (N.of_nat (fnum_subsequences s)) (n_memory n_w) fuel = Ret kept ->
    max_repetitions64 checks (N.of_nat (fnum_subsequences s)) initial_repetitions memory fuel = Ret (budget memory) ->
    fprogram64 checks show o w precise prefix n_w file fuel = fprogram checks show o w precise prefix (budgeted n_w budget) file fuel.
  Proof.
    intros El Es Em Ek Eb. unfold fprogram64, fprogram.
    change (n_parse (budgeted n_w budget)) with (n_parse n_w). rewrite El. cbn [bind]. change (n_zeros (budgeted n_w budget)) with (n_zeros n_w). rewrite Es. cbn [bind].
    change (fprepare checks o (budgeted n_w budget) w s fuel) with (fprepare checks o n_w w s fuel).
    destruct (fprepare checks o n_w w s fuel) as [[x|]| |]; cbn [bind]; try reflexivity. rewrite Ho, Ek. cbn [bind].
    unfold run, find_motiflets64, find_motiflets. rewrite Ho. change (e_memory (fsetting o (budgeted n_w budget) w s x)) with (n_memory n_w).
    change (e_memory (fsetting o n_w w s x)) with (n_memory n_w). rewrite Em. cbn [bind].
    change (e_average (fsetting o (budgeted n_w budget) w s x)) with (e_average (fsetting o n_w w s x)). destruct (e_average _ fuel) as [average| |]; cbn [bind]; try reflexivity.
    change (e_seed (fsetting o (budgeted n_w budget) w s x)) with (e_seed (fsetting o n_w w s x)). destruct (e_seed _ fuel) as [[[a b] d]| |]; cbn [bind]; try reflexivity.
    change (p_n (with_arguments (e_index (fsetting o n_w w s x) memory) (o_support o) (o_topk o) (e_w (fsetting o n_w w s x) / 2) false)) with (fnum_subsequences s).
    rewrite Eb. cbn [bind]. reflexivity.
  Qed.
End Program.
Lemma new_windows z ts w precise s : fseries_new z ts w precise = Ret s -> fnum_subsequences s = (length ts - w)%nat.
Proof.
  unfold fseries_new, assert_. destruct (w <=? length ts)%nat; [|discriminate]. destruct (if precise then _ else _) as [(x & y)| |]; cbn [bind]; intros X; try discriminate X.
  apply Ret_inj in X. subst s. reflexivity.
Qed.
Lemma load_more {X} (parse : list N -> option (X * nat)) prefix file ts fuel answer :
  returns (load_from parse prefix file) ts -> load_from parse prefix file fuel = Ret answer -> answer = ts.
Proof.
  intros R E. refine (returns_det (load_from parse prefix file) _ _ _ R). exists fuel. intros f L. rewrite <- E. unfold load_from in *. apply loop_mono; [exact L|]. rewrite E. discriminate.
Qed.

(** * C143: the program *)
(** As long as the first number of repetitions that does not fit needs less than 2^64 bytes,
    the program is the one with the exact budget: whatever it answers is an answer of that one,
    and with enough steps they do the same, in debug as in release builds. *)
Theorem c143_program :
  forall (checks : bool) (show : f64 -> list N) (o : options) (w : nat) (precise : bool) (prefix : option nat) (n_w : world) (file : list N)
         (ts : list f64) (memory : N),
    o_exact o = false -> allowed (o_max_memory o) n_w memory -> (n_memory n_w < 2 ^ 64)%N ->
    returns (load_from (n_parse n_w) prefix file) (Some ts) -> in_words (N.of_nat (length ts - w)) memory ->
    let exact := budgeted n_w (fitting (N.of_nat (length ts - w))) in
    (forall fuel answer, fprogram64 checks show o w precise prefix n_w file fuel = Ret answer -> fprogram checks show o w precise prefix exact file fuel = Ret answer) /\
    exists f0, forall fuel, (f0 <= fuel)%nat -> fprogram64 checks show o w precise prefix n_w file fuel = fprogram checks show o w precise prefix exact file fuel.
Proof.
  intros checks show o w precise prefix n_w file ts memory Ho Al Sys Ld In exact. pose proof (allowed_read checks _ _ _ Al) as Em.
  destruct (fseries_new (n_zeros n_w) ts w precise) as [s| |] eqn:Es.
  2, 3: (assert (P : forall fuel, load_from (n_parse n_w) prefix file fuel = Ret (Some ts) ->
           fprogram64 checks show o w precise prefix n_w file fuel = fprogram checks show o w precise prefix exact file fuel) by
           (intros fuel E; unfold fprogram64, fprogram; change (n_parse exact) with (n_parse n_w); change (n_zeros exact) with (n_zeros n_w); rewrite E; cbn [bind]; rewrite Es; reflexivity);
         split; [intros fuel answer H; rewrite <- H; symmetry; apply P; unfold fprogram64 in H; destruct (load_from (n_parse n_w) prefix file fuel) as [x| |] eqn:E; cbn [bind] in H; [|discriminate H|discriminate H]; rewrite (load_more _ _ _ _ _ _ Ld E); reflexivity
                |destruct Ld as (f0 & Ld); exists f0; intros fuel L; apply P, Ld, L]).
  pose proof (new_windows _ _ _ _ _ Es) as En. split.
  - intros fuel answer H.
    assert (El : load_from (n_parse n_w) prefix file fuel = Ret (Some ts)).
    { pose proof H as H'. unfold fprogram64 in H'. destruct (load_from (n_parse n_w) prefix file fuel) as [x| |] eqn:E; cbn [bind] in H'; [|discriminate H'|discriminate H']. rewrite (load_more _ _ _ _ _ _ Ld E). reflexivity. }
    destruct (program_budget checks show o w precise prefix n_w file Ho ts s memory fuel answer El Es Em H) as (m & Eb & K). apply K. rewrite En in Eb. symmetry. exact (budget_words _ _ _ _ _ In Eb).
  - destruct Ld as (f1 & Ld). destruct (budget_ends checks _ _ In) as (f2 & Eb). destruct (kept_ends checks _ (n_memory n_w) _ In Sys) as (kept & f3 & Ek).
    exists (Nat.max f1 (Nat.max f2 f3)). intros fuel L.
    apply (program_same checks show o w precise prefix n_w file Ho ts s memory kept fuel); [apply Ld; lia|exact Es|exact Em|rewrite En; apply Ek; lia|rewrite En; apply Eb; lia].
Qed.
Print Assumptions c143_program.

(** With a limit of at least 2^64 - 4 bytes, the program never writes an output, for any file,
    in debug as in release builds. *)
Theorem c143_largest_limit :
  forall (checks : bool) (show : f64 -> list N) (o : options) (w : nat) (precise : bool) (prefix : option nat) (n_w : world) (file : list N) (text : list N) (size : N)
         (fuel : nat) (out : list N),
    o_exact o = false -> o_max_memory o = Some text -> size_text text size -> (2 ^ 64 - 4 <= size < 2 ^ 64)%N ->
    fprogram64 checks show o w precise prefix n_w file fuel <> Ret (Some out).
Proof.
  intros checks show o w precise prefix n_w file text size fuel out Ho Hm T (L & U) H.
  destruct (load_from (n_parse n_w) prefix file fuel) as [[ts|]| |] eqn:El; [|unfold fprogram64 in H; rewrite El in H; discriminate H..].
  destruct (fseries_new (n_zeros n_w) ts w precise) as [s| |] eqn:Es; [|unfold fprogram64 in H; rewrite El in H; cbn [bind] in H; rewrite Es in H; discriminate H..].
  destruct (program_budget checks show o w precise prefix n_w file Ho ts s size fuel (Some out) El Es) as (m & E & _); [rewrite Hm; exact (c56_value checks text size T U)|exact H|].
  exact (budget_largest _ _ _ _ _ L E).
Qed.
Print Assumptions c143_largest_limit.

(** Whatever the limit and the budget computed, the lines of the output are those of C131 and
    C132: distinct windows far enough apart, with their extent up to the rounding errors, and
    one line for each number of windows if one was asked for. *)
Theorem c143_lines :
  forall (checks : bool) (show : f64 -> list N) (o : options) (w : nat) (precise : bool) (prefix : option nat) (n_w : world) (file : list N)
         (ts : list f64) (s : fseries) (e : Z) (eps err gap : R) (fuel : nat) (out : list N),
    plain show -> searching o w precise n_w ts s e eps err gap ->
    load_from (n_parse n_w) prefix file fuel = Ret (Some ts) ->
    fprogram64 checks show o w precise prefix n_w file fuel = Ret (Some out) ->
    (exists motiflets, rows out = Some (reading show motiflets) /\
      forall extent positions, In (extent, positions) motiflets ->
        (2 <= length positions <= o_support o)%nat /\
        (forall i, In i positions -> (i < length ts - w)%nat /\ lively s i) /\
        pairwise_apart (w / 2) positions /\
        distance_value extent /\
        exists exact, widest (exact_distance ts w) positions exact /\
          (Rabs (fval extent ^ 2 - exact ^ 2) <= Rmax (10 * INR w * eps) gap)%R) /\
    (o_topk o = 1%nat -> exists motiflets, rows out = Some (reading show motiflets) /\
      forall k, (2 <= k <= o_support o)%nat -> length (filter (fun m => length (snd m) =? k)%nat motiflets) = 1%nat).
Proof.
  intros checks show o w precise prefix n_w file ts s e eps err gap fuel out Hp Sg El H.
  pose proof Sg as [Ho Es Lw L32 Mo Of He Ac Er Hd Hg Sb Ls Hs].
  assert (Em : exists memory, match o_max_memory o with Some text => from_str checks text | None => Ret (Some (n_memory n_w / 2)%N) end = Ret (Some memory)).
  { pose proof H as H'. unfold fprogram64 in H'. rewrite El in H'. cbn [bind] in H'. rewrite Es in H'. cbn [bind] in H'. unfold fprepare in H'. rewrite Ho in H'.
    destruct (match o_max_memory o with Some text => _ | None => _ end) as [[memory|]| |]; cbn [bind] in H'; try discriminate H'. eauto. }
  destruct Em as (memory & Em). destruct (program_budget checks show o w precise prefix n_w file Ho ts s memory fuel (Some out) El Es Em H) as (m & _ & K).
  specialize (K (fun _ => m) eq_refl).
  assert (Sb' : sensible (budgeted n_w (fun _ => m)) ts w s) by (destruct Sb as [A B C D E F G]; split; assumption). split.
  - apply (c131_search checks show o w precise prefix (budgeted n_w (fun _ => m)) file ts s e eps err gap fuel out); assumption.
  - intros H1. apply (c132_lines checks show o w precise prefix (budgeted n_w (fun _ => m)) file ts s e eps err gap fuel out); try assumption. split; assumption.
Qed.
Print Assumptions c143_lines.

(** * C143: the Python class *)
Section Class.
  Variables (checks : bool) (a : arguments) (n_w : world) (ts : list f64).
  Hypothesis Hb : (a_brute_force_threshold a < length ts - a_w a)%nat.

  Lemma class_budget s memory fuel y :
    fseries_new (n_zeros n_w) ts (a_w a) false = Ret s -> fpy_memory checks a n_w = Ret memory -> fpy_new64 checks a n_w ts fuel = Ret y ->
    exists m, max_repetitions64 checks (N.of_nat (length ts - a_w a)) initial_repetitions memory fuel = Ret m /\
      forall budget, budget memory = m -> fpy_new checks a (budgeted n_w budget) ts fuel = Ret y.
  Proof.
    intros Es Em H. pose proof (new_windows _ _ _ _ _ Es) as En. unfold fpy_new64, fpy_build64 in H. rewrite Es in H. cbn [bind] in H. rewrite En in H. unfold assert_ in H.
    destruct (a_support a * a_zone a <=? length ts - a_w a)%nat eqn:Ea; [|discriminate H].
    destruct (flimit checks (length ts - a_w a) (a_fraction_threshold a)) as [limit| |] eqn:Li; cbn [bind] in H; [|discriminate H|discriminate H].
    assert (Lt : (a_brute_force_threshold a <? length ts - a_w a)%nat = true) by (apply Nat.ltb_lt; exact Hb). rewrite Lt, Em in H. cbn [bind] in H.
    destruct (ffft_new (length (fs_data s)) (a_w a) fuel) as [u0| |] eqn:Ef; cbn [bind] in H; [|discriminate H|discriminate H].
    destruct (findex_width _ _ _ _ _ _ _ _ _ _ fuel) as [width| |] eqn:Ew; cbn [bind] in H; [|discriminate H|discriminate H].
    destruct (max_repetitions_in_memory64 _ _ _ _) as [kept| |]; cbn [bind] in H; [|discriminate H|discriminate H].
    destruct (faverage_pairwise_distance _ _ _ _ _ fuel) as [average| |] eqn:Eav; cbn [bind] in H; [|discriminate H|discriminate H].
    destruct (fnearest_neighbor_distance_stats _ _ _ _ _ _ fuel) as [[[minimum xx] [x z]]| |] eqn:Ed; cbn [bind] in H; [|discriminate H|discriminate H].
    destruct (max_repetitions64 _ _ _ _ _) as [m| |] eqn:Eb; cbn [bind] in H; [|discriminate H|discriminate H].
    exists m. split; [reflexivity|]. intros budget <-. unfold fpy_new. change (n_zeros (budgeted n_w budget)) with (n_zeros n_w). rewrite Es. cbn [bind]. rewrite En. unfold assert_. rewrite Ea, Li. cbn [bind].
    rewrite Lt. change (fpy_memory checks a (budgeted n_w budget)) with (fpy_memory checks a n_w). rewrite Em. cbn [bind]. rewrite Ef. cbn [bind].
    cbn [budgeted n_given n_sort_all n_sort_trial n_sdp n_vector n_shifts n_vectors n_average_samples n_pairs n_nearest_samples n_draws]. rewrite Ew. cbn [bind]. rewrite Eav. cbn [bind]. rewrite Ed. cbn [bind]. exact H.
  Qed.
  Lemma class_same s memory kept fuel budget :
    fseries_new (n_zeros n_w) ts (a_w a) false = Ret s -> fpy_memory checks a n_w = Ret memory ->
    max_repetitions_in_memory64 checks (N.of_nat (length ts - a_w a)) (n_memory n_w) fuel = Ret kept ->
    max_repetitions64 checks (N.of_nat (length ts - a_w a)) initial_repetitions memory fuel = Ret (budget memory) ->
    fpy_new64 checks a n_w ts fuel = fpy_new checks a (budgeted n_w budget) ts fuel.
  Proof.
    intros Es Em Ek Eb. pose proof (new_windows _ _ _ _ _ Es) as En. unfold fpy_new64, fpy_build64, fpy_new. change (n_zeros (budgeted n_w budget)) with (n_zeros n_w). rewrite Es. cbn [bind]. rewrite En. unfold assert_.
    destruct (a_support a * a_zone a <=? length ts - a_w a)%nat; [|reflexivity].
    destruct (flimit checks (length ts - a_w a) (a_fraction_threshold a)) as [limit| |]; cbn [bind]; try reflexivity.
    assert (Lt : (a_brute_force_threshold a <? length ts - a_w a)%nat = true) by (apply Nat.ltb_lt; exact Hb). rewrite Lt.
    change (fpy_memory checks a (budgeted n_w budget)) with (fpy_memory checks a n_w). rewrite Em. cbn [bind].
    destruct (ffft_new (length (fs_data s)) (a_w a) fuel) as [u0| |]; cbn [bind]; try reflexivity.
    cbn [budgeted n_given n_sort_all n_sort_trial n_sdp n_vector n_shifts n_vectors n_average_samples n_pairs n_nearest_samples n_draws].
    destruct (findex_width _ _ _ _ _ _ _ _ _ _ fuel) as [width| |]; cbn [bind]; try reflexivity. rewrite Ek. cbn [bind].
    destruct (faverage_pairwise_distance _ _ _ _ _ fuel) as [average| |]; cbn [bind]; try reflexivity.
    destruct (fnearest_neighbor_distance_stats _ _ _ _ _ _ fuel) as [[[minimum xx] [x z]]| |]; cbn [bind]; try reflexivity.
    rewrite Eb. cbn [bind]. reflexivity.
  Qed.
End Class.
Lemma allowed_python checks a n_w memory : allowed (a_max_memory a) n_w memory -> fpy_memory checks a n_w = Ret memory.
Proof. unfold fpy_memory. destruct (a_max_memory a) as [text|]; cbn [allowed]; [intros (T & U); rewrite (c56_value checks text memory T U); reflexivity|intros ->; reflexivity]. Qed.

(** The same for the Python class, when it does not use the exact search: with the exact
    budget as long as the words suffice, and no object with a limit of at least 2^64 - 4 bytes. *)
Theorem c143_python :
  forall (checks : bool) (a : arguments) (n_w : world) (ts : list f64) (memory : N),
    (a_brute_force_threshold a < length ts - a_w a)%nat -> allowed (a_max_memory a) n_w memory ->
    let exact := budgeted n_w (fitting (N.of_nat (length ts - a_w a))) in
    (in_words (N.of_nat (length ts - a_w a)) memory -> (n_memory n_w < 2 ^ 64)%N ->
       (forall fuel y, fpy_new64 checks a n_w ts fuel = Ret y -> fpy_new checks a exact ts fuel = Ret y) /\
       exists f0, forall fuel, (f0 <= fuel)%nat -> fpy_new64 checks a n_w ts fuel = fpy_new checks a exact ts fuel) /\
    ((2 ^ 64 - 4 <= memory)%N -> forall fuel y, fpy_new64 checks a n_w ts fuel <> Ret y).
Proof.
  intros checks a n_w ts memory Hb Al exact. pose proof (allowed_python checks _ _ _ Al) as Em.
  destruct (fseries_new (n_zeros n_w) ts (a_w a) false) as [s| |] eqn:Es.
  - split.
    + intros In Sys. split.
      * intros fuel y H. destruct (class_budget checks a n_w ts Hb s memory fuel y Es Em H) as (m & Eb & K). apply K. symmetry. exact (budget_words _ _ _ _ _ In Eb).
      * destruct (budget_ends checks _ _ In) as (f2 & Eb). destruct (kept_ends checks _ (n_memory n_w) _ In Sys) as (kept & f3 & Ek).
        exists (Nat.max f2 f3). intros fuel L. apply (class_same checks a n_w ts Hb s memory kept fuel); [exact Es|exact Em|apply Ek; lia|apply Eb; lia].
    + intros L fuel y H. destruct (class_budget checks a n_w ts Hb s memory fuel y Es Em H) as (m & Eb & _). exact (budget_largest _ _ _ _ _ L Eb).
  - split.
    + intros _ _. split; [intros fuel y H; unfold fpy_new64 in H; rewrite Es in H; discriminate H|]. exists 0%nat. intros fuel _. unfold fpy_new64, fpy_new. change (n_zeros exact) with (n_zeros n_w). rewrite Es. reflexivity.
    + intros _ fuel y H. unfold fpy_new64 in H. rewrite Es in H. discriminate H.
  - split.
    + intros _ _. split; [intros fuel y H; unfold fpy_new64 in H; rewrite Es in H; discriminate H|]. exists 0%nat. intros fuel _. unfold fpy_new64, fpy_new. change (n_zeros exact) with (n_zeros n_w). rewrite Es. reflexivity.
    + intros _ fuel y H. unfold fpy_new64 in H. rewrite Es in H. discriminate H.
Qed.
Print Assumptions c143_python.

(** ** The longer zigzag of C139, with room for eighty repetitions *)
Lemma small_text : size_text (codes "64k") 65536.
Proof.
  exists [6; 4]%N, [], (codes "k"), 1024%N, []. split; [split; [discriminate|repeat constructor]|]. split; [constructor|]. split; [constructor|]. split; [constructor|].
  split; reflexivity.
Qed.
Lemma long_words : in_words (N.of_nat (length long_data - 2)) 65536 /\ fitting (N.of_nat (length long_data - 2)) 65536 = 80%N.
Proof. vm_compute. repeat split. Qed.
Lemma long_read : returns (load_from (n_parse long_world) None long_file) (Some long_data).
Proof. exists 200%nat. intros f L. unfold load_from. rewrite (loop_mono _ 200 f _ L); vm_compute; [reflexivity|discriminate]. Qed.
Example c143_program_case :
  let o := Options false (Some (codes "64k")) 2 1 in
  o_exact o = false /\ allowed (o_max_memory o) long_world 65536 /\ (n_memory long_world < 2 ^ 64)%N /\
  returns (load_from (n_parse long_world) None long_file) (Some long_data) /\ in_words (N.of_nat (length long_data - 2)) 65536 /\
  fprogram64 true plain_show o 2 true None long_world long_file 200 = Ret (Some (codes "0, 0, 2" ++ [10%N])).
Proof.
  cbv zeta. split; [reflexivity|]. split; [split; [apply small_text|reflexivity]|]. split; [reflexivity|]. split; [exact long_read|]. split; [exact (proj1 long_words)|]. vm_compute. reflexivity.
Qed.
Example c143_largest_case :
  let o := Options false (Some (codes "18446744073709551615")) 2 1 in
  o_exact o = false /\ o_max_memory o = Some (codes "18446744073709551615") /\ size_text (codes "18446744073709551615") max_size /\ (2 ^ 64 - 4 <= max_size < 2 ^ 64)%N /\
  fprogram64 false plain_show o 2 true None long_world long_file 200 = Spin.
Proof. cbv zeta. split; [reflexivity|]. split; [reflexivity|]. split; [apply largest_text|]. split; [unfold max_size; lia|]. vm_compute. reflexivity. Qed.
Example c143_lines_case :
  let o := Options false (Some (codes "64k")) 2 1 in
  plain plain_show /\ searching o 2 true long_world long_data long_series 0 (/ 2 ^ 36) 0 (40 * / 2 ^ 36) /\
  load_from (n_parse long_world) None long_file 200 = Ret (Some long_data) /\
  fprogram64 false plain_show o 2 true None long_world long_file 200 = Ret (Some (codes "0, 0, 2" ++ [10%N])).
Proof.
  cbv zeta. split; [apply plain_show_plain|]. split; [|split; vm_compute; reflexivity].
  destruct (long_searching 2 1) as [A B C D E F G I J L M N O Q]. exact (Build_searching (Options false (Some (codes "64k")) 2 1) 2 true long_world long_data long_series 0 (/ 2 ^ 36) 0 (40 * / 2 ^ 36) A B C D E F G I J L M N O Q).
Qed.
Definition small_arguments : arguments := Arguments 2 2 1 (Some (codes "64k")) (Some 1%nat) 10 P_Python64.one_tenth false.
Definition large_arguments : arguments := Arguments 2 2 1 (Some (codes "18446744073709551615")) (Some 1%nat) 10 P_Python64.one_tenth false.
Example c143_python_case :
  (a_brute_force_threshold small_arguments < length long_data - a_w small_arguments)%nat /\ allowed (a_max_memory small_arguments) long_world 65536 /\
  in_words (N.of_nat (length long_data - a_w small_arguments)) 65536 /\ (n_memory long_world < 2 ^ 64)%N /\
  (exists y, fpy_new64 true small_arguments long_world long_data 200 = Ret y) /\
  (a_brute_force_threshold large_arguments < length long_data - a_w large_arguments)%nat /\ allowed (a_max_memory large_arguments) long_world max_size /\ (2 ^ 64 - 4 <= max_size)%N.
Proof.
  split; [vm_compute; lia|]. split; [split; [apply small_text|reflexivity]|]. split; [exact (proj1 long_words)|]. split; [reflexivity|].
  split; [assert (G : match fpy_new64 true small_arguments long_world long_data 200 with Ret _ => True | _ => False end) by (vm_compute; exact I); destruct (fpy_new64 _ _ _ _ _) as [y| |]; [exists y; reflexivity|contradiction..]|].
  split; [vm_compute; lia|]. split; [split; [apply largest_text|reflexivity]|]. unfold max_size. lia.
Qed.
