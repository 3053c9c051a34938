(** C107, C108, C109, C110: the command-line program. *)
From Coq Require Import String.
From Coq Require Import Floats.SpecFloat.
From Verif Require Import Base F64 OverlapsSpec Brute BruteSpec TopK TopKSpec Iterator IteratorSpec IteratorProofs IteratorSteps IteratorLoop IteratorCalls IteratorEnd Text TextSpec Python Main MainSpec MainProofs P_Brute P_Iterator P_Iterator2 P_Python.

(** the motiflets as the specification writes them *)
Definition plainly (m : contrasted) : f64 * list nat := (cm_extent m, cm_indices m).

(** * C107: the output file says what was found *)
Theorem c107_reads_back :
  forall (show : f64 -> list N) (motiflets : list contrasted),
    plain show -> (forall m, In m motiflets -> cm_indices m <> []) ->
    rows (output_csv show motiflets) = Some (reading show (map plainly motiflets)).
Proof.
  intros show ms P F. rewrite (csv_rows show ms P); [|apply Forall_forall; exact F]. unfold reading. rewrite map_map. reflexivity.
Qed.
Print Assumptions c107_reads_back.
(** So different findings make different files. *)
Theorem c107_faithful :
  forall (show : f64 -> list N) (one other : list contrasted),
    plain show -> (forall x y, show x = show y -> x = y) ->
    (forall m, In m one \/ In m other -> cm_indices m <> []) ->
    output_csv show one = output_csv show other ->
    map plainly one = map plainly other.
Proof.
  intros show one other P J F E.
  pose proof (c107_reads_back show one P ltac:(auto)) as R1. pose proof (c107_reads_back show other P ltac:(auto)) as R2.
  rewrite E, R2 in R1. injection R1 as R. clear - J R. revert R. generalize (map plainly one) as a, (map plainly other) as b. unfold reading.
  induction a as [|(x & l) a IH]; intros [|(y & q) b] R; try discriminate; [reflexivity|]. cbn [map] in R. injection R as E1 E2 R.
  f_equal; [|apply IH; exact R]. f_equal; [apply J; symmetry; exact E1|].
  clear - E2. revert q E2. induction l as [|i l IH]; intros [|j q] E; try discriminate; [reflexivity|]. cbn [map] in E. injection E as E1 E2. f_equal; [lia|apply IH, E2].
Qed.
Print Assumptions c107_faithful.
(** a way to print extents: the sign, and the significand and the exponent in decimal *)
Definition plain_show (x : f64) : list N :=
  match x with
  | S754_zero s => codes (if s then "-0" else "0")
  | S754_infinity s => codes (if s then "-inf" else "inf")
  | S754_nan => codes "NaN"
  | S754_finite s m e =>
      codes (if s then "-" else "") ++ show_number (Npos m) ++
      match e with Z0 => [] | Zpos e => codes "e" ++ show_number (Npos e) | Zneg e => codes "e-" ++ show_number (Npos e) end
  end%list.
Lemma plain_show_plain : plain plain_show.
Proof.
  assert (H : forall x c, In c (plain_show x) -> c <> 44%N /\ c <> 10%N).
  { intros [s|s| |s m e] c I; cbn [plain_show] in I.
    - destruct s; cbn in I; intuition (subst; discriminate).
    - destruct s; cbn in I; intuition (subst; discriminate).
    - cbn in I; intuition (subst; discriminate).
    - apply in_app_or in I. destruct I as [I|I]; [destruct s; cbn in I; intuition (subst; discriminate)|].
      apply in_app_or in I. destruct I as [I|I]; [apply show_number_plain in I; lia|]. destruct e as [|e|e]; [destruct I| |];
        (apply in_app_or in I; destruct I as [I|I]; [cbn in I; intuition (subst; discriminate)|apply show_number_plain in I; lia]). }
  intros x. split; intros I; destruct (H _ _ I); congruence.
Qed.
Example c107_case :
  plain plain_show /\
  output_csv plain_show [Contrasted [0; 4] (S754_finite false 6 (-2)) f_zero; Contrasted [108; 4; 57] S754_nan f_zero] =
    (codes "6e-2, 0, 4" ++ [10%N] ++ codes "NaN, 108, 4, 57" ++ [10%N])%list /\
  rows (codes "6e-2, 0, 4" ++ [10%N] ++ codes "NaN, 108, 4, 57" ++ [10%N])%list =
    Some [(codes "6e-2", [0; 4]%N); (codes "NaN", [108; 4; 57]%N)] /\
  rows (codes "6e-2, 0, 4") = None /\ rows (codes "6e-2; 0, 4." ++ [10%N])%list = None.
Proof. split; [exact plain_show_plain|]. split; [reflexivity|]. split; [reflexivity|]. split; reflexivity. Qed.

(** * C108: every line of the output is a valid motiflet, with either search *)
Lemma found_nonempty {A} (l : list A) : 2 <= length l -> l <> [].
Proof. destruct l; cbn; [lia|discriminate]. Qed.
Lemma run_exact checks o e fuel found : o_exact o = true -> find_motiflets checks o e fuel = Ret (Some found) ->
  brute_force_motiflets (e_series e) (e_order e) (o_support o) (e_w e / 2) (e_split e) = Ret (map plainly found).
Proof.
  intros Ho E. unfold find_motiflets in E. rewrite Ho in E. destruct (e_average e fuel) as [av| |]; cbn [bind] in E; try discriminate.
  destruct (brute_force_motiflets _ _ _ _ _) as [ms| |]; cbn [bind] in E; try discriminate. apply Ret_inj in E. injection E as <-. f_equal.
  rewrite map_map. rewrite <- (map_id ms) at 1. apply map_ext. intros (x & l). reflexivity.
Qed.
Lemma run_search checks o e fuel found : o_exact o = false -> find_motiflets checks o e fuel = Ret (Some found) ->
  exists memory a b d n s l, e_seed e fuel = Ret (a, b, d) /\
    session (searched o e memory) a b d (repeat (fun _ => true) n) fuel = Ret (s, map Item l ++ [End]) /\
    map plainly found = map (fun m => (ml_extent m, ml_indices m)) l.
Proof.
  intros Ho E. unfold find_motiflets in E. rewrite Ho in E.
  destruct (match o_max_memory o with Some text => _ | None => _ end) as [[memory|]| |]; cbn [bind] in E; try discriminate.
  fold (searched o e memory) in E. destruct (e_average e fuel) as [av| |]; cbn [bind] in E; try discriminate.
  destruct (e_seed e fuel) as [((a & b) & d)| |] eqn:Es; cbn [bind] in E; try discriminate.
  destruct (iter_new (searched o e memory) a b d) as [s0| |] eqn:E0; cbn [bind] in E; try discriminate.
  destruct (collect (searched o e memory) s0 fuel) as [l| |] eqn:Ec; cbn [bind] in E; try discriminate. apply Ret_inj in E. injection E as <-.
  destruct (collect_session _ a b d s0 fuel l E0 Ec) as (n & s & Q). exists memory, a, b, d, n, s, l. split; [reflexivity|]. split; [exact Q|].
  rewrite map_map. reflexivity.
Qed.
Lemma items_map l : items (map Item l ++ [End]) = l.
Proof. unfold items. rewrite flat_map_app. cbn [flat_map]. rewrite app_nil_r. induction l as [|m l IH]; [reflexivity|]. cbn [map flat_map app]. f_equal. exact IH. Qed.
(** what the program found, before it is written *)
Definition valid_for (o : options) (e : setting) (fuel : nat) (extent : f64) (positions : list nat) : Prop :=
  2 <= length positions <= o_support o /\
  Forall (fun x => x < s_n (e_series e)) positions /\
  pairwise_apart (e_w e / 2) positions /\
  (max_pairwise (s_zeucl (e_series e)) positions extent \/
   (* the pair found by sampling, with the distance found there *)
   o_exact o = false /\ exists a b, positions = [a; b] /\ e_seed e fuel = Ret (a, b, extent)).
Lemma found_valid checks o e fuel found : ready o e -> find_motiflets checks o e fuel = Ret (Some found) ->
  forall m, In m found -> valid_for o e fuel (cm_extent m) (cm_indices m).
Proof.
  intros [Rn Ro Rs Ri] E m Hm. destruct (o_exact o) eqn:Ho.
  - pose proof (run_exact checks o e fuel found Ho E) as B.
    destruct (proj1 (c19_motiflets_valid _ _ _ _ _ _ Rn Ro Rs B) (cm_extent m) (cm_indices m)) as (V1 & V2 & V3 & _ & V4).
    { apply in_map_iff. exists m. split; [reflexivity|exact Hm]. }
    split; [exact V1|]. split; [exact V2|]. split; [exact V3|left; exact V4].
  - destruct (run_search checks o e fuel found Ho E) as (memory & a & b & d & n & s & l & Es & Q & El).
    destruct (Ri eq_refl memory) as (Sd & En & Ez & So). specialize (So fuel a b d Es).
    assert (Hin : In (plainly m) (map (fun m => (ml_extent m, ml_indices m)) l)) by (rewrite <- El; apply in_map; exact Hm).
    apply in_map_iff in Hin. destruct Hin as (x & Ex & Hx). unfold plainly in Ex. injection Ex as Ee Ei.
    destruct (c35_returned_motiflets_are_valid _ a b d _ fuel s _ x Sd So Q) as (V1 & V2 & V3 & V4).
    { apply in_or_app. left. apply in_map. exact Hx. }
    cbn [searched with_arguments p_max_k p_n p_ez p_zeucl] in *. rewrite Ei, Ee in *. rewrite En in V2. rewrite Ez in V4.
    split; [exact V1|]. split; [apply Forall_forall; exact V2|]. split; [exact V3|]. destruct V4 as [(_ & V4)|V4]; [left; exact V4|right].
    split; [exact Ho|]. exists a, b. rewrite V4 in Ei, Ee. cbn [ml_indices ml_extent] in Ei, Ee. rewrite <- Ei, <- Ee. auto.
Qed.
Lemma run_found checks show o e fuel file : run checks show o e fuel = Ret (Some file) ->
  exists found, find_motiflets checks o e fuel = Ret (Some found) /\ file = output_csv show found.
Proof.
  unfold run. destruct (find_motiflets checks o e fuel) as [[found|]| |]; cbn [bind]; try discriminate. intros E. apply Ret_inj in E. injection E as <-. eauto.
Qed.
Theorem c108_output_valid :
  forall (checks : bool) (show : f64 -> list N) (o : options) (e : setting) (fuel : nat) (file : list N),
    plain show -> ready o e ->
    run checks show o e fuel = Ret (Some file) ->
    exists motiflets : list (f64 * list nat),
      rows file = Some (reading show motiflets) /\
      forall extent positions, In (extent, positions) motiflets ->
        2 <= length positions <= o_support o /\
        Forall (fun x => x < s_n (e_series e)) positions /\
        pairwise_apart (e_w e / 2) positions /\
        (max_pairwise (s_zeucl (e_series e)) positions extent \/
         o_exact o = false /\ exists a b, positions = [a; b] /\ e_seed e fuel = Ret (a, b, extent)).
Proof.
  intros checks show o e fuel file P R E. destruct (run_found _ _ _ _ _ _ E) as (found & Ef & ->).
  pose proof (found_valid checks o e fuel found R Ef) as V. exists (map plainly found). split.
  - apply c107_reads_back; [exact P|]. intros m Hm. apply found_nonempty, (V m Hm).
  - intros extent positions Hin. apply in_map_iff in Hin. destruct Hin as (m & Em & Hm). unfold plainly in Em. injection Em as <- <-. exact (V m Hm).
Qed.
Print Assumptions c108_output_valid.

(** * C109: as many motiflets as asked for, of each support *)
Definition of_size (k : nat) (motiflets : list (f64 * list nat)) : list (f64 * list nat) :=
  filter (fun m => length (snd m) =? k) motiflets.
(** When the search ends it has found exactly [topk] motiflets of each support, provided
    that one is asked for, or that candidates with equal extents overlap.
    Missing: several with ties (see C73), and the exact search (see below). *)
Theorem c109_search_partial :
  forall (checks : bool) (show : f64 -> list N) (o : options) (e : setting) (fuel : nat) (file : list N),
    plain show -> ready o e -> o_exact o = false ->
    (o_topk o = 1 \/ forall memory a b d, e_seed e fuel = Ret (a, b, d) -> ties_overlap (searched o e memory) a b d) ->
    run checks show o e fuel = Ret (Some file) ->
    exists motiflets, rows file = Some (reading show motiflets) /\
      forall k, 2 <= k <= o_support o -> length (of_size k motiflets) = o_topk o.
Proof.
  intros checks show o e fuel file P R Ho Ht E. destruct (run_found _ _ _ _ _ _ E) as (found & Ef & ->).
  pose proof (found_valid checks o e fuel found R Ef) as V. exists (map plainly found). split.
  { apply c107_reads_back; [exact P|]. intros m Hm. apply found_nonempty, (V m Hm). }
  intros k Lk. destruct (run_search checks o e fuel found Ho Ef) as (memory & a & b & d & n & s & l & Es & Q & El). rewrite El.
  destruct (ready_index _ _ R Ho memory) as (Sd & _ & _ & So). specialize (So fuel a b d Es). set (p := searched o e memory) in *.
  assert (NT : no_ties p (Motiflet [a; b] d)).
  { split; [cbn; lia|]. destruct Ht as [Ht|Ht]; [left; unfold p; cbn; lia|right; exact (Ht memory a b d Es)]. }
  destruct (session_account p a b d _ fuel s _ Sd So NT Q) as (I & A). specialize (A k). rewrite items_map in A.
  pose proof Q as Q'. unfold session in Q'. destruct (iter_new p a b d) as [s0| |] eqn:E0; cbn [bind] in Q'; try discriminate.
  destruct (calls_last p _ s0 fuel s (map Item l) Q') as (s1 & cb & N).
  destruct (next_end p cb s1 fuel s End eq_refl N eq_refl) as (Er & C). rewrite Er, app_nil_r in A.
  destruct (reachable_trace p a b d s) as (h & T); [eexists; eexists; eexists; exact Q|].
  destruct (enabled p a b d _ k eq_refl (proj1 Lk) T) as (s2 & h2 & Eq & En). injection Eq as <- <-.
  destruct (inv_queues _ _ _ I) as [Lt Qs]. destruct (nth_error (it_top s) k) as [t|] eqn:Et; [|apply nth_error_None in Et; unfold p in Lt; cbn in Lt; lia].
  rewrite forallb_forall in C. specialize (C t (nth_error_In _ _ Et)). unfold tk_is_complete in C. rewrite (En t eq_refl) in C. cbn [orb] in C. apply Nat.eqb_eq in C.
  unfold emitted_at in A. rewrite Et in A. apply Permutation_length in A. rewrite C, (q_k _ _ _ _ (Qs k t Et)) in A. change (p_top_k p) with (o_topk o) in A. rewrite A.
  clear. unfold of_size, of_support. induction l as [|m l IH]; [reflexivity|]. cbn [map filter snd]. destruct (_ =? k); cbn [length]; rewrite IH; reflexivity.
Qed.
Print Assumptions c109_search_partial.
(** The exact search finds at most one of each support, and does not look at [topk]. *)
Theorem c109_exact_partial :
  forall (checks : bool) (show : f64 -> list N) (o : options) (e : setting) (fuel : nat) (file : list N),
    plain show -> ready o e -> o_exact o = true ->
    run checks show o e fuel = Ret (Some file) ->
    exists motiflets, rows file = Some (reading show motiflets) /\
      (forall k, length (of_size k motiflets) <= 1) /\
      forall topk max_memory, run checks show (Options true max_memory (o_support o) topk) e fuel = Ret (Some file).
Proof.
  intros checks show o e fuel file P R Ho E. destruct (run_found _ _ _ _ _ _ E) as (found & Ef & Efile).
  pose proof (found_valid checks o e fuel found R Ef) as V. exists (map plainly found). split.
  { rewrite Efile. apply c107_reads_back; [exact P|]. intros m Hm. apply found_nonempty, (V m Hm). }
  split.
  - intros k. pose proof (run_exact checks o e fuel found Ho Ef) as B.
    pose proof (proj2 (c19_motiflets_valid _ _ _ _ _ _ (ready_nonneg _ _ R) (ready_order _ _ R) (ready_split _ _ R) B)) as O.
    clear - O. unfold of_size. revert O. generalize (map plainly found) as l. induction l as [|(x & q) l IH]; intros O; [cbn; lia|]. cbn [filter snd].
    assert (O' : forall i j ei ej pi pj, i < j -> nth_error l i = Some (ei, pi) -> nth_error l j = Some (ej, pj) -> length pi < length pj /\ fle ei ej = true).
    { intros i j ei ej pi pj L Hi Hj. exact (O (S i) (S j) ei ej pi pj ltac:(lia) Hi Hj). }
    destruct (Nat.eqb_spec (length q) k) as [Eq|_]; [|exact (IH O')]. cbn [length].
    replace (filter (fun m => length (snd m) =? k) l) with (@nil (f64 * list nat)); [cbn; lia|]. symmetry.
    destruct (filter _ l) as [|(y & r) z] eqn:Ez; [reflexivity|]. exfalso.
    assert (Hin : In (y, r) (filter (fun m => length (snd m) =? k) l)) by (rewrite Ez; left; reflexivity).
    apply filter_In in Hin. destruct Hin as (Hin & Lr). cbn [snd] in Lr. apply Nat.eqb_eq in Lr. apply In_nth_error in Hin. destruct Hin as (j & Hj).
    destruct (O 0 (S j) x y q r ltac:(lia) eq_refl Hj). lia.
  - intros topk max_memory. rewrite <- E. unfold run, find_motiflets. cbn [o_exact o_support]. rewrite Ho. reflexivity.
Qed.
Print Assumptions c109_exact_partial.
(** So the same options give two motiflets without [--exact], and one with it. *)
Definition pairs_setting : setting := {|
  e_w := 5; e_series := pairs_series; e_order := pairs_order; e_split := Leaf (seq 0 17);
  e_index := fun _ => two_pairs; e_seed := fun _ => Ret (8, 12, fl 2); e_average := fun _ => Ret (fl 5); e_memory := 4096 |}.
Definition pairs_options (exact : bool) : options := Options exact (Some (codes "4kb")) 2 2.
Lemma pairs_ready exact : ready (pairs_options exact) pairs_setting.
Proof.
  destruct pairs_same as (_ & _ & A & B & C). split; [exact A|exact B|exact C|].
  intros _ memory. split; [exact two_pairs_sound|]. split; [reflexivity|]. split; [reflexivity|].
  intros fuel a b d E. apply Ret_inj in E. injection E as <- <- <-. repeat split; cbn; try lia; unfold too_close; lia.
Qed.
Lemma run_mono checks show o e : fmono (e_seed e) -> fmono (e_average e) -> fmono (run checks show o e).
Proof.
  intros Ms Ma. unfold run.
  apply (fmono_bind (find_motiflets checks o e) (fun _ found => match found with None => Ret None | Some motiflets => Ret (Some (output_csv show motiflets)) end)); [|intros; apply fmono_const].
  unfold find_motiflets. destruct (o_exact o).
  - apply (fmono_bind (e_average e) (fun _ average => let! motiflets := brute_force_motiflets (e_series e) (e_order e) (o_support o) (e_w e / 2) (e_split e) in Ret (Some (map (fun '(extent, indices) => contrasted_new indices extent average) motiflets)))); [exact Ma|intros; apply fmono_const].
  - destruct (match o_max_memory o with Some text => _ | None => _ end) as [[memory|]| |]; cbn [bind]; try (apply fmono_const).
    fold (searched o e memory). set (p := searched o e memory).
    apply (fmono_bind (e_average e) (fun fuel average => let! '(a, b, d) := e_seed e fuel in let! s := iter_new p a b d in let! l := collect p s fuel in
      Ret (Some (map (fun m => contrasted_new (ml_indices m) (ml_extent m) average) l)))); [exact Ma|]. intros average.
    apply (fmono_bind (e_seed e) (fun fuel '(a, b, d) => let! s := iter_new p a b d in let! l := collect p s fuel in
      Ret (Some (map (fun m => contrasted_new (ml_indices m) (ml_extent m) average) l)))); [exact Ms|]. intros ((a & b) & d).
    destruct (iter_new p a b d) as [s0| |]; cbn [bind]; try (apply fmono_const).
    apply (fmono_bind (collect p s0) (fun _ l => Ret (Some (map (fun m => contrasted_new (ml_indices m) (ml_extent m) average) l)))); [|intros; apply fmono_const].
    unfold collect. apply (fmono_loop (fun fuel (st : iter * list motiflet) =>
       let '(s, acc) := st in let! '(s, answer) := next p s fuel in
       match answer with Item m => Ret (inl (s, acc ++ [m])) | End => Ret (inr acc) | Interrupted => Panic end)).
    intros (s1 & acc). apply (fmono_bind (next p s1) (fun _ '(s, answer) =>
       match answer with Item m => Ret (inl (s, acc ++ [m])) | End => Ret (inr acc) | Interrupted => Panic end)); [apply next_mono|intros; apply fmono_const].
Qed.
Theorem c109_exact_refuted :
  exists (show : f64 -> list N) (o : bool -> options) (e : setting) (with_exact without : list N) (one two : list (f64 * list nat)),
    plain show /\ (forall exact, o_exact (o exact) = exact /\ o_topk (o exact) = 2 /\ o_support (o exact) = 2 /\ ready (o exact) e) /\
    returns (run false show (o true) e) (Some with_exact) /\ rows with_exact = Some (reading show one) /\ length (of_size 2 one) = 1 /\
    returns (run false show (o false) e) (Some without) /\ rows without = Some (reading show two) /\ length (of_size 2 two) = 2.
Proof.
  exists plain_show, pairs_options, pairs_setting. eexists. eexists. exists [(fl 1, [0; 4])], [(fl 2, [8; 12]); (fl 1, [0; 4])].
  split; [exact plain_show_plain|]. split; [intros exact; split; [reflexivity|]; split; [reflexivity|]; split; [reflexivity|apply pairs_ready]|].
  split; [apply (fmono_returns _ 40); [apply run_mono; intros x y _ _; reflexivity|vm_compute; reflexivity]|]. split; [vm_compute; reflexivity|]. split; [reflexivity|].
  split; [apply (fmono_returns _ 40); [apply run_mono; intros x y _ _; reflexivity|vm_compute; reflexivity]|]. split; [vm_compute; reflexivity|]. reflexivity.
Qed.
Print Assumptions c109_exact_refuted.

(** * C110: the program ends and writes its output *)
(** Without [--exact], a support that does not fit in the series makes the program run
    forever: no output is ever written, not even for the supports that do fit.  The Python
    interface refuses such a support (C91). *)
Lemma too_many o e memory : ready o e -> o_exact o = false -> s_n (e_series e) <= (o_support o - 1) * (e_w e / 2) -> 2 < o_support o -> no_support (searched o e memory) (o_support o).
Proof.
  intros R Ho Ln Ls l Ll Hl A. destruct (ready_index _ _ R Ho memory) as (Sd & En & _ & _). pose proof (sound_zone _ Sd) as Hz.
  cbn [searched with_arguments p_ez] in *. set (z := e_w e / 2) in *.
  pose proof (fits (s_n (e_series e)) z l Hz) as F. rewrite Ll in F.
  assert (L : o_support o <= (s_n (e_series e) - 1) / z + 1).
  { apply F; [|exact A]. intros x Hx. specialize (Hl x Hx). destruct Hl as (Hl & _). change (x < p_n (e_index e memory)) in Hl. rewrite En in Hl. exact Hl. }
  assert (G : (s_n (e_series e) - 1) / z < o_support o - 1); [|lia].
  apply Nat.div_lt_upper_bound; [lia|]. destruct (s_n (e_series e)); [cbn; nia|]. lia.
Qed.
Theorem c110_no_output :
  forall (checks : bool) (show : f64 -> list N) (o : options) (e : setting) (fuel : nat) (file : list N),
    ready o e -> o_exact o = false -> 0 < o_topk o -> 2 < o_support o ->
    s_n (e_series e) <= (o_support o - 1) * (e_w e / 2) ->
    run checks show o e fuel <> Ret (Some file).
Proof.
  intros checks show o e fuel file R Ho Hk Ls Ln E. destruct (run_found _ _ _ _ _ _ E) as (found & Ef & _).
  destruct (run_search checks o e fuel found Ho Ef) as (memory & a & b & d & n & s & l & Es & Q & _).
  destruct (ready_index _ _ R Ho memory) as (Sd & _ & _ & So).
  apply (c41_never_ends (searched o e memory) a b d _ fuel s _ (o_support o) Sd (So fuel a b d Es) eq_refl Hk) in Q; [|cbn; lia|exact (too_many o e memory R Ho Ln Ls)].
  apply Q. apply in_or_app. right. left. reflexivity.
Qed.
Print Assumptions c110_no_output.
(** If besides the search does not abort (see C40) it never ends. *)
Theorem c110_never_ends :
  forall (checks : bool) (show : f64 -> list N) (o : options) (e : setting) (memory : N),
    ready o e -> o_exact o = false -> 0 < o_topk o -> 2 < o_support o ->
    s_n (e_series e) <= (o_support o - 1) * (e_w e / 2) ->
    match o_max_memory o with Some text => from_str checks text = Ret (Some memory) | None => (memory = e_memory e / 2)%N end ->
    (forall fuel, e_average e fuel <> Panic /\ e_seed e fuel <> Panic) ->
    (forall fuel a b d, e_seed e fuel = Ret (a, b, d) ->
       well_behaved (searched o e memory) d /\ exists s, iter_new (searched o e memory) a b d = Ret s) ->
    diverges (run checks show o e).
Proof.
  intros checks show o e memory R Ho Hk Ls Ln Hm Hp Hw fuel.
  pose proof (fun file => c110_no_output checks show o e fuel file R Ho Hk Ls Ln) as N. unfold run in *.
  destruct (find_motiflets checks o e fuel) as [[found|]| |] eqn:E; [exfalso; eapply N; reflexivity| | |reflexivity]; exfalso;
    unfold find_motiflets in E; rewrite Ho in E;
    (assert (Em : match o_max_memory o with Some text => from_str checks text | None => Ret (Some (e_memory e / 2)%N) end = Ret (Some memory))
       by (destruct (o_max_memory o); [exact Hm|rewrite Hm; reflexivity])); rewrite Em in E; cbn [bind] in E; fold (searched o e memory) in E;
    destruct (Hp fuel) as (H1 & H2); destruct (e_average e fuel) as [av| |]; cbn [bind] in E; try congruence;
    destruct (e_seed e fuel) as [((a & b) & d)| |] eqn:Es; cbn [bind] in E; try congruence;
    destruct (Hw fuel a b d Es) as (W & s0 & E0); rewrite E0 in E; cbn [bind] in E;
    destruct (collect (searched o e memory) s0 fuel) as [l| |] eqn:Ec; cbn [bind] in E; try discriminate.
  destruct (ready_index _ _ R Ho memory) as (Sd & _ & _ & So). specialize (So fuel a b d Es).
  destruct (collect_panic _ fuel fuel s0 [] Ec) as (n & [C|(s' & l & C & I)]).
  - apply (c40_no_abort_partial (searched o e memory) a b d s0 (repeat (fun _ => true) n) fuel Sd So W E0). unfold session. rewrite E0. exact C.
  - apply (proj1 (calls_yes _ _ _ _ _ _ C)). exact I.
Qed.
Print Assumptions c110_never_ends.
(** Four windows, of which only two fit. *)
Definition narrow_order (from : nat) : option (list nat) := Some (insertion_sort (fun z => if z =? from then f_zero else fl 1) 4).
Definition narrow_setting : setting := {|
  e_w := 4; e_series := Series 4 (fun _ => false) (fun _ _ => fl 1) (fun _ _ => fl 1);
  e_order := narrow_order; e_split := Leaf (seq 0 4);
  e_index := fun _ => narrow; e_seed := fun _ => Ret (0, 3, fl 1); e_average := fun _ => Ret (fl 1); e_memory := 4096 |}.
Definition narrow_options (exact : bool) : options := Options exact None 3 1.
Lemma narrow_ready exact : ready (narrow_options exact) narrow_setting.
Proof.
  split.
  - intros x y _. reflexivity.
  - intros from d L E. do 4 (destruct from as [|from];
    [vm_compute in E; apply Ret_inj in E; subst d; apply sort_outcome_check; vm_compute; reflexivity|]). cbn in L. lia.
  - reflexivity.
  - intros _ memory. split; [|split; [reflexivity|split; [reflexivity|]]].
    + split.
      * cbn. lia.
      * cbn. lia.
      * intros r k _. split; [|discriminate]. destruct toy_table as (_ & B & C). split; [reflexivity|]. split; [exact B|exact C].
      * intros r k x i _ H. left. cbn in H. apply nth_error_In in H. cbn in H. intuition (subst; reflexivity).
      * intros a b t d. apply below_sign. reflexivity.
      * intros i j _. reflexivity.
      * reflexivity.
      * reflexivity.
    + intros fuel a b d E. apply Ret_inj in E. injection E as <- <- <-. repeat split; cbn; try lia; unfold too_close; lia.
Qed.
(** The exact search on the same input writes the pair it finds. *)
Theorem c110_ends_refuted :
  exists (o : bool -> options) (e : setting) (file : list N) (extent : f64) (positions : list nat),
    (forall exact, o_exact (o exact) = exact /\ ready (o exact) e /\ o_support (o exact) = 3 /\ o_topk (o exact) = 1) /\
    (forall checks show, diverges (run checks show (o false) e)) /\
    returns (run false plain_show (o true) e) (Some file) /\ rows file = Some (reading plain_show [(extent, positions)]) /\ length positions = 2.
Proof.
  exists narrow_options, narrow_setting. eexists. exists (fl 1), [0; 2].
  split; [intros exact; split; [reflexivity|]; split; [apply narrow_ready|]; split; reflexivity|]. split.
  - intros checks show. apply (c110_never_ends checks show (narrow_options false) narrow_setting 2048).
    + apply narrow_ready.
    + reflexivity.
    + cbn. lia.
    + cbn. lia.
    + cbn. lia.
    + reflexivity.
    + intros fuel. split; discriminate.
    + intros fuel a b d E. apply Ret_inj in E. injection E as <- <- <-. split; [|eexists; vm_compute; reflexivity].
      split; try reflexivity; [|split; reflexivity]. intros p0 E. vm_compute in E. injection E as <-. unfold HashValue.K. lia.
  - split; [apply (fmono_returns _ 40); [apply run_mono; intros x y _ _; reflexivity|vm_compute; reflexivity]|]. split; [vm_compute; reflexivity|reflexivity].
Qed.
Print Assumptions c110_ends_refuted.
(** The exact search ends when no window is flat, if the sampling of distances does (C53).
    Missing: flat windows (see C22), and searches without [--exact] that fit. *)
Theorem c110_exact_partial :
  forall (checks : bool) (show : f64 -> list N) (o : options) (e : setting) (average : f64),
    ready o e -> o_exact o = true -> returns (e_average e) average ->
    (forall i, i < s_n (e_series e) -> s_flat (e_series e) i = false) ->
    (forall x y, x < s_n (e_series e) -> y < s_n (e_series e) -> (x <> y -> is_nan (s_raw (e_series e) x y) = false) /\ is_nan (s_zeucl (e_series e) x y) = false) ->
    exists file, returns (run checks show o e) (Some file).
Proof.
  intros checks show o e average R Ho (n0 & Ha) Hf Hn.
  destruct (c22_no_flat_partial (e_series e) (e_order e) (o_support o) (e_w e / 2) (e_split e) (ready_nonneg _ _ R) Hf Hn (ready_order _ _ R) (ready_split _ _ R)) as (ms & B).
  eexists. exists n0. intros n L. unfold run, find_motiflets. rewrite Ho, (Ha n L). cbn [bind]. rewrite B. reflexivity.
Qed.
Print Assumptions c110_exact_partial.
Example c110_exact_case : ready (narrow_options true) narrow_setting /\ returns (e_average narrow_setting) (fl 1).
Proof. split; [apply narrow_ready|]. exists 0. reflexivity. Qed.
Example c109_case : ready (pairs_options false) pairs_setting /\ ready (Options false None 2 1) pairs_setting /\
  exists file motiflets, run true plain_show (Options false None 2 1) pairs_setting 40 = Ret (Some file) /\ rows file = Some (reading plain_show motiflets) /\ length motiflets = 1.
Proof.
  split; [apply pairs_ready|]. split.
  { destruct (pairs_ready false) as [A B C D]. split; [exact A|exact B|exact C|]. intros _ memory. destruct (D eq_refl memory) as (S & E1 & E2 & E3).
    split; [|split; [exact E1|split; [exact E2|exact E3]]]. destruct S as [X1 X2 X3 X4 X5 X6 X7 X8]. split; auto. }
  eexists. exists [(fl 1, [0; 4])]. split; [vm_compute; reflexivity|]. split; [vm_compute; reflexivity|reflexivity].
Qed.
