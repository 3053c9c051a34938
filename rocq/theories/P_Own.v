(** C139: the program with the profile of its own tables.  C131 and C132 hold for any profile
    of the index; here it is the one computed from the tables of the run, and that decides
    whether there is an output at all. *)
From Coq Require Import String.
From Coq Require Import Reals Lra Lia Floats.SpecFloat.
From Flocq Require Import Core BinarySingleNaN.
From Verif Require Import Base Overlaps OverlapsSpec F64 RSpec RealProofs SeriesProofs Sampling TopK Iterator IteratorSpec IteratorSteps Hashing HashingSpec HashValue HashSpec HashProofs EnumSpec Brute BruteSpec Text TextSpec P_Text Python Main MainSpec P_Main P_Brute P_Iterator Profile ProfileSpec Calibrate P_Calibrate2 P_Starts
  FpOps FloatSeries FloatSpec FloatProofs FloatRoll FloatBound FloatErr FloatMean P_Float P_Float2 P_Acc P_Acc2 AccSpec P_Acc3 P_Acc4 P_Acc5 FloatHash ProjSpec P_Proj P_Prof CoinProofs FloatBrute BruteAccSpec P_Brute64 P_Hashing P_Width64 FloatRun P_Run64 FloatSample P_Seed64 P_Avg64 FloatWidth FloatStart FloatMain Decimal P_Decimal P_Whole P_Whole2.
Import FpOps.
Local Open Scope list_scope.
Local Open Scope R_scope.

(** The profile used by the search of the program, whatever the memory it may use, is the one
    of the first four tables it has built. *)
Definition own_search (o : options) (n_w : world) (w : nat) (s : fseries) (width : f64) : Prop :=
  forall memory, exists pl, own_profile (MainSpec.searched o (fsetting o n_w w s width) memory) pl.
(** the table of repetition [r] *)
Definition built (n_w : world) (s : fseries) (width : f64) (r : nat) (hashes indices : list N) : Prop :=
  frepetition_table (n_zeros n_w) (n_sort n_w r 8) (FHasher (n_vectors n_w r) (n_shifts n_w width r) width) s (n_sdp n_w) 8 = Ret (hashes, indices).

Section Own.
  Variables (checks : bool) (show : f64 -> list N) (o : options) (w : nat) (precise : bool) (prefix : option nat) (n_w : world) (file : list N)
            (ts : list f64) (s : fseries) (e : Z) (eps err gap : R) (fuel : nat) (out : list N) (width : f64).
  Hypothesis Sg : searching o w precise n_w ts s e eps err gap.
  Hypothesis El : load_from (n_parse n_w) prefix file fuel = Ret (Some ts).
  Hypothesis Ep : fprepare checks o n_w w s fuel = Ret (Some width).
  Hypothesis H : fprogram checks show o w precise prefix n_w file fuel = Ret (Some out).
  Notation st := (fsetting o n_w w s width).

  Lemma own_started : exists memory a b d i, iter_new (MainSpec.searched o st memory) a b d = Ret i /\
    sound (MainSpec.searched o st memory) /\ seed_ok (MainSpec.searched o st memory) a b d.
  Proof.
    destruct (program_run _ _ _ _ _ _ _ _ _ _ _ _ El (sg_series _ _ _ _ _ _ _ _ _ _ Sg) H) as (width' & Ep' & Hr).
    rewrite Ep in Ep'. apply Ret_inj in Ep'. injection Ep' as <-.
    destruct (run_found _ _ _ _ _ _ Hr) as (found & Hf & _). pose proof (sg_mode _ _ _ _ _ _ _ _ _ _ Sg) as Ho.
    destruct (run_search _ _ _ _ _ Ho Hf) as (memory & a & b & d & n & x & l & Hse & Q & _).
    unfold session in Q. destruct (iter_new (MainSpec.searched o st memory) a b d) as [i| |] eqn:Ei; try discriminate Q.
    exists memory, a, b, d, i. split; [exact Ei|]. destruct (ready_index _ _ (sg_ready _ _ _ _ _ _ _ _ _ _ width Sg) Ho memory) as (Sd & _ & _ & So).
    split; [exact Sd|apply (So _ _ _ _ Hse)].
  Qed.
  Lemma own_table memory r : exists hashes indices, built n_w s width r hashes indices /\
    p_table (MainSpec.searched o st memory) r K = (hashes, indices) /\ length hashes = (length ts - w)%nat.
  Proof.
    destruct (c127_tables (n_zeros n_w) ts w precise s (n_sdp n_w) (n_exp n_w) (n_sort n_w) (fhashers (n_vectors n_w) (n_shifts n_w width) width) (the_rest o w n_w memory) r 8
      (sg_whole _ _ _ _ _ _ _ _ _ _ width Sg memory) ltac:(lia)) as (hashes & indices & Et & Eq & _ & L & _).
    exists hashes, indices. split; [exact Et|]. split; [exact Eq|exact L].
  Qed.
End Own.

(** * C139: short series *)
(** The search never writes an output for a series of 45 windows or fewer, whatever is in it
    and however its windows are hashed. *)
Theorem c139_short :
  forall (checks : bool) (show : f64 -> list N) (o : options) (w : nat) (precise : bool) (prefix : option nat) (n_w : world) (file : list N)
         (ts : list f64) (s : fseries) (e : Z) (eps err gap : R) (fuel : nat) (out : list N) (width : f64),
    searching o w precise n_w ts s e eps err gap ->
    load_from (n_parse n_w) prefix file fuel = Ret (Some ts) ->
    fprepare checks o n_w w s fuel = Ret (Some width) -> own_search o n_w w s width ->
    (length ts - w <= 45)%nat ->
    fprogram checks show o w precise prefix n_w file fuel <> Ret (Some out).
Proof.
  intros checks show o w precise prefix n_w file ts s e eps err gap fuel out width Sg El Ep Own Short H.
  destruct (own_started _ _ _ _ _ _ _ _ _ _ _ _ _ _ _ _ _ Sg El Ep H) as (memory & a & b & d & i & Ei & Sd & So). destruct (Own memory) as (pl & Op).
  rewrite (c136_short _ pl a b d Sd So Op) in Ei; [discriminate Ei|].
  intros r _. destruct (own_table _ _ _ _ _ _ _ _ _ _ width Sg memory r) as (hashes & indices & _ & -> & L). cbn [fst]. lia.
Qed.
Print Assumptions c139_short.

(** * C139: what an output needs *)
(** If there is an output then motiflets of two or more were asked for and, over the first
    four tables, the pairs of entries whose hash values have the same first byte outnumber
    those with the same hash value that are trivial matches by more than 4000. *)
Theorem c139_needs :
  forall (checks : bool) (show : f64 -> list N) (o : options) (w : nat) (precise : bool) (prefix : option nat) (n_w : world) (file : list N)
         (ts : list f64) (s : fseries) (e : Z) (eps err gap : R) (fuel : nat) (out : list N) (width : f64)
         (hashes indices : nat -> list N) (first triv : nat -> nat),
    searching o w precise n_w ts s e eps err gap ->
    load_from (n_parse n_w) prefix file fuel = Ret (Some ts) ->
    fprepare checks o n_w w s fuel = Ret (Some width) -> own_search o n_w w s width ->
    (Z.of_nat (length ts - w) <= 2 ^ 25)%Z ->
    (forall r, (r < 4)%nat -> built n_w s width r (hashes r) (indices r) /\ card (collide (hashes r) 1) (first r) /\
       card (fun x y => collide (hashes r) 8 x y /\ trivial (indices r) (w / 2) x y) (triv r)) ->
    fprogram checks show o w precise prefix n_w file fuel = Ret (Some out) ->
    (2 <= o_support o)%nat /\ (over_four triv + 4000 < over_four first)%Z.
Proof.
  intros checks show o w precise prefix n_w file ts s e eps err gap fuel out width hashes indices first triv Sg El Ep Own Len Cnt H.
  destruct (own_started _ _ _ _ _ _ _ _ _ _ _ _ _ _ _ _ _ Sg El Ep H) as (memory & a & b & d & i & Ei & Sd & So). destruct (Own memory) as (pl & Op).
  set (p := MainSpec.searched o (fsetting o n_w w s width) memory) in *.
  assert (Tb : forall r, (r < 4)%nat -> p_table p r K = (hashes r, indices r) /\ length (hashes r) = (length ts - w)%nat).
  { intros r Lr. destruct (own_table _ _ _ _ _ _ _ _ _ _ width Sg memory r) as (h & x & B & E & L). destruct (Cnt r Lr) as (B' & _).
    unfold built in *. rewrite B in B'. apply Ret_inj in B'. injection B' as -> ->. split; [exact E|exact L]. }
  pose proof Op as (rows & L4 & Rows & _).
  assert (Ap : forall r, exists n, (r < 4)%nat -> same_apart p r n).
  { intros r. destruct (nth_error rows r) as [row|] eqn:E; [|exists 0%nat; intros L; apply nth_error_None in E; lia].
    destruct (row_facts p r row Sd (Rows r row E)) as (_ & _ & n & _ & _ & A & _). exists n. auto. }
  destruct (Ap 0%nat) as (n0 & A0). destruct (Ap 1%nat) as (n1 & A1). destruct (Ap 2%nat) as (n2 & A2). destruct (Ap 3%nat) as (n3 & A3).
  destruct (c136_starts p pl a b d first triv (fun r => nth r [n0; n1; n2; n3] 0%nat) Sd So Op) as (G & _).
  - intros r Lr. destruct (Tb r Lr) as (-> & L). cbn [fst]. rewrite L. exact Len.
  - intros r Lr. destruct (Tb r Lr) as (E & _). destruct (Cnt r Lr) as (_ & C1 & C2). unfold same_first, same_trivial. rewrite E. cbn [fst snd].
    split; [exact C1|]. split; [exact C2|]. do 4 (destruct r as [|r]; [auto|]). lia.
  - apply G. exists i. exact Ei.
Qed.
Print Assumptions c139_needs.

(** ** The zigzag of C131 with the profile of its own tables: four windows are not enough *)
Definition short_row : list Z := repeat 2%Z 8.
Definition with_profile (q : problem) (profile : list f64) : problem := {|
  p_n := p_n q; p_ez := p_ez q; p_max_k := p_max_k q; p_top_k := p_top_k q;
  p_zeucl := p_zeucl q; p_zeucl_threshold := p_zeucl_threshold q; p_table := p_table q;
  p_failure := p_failure q; p_delta := p_delta q; p_coin := p_coin q;
  p_expected := profile; p_setup_cost := p_setup_cost q; p_collision_cost := p_collision_cost q;
  p_max_repetitions := p_max_repetitions q; p_buffer := p_buffer q; p_threshold := p_threshold q;
  p_stop := p_stop q; p_nan_first := p_nan_first q |}.
Definition short_world : world := {|
  n_parse := word_parser; n_zeros := z_ex; n_sdp := zigzag_dot; n_exp := fun _ => f_zero;
  n_sort_all := fun l => l; n_sort_trial := fun _ => by_hash; n_sort := fun _ _ => by_hash;
  n_order := n_order zigzag_world;
  n_split := Leaf (seq 0 4); n_given := Some (codes "0.75"); n_vector := [];
  n_shifts := fun _ _ => repeat f_zero 8; n_vectors := fun _ => repeat (nums [1; 0]%nat) 8;
  n_pairs := all_pairs; n_draws := by_turns 4; n_average_samples := 6; n_nearest_samples := 7;
  n_rest := fun _ => with_profile zigzag_search (collision_profile 4 (Part (repeat (profile_row short_row) 4))); n_memory := 4096%N |}.
Lemma short_sensible : sensible short_world zigzag_data 2 zigzag_series.
Proof. pose proof zigzag_sensible as [A B C D E F G]. split; assumption. Qed.
Lemma short_searching support topk : searching (Options false (Some (codes "1g")) support topk) 2 true short_world zigzag_data zigzag_series 0 (/ 2 ^ 36) 0 (40 * / 2 ^ 36).
Proof. pose proof (zigzag_searching support topk) as [A B C D E F G I J L M N O Q]. split; try assumption. apply short_sensible. Qed.
Lemma short_own support topk : own_search (Options false (Some (codes "1g")) support topk) short_world 2 zigzag_series three_quarters.
Proof.
  intros memory. exists (Part (repeat (profile_row short_row) 4)). exists (repeat short_row 4). split; [reflexivity|]. split; [|split; reflexivity].
  intros r row E. apply nth_error_In, repeat_spec in E. subst row.
  destruct (own_table _ _ _ _ _ _ _ _ _ _ three_quarters (short_searching support topk) memory r) as (h & x & B & E & L).
  pose proof (sound_tables _ (proj1 (ready_index _ _ (sg_ready _ _ _ _ _ _ _ _ _ _ three_quarters (short_searching support topk)) eq_refl memory)) r K ltac:(unfold K; lia)) as (T & _).
  rewrite E in T |- *. cbn [fst snd] in T |- *. apply (own_one h x 100 _ short_row T); [rewrite L; vm_compute; lia|].
  vm_compute in B. apply Ret_inj in B. injection B as <- <-. vm_compute. reflexivity.
Qed.
Example c139_short_case :
  let o := Options false (Some (codes "1g")) 2 1 in
  searching o 2 true short_world zigzag_data zigzag_series 0 (/ 2 ^ 36) 0 (40 * / 2 ^ 36) /\
  load_from (n_parse short_world) None zigzag_file 60 = Ret (Some zigzag_data) /\
  fprepare true o short_world 2 zigzag_series 60 = Ret (Some three_quarters) /\
  own_search o short_world 2 zigzag_series three_quarters /\ (length zigzag_data - 2 <= 45)%nat /\
  fprogram true plain_show o 2 true None short_world zigzag_file 60 = Panic.
Proof.
  split; [apply short_searching|]. split; [vm_compute; reflexivity|]. split; [vm_compute; reflexivity|]. split; [apply short_own|]. split; [vm_compute; lia|]. vm_compute. reflexivity.
Qed.

(** ** A longer zigzag, of seventy values: the program, with the profile of its own tables, has an output *)
Definition long_data : list f64 := nums (map (fun i => i mod 2)%nat (seq 0 70)).
Definition long_file : list N := text_file (map (fun i => if Nat.even i then "0" else "1")%string (seq 0 70)).
Definition long_dot (v : list f64) (i : nat) : f64 := fsum z_ex (map (fun ab => fmul (fst ab) (snd ab)) (combine v (firstn 2 (skipn i long_data)))).
Definition long_series : fseries := match fseries_new z_ex long_data 2 true with Ret s => s | _ => FSeries [] 0 [] [] end.
Definition long_row : list Z := repeat 1122%Z 8.
Definition long_plan : plan := Both (Part [profile_row long_row]) (Part (repeat (profile_row long_row) 3)).
Definition long_rest : problem := {|
  p_n := 0; p_ez := 1; p_max_k := 0; p_top_k := 0;
  p_zeucl := fun _ _ => f_zero; p_zeucl_threshold := fun _ _ _ => None; p_table := fun _ _ => ([], []);
  p_failure := fun _ _ _ _ _ => f_zero; p_delta := half; p_coin := fun _ _ _ => true;
  p_expected := collision_profile 4 long_plan; p_setup_cost := fl 1; p_collision_cost := fl 1; p_max_repetitions := 100;
  p_buffer := 64; p_threshold := 100; p_stop := false; p_nan_first := true |}.
Definition long_order (from : nat) : list nat :=
  filter (fun i => (i mod 2 =? from mod 2)%nat) (seq 0 68) ++ filter (fun i => negb (i mod 2 =? from mod 2)%nat) (seq 0 68).
Definition long_world : world := {|
  n_parse := word_parser; n_zeros := z_ex; n_sdp := long_dot; n_exp := fun _ => f_zero;
  n_sort_all := fun l => l; n_sort_trial := fun _ => by_hash; n_sort := fun _ _ => by_hash;
  n_order := fun from => Some (long_order from);
  n_split := Leaf (seq 0 68); n_given := Some (codes "0.75"); n_vector := [];
  n_shifts := fun _ _ => repeat f_zero 8; n_vectors := fun _ => repeat (nums [1; 0]%nat) 8;
  n_pairs := all_pairs; n_draws := by_turns 68; n_average_samples := 6; n_nearest_samples := 7;
  n_rest := fun _ => long_rest; n_memory := 4096%N |}.

(** a property checked for each number below [n] *)
Lemma below_all (P : nat -> bool) n : forallb P (seq 0 n) = true -> forall i, (i < n)%nat -> P i = true.
Proof. intros F i L. rewrite forallb_forall in F. apply F, in_seq. lia. Qed.
Lemma long_length : length long_data = 70%nat.
Proof. reflexivity. Qed.
Lemma long_bits n : In n (map (fun i => i mod 2)%nat (seq 0 70)) -> (n <= 1)%nat.
Proof. intros H. apply in_map_iff in H. destruct H as (i & <- & _). pose proof (Nat.mod_upper_bound i 2 ltac:(lia)). lia. Qed.
Lemma long_moderate : moderate long_data.
Proof. apply nums_moderate. intros n Hn. apply long_bits in Hn. lia. Qed.
Lemma long_usable : usable long_data 2.
Proof. unfold usable. rewrite long_length. lia. Qed.
Lemma long_new : fseries_new z_ex long_data 2 true = Ret long_series.
Proof. vm_compute. reflexivity. Qed.
Lemma long_window i : (i < 68)%nat -> firstn 2 (skipn i long_data) = if Nat.even i then nums [0; 1]%nat else nums [1; 0]%nat.
Proof.
  intros L. assert (G : forall k, (k < 70)%nat -> nth_error long_data k = Some (f_of_nat (k mod 2))).
  { intros k Lk. unfold long_data, nums. rewrite map_map, nth_error_map. rewrite (nth_error_nth' _ 0%nat) by (rewrite seq_length; exact Lk). rewrite seq_nth by exact Lk. reflexivity. }
  pose proof (G i ltac:(lia)) as A. pose proof (G (S i) ltac:(lia)) as B. clear G.
  assert (Sk : forall (l : list f64) k x y, nth_error l k = Some x -> nth_error l (S k) = Some y -> firstn 2 (skipn k l) = [x; y]).
  { induction l as [|h l IH]; intros k x y Ex Ey; [destruct k; discriminate Ex|]. destruct k as [|k]; [|apply IH; assumption].
    destruct l as [|h' l]; [discriminate Ey|]. cbn in Ex, Ey |- *. congruence. }
  rewrite (Sk _ _ _ _ A B). destruct (Nat.even i) eqn:E.
  - apply Nat.even_spec in E. destruct E as (k & ->). replace (2 * k)%nat with (k * 2)%nat by lia. rewrite Nat.mod_mul by lia. replace (S (k * 2)) with (1 + k * 2)%nat by lia. rewrite Nat.mod_add by lia. reflexivity.
  - assert (O : Nat.odd i = true) by (unfold Nat.odd; rewrite E; reflexivity). apply Nat.odd_spec in O. destruct O as (k & ->).
    replace (2 * k + 1)%nat with (1 + k * 2)%nat by lia. rewrite Nat.mod_add by lia. replace (S (1 + k * 2)) with ((1 + k) * 2)%nat by lia. rewrite Nat.mod_mul by lia. reflexivity.
Qed.
Lemma long_exact i : (i < 68)%nat -> exact_window long_data 2 i = if Nat.even i then [0; 1] else [1; 0].
Proof.
  intros L. rewrite <- window_exact. unfold window. rewrite skipn_map, firstn_map, (long_window i L). 
  destruct (of_nat_exact 1 ltac:(lia)) as (_ & V1). destruct (of_nat_exact 0 ltac:(lia)) as (_ & V0). cbn [INR] in V0, V1.
  destruct (Nat.even i); unfold nums; cbn [map]; rewrite V0, V1; reflexivity.
Qed.
Lemma long_sd i : (i < 68)%nat -> sd_of (exact_window long_data 2 i) = / 2.
Proof.
  intros L. rewrite (long_exact i L). unfold sd_of, mean_of, total. transitivity (sqrt (/ 2 * / 2)); [|apply sqrt_square; lra].
  f_equal. destruct (Nat.even i); cbn [map fold_right length INR]; lra.
Qed.
Lemma long_accurate : accurate long_series (length long_data - 2) 0 (/ 2 ^ 36).
Proof.
  intros i Hi _. apply (c100_precise z_ex long_data 2); [apply long_moderate|apply long_usable|apply long_new|exact Hi|lia| |].
  - intros x Hx. apply (nums_at_most 0 (map (fun i => i mod 2)%nat (seq 0 70))); [intros n Hn; apply long_bits in Hn; cbn; lia|lia|]. eapply win_incl; exact Hx.
  - assert (P51 : bp (-51) = / 2251799813685248) by reflexivity. assert (P36 : / 2 ^ 36 = / 68719476736) by (rewrite (pow_IZR 2 36); reflexivity).
    rewrite long_length in Hi. rewrite (long_sd i ltac:(lia)). rewrite !power_bp, P51, P36. change (bp 0) with 1. cbn [INR]. lra.
Qed.
Lemma long_off_limit : off_limit long_series (length long_data - 2).
Proof.
  rewrite long_length. intros i sd Li Hi. assert (Fl : sd = half).
  { assert (F : forall x, In x (fs_sd long_series) -> x = half) by (vm_compute; intros x Hx; repeat (destruct Hx as [Hx|Hx]; [symmetry; exact Hx|]); contradiction).
    apply F. eapply nth_error_In, Hi. }
  subst sd. assert (N : number half) by (vm_compute; auto). assert (Fl : fle half fflat_threshold = false) by (vm_compute; reflexivity).
  rewrite fle_val in Fl by (exact N || apply threshold_number). revert Fl. unfold Rle_bool. destruct (Rcompare_spec (fval half) (fval fflat_threshold)); intros Fl; try discriminate Fl; lra.
Qed.
Definition minus_one : f64 := S754_finite true 4503599627370496 (-52).
Lemma long_dots : P_Seed64.dots_within long_series long_data 2 long_dot 0.
Proof.
  intros from normal i Lf _ En Li _ _. rewrite long_length in Lf, Li. unfold dot_within. rewrite (long_exact i ltac:(lia)).
  assert (Hn : normal = [minus_one; f_of_nat 1] \/ normal = [f_of_nat 1; minus_one]).
  { assert (F : forall x, In x (map (fznormalized long_series) (seq 0 68)) -> x = Ret [minus_one; f_of_nat 1] \/ x = Ret [f_of_nat 1; minus_one])
      by (vm_compute; intros x Hx; repeat (destruct Hx as [Hx|Hx]; [solve [left; symmetry; exact Hx|right; symmetry; exact Hx]|]); contradiction).
    destruct (F (Ret normal)) as [E|E]; [|apply Ret_inj in E; auto|apply Ret_inj in E; auto]. rewrite <- En. apply in_map, in_seq. lia. }
  assert (N1 : number minus_one) by (split; reflexivity).
  assert (V1 : fval minus_one = -1) by (unfold fval, SF2R, F2R, minus_one; cbn [SpecFloat.cond_Zopp Fnum Fexp]; change (bp (-52)) with (/ 4503599627370496); cbn [Z.opp]; lra).
  destruct (of_nat_exact 1 ltac:(lia)) as (N2 & V2). rewrite INR_IZR_INZ in V2. cbn in V2.
  assert (D : long_dot normal i = if Nat.even i then nth 1 normal f_zero else nth 0 normal f_zero).
  { unfold long_dot. rewrite (long_window i ltac:(lia)). destruct Hn as [-> | ->]; destruct (Nat.even i); vm_compute; reflexivity. }
  rewrite D. destruct Hn as [-> | ->]; destruct (Nat.even i); cbn [nth]; (split; [assumption|]); unfold inner, total; cbn [map combine fold_right fst snd];
    rewrite ?V1, ?V2; match goal with |- Rabs ?d <= 0 => replace d with 0 by lra end; rewrite Rabs_R0; lra.
Qed.
Lemma long_gap : profile_gap long_series long_data 2 (/ 2 ^ 36) 0 (40 * / 2 ^ 36).
Proof. intros i Li _. rewrite long_length in Li. rewrite (long_sd i ltac:(lia)). cbn [INR]. unfold Rdiv. rewrite Rmult_0_l. lra. Qed.
Lemma long_sensible : sensible long_world long_data 2 long_series.
Proof.
  split.
  - intros r k. apply by_hash_sorts.
  - intros r. split; [reflexivity|]. intros v Hv. apply repeat_spec in Hv. subst v. reflexivity.
  - reflexivity.
  - intros t. rewrite long_length. apply Nat.mod_upper_bound. discriminate.
  - intros memory. vm_compute. split; [lia|reflexivity].
  - intros from d Lf Hd. rewrite long_length in Lf. change (n_order long_world from) with (Some (long_order from)).
    apply sort_outcome_check.
    assert (G : forallb (fun from => let o := long_order from in match distance_profile (brute_series z_ex long_series long_dot) from with
      | Ret d => (length o =? length d)%nat && forallb (fun i => existsb (Nat.eqb i) o) (seq 0 (length d)) &&
          forallb (fun i => forallb (fun j => negb (i <? j)%nat || fle (nth (nth i o 0%nat) d f_zero) (nth (nth j o 0%nat) d f_zero)) (seq 0 (length o))) (seq 0 (length o))
      | _ => false end) (seq 0 68) = true) by (vm_compute; reflexivity).
    pose proof (below_all _ _ G from ltac:(lia)) as Gf. cbv beta zeta in Gf. change (n_zeros long_world) with z_ex in Hd. change (n_sdp long_world) with long_dot in Hd. rewrite Hd in Gf. exact Gf.
  - rewrite long_length. reflexivity.
Qed.
Lemma long_searching support topk : searching (Options false (Some (codes "1g")) support topk) 2 true long_world long_data long_series 0 (/ 2 ^ 36) 0 (40 * / 2 ^ 36).
Proof.
  split.
  - reflexivity.
  - apply long_new.
  - rewrite long_length. lia.
  - vm_compute. discriminate.
  - apply long_moderate.
  - apply long_off_limit.
  - apply eps_ok.
  - apply long_accurate.
  - apply pow_le. lra.
  - apply long_dots.
  - apply long_gap.
  - apply long_sensible.
  - vm_compute. lia.
  - intros i Li _. rewrite long_length in Li |- *. change (2 / 2)%nat with 1%nat. unfold too_close.
    destruct i as [|i]; [exists 2%nat|exists 0%nat]; (split; [lia|]); (split; [vm_compute; reflexivity|lia]).
Qed.
Lemma long_tables memory support topk r : exists h x,
  p_table (MainSpec.searched (Options false (Some (codes "1g")) support topk) (fsetting (Options false (Some (codes "1g")) support topk) long_world 2 long_series three_quarters) memory) r K = (h, x) /\
  built long_world long_series three_quarters r h x /\ table_ok h x /\ length h = 68%nat /\ collision_profile_at h x 1 100 = Ret long_row.
Proof.
  destruct (own_table _ _ _ _ _ _ _ _ _ _ three_quarters (long_searching support topk) memory r) as (h & x & B & E & L).
  pose proof (sound_tables _ (proj1 (ready_index _ _ (sg_ready _ _ _ _ _ _ _ _ _ _ three_quarters (long_searching support topk)) eq_refl memory)) r K ltac:(unfold K; lia)) as (T & _).
  rewrite E in T. exists h, x. split; [exact E|]. split; [exact B|]. split; [exact T|]. split; [exact L|].
  vm_compute in B. apply Ret_inj in B. injection B as <- <-. vm_compute. reflexivity.
Qed.
Lemma long_own support topk : own_search (Options false (Some (codes "1g")) support topk) long_world 2 long_series three_quarters.
Proof.
  intros memory. exists long_plan. exists (repeat long_row 4). split; [reflexivity|]. split; [|split; reflexivity].
  intros r row E. apply nth_error_In, repeat_spec in E. subst row. destruct (long_tables memory support topk r) as (h & x & -> & B & T & L & C).
  cbn [fst snd]. apply (own_one h x 100 _ long_row T); [lia|exact C].
Qed.
(** the counts of a table: 34 windows go up and 34 go down; no two of either kind are trivial matches *)
Example c139_needs_case :
  let o := Options false (Some (codes "1g")) 2 1 in
  searching o 2 true long_world long_data long_series 0 (/ 2 ^ 36) 0 (40 * / 2 ^ 36) /\
  load_from (n_parse long_world) None long_file 200 = Ret (Some long_data) /\
  fprepare true o long_world 2 long_series 200 = Ret (Some three_quarters) /\
  own_search o long_world 2 long_series three_quarters /\ (Z.of_nat (length long_data - 2) <= 2 ^ 25)%Z /\
  (exists hashes indices first triv, forall r, (r < 4)%nat -> built long_world long_series three_quarters r (hashes r) (indices r) /\ card (collide (hashes r) 1) (first r) /\
     card (fun x y => collide (hashes r) 8 x y /\ trivial (indices r) (2 / 2) x y) (triv r)) /\
  fprogram true plain_show o 2 true None long_world long_file 200 = Ret (Some (codes "0, 0, 2" ++ [10%N])).
Proof.
  cbv zeta. split; [apply long_searching|]. split; [vm_compute; reflexivity|]. split; [vm_compute; reflexivity|]. split; [apply long_own|]. split; [vm_compute; discriminate|].
  split; [|vm_compute; reflexivity].
  destruct (long_tables 0%N 2 1 0) as (h & x & Et & B & T & L & C). set (p := MainSpec.searched _ _ _) in Et.
  assert (Sd : sound p) by exact (proj1 (ready_index _ _ (sg_ready _ _ _ _ _ _ _ _ _ _ three_quarters (long_searching 2 1)) eq_refl 0%N)).
  destruct (row_facts p 0 long_row Sd) as (n & t & _ & F1 & F2 & _); [rewrite Et; apply (own_one h x 100 _ long_row T); [lia|exact C]|].
  unfold same_first, same_trivial in F1, F2. rewrite Et in F1, F2. cbn [fst snd] in F1, F2.
  exists (fun _ => h), (fun _ => x), (fun _ => n), (fun _ => t). intros r _. split; [exact B|]. split; [exact F1|exact F2].
Qed.
