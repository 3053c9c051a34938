(** C132: how many lines the program writes, and that a repeat is among them. *)
From Coq Require Import String.
From Coq Require Import Reals Lra Lia Floats.SpecFloat.
From Flocq Require Import Core BinarySingleNaN.
From Verif Require Import Base Overlaps OverlapsSpec OverlapsProofs F64 RSpec RealProofs SeriesProofs FFT FFTProofs SamplingSpec Sampling SamplingProofs TopK Iterator IteratorSpec IteratorSteps Hashing HashingSpec HashValue HashSpec EnumSpec Brute BruteSpec Text TextSpec P_Text Python Main MainSpec P_Main P_Brute P_Iterator GuaranteeSpec P_Guarantee
  FpOps FloatSeries FloatSpec FloatProofs P_Float P_Float2 P_Acc P_Acc2 AccSpec P_Acc3 P_Acc4 P_Acc5 FloatHash ProjSpec P_Proj P_Prof FloatBrute BruteAccSpec P_Brute64 P_Hashing P_Width64 FloatRun P_Run64 FloatSample P_Seed64 P_Avg64 FloatWidth FloatStart FloatMain Decimal P_Decimal P_Whole.
Import FpOps.
Local Open Scope list_scope.
Local Open Scope R_scope.

(** What the search of C131 is run on, all of its conditions together. *)
Record searching (o : options) (w : nat) (precise : bool) (n_w : world) (ts : list f64) (s : fseries) (e : Z) (eps err gap : R) : Prop := {
  sg_mode : o_exact o = false;
  sg_series : fseries_new (n_zeros n_w) ts w precise = Ret s;
  sg_window : (2 <= w < length ts)%nat;
  sg_length : (N.of_nat (length ts) <= 2 ^ 32)%N;
  sg_moderate : moderate ts;
  sg_limit : off_limit s (length ts - w);
  sg_eps : 0 < eps <= / 64;
  sg_accurate : accurate s (length ts - w) e eps;
  sg_err : err <= 2 ^ 500;
  sg_dots : P_Seed64.dots_within s ts w (n_sdp n_w) err;
  sg_gap : profile_gap s ts w eps err gap;
  sg_sensible : sensible n_w ts w s;
  sg_samples : (1 <= n_nearest_samples n_w)%nat;
  sg_partner : forall i, (i < length ts - w)%nat -> lively s i -> exists j, (j < length ts - w)%nat /\ lively s j /\ ~ too_close (w / 2) i j
}.

Section Searching.
  Variables (o : options) (w : nat) (precise : bool) (n_w : world) (ts : list f64) (s : fseries) (e : Z) (eps err gap : R) (width : f64).
  Hypothesis Sg : searching o w precise n_w ts s e eps err gap.
  Notation st := (fsetting o n_w w s width).
  Notation hs := (fhashers (n_vectors n_w) (n_shifts n_w width) width).
  Definition the_rest (memory : N) : problem := with_arguments (n_rest n_w memory) (o_support o) (o_topk o) (w / 2) false.

  Lemma sg_usable : usable ts w.
  Proof.
    pose proof (sg_window _ _ _ _ _ _ _ _ _ _ Sg). pose proof (sg_length _ _ _ _ _ _ _ _ _ _ Sg). split; [lia|]. assert (N.of_nat w <= 2 ^ 32)%N by lia. apply Z.le_trans with (2 ^ 32)%Z; [|vm_compute; discriminate]. lia.
  Qed.
  Lemma sg_zone : (1 <= w / 2)%nat.
  Proof. pose proof (sg_window _ _ _ _ _ _ _ _ _ _ Sg). apply Nat.div_le_lower_bound; lia. Qed.
  Lemma sg_searched memory : MainSpec.searched o st memory = fsearch (n_zeros n_w) s (n_sdp n_w) (n_exp n_w) (n_sort n_w) hs (the_rest memory).
  Proof. reflexivity. Qed.
  Lemma sg_whole memory : whole_search (n_zeros n_w) ts w precise s (n_sort n_w) hs (the_rest memory).
  Proof.
    pose proof Sg as [Mo E Lw L32 Md Of He Ac Er Hd Hg [So Ve Sh Dr Re Or Sl] Sm Pt]. split; try assumption; try lia.
    - apply sg_usable.
    - intros r. split; [apply Ve|apply Sh].
    - split; [apply sg_zone|apply Re].
  Qed.
  Lemma sg_sampled fuel a b d : e_seed st fuel = Ret (a, b, d) -> sampled s ts w (w / 2) gap a b d.
  Proof.
    pose proof Sg as [Mo E Lw L32 Md Of He Ac Er Hd Hg [So Ve Sh Dr Re Or Sl] Sm Pt]. cbn [e_seed fsetting]. intros Hse.
    destruct (fnearest_neighbor_distance_stats _ _ _ _ _ _ _) as [((mn & av) & (a' & b'))| |] eqn:En in Hse; cbn [bind] in Hse; try discriminate Hse.
    apply Ret_inj in Hse. injection Hse as -> -> ->.
    destruct (c128_seed (n_zeros n_w) ts w precise s (n_sdp n_w) e eps err gap (n_nearest_samples n_w) (w / 2) (n_draws n_w) fuel d av a b) as (used & T & Eu & Lu & C); try assumption; [apply sg_usable|apply sg_zone|].
    destruct C as [(_ & _ & _ & C)|(C & _)]; [exfalso|exact C]. destruct used as [|i used]; [cbn in Lu; lia|].
    assert (Hi : In i (filter (alive s) (draws (n_draws n_w) T))) by (rewrite <- Eu; left; reflexivity).
    apply filter_In in Hi. destruct Hi as (Hi & Fi). apply alive_lively in Fi. unfold draws in Hi. apply in_map_iff in Hi. destruct Hi as (t & <- & _).
    destruct (Pt _ (Dr t) Fi) as (j & Lj & Fj & Nj). apply Nj, (C _ j); [left; reflexivity|exact Lj|exact Fj].
  Qed.
  Lemma sg_n : fnum_subsequences s = (length ts - w)%nat.
  Proof. apply (bs_n (n_zeros n_w) ts w precise s (n_sdp n_w)); [apply Sg|apply sg_usable|apply Sg]. Qed.
  Lemma sg_ready : ready o st.
  Proof.
    pose proof Sg as [Mo E Lw L32 Md Of He Ac Er Hd Hg [So Ve Sh Dr Re Or Sl] Sm Pt]. split.
    - apply bs_pos.
    - intros from d Lf. apply Or. cbn [e_series fsetting brute_series s_n] in Lf. rewrite sg_n in Lf. exact Lf.
    - cbn [e_split e_series fsetting brute_series s_n]. rewrite sg_n. exact Sl.
    - intros _ memory. rewrite sg_searched. split; [exact (proj1 (c127_search _ ts w precise _ _ _ _ _ _ (sg_whole memory)))|]. split; [reflexivity|]. split; [reflexivity|].
      intros fuel a b d Hse. destruct (sg_sampled fuel a b d Hse) as (La & Lb & Na & Fa & Fb & ((Nd & _) & _)). unfold seed_ok. cbn [p_n p_ez fsearch]. rewrite sg_n.
      split; [exact La|]. split; [exact Lb|]. split; [exact Na|]. apply number_not_nan, Nd.
  Qed.
End Searching.

(** * C132: the lines of the output *)
(** With one motiflet asked for each support, the output has exactly one line of each. *)
Theorem c132_lines :
  forall (checks : bool) (show : f64 -> list N) (o : options) (w : nat) (precise : bool) (prefix : option nat) (n_w : world) (file : list N)
         (ts : list f64) (s : fseries) (e : Z) (eps err gap : R) (fuel : nat) (out : list N),
    plain show -> searching o w precise n_w ts s e eps err gap -> o_topk o = 1%nat ->
    load_from (n_parse n_w) prefix file fuel = Ret (Some ts) ->
    fprogram checks show o w precise prefix n_w file fuel = Ret (Some out) ->
    exists motiflets, rows out = Some (reading show motiflets) /\
      forall k, (2 <= k <= o_support o)%nat -> length (filter (fun m => length (snd m) =? k)%nat motiflets) = 1%nat.
Proof.
  intros checks show o w precise prefix n_w file ts s e eps err gap fuel out Hp Sg H1 El H.
  destruct (program_run _ _ _ _ _ _ _ _ _ _ _ _ El (sg_series _ _ _ _ _ _ _ _ _ _ Sg) H) as (width & _ & Hr).
  destruct (c109_search_partial checks show o _ fuel out Hp (sg_ready _ _ _ _ _ _ _ _ _ _ width Sg) (sg_mode _ _ _ _ _ _ _ _ _ _ Sg) (or_introl H1) Hr) as (ms & E & L).
  exists ms. split; [exact E|]. intros k Lk. etransitivity; [exact (L k Lk)|exact H1].
Qed.
Print Assumptions c132_lines.

(** There is never an output if the series has no room for [support] windows that do not
    overlap. *)
Theorem c132_no_room :
  forall (checks : bool) (show : f64 -> list N) (o : options) (w : nat) (precise : bool) (prefix : option nat) (n_w : world) (file : list N)
         (ts : list f64) (s : fseries) (e : Z) (eps err gap : R) (fuel : nat) (out : list N),
    searching o w precise n_w ts s e eps err gap -> (0 < o_topk o)%nat -> (2 < o_support o)%nat ->
    (length ts - w <= (o_support o - 1) * (w / 2))%nat ->
    load_from (n_parse n_w) prefix file fuel = Ret (Some ts) ->
    fprogram checks show o w precise prefix n_w file fuel <> Ret (Some out).
Proof.
  intros checks show o w precise prefix n_w file ts s e eps err gap fuel out Sg H1 H2 H3 El H.
  destruct (program_run _ _ _ _ _ _ _ _ _ _ _ _ El (sg_series _ _ _ _ _ _ _ _ _ _ Sg) H) as (width & _ & Hr).
  apply (c110_no_output checks show o _ fuel out (sg_ready _ _ _ _ _ _ _ _ _ _ width Sg) (sg_mode _ _ _ _ _ _ _ _ _ _ Sg) H1 H2); [|exact Hr].
  cbn [e_series e_w fsetting brute_series s_n]. rewrite (sg_n _ _ _ _ _ _ _ _ _ _ Sg). exact H3.
Qed.
Print Assumptions c132_no_room.

(** * C132: a repeat in the input is reported *)
(** If a window of the series is an exact copy of another one, up to scale and offset, then
    the line with two positions has an extent within the rounding error of 0, and so have the
    two windows.  As in C125, the projections of the repeat on the vectors of the first
    repetition are not within the rounding error of the border of a bucket, and its bucket is
    not the last one of the first table. *)
Theorem c132_repeat :
  forall (checks : bool) (show : f64 -> list N) (o : options) (w : nat) (precise : bool) (prefix : option nat) (n_w : world) (file : list N)
         (ts : list f64) (s : fseries) (e : Z) (eps err gap : R) (fuel : nat) (out : list N)
         (width : f64) (i j : nat) (scale offset : R) (hashes indices : list N),
    plain show -> searching o w precise n_w ts s e eps err gap -> o_topk o = 1%nat -> (2 <= o_support o)%nat ->
    load_from (n_parse n_w) prefix file fuel = Ret (Some ts) ->
    (forall memory c i j, p_coin (n_rest n_w memory) c i j = true) ->
    (* the repeat *)
    (i < j)%nat -> (j < length ts - w)%nat -> ~ too_close (w / 2) i j -> lively s i -> lively s j ->
    0 < sd_of (exact_window ts w i) -> 0 < scale -> exact_window ts w j = map (fun x => scale * x + offset) (exact_window ts w i) ->
    (* the first table *)
    fprepare checks o n_w w s fuel = Ret (Some width) ->
    let hs := FHasher (n_vectors n_w 0) (n_shifts n_w width 0) width in
    fhasher_ok hs w ->
    (forall v k, (v = i \/ v = j) -> (k < 8)%nat -> dot_within ts w (vector hs k) v err (n_sdp n_w (vector hs k) v)) ->
    (forall v k m, (v = i \/ v = j) -> (k < 8)%nat -> (-128 <= m <= 128)%Z ->
       bucket_slack hs ts w k v eps err < Rabs (exact_bucket hs ts w k v - IZR m)) ->
    frepetition_table (n_zeros n_w) (n_sort n_w 0 8) hs s (n_sdp n_w) 8 = Ret (hashes, indices) ->
    (forall x, nth_error indices x = Some (N.of_nat i) -> ~ in_last_bucket hashes 1 x) ->
    fprogram checks show o w precise prefix n_w file fuel = Ret (Some out) ->
    exists motiflets extent positions, rows out = Some (reading show motiflets) /\ In (extent, positions) motiflets /\ length positions = 2%nat /\
      fval extent ^ 2 <= 400 * INR w * eps ^ 2 + 10 * INR w * eps /\
      forall exact, widest (exact_distance ts w) positions exact ->
        exact ^ 2 <= 400 * INR w * eps ^ 2 + 10 * INR w * eps + Rmax (10 * INR w * eps) gap.
Proof.
  intros checks show o w precise prefix n_w file ts s e eps err gap fuel out width i j scale offset hashes indices Hp Sg H1 H2 El Hc Lij Lj Nij Fi Fj Psd Ps Ew Ep hs Hk Hd Hb Et Nl H.
  destruct (program_run _ _ _ _ _ _ _ _ _ _ _ _ El (sg_series _ _ _ _ _ _ _ _ _ _ Sg) H) as (width' & Ep' & Hr). rewrite Ep in Ep'. apply Ret_inj in Ep'. injection Ep' as <-.
  pose proof (sg_ready _ _ _ _ _ _ _ _ _ _ width Sg) as Rd. pose proof (sg_mode _ _ _ _ _ _ _ _ _ _ Sg) as Ho.
  destruct (c109_search_partial checks show o _ fuel out Hp Rd Ho (or_introl H1) Hr) as (ms & Ems & L).
  destruct (run_found _ _ _ _ _ _ Hr) as (found & Hf & ->).
  assert (Efd : rows (output_csv show found) = Some (reading show (map plainly found))).
  { apply c107_reads_back; [exact Hp|]. intros m Hm. apply found_nonempty, (found_valid _ _ _ _ _ Rd Hf m Hm). }
  assert (Ln : forall a b : list (f64 * list nat), reading show a = reading show b -> length (of_size 2 a) = length (of_size 2 b)).
  { induction a as [|(x & p) a IH]; intros [|(y & q) b] E; try discriminate E; [reflexivity|]. cbn [reading map] in E. injection E as _ E1 E2. apply (f_equal (@length N)) in E1. rewrite !map_length in E1.
    unfold of_size. cbn [filter snd]. rewrite E1. specialize (IH b E2). unfold of_size in IH. destruct (length q =? 2)%nat; cbn [length]; rewrite IH; reflexivity. }
  assert (L2 : length (of_size 2 (map plainly found)) = 1%nat).
  { transitivity (length (of_size 2 ms)); [|etransitivity; [apply L; lia|exact H1]]. apply Ln. rewrite Efd in Ems. injection Ems as Ems. exact Ems. }
  destruct (of_size 2 (map plainly found)) as [|(x & p) r] eqn:Eo; [discriminate L2|].
  assert (Hin : In (x, p) (of_size 2 (map plainly found))) by (rewrite Eo; left; reflexivity). unfold of_size in Hin. apply filter_In in Hin. destruct Hin as (Hin & Lp). cbn [snd] in Lp. apply Nat.eqb_eq in Lp.
  exists (map plainly found), x, p. split; [exact Efd|]. split; [exact Hin|]. split; [exact Lp|].
  destruct (run_search _ _ _ _ _ Ho Hf) as (memory & a & b & d & n & st & l & Hse & Q & Hl). rewrite sg_searched in Q.
  pose proof (sg_sampled _ _ _ _ _ _ _ _ _ _ width Sg _ _ _ _ Hse) as Sm.
  rewrite Hl in Hin. apply in_map_iff in Hin. destruct Hin as (m & Em & Hm). injection Em as <- <-.
  pose proof (fun ex => c127_repeat (n_zeros n_w) ts w precise s (n_sdp n_w) (n_exp n_w) (n_sort n_w) (fhashers (n_vectors n_w) (n_shifts n_w width) width) (the_rest o w n_w memory) e eps err gap
    i j scale offset hashes indices a b d _ fuel st _ m ex (sg_whole _ _ _ _ _ _ _ _ _ _ width Sg memory) (sg_eps _ _ _ _ _ _ _ _ _ _ Sg) (sg_accurate _ _ _ _ _ _ _ _ _ _ Sg) Hk Sm (Hc memory) H1 Lij Lj Nij Fi Fj Psd Ps Ew
    (sg_err _ _ _ _ _ _ _ _ _ _ Sg) Hd Hb Et Nl Q ltac:(apply in_or_app; left; apply in_map; exact Hm) Lp) as G.
  split; [|intros ex W; apply (G ex W)]. destruct (widest_exists (exact_distance ts w) (ml_indices m) ltac:(rewrite Lp; lia)) as (ex & W). apply (G ex W).
Qed.
Print Assumptions c132_repeat.

(** ** The zigzag of C131 again: windows 1 and 3 are copies; windows 0 and 2 are those reported *)
Lemma zigzag_searching support topk : searching (Options false (Some (codes "1g")) support topk) 2 true zigzag_world zigzag_data zigzag_series 0 (/ 2 ^ 36) 0 (40 * / 2 ^ 36).
Proof.
  destruct c131_search_case as (_ & _ & _ & A1 & A2 & A3 & A4 & A5 & A6 & A7 & A8 & A9 & A10 & A11 & A12 & A13 & _). split; try assumption. reflexivity.
Qed.
Example c132_lines_case :
  let o := Options false (Some (codes "1g")) 2 1 in
  searching o 2 true zigzag_world zigzag_data zigzag_series 0 (/ 2 ^ 36) 0 (40 * / 2 ^ 36) /\ o_topk o = 1%nat /\
  load_from (n_parse zigzag_world) None zigzag_file 60 = Ret (Some zigzag_data) /\
  fprogram true plain_show o 2 true None zigzag_world zigzag_file 60 = Ret (Some (codes "0, 0, 2" ++ [10%N])).
Proof. split; [apply zigzag_searching|]. split; [reflexivity|]. split; vm_compute; reflexivity. Qed.
(** five windows one apart do not fit in four *)
Example c132_no_room_case :
  let o := Options false (Some (codes "1g")) 5 1 in
  searching o 2 true zigzag_world zigzag_data zigzag_series 0 (/ 2 ^ 36) 0 (40 * / 2 ^ 36) /\ (2 < o_support o)%nat /\
  (length zigzag_data - 2 <= (o_support o - 1) * (2 / 2))%nat.
Proof. split; [apply zigzag_searching|]. split; vm_compute; lia. Qed.
Example c132_repeat_case : exists hashes indices,
  let o := Options false (Some (codes "1g")) 2 1 in
  searching o 2 true zigzag_world zigzag_data zigzag_series 0 (/ 2 ^ 36) 0 (40 * / 2 ^ 36) /\
  (forall memory c i j, p_coin (n_rest zigzag_world memory) c i j = true) /\
  (3 < length zigzag_data - 2)%nat /\ ~ too_close (2 / 2) 1 3 /\ lively zigzag_series 1 /\ lively zigzag_series 3 /\
  0 < sd_of (exact_window zigzag_data 2 1) /\ exact_window zigzag_data 2 3 = map (fun x => 1 * x + 0) (exact_window zigzag_data 2 1) /\
  fprepare true o zigzag_world 2 zigzag_series 60 = Ret (Some three_quarters) /\
  let hs := FHasher (n_vectors zigzag_world 0) (n_shifts zigzag_world three_quarters 0) three_quarters in
  fhasher_ok hs 2 /\
  (forall v k, (v = 1 \/ v = 3)%nat -> (k < 8)%nat -> dot_within zigzag_data 2 (vector hs k) v 0 (n_sdp zigzag_world (vector hs k) v)) /\
  (forall v k m, (v = 1 \/ v = 3)%nat -> (k < 8)%nat -> (-128 <= m <= 128)%Z ->
     bucket_slack hs zigzag_data 2 k v (/ 2 ^ 36) 0 < Rabs (exact_bucket hs zigzag_data 2 k v - IZR m)) /\
  frepetition_table (n_zeros zigzag_world) (n_sort zigzag_world 0 8) hs zigzag_series (n_sdp zigzag_world) 8 = Ret (hashes, indices) /\
  (forall x, nth_error indices x = Some (N.of_nat 1) -> ~ in_last_bucket hashes 1 x).
Proof.
  eexists. eexists. cbv zeta. change (FHasher (n_vectors zigzag_world 0) (n_shifts zigzag_world three_quarters 0) three_quarters) with zigzag_hasher.
  split; [apply zigzag_searching|]. split; [reflexivity|]. split; [vm_compute; lia|]. split; [unfold too_close; vm_compute; lia|]. split; [vm_compute; reflexivity|]. split; [vm_compute; reflexivity|].
  split; [rewrite zigzag_down, down_sd by auto; lra|]. split; [rewrite !zigzag_down by auto; cbn [map]; f_equal; [|f_equal]; ring|].
  split; [vm_compute; reflexivity|]. split; [apply zigzag_hasher_ok|]. split.
  { destruct c125_case as (s0 & an & C). do 17 apply proj2 in C. apply proj1 in C. exact C. }
  split; [intros v k m Hv Lk _; apply zigzag_margin; assumption|]. split; [vm_compute; reflexivity|].
  intros x Hx. destruct x as [|[|[|[|x]]]]; cbn in Hx; try discriminate; [|destruct x; discriminate].
  intros (hx & hl & H1 & H2 & A). cbn in H1, H2. injection H1 as <-. injection H2 as <-. specialize (A 0%nat ltac:(lia)). vm_compute in A. discriminate.
Qed.
