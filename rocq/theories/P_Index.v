(** Property theorems C13-C16 and C70 (collision profile, prefixes and memory).
    Specification: EnumSpec.v, ProfileSpec.v.  Model: Profile.v. *)
From Coq Require Import Floats.SpecFloat.
From Verif Require Import Base HashValue HashSpec Enumerator EnumSpec F64.
From Verif Require Import Profile ProfileSpec ProfileProofs.

(** a computable check, to show that example tables are well formed *)
Lemma table_ok_check (hs ix : list N) :
  (length hs =? length ix) && forallb (fun h => h <? 2 ^ 64)%N hs &&
  forallb (fun i => forallb (fun j => negb (i <=? j) || (nth i hs 0 <=? nth j hs 0)%N) (seq 0 (length hs)))
    (seq 0 (length hs)) = true -> table_ok hs ix.
Proof.
  intros C. apply andb_true_iff in C. destruct C as [C C3]. apply andb_true_iff in C. destruct C as [C1 C2].
  apply Nat.eqb_eq in C1. rewrite forallb_forall in C2, C3. split; [exact C1|]. split.
  - intros h Hh. apply C2 in Hh. apply N.ltb_lt in Hh. exact Hh.
  - intros i j a b L Ei Ej.
    assert (Li : i < length hs) by (apply nth_error_Some; congruence).
    assert (Lj : j < length hs) by (apply nth_error_Some; congruence).
    specialize (C3 i ltac:(apply in_seq; lia)). rewrite forallb_forall in C3.
    specialize (C3 j ltac:(apply in_seq; lia)).
    destruct (Nat.leb_spec i j); [|lia]. cbn [negb orb] in C3. apply N.leb_le in C3.
    rewrite (nth_error_nth _ _ _ Ei), (nth_error_nth _ _ _ Ej) in C3. exact C3.
Qed.

(** * C13: the collision profile *)
Theorem c13_collision_profile :
  forall (hashes indices : list N) (ez : nat),
    table_ok hashes indices ->
    exists (profile : list Z) (trivial_matches exact : nat) (colliding : nat -> nat),
      returns (collision_profile_at hashes indices ez) profile /\
      (forall p, 1 <= p < 8 -> card (collide hashes p) (colliding p)) /\
      card (fun x y => collide hashes 8 x y /\ trivial indices ez x y) trivial_matches /\
      card (fun x y => collide hashes 8 x y /\ ~ trivial indices ez x y) exact /\
      length profile = 8 /\
      nth_error profile 7 = Some (Z.of_nat exact) /\
      (forall p, 1 <= p < 8 ->
         nth_error profile (p - 1) = Some (Z.of_nat (colliding p) - Z.of_nat trivial_matches)%Z) /\
      (forall p v, nth_error profile p = Some v -> (0 <= v)%Z) /\
      (forall p q v w, p <= q -> q < 7 -> nth_error profile p = Some v -> nth_error profile q = Some w -> (w <= v)%Z).
Proof.
  intros hashes indices ez T.
  set (prof := map (fun p => (Z.of_nat (cnt_at hashes p) - Z.of_nat (triv8 hashes indices ez))%Z) (seq 1 7)
                 ++ [Z.of_nat (cnt8 hashes indices ez)]).
  assert (At : forall p, 1 <= p < 8 ->
     nth_error prof (p - 1) = Some (Z.of_nat (cnt_at hashes p) - Z.of_nat (triv8 hashes indices ez))%Z).
  { intros p Hp. do 8 (destruct p as [|p]; [try lia; reflexivity|]). lia. }
  assert (Len : length prof = 8) by reflexivity.
  exists prof, (triv8 hashes indices ez), (cnt8 hashes indices ez), (cnt_at hashes).
  split; [exists (S (length hashes)); intros n L; apply (collision_profile_ok _ _ ez T); lia|].
  split; [intros p Hp; apply (card_cnt_at _ indices T); lia|].
  split; [apply card_triv8, T|]. split; [apply card_cnt8, T|].
  split; [exact Len|]. split; [reflexivity|]. split; [exact At|].
  split.
  - intros p v E. assert (L : p < 8) by (rewrite <- Len; apply nth_error_Some; congruence).
    destruct (Nat.eq_dec p 7) as [->|].
    + cbn in E. injection E as <-. lia.
    + specialize (At (S p) ltac:(lia)). cbn [Nat.sub] in At. rewrite Nat.sub_0_r in At.
      rewrite At in E. injection E as <-. pose proof (triv8_le hashes indices ez T (S p) ltac:(lia)). lia.
  - intros p q v w Lpq Lq Ep Eq.
    pose proof (At (S p) ltac:(lia)) as Ap. pose proof (At (S q) ltac:(lia)) as Aq.
    cbn [Nat.sub] in Ap, Aq. rewrite Nat.sub_0_r in Ap, Aq. rewrite Ap in Ep. rewrite Aq in Eq.
    injection Ep as <-. injection Eq as <-.
    pose proof (cnt_at_mono hashes indices T (S p) (S q) ltac:(lia) ltac:(lia)). lia.
Qed.
Print Assumptions c13_collision_profile.

Definition ex_hashes : list N := [0x0101010101010101; 0x0101010101010101; 0x0101010101010102;
  0x0101010101010102; 0x0201010101010101]%N.
Definition ex_indices : list N := [0; 2; 9; 20; 30]%N.
Example c13_witness :
  table_ok ex_hashes ex_indices /\
  collision_profile_at ex_hashes ex_indices 5 20 = Ret [5; 5; 5; 5; 5; 5; 5; 1]%Z.
Proof.
  split; [|vm_compute; reflexivity]. apply table_ok_check. vm_compute. reflexivity.
Qed.

(** * C14: the first prefix.  A profile has nine entries, the first of which is infinite. *)
Theorem c14_starting_prefix :
  forall (profile : list f64),
    length profile = 9 -> nth_error profile 0 = Some (S754_infinity false) ->
    exists p, first_meaningful_prefix profile = Ret p /\ 1 <= p <= 8 /\
      ((exists c, nth_error profile p = Some c /\ fle f_one c = true) \/
       (p = 1 /\ forall q c, 1 <= q -> nth_error profile q = Some c -> fle f_one c = false)) /\
      (forall q c, p < q -> nth_error profile q = Some c -> fle f_one c = false).
Proof.
  intros profile Len E0. unfold first_meaningful_prefix.
  destruct (rfind_ge1 0 profile) as [r|] eqn:F.
  - destruct (rfind_ge1_spec _ _ _ F) as (k & -> & (c & Ec & Hc) & Hmax). cbn [Nat.add].
    assert (Lk : k < 9) by (rewrite <- Len; apply nth_error_Some; congruence).
    exists (Nat.max k 1). split; [reflexivity|]. split; [lia|]. split.
    + destruct k as [|k].
      * right. split; [reflexivity|]. intros q c' Lq. apply Hmax. lia.
      * left. replace (Nat.max (S k) 1) with (S k) by lia. eauto.
    + intros q c' Lq. apply Hmax. lia.
  - exfalso. apply (rfind_ge1_none _ _ F (S754_infinity false)) in E0 || idtac.
    pose proof (rfind_ge1_none _ _ F (S754_infinity false) (nth_error_In _ _ E0)) as C. discriminate C.
Qed.
Print Assumptions c14_starting_prefix.

Definition ex_profile : list f64 :=
  [S754_infinity false; f_thousand; f_thousand; f_one; S754_zero false; S754_zero false;
   S754_zero false; S754_zero false; S754_zero false].
Example c14_witness :
  length ex_profile = 9 /\ nth_error ex_profile 0 = Some (S754_infinity false) /\
  first_meaningful_prefix ex_profile = Ret 3.
Proof. vm_compute. auto. Qed.

(** * C15: the repetition budget; [12 * n] bytes per repetition of [n] windows *)
Theorem c15_repetition_budget :
  forall (n reps mem : N), (0 < n)%N ->
    exists m, returns (max_repetitions n reps mem) m /\
      m = N.max (N.min 4 reps) (mem / (12 * n)).
Proof.
  intros n reps mem Hn. destruct (max_repetitions_ok n reps mem Hn) as (m & R & A & B & C).
  exists m. split; [exact R|]. unfold required_memory in *.
  assert (D1 : (12 * n * (mem / (12 * n)) <= mem)%N) by (apply N.mul_div_le; lia).
  assert (D2 : (mem < 12 * n * N.succ (mem / (12 * n)))%N) by (apply N.mul_succ_div_gt; lia).
  set (q := (mem / (12 * n))%N) in *.
  assert (q <= m)%N by nia.
  destruct C as [C| ->]; [|lia]. assert (m <= q)%N by nia. lia.
Qed.
Print Assumptions c15_repetition_budget.

(** with no window at all the budget loop never ends *)
Theorem c15_no_windows_refuted : exists reps mem : N, diverges (max_repetitions 0 reps mem).
Proof. exists 8%N, 1000%N. apply max_repetitions_zero. Qed.
Print Assumptions c15_no_windows_refuted.

Example c15_witness : returns (max_repetitions 100 8 12345) 10%N /\ returns (max_repetitions 100 8 100) 4%N.
Proof.
  split.
  - destruct (c15_repetition_budget 100 8 12345 eq_refl) as (m & R & ->). exact R.
  - destruct (c15_repetition_budget 100 8 100 eq_refl) as (m & R & ->). exact R.
Qed.

(** * C16: tables in main memory.  [totals] are the successive sizes the index is grown to. *)
Theorem c16_main_memory_partial :
  forall (n sys : N) (totals : list nat) (placements : list bool) (cap : N),
    (0 < n)%N ->
    returns (max_repetitions_in_memory n sys) cap ->
    grow cap [] totals = Ret placements ->
    (main_memory_usage n placements < sys / 2 + 2 * (12 * n) \/ main_memory_usage n placements <= 12 * n)%N /\
    (forall r, nth_error placements r = Some false ->
       (sys / 2 <= 12 * n * N.of_nat r)%N).
Proof.
  intros n sys totals pl cap Hn R G.
  destruct (max_in_memory_ok n sys Hn) as (m & R' & A & B).
  pose proof (returns_det _ _ _ R R') as <-.
  pose proof (grow_ok cap totals 0 pl G) as E. split.
  - unfold main_memory_usage. rewrite E. rewrite count_placements.
    set (k := Nat.min (length pl) (N.to_nat cap + 1)). assert (Lk : (N.of_nat k <= cap + 1)%N) by lia.
    destruct (N.eq_dec cap 0) as [->|Hc].
    + right. nia.
    + left. specialize (B (cap - 1)%N ltac:(lia)). unfold required_memory in B. nia.
  - intros r Hr. rewrite E in Hr. rewrite nth_error_map in Hr.
    destruct (nth_error (seq 0 (length pl)) r) as [x|] eqn:Ex; [|discriminate]. cbn in Hr.
    assert (x = r).
    { assert (r < length (seq 0 (length pl))) by (apply nth_error_Some; congruence).
      rewrite seq_length in *. rewrite (nth_error_nth' _ 0) in Ex by (rewrite seq_length; lia).
      rewrite seq_nth in Ex by lia. injection Ex as <-. reflexivity. }
    subst x. injection Hr as Hr. unfold placement in Hr.
    destruct (N.ltb_spec cap (N.of_nat r)) as [L|L]; [|discriminate].
    unfold required_memory in A. nia.
Qed.
Print Assumptions c16_main_memory_partial.

(** Exactly: a table is kept in main memory if it is the first, or the tables before the
    previous one take less than half of the memory. *)
Theorem c16_exactly_partial :
  forall (n sys : N) (totals : list nat) (placements : list bool) (cap : N),
    (0 < n)%N -> returns (max_repetitions_in_memory n sys) cap -> grow cap [] totals = Ret placements ->
    forall (r : nat) (in_memory : bool), nth_error placements r = Some in_memory ->
      (in_memory = true <-> r = 0 \/ (12 * n * N.of_nat (r - 1) < sys / 2)%N).
Proof.
  intros n sys totals pl cap Hn R G r b Hr.
  destruct (max_in_memory_ok n sys Hn) as (m & R' & A & B).
  pose proof (returns_det _ _ _ R R') as <-.
  pose proof (grow_ok cap totals 0 pl G) as E. rewrite E, nth_error_map in Hr.
  assert (L : r < length pl).
  { destruct (Nat.lt_ge_cases r (length pl)) as [L|L]; [exact L|]. rewrite (proj2 (nth_error_None _ _)) in Hr by (rewrite seq_length; lia). discriminate. }
  rewrite (nth_error_nth' _ 0) in Hr by (rewrite seq_length; exact L). rewrite seq_nth in Hr by exact L. cbn in Hr. injection Hr as <-.
  unfold placement, required_memory in *. destruct (N.ltb_spec cap (N.of_nat r)) as [H|H]; cbn [negb]; split; intros X; try discriminate; try reflexivity.
  - exfalso. destruct X as [->|X]; [lia|]. assert (L1 : (cap <= N.of_nat (r - 1))%N) by lia. revert X L1 A. clear. generalize (N.of_nat (r - 1)) (sys / 2)%N. intros x y X L1 A. nia.
  - destruct r as [|r]; [left; reflexivity|right]. specialize (B (N.of_nat r) ltac:(lia)). replace (S r - 1) with r by lia. nia.
Qed.
Print Assumptions c16_exactly_partial.

Theorem c16_main_memory_refuted :
  exists (n sys : N) (totals : list nat) (placements : list bool) (cap : N),
    (0 < n)%N /\ returns (max_repetitions_in_memory n sys) cap /\ grow cap [] totals = Ret placements /\
    (main_memory_usage n placements > sys / 2)%N.
Proof.
  exists 10%N, 480%N, [8], [true; true; true; false; false; false; false; false], 2%N.
  split; [reflexivity|]. split; [|split; [vm_compute; reflexivity|vm_compute; reflexivity]].
  apply (fmono_returns _ 10); [unfold max_repetitions_in_memory; fmono_tac|]. vm_compute. reflexivity.
Qed.
Print Assumptions c16_main_memory_refuted.

Example c16_witness :
  (0 < 10)%N /\ returns (max_repetitions_in_memory 10 480) 2%N /\
  grow 2 [] [1; 8] = Ret [true; true; true; false; false; false; false; false].
Proof.
  split; [reflexivity|]. split; [|reflexivity].
  apply (fmono_returns _ 10); [unfold max_repetitions_in_memory; fmono_tac|]. vm_compute. reflexivity.
Qed.

(** * C70: calibration.  When no prefix is expected to have more than 1000 collisions the
    search for a prefix to calibrate at falls back to the (infinite) entry of prefix 0,
    which is not a legal prefix. *)
Lemma rfind_gt1000_spec l i r : rfind_gt1000 i l = Some r ->
  exists k, r = i + k /\ k < length l /\
    (forall k' c, k < k' -> nth_error l k' = Some c -> flt f_thousand c = false) /\
    (exists c, nth_error l k = Some c /\ flt f_thousand c = true).
Proof.
  revert i r. induction l as [|c l IH]; intros i r E; cbn in E; [discriminate|].
  destruct (rfind_gt1000 (S i) l) as [r'|] eqn:F.
  - injection E as <-. destruct (IH _ _ F) as (k & -> & A & B & C). exists (S k). split; [lia|].
    split; [cbn; lia|]. split; [|exact C]. intros k' c' L H. destruct k'; [lia|]. apply (B k' c'); [lia|exact H].
  - destruct (flt f_thousand c) eqn:G; [|discriminate]. injection E as <-. exists 0. split; [lia|].
    split; [cbn; lia|]. split; [|exists c; auto]. intros k' c' L H. destruct k' as [|k']; [lia|]. cbn in H.
    clear - F H. revert i k' F H. induction l as [|a l IH]; intros i k' F H; [destruct k'; discriminate|].
    cbn in F. destruct (rfind_gt1000 (S (S i)) l) eqn:F2; [discriminate|].
    destruct k' as [|k']; cbn in H.
    + injection H as ->. destruct (flt f_thousand c'); [discriminate|reflexivity].
    + eapply IH; eauto.
Qed.

Lemma rfind_gt1000_none l i : rfind_gt1000 i l = None -> forall c, In c l -> flt f_thousand c = false.
Proof.
  revert i. induction l as [|a l IH]; intros i F c H; [destruct H|]. cbn in F.
  destruct (rfind_gt1000 (S i) l) eqn:F2; [discriminate|].
  destruct H as [->|H]; [|eauto]. destruct (flt f_thousand c); [discriminate|reflexivity].
Qed.

Theorem c70_calibration_partial :
  forall (profile : list f64),
    length profile = 9 -> nth_error profile 0 = Some (S754_infinity false) ->
    ((exists p c, 1 <= p /\ nth_error profile p = Some c /\ flt one_thousand c = true) ->
     exists p, calibration_prefix profile = Ret p /\ 1 <= p <= 8 /\
       (exists c, nth_error profile p = Some c /\ flt one_thousand c = true) /\
       (forall p' c, p < p' -> nth_error profile p' = Some c -> flt one_thousand c = false)) /\
    ((forall p c, 1 <= p -> nth_error profile p = Some c -> flt one_thousand c = false) ->
     calibration_prefix profile = Panic).
Proof.
  change one_thousand with f_thousand.
  intros profile Len E0. unfold calibration_prefix, sampling_prefix, open_collisions, K.
  destruct (rfind_gt1000 0 profile) as [r|] eqn:F.
  2:{ pose proof (rfind_gt1000_none _ _ F _ (nth_error_In _ _ E0)). discriminate. }
  destruct (rfind_gt1000_spec _ _ _ F) as (k & -> & Lk & Hmax & c & Ec & Hc). cbn [Nat.add]. split.
  - intros (p & c' & Hp & Ep & Hcp). exists k.
    assert (p <= k). { destruct (Nat.le_gt_cases p k) as [|L]; [assumption|]. rewrite (Hmax p c' L Ep) in Hcp. discriminate. }
    destruct (Nat.ltb_spec 0 k); [|lia]. destruct (Nat.leb_spec k 8); [|lia]. cbn. split; [reflexivity|]. split; [lia|]. split; [exists c; auto|exact Hmax].
  - intros Hno. destruct k as [|k]; [reflexivity|]. rewrite (Hno (S k) c) in Hc by (try lia; assumption). discriminate.
Qed.
Print Assumptions c70_calibration_partial.

(** thirty windows have at most 435 pairs: a profile such a series really has *)
Theorem c70_calibration_refuted :
  exists profile : list f64, length profile = 9 /\ nth_error profile 0 = Some (S754_infinity false) /\
    calibration_prefix profile = Panic.
Proof. exists (S754_infinity false :: repeat f_one 8). vm_compute. auto. Qed.
Print Assumptions c70_calibration_refuted.

Example c70_witness : calibration_prefix ex_profile = Panic /\
  calibration_prefix (S754_infinity false :: S754_infinity false :: repeat f_one 7) = Ret 1.
Proof. vm_compute. auto. Qed.
