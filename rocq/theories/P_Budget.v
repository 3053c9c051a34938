(** Property theorems C138: the repetition budget with machine words.  Model: Budget.v. *)
From Coq Require Import Reals String.
From Verif Require Import Base F64 Iterator Profile ProfileProofs P_Index Counts Budget Text TextSpec P_Text Decimal DecimalSpec P_Decimal.
Local Open Scope list_scope.
Local Open Scope N_scope.

Lemma add_small checks a b : a + b < 2 ^ 64 -> usize_add checks a b = Ret (a + b).
Proof. intros H. unfold usize_add. destruct (N.leb_spec (2 ^ 64) (a + b)); [lia|]. rewrite andb_false_r, N.mod_small by exact H. reflexivity. Qed.
Lemma mul_small checks a b : a * b < 2 ^ 64 -> usize_mul checks a b = Ret (a * b).
Proof. intros H. unfold usize_mul. destruct (N.leb_spec (2 ^ 64) (a * b)); [lia|]. rewrite andb_false_r, N.mod_small by exact H. reflexivity. Qed.
Lemma required_small checks n r : 12 * n * r < 2 ^ 64 -> required_memory64 checks n r = Ret (required_memory n r).
Proof.
  intros H. unfold required_memory64. rewrite mul_small by nia. cbn [bind]. rewrite mul_small by nia. cbn [bind]. rewrite mul_small by nia. cbn [bind].
  apply add_small. nia.
Qed.

(** Unless one repetition too many needs 2^64 bytes or more, the budget is the one of C15, in
    debug as in release builds: as many repetitions as fit, and at least the smaller of 4 and
    the number in the index; the tables kept in main memory are those of C16. *)
Theorem c138_words :
  forall (checks : bool) (n reps mem sys : N),
    0 < n -> 60 * n < 2 ^ 64 -> 12 * n * (mem / (12 * n) + 1) < 2 ^ 64 -> sys < 2 ^ 64 ->
    returns (max_repetitions64 checks n reps mem) (N.max (N.min 4 reps) (mem / (12 * n))) /\
    forall m, returns (max_repetitions_in_memory n sys) m -> returns (max_repetitions_in_memory64 checks n sys) m.
Proof.
  intros checks n reps mem sys Hn H60 Hm Hs. split.
  - destruct (c15_repetition_budget n reps mem Hn) as (m & (f0 & R) & <-). exists f0. intros f Lf. rewrite <- (R f Lf).
    unfold max_repetitions64, max_repetitions. clear R.
    assert (Start : 12 * n * N.min 4 reps <= mem \/ N.min 4 reps <= 4) by lia. revert Start. generalize (N.min 4 reps) as k. clear f0 Lf m.
    induction f as [|f IH]; intros k Start; [reflexivity|]. cbn [loop].
    assert (B : 12 * n * (1 + k) < 2 ^ 64).
    { destruct Start as [St|St]; [|nia]. assert (k <= mem / (12 * n)) by (apply N.div_le_lower_bound; lia). nia. }
    assert (Bk : 1 + k < 2 ^ 64) by nia.
    rewrite add_small by exact Bk. cbn [bind]. rewrite required_small by exact B. cbn [bind].
    destruct (N.leb_spec (required_memory n (1 + k)) mem) as [L|L]; [|reflexivity].
    rewrite add_small by lia. cbn [bind]. apply IH. left. unfold required_memory in L. nia.
  - intros m (f0 & R). exists f0. intros f Lf. rewrite <- (R f Lf). unfold max_repetitions_in_memory64, max_repetitions_in_memory. clear R f0 Lf m.
    assert (Half : 2 * (sys / 2) <= sys) by (apply N.mul_div_le; lia). set (cap := sys / 2) in *. clearbody cap.
    assert (Start : 12 * n * 0 < cap + 12 * n) by lia. revert Start. generalize 0 as k.
    induction f as [|f IH]; intros k Start; [reflexivity|]. cbn [loop].
    assert (B : 12 * n * k < 2 ^ 64) by lia. rewrite required_small by exact B. cbn [bind].
    destruct (N.ltb_spec (required_memory n k) cap) as [L|L]; [|reflexivity].
    rewrite add_small by nia. cbn [bind]. apply IH. unfold required_memory in L. nia.
Qed.
Print Assumptions c138_words.

Lemma no_spin_mul a b : usize_mul true a b <> Spin.
Proof. unfold usize_mul. destruct (true && _); discriminate. Qed.
Lemma no_spin_add a b : usize_add true a b <> Spin.
Proof. unfold usize_add. destruct (true && _); discriminate. Qed.
Lemma checked_mul a b c : usize_mul true a b = Ret c -> c = a * b /\ a * b < 2 ^ 64.
Proof. unfold usize_mul. destruct (N.leb_spec (2 ^ 64) (a * b)); cbn [andb]; intros E; [discriminate E|]. apply Ret_inj in E. rewrite N.mod_small in E by assumption. auto. Qed.
Lemma checked_add a b c : usize_add true a b = Ret c -> c = a + b /\ a + b < 2 ^ 64.
Proof. unfold usize_add. destruct (N.leb_spec (2 ^ 64) (a + b)); cbn [andb]; intros E; [discriminate E|]. apply Ret_inj in E. rewrite N.mod_small in E by assumption. auto. Qed.
Lemma required_checked n r : required_memory64 true n r = Panic /\ 2 ^ 64 <= 12 * n * r \/ required_memory64 true n r = Ret (12 * n * r) /\ 12 * n * r < 2 ^ 64.
Proof.
  destruct (N.lt_ge_cases (12 * n * r) (2 ^ 64)) as [L|L].
  - right. split; [|exact L]. rewrite required_small by exact L. f_equal. unfold required_memory. lia.
  - left. split; [|exact L]. unfold required_memory64.
    destruct (usize_mul true r n) as [a| |] eqn:E; cbn [bind]; [|reflexivity|destruct (no_spin_mul _ _ E)]. apply checked_mul in E.
    destruct (usize_mul true a 8) as [h| |] eqn:E1; cbn [bind]; [|reflexivity|destruct (no_spin_mul _ _ E1)]. apply checked_mul in E1.
    destruct (usize_mul true a 4) as [i| |] eqn:E2; cbn [bind]; [|reflexivity|destruct (no_spin_mul _ _ E2)]. apply checked_mul in E2.
    destruct (usize_add true h i) as [x| |] eqn:E3; [|reflexivity|destruct (no_spin_add _ _ E3)]. apply checked_add in E3. lia.
Qed.
Lemma required_wrapped n r : required_memory64 false n r = Ret ((12 * n * r) mod 2 ^ 64).
Proof.
  unfold required_memory64, usize_mul, usize_add. cbn [andb bind]. f_equal.
  rewrite !N.mul_mod_idemp_l by discriminate. rewrite <- N.add_mod by discriminate. f_equal. lia.
Qed.

(** In the other case a debug build aborts, and a release build, if it gives a budget at all,
    gives one that needs more than 2^64 bytes. *)
Theorem c138_overflow :
  forall (n reps mem : N),
    0 < n -> 60 * n < 2 ^ 64 -> mem < 2 ^ 64 -> 2 ^ 64 <= 12 * n * (mem / (12 * n) + 1) ->
    panics (max_repetitions64 true n reps mem) /\
    forall m, returns (max_repetitions64 false n reps mem) m -> mem < 2 ^ 64 <= 12 * n * m.
Proof.
  intros n reps mem Hn H60 Hm Over. set (q := mem / (12 * n)) in *.
  assert (Q1 : 12 * n * q <= mem) by (apply N.mul_div_le; lia).
  assert (Q2 : mem < 12 * n * (q + 1)) by (replace (q + 1) with (N.succ q) by lia; apply N.mul_succ_div_gt; lia). clearbody q.
  assert (Q4 : 4 <= q) by nia. split.
  - exists (S (N.to_nat q)). intros f Lf. unfold max_repetitions64.
    assert (G : N.min 4 reps <= q /\ (N.to_nat (q - N.min 4 reps) < f)%nat) by lia. revert G. generalize (N.min 4 reps) as m. clear Lf. induction f as [|f IH]; intros m (Lm & Lf); [lia|]. cbn [loop].
    destruct (usize_add true 1 m) as [x| |] eqn:E; cbn [bind]; [|reflexivity|destruct (no_spin_add _ _ E)]. apply checked_add in E. destruct E as (-> & B).
    destruct (required_checked n (1 + m)) as [(-> & _)|(-> & L)]; cbn [bind]; [reflexivity|].
    assert (m < q) by nia. assert (12 * n * (1 + m) <= mem) by nia. destruct (N.leb_spec (12 * n * (1 + m)) mem); [|lia].
    rewrite add_small by lia. cbn [bind]. apply IH. lia.
  - intros m (f0 & R). split; [exact Hm|]. specialize (R f0 (le_n _)). unfold max_repetitions64 in R.
    assert (G : q < m); [|nia]. revert R.
    apply (loop_inv _ (fun _ => True) (fun r => q < r)); [|exact I]. intros k _.
    change (usize_add false 1 k) with (Ret ((1 + k) mod 2 ^ 64)). cbn [bind]. rewrite required_wrapped. cbn [bind].
    destruct (N.leb_spec ((12 * n * ((1 + k) mod 2 ^ 64)) mod 2 ^ 64) mem) as [L|L].
    { intros x E. change (usize_add false k 1) with (Ret ((k + 1) mod 2 ^ 64)) in E. cbn [bind] in E. apply Ret_inj in E. subst x. exact I. }
    intros x E. apply Ret_inj in E. subst x. destruct (N.lt_ge_cases q k) as [|C]; [assumption|]. exfalso. assert (q < 2 ^ 64 - 1) by nia.
    rewrite (N.mod_small (1 + k)) in L by lia. destruct (N.eq_dec k q) as [->|D].
    + assert (W : (12 * n * (1 + q)) mod 2 ^ 64 = 12 * n * (1 + q) - 2 ^ 64).
      { symmetry. apply (N.mod_unique _ _ 1); nia. }
      rewrite W in L. nia.
    + rewrite N.mod_small in L by nia. nia.
Qed.
Print Assumptions c138_overflow.

(** With a limit of at least 2^64 - 4 bytes, the loop has no end in a release build: what is
    required is a multiple of 4, and none is larger.  A debug build aborts instead, when the
    required memory overflows. *)
Lemma largest_hangs n reps mem : 2 ^ 64 - 4 <= mem -> diverges (max_repetitions64 false n reps mem).
Proof.
  intros Big f. unfold max_repetitions64. apply (loop_diverges _ (fun _ => True)); [|exact I]. intros m _.
  assert (A : forall x y, usize_add false x y = Ret ((x + y) mod 2 ^ 64)) by reflexivity. rewrite A. cbn [bind]. rewrite required_wrapped. cbn [bind].
  match goal with |- context [(12 * n * ?y) mod 2 ^ 64] => replace ((12 * n * y) mod 2 ^ 64) with (4 * ((3 * n * y) mod 2 ^ 62)) end.
  - match goal with |- context [(4 * (?y mod 2 ^ 62) <=? mem)] => pose proof (N.mod_lt y (2 ^ 62) ltac:(discriminate)) as L; destruct (N.leb_spec (4 * (y mod 2 ^ 62)) mem) as [_|C] end;
      [rewrite A; cbn [bind]; eexists; split; [reflexivity|exact I]|lia].
  - change (2 ^ 64) with (4 * 2 ^ 62). rewrite <- N.mul_mod_distr_l by discriminate. f_equal. lia.
Qed.
Lemma largest_aborts n reps mem : 2 ^ 64 - 4 <= mem -> panics (max_repetitions64 true n reps mem).
Proof.
  intros Big. exists (S (N.to_nat (2 ^ 64))). intros f Lf. unfold max_repetitions64.
  assert (G : (N.to_nat (2 ^ 64 - N.min 4 reps) < f)%nat) by lia. revert G. generalize (N.min 4 reps) as m. clear Lf. induction f as [|f IH]; intros m L; [lia|]. cbn [loop].
  destruct (usize_add true 1 m) as [x| |] eqn:E; cbn [bind]; [|reflexivity|destruct (no_spin_add _ _ E)]. apply checked_add in E. destruct E as (-> & B).
  destruct (required_checked n (1 + m)) as [(-> & _)|(-> & Lq)]; cbn [bind]; [reflexivity|].
  destruct (N.leb_spec (12 * n * (1 + m)) mem) as [_|C]; [|exfalso; revert Lq C; replace (12 * n * (1 + m)) with (4 * (3 * n * (1 + m))) by lia; lia].
  rewrite add_small by lia. cbn [bind]. apply IH. lia.
Qed.

Lemma largest_text : size_text (codes "18446744073709551615"%string) max_size.
Proof.
  exists [1; 8; 4; 4; 6; 7; 4; 4; 0; 7; 3; 7; 0; 9; 5; 5; 1; 6; 1; 5], [], [], 1, []. split; [split; [discriminate|repeat constructor]|]. split; [constructor|]. split; [constructor|]. split; [constructor|].
  split; vm_compute; reflexivity.
Qed.
(** So with a memory limit of at least 2^64 - 4 bytes the search hangs in a release build,
    whatever the series, and aborts in a debug build.  The program and the Python classes take
    such a limit, *)
Theorem c138_largest_limit :
  forall (limit : list N) (size n reps : N),
    size_text limit size -> 2 ^ 64 - 4 <= size < 2 ^ 64 ->
    from_str true limit = Ret (Some size) /\ from_str false limit = Ret (Some size) /\
    diverges (max_repetitions64 false n reps size) /\ panics (max_repetitions64 true n reps size).
Proof.
  intros limit size n reps T (L & U).
  split; [exact (c56_value true limit size T U)|]. split; [exact (c56_value false limit size T U)|]. split; [apply largest_hangs; exact L|apply largest_aborts; exact L].
Qed.
Print Assumptions c138_largest_limit.

(** and for the users of the library, who can also make a limit from a string with decimals,
    [inf] or a number of bytes of 2^64 or more is one. *)
Theorem c138_huge_limit :
  forall (limit core : list N) (unit : R) (n reps : N),
    core_of limit core unit ->
    ((exists v, signed_text core v /\ (2 ^ 64 <= v * unit)%R) \/
     (exists word, word_text core word false /\ word <> codes "nan"%string)) ->
    exists mem, try_from_string limit = Some mem /\
      diverges (max_repetitions64 false n reps mem) /\ panics (max_repetitions64 true n reps mem).
Proof.
  intros limit core unit n reps C H. exists max_size. split; [|split; [apply largest_hangs; unfold max_size; lia|apply largest_aborts; unfold max_size; lia]].
  destruct H as [(v & S & B)|(word & W & N)].
  - destruct (c122_value limit core unit v C S) as (m & E & (_ & _ & Big)). rewrite E, (Big B). reflexivity.
  - rewrite (c122_words limit core unit word false C W). destruct (list_eq_dec N.eq_dec word (codes "nan"%string)) as [D|_]; [contradiction|reflexivity].
Qed.
Print Assumptions c138_huge_limit.

(** Hence it is not the case that every memory limit the program accepts gives a budget. *)
Theorem c138_every_limit_refuted :
  exists limit mem, size_text limit mem /\ from_str false limit = Ret (Some mem) /\ forall n reps, diverges (max_repetitions64 false n reps mem).
Proof.
  exists (codes "18446744073709551615"%string), max_size. split; [apply largest_text|]. split; [vm_compute; reflexivity|]. intros n reps. apply largest_hangs. unfold max_size. lia.
Qed.
Print Assumptions c138_every_limit_refuted.

Example c138_case :
  returns (max_repetitions64 false 1000 8 1000000) 83 /\ try_from_string (codes "inf"%string) = Some max_size /\ try_from_string (codes "20000000000Gb"%string) = Some max_size /\
  try_from_string (codes "8Gb"%string) = Some (8 * 2 ^ 30) /\ returns (max_repetitions64 true 100000 8 (8 * 2 ^ 30)) 7158.
Proof.
  split; [|split; [reflexivity|split; [vm_compute; reflexivity|split; [vm_compute; reflexivity|]]]].
  - exact (proj1 (c138_words false 1000 8 1000000 0 eq_refl eq_refl eq_refl eq_refl)).
  - exact (proj1 (c138_words true 100000 8 (8 * 2 ^ 30) 0 eq_refl eq_refl eq_refl eq_refl)).
Qed.
(** the hypotheses of [c138_huge_limit]: [inf] *)
Example c138_hypotheses : core_of (codes "inf"%string) (codes "inf"%string) 1%R /\ word_text (codes "inf"%string) (codes "inf"%string) false /\ codes "inf"%string <> codes "nan"%string.
Proof.
  split; [|split; [constructor; [reflexivity|left; reflexivity]|discriminate]].
  constructor. intros front name m Hn U E. apply (f_equal (@rev N)) in E. rewrite rev_app_distr in E. destruct U; [contradiction| | |]; discriminate E.
Qed.
(** the hypotheses of [c138_overflow]: the largest size, and one byte less *)
Example c138_overflow_case : 60 * 1000 < 2 ^ 64 /\ max_size < 2 ^ 64 /\ 2 ^ 64 <= 12 * 1000 * (max_size / (12 * 1000) + 1) /\ 2 ^ 64 <= 12 * 1000 * ((max_size - 1) / (12 * 1000) + 1).
Proof. vm_compute. repeat split; discriminate. Qed.
(** the hypotheses of [c138_largest_limit]: the largest number of bytes *)
Example c138_largest_case : size_text (codes "18446744073709551615"%string) max_size /\ 2 ^ 64 - 4 <= max_size < 2 ^ 64.
Proof. split; [apply largest_text|]. unfold max_size. lia. Qed.
