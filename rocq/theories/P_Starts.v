(** Property theorems C136: which series a search can start on, and what starting at the
    longest prefix leads to.  Specification: below, EnumSpec.v, ProfileSpec.v.
    Model: Iterator.v, Calibrate.v, Profile.v. *)
From Coq Require Import Floats.SpecFloat.
From Verif Require Import Base F64 HashValue HashSpec HashProofs EnumSpec OverlapsSpec Enumerator TopK TopKSpec TopKProofs Moves Profile ProfileSpec ProfileProofs P_Index Iterator IteratorSpec IteratorProofs IteratorLoop IteratorSteps GuaranteeSpec ScheduleSpec P_Schedule Calibrate P_Calibrate2 P_Profile64 IteratorCalls P_Iterator.

(** The profile that the search of [p] uses is the one computed from its own first four
    repetitions, shared in some way between the threads (index.rs 590-672). *)
Definition own_profile (p : problem) (pl : plan) : Prop :=
  exists rows : list (list Z), length rows = 4 /\
    (forall r row, nth_error rows r = Some row ->
       returns (collision_profile_at (fst (p_table p r K)) (snd (p_table p r K)) (p_ez p)) row) /\
    plan_rows pl = map profile_row rows /\ p_expected p = collision_profile 4 pl.

(** of the pairs of entries of repetition [r]: those whose hash values have the same first
    byte; those with the same eight bytes and trivial matches; those with the same eight
    bytes and no trivial matches *)
Definition same_first (p : problem) (r : nat) (n : nat) : Prop := card (collide (fst (p_table p r K)) 1) n.
Definition same_trivial (p : problem) (r : nat) (n : nat) : Prop :=
  card (fun x y => collide (fst (p_table p r K)) 8 x y /\ trivial (snd (p_table p r K)) (p_ez p) x y) n.
Definition same_apart (p : problem) (r : nat) (n : nat) : Prop :=
  card (fun x y => collide (fst (p_table p r K)) 8 x y /\ ~ trivial (snd (p_table p r K)) (p_ez p) x y) n.
Definition over_four (n : nat -> nat) : Z := (Z.of_nat (n 0%nat) + Z.of_nat (n 1%nat) + Z.of_nat (n 2%nat) + Z.of_nat (n 3%nat))%Z.

(** ** Counting *)
Lemma card_le (P Q : nat -> nat -> Prop) m n : (forall x y, P x y -> Q x y) -> card P m -> card Q n -> m <= n.
Proof.
  intros H (L & N & E & <-) (M & _ & F & <-). apply NoDup_incl_length; [exact N|]. intros (x, y) I. apply F, H, E, I.
Qed.
Lemma card_eq (P : nat -> nat -> Prop) m n : card P m -> card P n -> m = n.
Proof. intros A B. apply Nat.le_antisymm; eapply card_le; eauto. Qed.

(** all pairs of positions below [n], as a list *)
Fixpoint all_pairs (n : nat) : list (nat * nat) := match n with O => [] | S m => map (fun x => (x, m)) (seq 0 m) ++ all_pairs m end.
Lemma in_all_pairs n x y : x < y < n -> In (x, y) (all_pairs n).
Proof.
  induction n as [|n IH]; intros H; [lia|]. cbn [all_pairs]. apply in_or_app. destruct (Nat.eq_dec y n) as [->|D].
  - left. apply in_map_iff. exists x. split; [reflexivity|]. apply in_seq. lia.
  - right. apply IH. lia.
Qed.
Lemma all_pairs_length n : (2 * Z.of_nat (length (all_pairs n)) = Z.of_nat n * (Z.of_nat n - 1))%Z.
Proof. induction n as [|n IH]; [reflexivity|]. cbn [all_pairs]. rewrite app_length, map_length, seq_length. rewrite Nat2Z.inj_add, Z.mul_add_distr_l, IH, Nat2Z.inj_succ. ring. Qed.
Lemma collide_count hashes p k : card (collide hashes p) k -> (2 * Z.of_nat k <= Z.of_nat (length hashes) * (Z.of_nat (length hashes) - 1))%Z.
Proof.
  intros (L & N & E & <-). rewrite <- all_pairs_length. apply Z.mul_le_mono_nonneg_l; [lia|]. apply inj_le. apply NoDup_incl_length; [exact N|].
  intros (x, y) I. apply E in I. destruct I as (Lt & hx & hy & _ & Hy & _). apply in_all_pairs. split; [exact Lt|]. apply nth_error_Some. congruence.
Qed.
Lemma collide_less hashes p q x y : p <= q -> collide hashes q x y -> collide hashes p x y.
Proof.
  intros L (Lt & hx & hy & Ex & Ey & A). split; [exact Lt|]. exists hx, hy. split; [exact Ex|]. split; [exact Ey|].
  apply (agree_shorter p q); assumption.
Qed.

Lemma card_disjoint (P Q R : nat -> nat -> Prop) m n k : (forall x y, P x y -> R x y) -> (forall x y, Q x y -> R x y) -> (forall x y, P x y -> Q x y -> False) ->
  card P m -> card Q n -> card R k -> m + n <= k.
Proof.
  intros A B D (L & NL & EL & <-) (M & NM & EM & <-) (S & _ & ES & <-). rewrite <- app_length. apply NoDup_incl_length.
  - clear ES. induction L as [|(x, y) L IH]; [exact NM|].
    assert (G : forall l, NoDup l -> (forall x y, In (x, y) l -> P x y) -> NoDup (l ++ M)).
    { induction l as [|(u, v) l IHl]; intros Nl Pl; [exact NM|]. inversion Nl; subst. constructor; [|apply IHl; [assumption|intros; apply Pl; right; assumption]].
      intros I. apply in_app_or in I as [I|I]; [contradiction|]. apply (D u v); [apply Pl; left; reflexivity|apply EM, I]. }
    apply G; [exact NL|]. intros u v I. apply EL, I.
  - intros (x, y) I. apply ES. apply in_app_or in I as [I|I]; [apply A, EL, I|apply B, EM, I].
Qed.

Lemma row_facts p r row : sound p ->
  returns (collision_profile_at (fst (p_table p r K)) (snd (p_table p r K)) (p_ez p)) row ->
  exists n t e, same_first p r n /\ same_trivial p r t /\ same_apart p r e /\ length row = 8 /\
    nth 0 row 0%Z = (Z.of_nat n - Z.of_nat t)%Z /\ nth 7 row 0%Z = Z.of_nat e /\
    (forall q, (0 <= nth q row 0 <= Z.of_nat n - Z.of_nat t)%Z).
Proof.
  intros Sd R. destruct (sound_tables p Sd r K ltac:(unfold K; lia)) as (T & _).
  destruct (c13_collision_profile _ _ (p_ez p) T) as (row' & t & e & c & R' & Cc & Ct & Ce & L8 & E7 & Eq & Pos & Mono).
  rewrite (returns_det _ _ _ R R') in *. clear R R' row. rename row' into row.
  exists (c 1), t, e. split; [apply Cc; lia|]. split; [exact Ct|]. split; [exact Ce|]. split; [exact L8|].
  assert (E0 : nth 0 row 0%Z = (Z.of_nat (c 1%nat) - Z.of_nat t)%Z) by (apply nth_error_nth; apply (Eq 1); lia).
  split; [exact E0|]. split; [apply nth_error_nth, E7|].
  assert (Te : t + e <= c 1).
  { eapply card_disjoint; [| | |exact Ct|exact Ce|apply Cc; lia].
    - intros x y (H & _). apply (collide_less _ 1 8); [lia|exact H].
    - intros x y (H & _). apply (collide_less _ 1 8); [lia|exact H].
    - intros x y (_ & H) (_ & H'). contradiction. }
  intros q. destruct (nth_error row q) as [v|] eqn:Ev.
  - rewrite (nth_error_nth _ _ 0%Z Ev). split; [apply (Pos q v Ev)|].
    assert (q < 8) by (rewrite <- L8; apply nth_error_Some; congruence).
    destruct (Nat.eq_dec q 7) as [->|D]; [rewrite E7 in Ev; injection Ev as <-; lia|].
    apply (Mono 0 q); [lia|lia|apply (Eq 1); lia|exact Ev].
  - rewrite nth_overflow by (apply nth_error_None, Ev). lia.
Qed.

(** ** Creation *)
Lemma new_iff p a b d : sound p -> seed_ok p a b d ->
  (2 <= p_max_k p -> (exists q, calibration_prefix (p_expected p) = Ret q) -> (exists q, first_meaningful_prefix (p_expected p) = Ret q /\ 1 <= q) -> exists s, iter_new p a b d = Ret s) /\
  (p_max_k p < 2 -> (exists q, calibration_prefix (p_expected p) = Ret q) -> (exists q, first_meaningful_prefix (p_expected p) = Ret q /\ 1 <= q) -> iter_new p a b d = Panic) /\
  (calibration_prefix (p_expected p) = Panic -> iter_new p a b d = Panic).
Proof.
  intros Sd (Sa & Sb & St & Sn). unfold iter_new.
  assert (T0 : add_repetitions p [] 1 K = Ret [p_table p 0 K]) by reflexivity. rewrite T0. cbn [bind].
  assert (T1 : add_repetitions p [p_table p 0 K] INITIAL_REPETITIONS K = Ret (map (fun r => p_table p r K) (seq 0 INITIAL_REPETITIONS))) by reflexivity.
  rewrite T1. cbn [bind]. split; [|split].
  - intros M (q & ->) (p0 & -> & Lp). cbn [bind]. destruct (Nat.ltb_spec 0 p0); [|lia]. cbn [assert_].
    destruct (p_max_k p) as [|[|K2]]; [lia|lia|]. replace (S (S K2) + 1) with (S (S (S K2))) by lia.
    unfold get, put. cbn [repeat nth_error bind set_nth option_map].
    destruct (queue_insert p (Motiflet [a; b] d) 2 (tk_new (p_top_k p) (p_ez p)) (Motiflet [a; b] d)) as (t2 & -> & _);
      [|reflexivity|right; reflexivity|exact Sn|cbn [bind]; eauto].
    split; cbn; auto using wf_new; try lia; try discriminate; try tauto; intros; constructor.
  - intros M (q & ->) (p0 & -> & Lp). cbn [bind]. destruct (Nat.ltb_spec 0 p0); [|lia]. cbn [assert_].
    destruct (p_max_k p) as [|[|K2]]; [reflexivity|reflexivity|lia].
  - intros ->. reflexivity.
Qed.

(** The search starts if, and only if, at least motiflets of two are asked for and, in the
    first four repetitions together, the pairs with the same first byte are more than 4000
    more than the trivial matches with the same hash value; otherwise it aborts.  It starts
    at the longest prefix exactly when there are four pairs, or more, of windows with the
    same hash value that are not trivial matches. *)
Theorem c136_starts :
  forall (p : problem) (pl : plan) (a b : nat) (d : f64) (first triv apart : nat -> nat),
    sound p -> seed_ok p a b d -> own_profile p pl ->
    (forall r, r < 4 -> (Z.of_nat (length (fst (p_table p r K))) <= 2 ^ 25)%Z) ->
    (forall r, r < 4 -> same_first p r (first r) /\ same_trivial p r (triv r) /\ same_apart p r (apart r)) ->
    ((exists s, iter_new p a b d = Ret s) <-> 2 <= p_max_k p /\ (over_four triv + 4000 < over_four first)%Z) /\
    (~ (2 <= p_max_k p /\ (over_four triv + 4000 < over_four first)%Z) -> iter_new p a b d = Panic) /\
    (forall s, iter_new p a b d = Ret s -> c_prefix (it_conf s) = 8 <-> (4 <= over_four apart)%Z).
Proof.
  intros p pl a b d first triv apart Sd So (rows & L4 & Rows & Pl & Ex) Small Counts.
  destruct (new_iff p a b d Sd So) as (New & One & Abort).
  assert (F : forall r row, nth_error rows r = Some row -> length row = 8 /\
     nth 0 row 0%Z = (Z.of_nat (first r) - Z.of_nat (triv r))%Z /\ nth 7 row 0%Z = Z.of_nat (apart r) /\
     (forall q, (0 <= nth q row 0 <= Z.of_nat (first r) - Z.of_nat (triv r))%Z) /\ (Z.of_nat (first r) - Z.of_nat (triv r) <= 2 ^ 50)%Z).
  { intros r row E. assert (Hr : r < 4) by (rewrite <- L4; apply nth_error_Some; congruence).
    destruct (row_facts p r row Sd (Rows r row E)) as (n & t & e & Cn & Ct & Ce & L8 & E0 & E7 & B). destruct (Counts r Hr) as (C1 & C2 & C3).
    rewrite (card_eq _ _ _ C1 Cn), (card_eq _ _ _ C2 Ct), (card_eq _ _ _ C3 Ce). repeat (split; [assumption|]).
    pose proof (collide_count _ _ _ Cn) as Bn. specialize (Small r Hr). nia. }
  assert (Ok : forall row, In row rows -> length row = 8 /\ forall c, In c row -> (0 <= c <= 2 ^ 50)%Z).
  { intros row I. apply In_nth_error in I as (r & E). destruct (F r row E) as (L8 & _ & _ & B & Up). split; [exact L8|].
    intros c Ic. apply (In_nth _ _ 0%Z) in Ic as (q & _ & <-). specialize (B q). lia. }
  destruct (c135_prefixes rows pl L4 Ok Pl) as ((p0 & P0 & R0 & Max0 & Hit0) & Cal & Bad). rewrite <- Ex in P0, Cal, Bad.
  assert (Tot : total rows 0 = (over_four first - over_four triv)%Z /\ total rows 7 = over_four apart /\ forall q, (total rows q <= total rows 0)%Z).
  { destruct rows as [|r0 [|r1 [|r2 [|r3 [|]]]]]; try discriminate L4. cbn [total fold_right]. unfold over_four.
    destruct (F 0 r0 eq_refl) as (_ & A0 & B0 & C0 & _). destruct (F 1 r1 eq_refl) as (_ & A1 & B1 & C1 & _).
    destruct (F 2 r2 eq_refl) as (_ & A2 & B2 & C2 & _). destruct (F 3 r3 eq_refl) as (_ & A3 & B3 & C3 & _).
    split; [|split]; [lia|lia|]. intros q. specialize (C0 q). specialize (C1 q). specialize (C2 q). specialize (C3 q). lia. }
  destruct Tot as (T0 & T7 & Tm).
  assert (Enough : (over_four triv + 4000 < over_four first)%Z -> exists q, calibration_prefix (p_expected p) = Ret q).
  { intros H. destruct Cal as (q & E & _); [exists 1; split; [lia|]; cbn [Nat.sub]; lia|eauto]. }
  assert (Few : ~ (over_four triv + 4000 < over_four first)%Z -> iter_new p a b d = Panic).
  { intros H. apply Abort, Bad. intros q _. specialize (Tm (q - 1)). lia. }
  assert (P1 : exists q, first_meaningful_prefix (p_expected p) = Ret q /\ 1 <= q) by (exists p0; split; [exact P0|lia]).
  assert (Otherwise : ~ (2 <= p_max_k p /\ (over_four triv + 4000 < over_four first)%Z) -> iter_new p a b d = Panic).
  { intros H. destruct (Z_lt_dec (over_four triv + 4000) (over_four first)) as [Lt|Ge]; [|apply Few, Ge].
    apply One; [lia|apply Enough, Lt|exact P1]. }
  split; [|split; [exact Otherwise|]].
  - split.
    + intros (s & E). destruct (Z_lt_dec (over_four triv + 4000) (over_four first)) as [Lt|Ge]; [|rewrite (Few Ge) in E; discriminate E].
      split; [|exact Lt]. destruct (Nat.le_gt_cases 2 (p_max_k p)) as [|C]; [assumption|]. rewrite (One C (Enough Lt) P1) in E. discriminate E.
    + intros (M & Lt). apply New; [exact M|apply Enough, Lt|exact P1].
  - intros s E. pose proof (new_prefix p a b d s E) as Np. rewrite P0 in Np. apply Ret_inj in Np. rewrite <- Np. split.
    + intros ->. destruct Hit0 as [H|H]; [|discriminate H]. cbn [Nat.sub] in H. lia.
    + intros H. destruct (Nat.eq_dec p0 8) as [|D]; [assumption|]. specialize (Max0 8 ltac:(lia)). cbn [Nat.sub] in Max0. lia.
Qed.
Print Assumptions c136_starts.

(** So a search on 45 windows, or fewer, aborts, whatever the series and the hash functions:
    there are not enough pairs. *)
Theorem c136_short :
  forall (p : problem) (pl : plan) (a b : nat) (d : f64),
    sound p -> seed_ok p a b d -> own_profile p pl ->
    (forall r, r < 4 -> length (fst (p_table p r K)) <= 45) ->
    iter_new p a b d = Panic.
Proof.
  intros p pl a b d Sd So Own Short. pose proof Own as (rows & L4 & Rows & _).
  assert (G : forall r, exists n t e, r < 4 -> same_first p r n /\ same_trivial p r t /\ same_apart p r e).
  { intros r. destruct (nth_error rows r) as [row|] eqn:E.
    - destruct (row_facts p r row Sd (Rows r row E)) as (n & t & e & A & B & C & _). exists n, t, e. auto.
    - exists 0, 0, 0. intros H. apply nth_error_None in E. lia. }
  destruct (G 0) as (n0 & t0 & e0 & G0). destruct (G 1) as (n1 & t1 & e1 & G1). destruct (G 2) as (n2 & t2 & e2 & G2). destruct (G 3) as (n3 & t3 & e3 & G3).
  assert (Each : forall r n, r < 4 -> same_first p r n -> (Z.of_nat n <= 990)%Z).
  { intros r n Hr C. pose proof (collide_count _ _ _ C) as B. pose proof (Short r Hr) as L. apply inj_le in L. change (Z.of_nat 45) with 45%Z in L. nia. }
  destruct (c136_starts p pl a b d (fun r => nth r [n0; n1; n2; n3] 0) (fun r => nth r [t0; t1; t2; t3] 0) (fun r => nth r [e0; e1; e2; e3] 0) Sd So Own) as (_ & Ab & _).
  - intros r Hr. specialize (Short r Hr). lia.
  - intros r Hr. destruct r as [|[|[|[|r]]]]; [apply G0|apply G1|apply G2|apply G3|]; lia.
  - apply Ab. unfold over_four. cbn [nth]. intros (_ & H).
    pose proof (Each 0 n0 ltac:(lia) (proj1 (G0 ltac:(lia)))). pose proof (Each 1 n1 ltac:(lia) (proj1 (G1 ltac:(lia)))).
    pose proof (Each 2 n2 ltac:(lia) (proj1 (G2 ltac:(lia)))). pose proof (Each 3 n3 ltac:(lia) (proj1 (G3 ltac:(lia)))). lia.
Qed.
Print Assumptions c136_short.

(** A search that starts at the longest prefix never has a ninth repetition there: eight are
    in the index from the start; adding one aborts, since it asks for nine hash functions.
    A turn that begins in the eighth repetition, and does not abort, goes to seven bytes. *)
Theorem c136_longest :
  forall (p : problem) (a b : nat) (d : f64) (s : iter) (h : list iter),
    sound p -> seed_ok p a b d -> trace p a b d (s :: h) -> c_prefix (it_conf s) = 8 ->
    c_rep (it_conf s) < 8 /\ length (it_tables s) = 8 /\ c_prev (it_conf s) = None /\
    forall s', turn_of p a b d s s' ->
      stays_on (it_conf s) (it_conf s') /\ c_rep (it_conf s) < 7 \/
      steps_down (it_conf s) (it_conf s') /\ c_prefix (it_conf s') = 7 /\ c_rep (it_conf s) = 7.
Proof.
  intros p a b d s h Sd So T P8.
  assert (Turn : forall s s', turn_of p a b d s s' -> length (it_tables s) = 8 /\ c_prev (it_conf s) = None -> c_prefix (it_conf s) = 8 -> c_rep (it_conf s) < 8 ->
    (stays_on (it_conf s) (it_conf s') /\ c_rep (it_conf s) < 7 \/ steps_down (it_conf s) (it_conf s') /\ c_prefix (it_conf s') = 7 /\ c_rep (it_conf s) = 7) /\ it_tables s' = it_tables s).
  { intros s1 s2 Tn (L8 & Pr) P1 R1. destruct (turn_before_advance p a b d s1 s2 Sd So Tn) as (sx & E & _ & C & Tb & _).
    destruct (advance_view p sx s2 E) as (nx & En & _ & [(Le & St & [(Lt & Eq)|(Ge & Add)])|(Lt & Dn & Eq)]); rewrite C, Tb in *.
    - split; [left; split; [exact St|lia]|exact Eq].
    - exfalso. unfold add_repetitions in Add. destruct (_ <? _); cbn [assert_] in Add; [|discriminate Add].
      destruct (Nat.leb_spec (nx + 1) K) as [Lk|Lk]; [unfold K in Lk; lia|discriminate Add].
    - split; [|exact Eq]. right. split; [exact Dn|]. destruct Dn as (_ & Dn & _). split; [lia|].
      unfold next_prefix in En. rewrite C in En. destruct (must_stay (it_conf s1)) eqn:M; [apply Ret_inj in En; lia|].
      unfold must_stay in M. rewrite Pr in M. unfold INITIAL_REPETITIONS in M.
      destruct (Nat.eq_dec (c_rep (it_conf s1)) 7) as [|D]; [assumption|]. exfalso.
      destruct (Nat.ltb_spec (c_rep (it_conf s1) + 1) 8) as [|C1]; [|lia]. cbn in M. discriminate M. }
  assert (G : forall l, trace p a b d l -> forall s h, l = s :: h ->
    length (it_tables s) >= 8 /\ c_prefix (it_conf s) <= 8 /\ (c_prefix (it_conf s) = 8 -> c_rep (it_conf s) < 8 /\ length (it_tables s) = 8 /\ c_prev (it_conf s) = None)).
  { clear s h T P8. intros l T. induction T as [s1 E|s1 s2 l T IH St]; intros s h El; injection El as <- <-.
    - destruct (new_inv p a b d s1 Sd So E) as (_ & _ & _ & _ & _ & L8 & p0 & Ep & Ec). rewrite L8, Ec. unfold INITIAL_REPETITIONS, config_start. cbn [c_prefix c_rep c_prev].
      split; [lia|]. split; [|intros _; split; [lia|auto]].
      unfold first_meaningful_prefix in Ep. destruct (rfind_ge1 0 (p_expected p)) as [r|] eqn:Er; [|discriminate]. apply Ret_inj in Ep. subst p0.
      destruct (rfind_ge1_spec _ _ _ Er) as (k & -> & (c & Ec' & _) & _). assert (k < length (p_expected p)) by (apply nth_error_Some; congruence).
      rewrite (sound_profile p Sd) in H. unfold K in *. lia.
    - destruct (IH s1 l eq_refl) as (G1 & G2 & G3). pose proof St as St'. destruct (trace_inv p a b d _ Sd So T) as (sx & lx & Eq & I). injection Eq as <- <-.
      destruct St as (go & fuel & [B|(x & B)]).
      + destruct (loop_body_inl _ _ _ _ _ B) as (-> & _). assert (Tn : turn_of p a b d s1 s2) by (exists l, fuel; split; [constructor; assumption|exact B]).
        destruct (Nat.eq_dec (c_prefix (it_conf s1)) 8) as [P1|P1].
        * destruct (G3 P1) as (R1 & L1 & N1). destruct (Turn s1 s2 Tn (conj L1 N1) P1 R1) as ([(So1 & R7)|(_ & P7 & _)] & Tb); rewrite Tb.
          -- destruct So1 as (S1 & S2 & S3 & _). rewrite S1, S2, S3. split; [lia|]. split; [lia|]. intros _. split; [lia|auto].
          -- split; [lia|]. split; [lia|]. intros C. lia.
        * destruct (turn_before_advance p a b d s1 s2 Sd So Tn) as (sy & E & _ & C & Tb & _).
          destruct (advance_view p sy s2 E) as (nx & _ & _ & [(_ & (_ & S2 & _) & [(_ & Eq)|(_ & Add)])|(_ & (_ & S2 & _) & Eq)]); rewrite C, ?Tb in *.
          -- rewrite Eq. split; [lia|]. split; [lia|]. intros D. lia.
          -- unfold add_repetitions in Add. destruct (_ <? _); cbn [assert_] in Add; [|discriminate Add]. destruct (_ <=? K); cbn [assert_] in Add; [|discriminate Add].
             apply Ret_inj in Add. rewrite <- Add, app_length. split; [lia|]. split; [lia|]. intros D. lia.
          -- rewrite Eq. split; [lia|]. split; [lia|]. intros D. lia.
      + pose proof (loop_body_cases p _ s1 go fuel _ Sd I B) as C. destruct x as [|m|]; cbn beta iota in C.
        * destruct C as (-> & _). auto.
        * destruct C as (_ & _ & _ & -> & ->). auto.
        * destruct C as (_ & _ & _ & _ & -> & -> & _). auto. }
  destruct (G _ T s h eq_refl) as (_ & _ & G3). destruct (G3 P8) as (R8 & L8 & N8). repeat (split; [assumption|]).
  intros s' Tn. apply (proj1 (Turn s s' Tn (conj L8 N8) P8 R8)).
Qed.
Print Assumptions c136_longest.

(** ** Examples *)
(** 62 windows: all share seven bytes, and two of them the eighth *)
Definition crowd_row : list Z := [1891; 1891; 1891; 1891; 1891; 1891; 1891; 1]%Z.
Definition crowd_plan : plan := Both (Part [profile_row crowd_row; profile_row crowd_row]) (Part [profile_row crowd_row; profile_row crowd_row]).
Definition crowd (hashes indices : list N) (pl : plan) : problem := {|
  p_n := 62; p_ez := 1; p_max_k := 3; p_top_k := 1;
  p_zeucl := toy_distance; p_zeucl_threshold := below toy_distance;
  p_table := fun _ _ => (hashes, indices);
  p_failure := fun _ reps _ _ _ => if reps <? 3 then fl 1 else f_zero;
  p_delta := half; p_coin := fun _ _ _ => true;
  p_expected := collision_profile 4 pl; p_setup_cost := fl 1; p_collision_cost := fl 1; p_max_repetitions := 100;
  p_buffer := 4; p_threshold := 7; p_stop := false; p_nan_first := true |}.
Lemma crowd_sound hashes indices pl : table_ok hashes indices -> hashes <> [] -> (forall i, In i indices -> (i < 62)%N) -> length (collision_profile 4 pl) = 9 ->
  sound (crowd hashes indices pl).
Proof.
  intros T N In_ L. split.
  - cbn. lia.
  - cbn. lia.
  - intros r k _. split; [exact T|exact N].
  - intros r k x i _ Ex. left. apply In_, (nth_error_In _ _ Ex).
  - intros a b t d. apply below_sign. intros i j. destruct (toy_distance_cases i j) as [->|[->|[->| ->]]]; reflexivity.
  - intros i j _. cbn [p_zeucl crowd]. destruct (toy_distance_cases i j) as [->|[->|[->| ->]]]; reflexivity.
  - intros i j _ _ _. cbn [p_zeucl crowd]. destruct (toy_distance_cases i j) as [->|[->|[->| ->]]]; reflexivity.
  - exact L.
Qed.
Lemma own_one hashes indices n ez row : table_ok hashes indices -> length hashes < n -> collision_profile_at hashes indices ez n = Ret row ->
  returns (collision_profile_at hashes indices ez) row.
Proof.
  intros T L E. exists n. intros m Lm. rewrite (collision_profile_ok hashes indices ez T n L) in E. rewrite <- E.
  apply collision_profile_ok; [exact T|lia].
Qed.

Definition crowd62 : problem := crowd crowd_hashes crowd_indices crowd_plan.
Lemma crowd62_seed : seed_ok crowd62 4 8 (fl 2).
Proof. repeat split; cbn; try lia. unfold too_close. lia. Qed.
Lemma crowd62_sound : sound crowd62.
Proof.
  apply crowd_sound; [exact crowd_ok|discriminate| |reflexivity].
  intros i H. unfold crowd_indices in H. apply in_map_iff in H as (k & <- & H). apply in_seq in H. lia.
Qed.
Lemma crowd62_row r : returns (collision_profile_at (fst (p_table crowd62 r K)) (snd (p_table crowd62 r K)) (p_ez crowd62)) crowd_row.
Proof. apply (own_one crowd_hashes crowd_indices 100); [exact crowd_ok|vm_compute; lia|vm_compute; reflexivity]. Qed.
Lemma crowd62_own : own_profile crowd62 crowd_plan.
Proof.
  exists (repeat crowd_row 4). split; [reflexivity|]. split; [|split; reflexivity].
  intros r row E. apply nth_error_In, repeat_spec in E. subst row. apply crowd62_row.
Qed.
Example c136_starts_case :
  sound crowd62 /\ seed_ok crowd62 4 8 (fl 2) /\ own_profile crowd62 crowd_plan /\
  (exists first triv apart, (forall r, r < 4 -> same_first crowd62 r (first r) /\ same_trivial crowd62 r (triv r) /\ same_apart crowd62 r (apart r)) /\
     (over_four triv + 4000 < over_four first)%Z /\ (4 <= over_four apart)%Z) /\
  exists s, iter_new crowd62 4 8 (fl 2) = Ret s /\ c_prefix (it_conf s) = 8 /\ trace crowd62 4 8 (fl 2) [s].
Proof.
  split; [exact crowd62_sound|]. split; [exact crowd62_seed|]. split; [exact crowd62_own|]. split.
  - destruct (row_facts crowd62 0 crowd_row crowd62_sound (crowd62_row 0)) as (n & t & e & A & B & C & _ & E0 & E7 & _). cbn [nth crowd_row] in E0, E7.
    exists (fun _ => n), (fun _ => t), (fun _ => e). split; [intros r _; repeat split; assumption|]. unfold over_four. lia.
  - assert (E : exists s, iter_new crowd62 4 8 (fl 2) = Ret s /\ c_prefix (it_conf s) = 8) by (eexists; split; [vm_compute; reflexivity|reflexivity]).
    destruct E as (s & E & P). exists s. split; [exact E|]. split; [exact P|]. constructor. exact E.
Qed.

(** forty windows that all share their hash value abort *)
Definition flat_hashes : list N := repeat 1%N 40.
Definition flat_indices : list N := map N.of_nat (seq 0 40).
Definition flat_row : list Z := repeat 780%Z 8.
Definition flat_plan : plan := Part (repeat (profile_row flat_row) 4).
Definition crowd40 : problem := crowd flat_hashes flat_indices flat_plan.
Lemma flat_ok : table_ok flat_hashes flat_indices.
Proof.
  split; [reflexivity|]. split.
  - intros h H. apply repeat_spec in H. subst h. reflexivity.
  - intros i j x y _ Ex Ey. apply nth_error_In, repeat_spec in Ex. apply nth_error_In, repeat_spec in Ey. subst. lia.
Qed.
Example c136_short_case :
  sound crowd40 /\ seed_ok crowd40 4 8 (fl 2) /\ own_profile crowd40 flat_plan /\ (forall r, r < 4 -> length (fst (p_table crowd40 r K)) <= 45).
Proof.
  split; [|split; [|split]].
  - apply crowd_sound; [exact flat_ok|discriminate| |reflexivity].
    intros i H. unfold flat_indices in H. apply in_map_iff in H as (k & <- & H). apply in_seq in H. lia.
  - repeat split; cbn; try lia. unfold too_close. lia.
  - exists (repeat flat_row 4). split; [reflexivity|]. split; [|split; reflexivity].
    intros r row E. apply nth_error_In, repeat_spec in E. subst row. apply (own_one flat_hashes flat_indices 100); [exact flat_ok|vm_compute; lia|vm_compute; reflexivity].
  - intros r _. vm_compute. lia.
Qed.
