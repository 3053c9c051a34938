(** Collision probabilities, failure probabilities, and the space of independent bytes. *)
From Coq Require Import Reals Lra.
From Coquelicot Require Import Coquelicot.
From Verif Require Import Base RSpec RealProofs Gauss Collision CollisionSpec.
Local Open Scope R_scope.

(** ** The normal distribution *)
Lemma erfc_gauss c : erfc (c / sqrt 2) = 1 - 2 / sqrt (2 * PI) * Gint c.
Proof.
  pose proof PI_RGT_0. assert (H2 : 0 < sqrt 2) by (apply sqrt_lt_R0; lra). assert (HP : 0 < sqrt PI) by (apply sqrt_lt_R0; lra).
  unfold erfc. replace (Gint c) with (sqrt 2 * RInt (fun t => exp (- (t * t))) 0 (c / sqrt 2)).
  - rewrite sqrt_mult by lra. field. split; lra.
  - assert (Ex : forall a b, ex_RInt (fun t => exp (- (t * t))) a b).
    { intros a b. apply (ex_RInt_continuous (fun t => exp (- (t * t)))). intros t _. apply (ex_derive_continuous (fun t => exp (- (t * t)))). auto_derive. exact I. }
    transitivity (RInt (fun t => scal (sqrt 2) (gauss (sqrt 2 * t + 0))) 0 (c / sqrt 2)).
    + symmetry. etransitivity; [|apply (RInt_scal (fun t => exp (- (t * t))) 0 (c / sqrt 2) (sqrt 2)), Ex].
      apply RInt_ext. intros t _. f_equal. unfold gauss. f_equal. rewrite Rplus_0_r. replace (sqrt 2 * t * (sqrt 2 * t)) with ((sqrt 2 * sqrt 2) * (t * t)) by ring.
      rewrite sqrt_sqrt by lra. field.
    + etransitivity; [apply (RInt_comp_lin gauss (sqrt 2) 0 0 (c / sqrt 2)), gauss_int|]. unfold Gint. f_equal; field. lra.
Qed.
Lemma normal_cdf_gauss c : normal_cdf (- c) = / 2 - / sqrt (2 * PI) * Gint c.
Proof.
  unfold normal_cdf. replace ((0 - - c) / (1 * sqrt 2)) with (c / sqrt 2) by (unfold Rdiv; rewrite Rmult_1_l; f_equal; lra). rewrite erfc_gauss.
  field. apply Rgt_not_eq, sqrt_lt_R0. pose proof PI_RGT_0. lra.
Qed.

(** ** The collision probability *)
Definition shape (c : R) : R := Gint c - (1 - gauss c) / c.
Lemma collision_shape r d : 0 < r -> 0 < d -> collision_probability_at r d = 2 / sqrt (2 * PI) * shape (r / d).
Proof.
  intros Hr Hd. unfold collision_probability_at. destruct (Req_EM_T d 0); [lra|].
  replace (- r / d) with (- (r / d)) by (field; lra). rewrite normal_cdf_gauss. unfold shape.
  replace (exp (- r * r / (2 * d * d))) with (gauss (r / d)) by (unfold gauss; f_equal; field; lra).
  replace (PI * 2) with (2 * PI) by ring. pose proof PI_RGT_0. assert (0 < sqrt (2 * PI)) by (apply sqrt_lt_R0; lra). field. lra.
Qed.
Lemma gauss_lt_1 c : 0 < c -> gauss c < 1.
Proof. intros H. unfold gauss. rewrite <- exp_0. apply exp_increasing. nra. Qed.
Lemma derivable_lim f x l : is_derive f x l -> derivable_pt_lim f x l.
Proof. apply is_derive_Reals. Qed.
Lemma shape_pos c : 0 < c -> 0 < shape c.
Proof.
  intros Hc.
  destruct (MVT_cor2 (fun c => c * Gint c - 1 + gauss c) Gint 0 c Hc) as (x & E & Hx).
  - intros y _. apply derivable_lim.
    replace (Gint y) with ((1 * Gint y + y * gauss y - 0) + (- y * gauss y)) by ring.
    apply (is_derive_plus (fun c => c * Gint c - 1) gauss y); [|apply gauss_derive].
    apply (is_derive_minus (fun c => c * Gint c) (fun _ => 1) y).
    + apply (is_derive_mult (fun c => c) Gint y); [apply is_derive_Reals, derivable_pt_lim_id|apply Gint_derive|]. intros; apply Rmult_comm.
    + apply (is_derive_const 1 y).
  - rewrite Gint_0 in E. assert (E0 : gauss 0 = 1) by (unfold gauss; replace (- (0 * 0) / 2) with 0 by lra; apply exp_0). rewrite E0 in E.
    destruct (gauss_bound x) as (P & _); [lra|]. assert (0 < Gint x * (c - 0)) by nra. unfold shape.
    apply (Rmult_lt_reg_l c); [exact Hc|]. rewrite Rmult_0_r. replace (c * (Gint c - (1 - gauss c) / c)) with (c * Gint c - 1 + gauss c) by (field; lra). lra.
Qed.
Lemma shape_lt c : 0 < c -> shape c < sqrt (PI / 2).
Proof.
  intros Hc. destruct (gauss_bound c Hc) as (_ & B). pose proof (gauss_lt_1 c Hc). unfold shape.
  assert (0 < (1 - gauss c) / c) by (apply Rdiv_lt_0_compat; lra). lra.
Qed.
Lemma shape_incr a b : 0 < a -> a < b -> shape a < shape b.
Proof.
  intros Ha Hab.
  destruct (MVT_cor2 shape (fun c => (1 - gauss c) / (c * c)) a b Hab) as (x & E & Hx).
  - intros y Hy. apply derivable_lim.
    replace ((1 - gauss y) / (y * y)) with (gauss y - (((0 - (- y * gauss y)) * y - (1 - gauss y) * 1) / (y * y))) by (field; lra).
    apply (is_derive_minus Gint (fun c => (1 - gauss c) / c) y); [apply Gint_derive|].
    replace (y * y) with (y ^ 2) by ring.
    apply (is_derive_div (fun c => 1 - gauss c) (fun c => c) y); [|apply is_derive_Reals, derivable_pt_lim_id|lra].
    apply (is_derive_minus (fun _ => 1) gauss y); [apply (is_derive_const 1 y)|apply gauss_derive].
  - pose proof (gauss_lt_1 x ltac:(lra)). assert (0 < (1 - gauss x) / (x * x) * (b - a)).
    { apply Rmult_lt_0_compat; [|lra]. apply Rdiv_lt_0_compat; [lra|nra]. }
    lra.
Qed.
Lemma scale_pos : 0 < 2 / sqrt (2 * PI) /\ 2 / sqrt (2 * PI) * sqrt (PI / 2) = 1.
Proof.
  pose proof PI_RGT_0. assert (H0 : 0 < sqrt (2 * PI)) by (apply sqrt_lt_R0; lra). split; [apply Rdiv_lt_0_compat; lra|].
  replace (PI / 2) with ((2 * PI) * (/ 2 * / 2)) by field. rewrite (sqrt_mult (2 * PI) (/ 2 * / 2)) by lra. rewrite sqrt_square by lra. field. lra.
Qed.
Lemma collision_bounds r d : 0 < r -> 0 < d -> 0 < collision_probability_at r d < 1.
Proof.
  intros Hr Hd. rewrite collision_shape by assumption. destruct scale_pos as (S1 & S2). assert (Hc : 0 < r / d) by (apply Rdiv_lt_0_compat; assumption).
  pose proof (shape_pos _ Hc). pose proof (shape_lt _ Hc). split; [apply Rmult_lt_0_compat; assumption|]. rewrite <- S2. apply Rmult_lt_compat_l; assumption.
Qed.
Lemma collision_decreasing r d d' : 0 < r -> 0 < d -> d < d' -> collision_probability_at r d' < collision_probability_at r d.
Proof.
  intros Hr Hd Hdd. rewrite !collision_shape by lra. destruct scale_pos as (S1 & _). apply Rmult_lt_compat_l; [exact S1|].
  apply shape_incr; [apply Rdiv_lt_0_compat; lra|]. unfold Rdiv. apply Rmult_lt_compat_l; [exact Hr|]. apply Rinv_lt_contravar; [nra|exact Hdd].
Qed.
Lemma collision_unit r d : 0 < r -> 0 <= d -> 0 <= collision_probability_at r d <= 1.
Proof.
  intros Hr Hd. destruct (Req_dec d 0) as [->|N]; [unfold collision_probability_at; destruct (Req_EM_T 0 0); lra|].
  pose proof (collision_bounds r d Hr ltac:(lra)). lra.
Qed.
Lemma collision_antitone r d d' : 0 < r -> 0 <= d -> d <= d' -> collision_probability_at r d' <= collision_probability_at r d.
Proof.
  intros Hr Hd Hdd. destruct (Req_dec d d') as [->|N]; [lra|]. destruct (Req_dec d 0) as [->|N0].
  - unfold collision_probability_at at 2. destruct (Req_EM_T 0 0); [|lra]. apply collision_unit; lra.
  - left. apply collision_decreasing; lra.
Qed.

(** ** Failure probability *)
Lemma pow_unit x n : 0 <= x <= 1 -> 0 <= x ^ n <= 1.
Proof. intros H. split; [apply pow_le; lra|]. rewrite <- (pow1 n). apply pow_incr. exact H. Qed.
Lemma pow_anti x n m : 0 <= x <= 1 -> (n <= m)%nat -> x ^ m <= x ^ n.
Proof.
  intros H L. replace m with (n + (m - n))%nat by lia. rewrite pow_add. pose proof (pow_unit x n H). pose proof (pow_unit x (m - n) H). nra.
Qed.
Definition fail (p : R) (reps prefix : nat) (prev prev_reps : option nat) : R :=
  (1 - p ^ prefix) ^ reps * match prev, prev_reps with Some q, Some n => (1 - p ^ q) ^ (n - reps) | _, _ => 1 end.
Lemma miss_unit p k : 0 <= p <= 1 -> 0 <= 1 - p ^ k <= 1.
Proof. intros H. pose proof (pow_unit p k H). lra. Qed.
Lemma fail_unit p reps prefix prev prev_reps : 0 <= p <= 1 -> 0 <= fail p reps prefix prev prev_reps <= 1.
Proof.
  intros H. unfold fail. pose proof (pow_unit _ reps (miss_unit p prefix H)).
  destruct prev as [q|]; [destruct prev_reps as [n|]|]; [pose proof (pow_unit _ (n - reps) (miss_unit p q H)); nra|lra|lra].
Qed.
Lemma fail_step p reps prefix prev prev_reps : 0 <= p <= 1 -> (forall q, prev = Some q -> (prefix <= q)%nat) ->
  fail p (S reps) prefix prev prev_reps <= fail p reps prefix prev prev_reps.
Proof.
  intros H Hq. unfold fail. pose proof (miss_unit p prefix H) as Ha. pose proof (pow_unit _ reps Ha) as Hb. cbn [pow].
  destruct prev as [q|]; [destruct prev_reps as [n|]|]; [|nra|nra].
  pose proof (miss_unit p q H) as Hc. pose proof (pow_anti p prefix q H (Hq q eq_refl)) as Hd.
  destruct (Nat.le_gt_cases n reps).
  - replace (n - S reps)%nat with 0%nat by lia. replace (n - reps)%nat with 0%nat by lia. cbn [pow]. nra.
  - replace (n - reps)%nat with (S (n - S reps))%nat by lia. cbn [pow]. pose proof (pow_unit _ (n - S reps) Hc) as He.
    set (x := (1 - p ^ prefix) ^ reps) in *. set (y := (1 - p ^ q) ^ (n - S reps)) in *.
    replace ((1 - p ^ prefix) * x * y) with (x * y * (1 - p ^ prefix)) by ring. replace (x * ((1 - p ^ q) * y)) with (x * y * (1 - p ^ q)) by ring.
    apply Rmult_le_compat_l; [nra|lra].
Qed.
Lemma fail_reps p reps reps' prefix prev prev_reps : 0 <= p <= 1 -> (forall q, prev = Some q -> (prefix <= q)%nat) -> (reps <= reps')%nat ->
  fail p reps' prefix prev prev_reps <= fail p reps prefix prev prev_reps.
Proof.
  intros H Hq L. induction reps' as [|r IH]; [replace reps with 0%nat by lia; lra|].
  destruct (Nat.eq_dec reps (S r)) as [->|]; [lra|]. apply (Rle_trans _ (fail p r prefix prev prev_reps)); [apply fail_step; assumption|apply IH; lia].
Qed.
Lemma fail_p p p' reps prefix prev prev_reps : 0 <= p' -> p' <= p -> p <= 1 -> fail p reps prefix prev prev_reps <= fail p' reps prefix prev prev_reps.
Proof.
  intros H1 H2 H3. unfold fail.
  assert (A : forall k n, 0 <= (1 - p ^ k) ^ n <= (1 - p' ^ k) ^ n).
  { intros k n. pose proof (pow_incr p' p k ltac:(lra)). pose proof (miss_unit p k ltac:(lra)). split; [apply pow_le; lra|apply pow_incr; lra]. }
  pose proof (A prefix reps) as [A1 A2]. destruct prev as [q|]; [destruct prev_reps as [n|]|]; [pose proof (A q (n - reps)%nat) as [B1 B2]|lra|lra].
  apply Rmult_le_compat; lra.
Qed.

(** ** Repetitions to confirm *)
Lemma cost_ok st width d delta ir prefix collisions : 0 < width -> 0 <= d ->
  exists cost nreps, (forall fuel, (max_repetitions st < fuel)%nat -> cost_to_confirm fuel st width d delta ir prefix collisions = Ret (cost, nreps)) /\
    (nreps <= max_repetitions st)%nat /\
    (forall m, (m + 2 <= nreps)%nat -> delta < failure_probability width d m prefix None None) /\
    (cost = None -> nreps = max_repetitions st) /\
    (forall c, cost = Some c -> failure_probability width d nreps prefix None None <= delta /\
       c = INR nreps * (collision_cost st * collisions + repetition_setup_cost st * INR (nreps - ir))).
Proof.
  intros Hw Hd. set (M := max_repetitions st). pose proof (collision_unit width d Hw Hd) as Hp.
  set (body := fun '(nreps, fp) =>
         if (if Rlt_dec delta fp then true else false) && (nreps <? M)%nat then
           Ret (inl (S nreps, failure_probability width d nreps prefix None None))
         else Ret (inr nreps) : res (nat * R + nat)).
  assert (Hs : forall n, failure_probability width d (S n) prefix None None <= failure_probability width d n prefix None None).
  { intros n. exact (fail_step (collision_probability_at width d) n prefix None None Hp ltac:(discriminate)). }
  destruct (loop_measure body
    (fun st => (fst st <= M)%nat /\ (failure_probability width d (fst st) prefix None None <= snd st) /\
       (forall n, fst st = S n -> snd st = failure_probability width d n prefix None None) /\
       (forall m, (m + 2 <= fst st)%nat -> delta < failure_probability width d m prefix None None))
    (fun n => (n <= M)%nat /\ (forall m, (m + 2 <= n)%nat -> delta < failure_probability width d m prefix None None) /\
       ((n < M)%nat -> failure_probability width d n prefix None None <= delta))
    (fun st => (M - fst st)%nat)) with (s := (0%nat, 1)) (fuel := S M) as (n & El & Ln & Hm & Hn).
  - intros (n, fp) (L & H & Hf & Hm). cbn [fst snd] in *. unfold body. destruct (Rlt_dec delta fp) as [Hlt|Hge]; cbn [andb]; [destruct (Nat.ltb_spec n M)|].
    + left. eexists. split; [reflexivity|]. cbn [fst snd]. split; [|lia]. split; [lia|]. split; [apply Hs|]. split; [intros n' E; apply eq_add_S in E; subst n'; reflexivity|].
      intros m Lm. destruct (Nat.eq_dec (m + 2) (S n)) as [E|]; [|apply Hm; lia]. rewrite (Hf m) in Hlt by lia. exact Hlt.
    + right. exists n. split; [reflexivity|]. split; [exact L|]. split; [exact Hm|lia].
    + right. exists n. split; [reflexivity|]. split; [exact L|]. split; [exact Hm|]. intros _. lra.
  - cbn [fst snd]. split; [lia|]. split; [unfold failure_probability; cbn [pow]; lra|]. split; [discriminate|lia].
  - cbn [fst]. lia.
  - assert (El' : forall fuel, (M < fuel)%nat -> loop fuel body (0%nat, 1) = Ret n).
    { intros fuel Hf. rewrite (loop_mono body (S M)) by (try lia; rewrite El; discriminate). exact El. }
    destruct (Nat.leb_spec M n) as [G|L].
    + assert (n = M) by lia. subst n. exists None, M. split; [|split; [lia|split; [exact Hm|split; [reflexivity|discriminate]]]]. intros fuel Hf. unfold cost_to_confirm. fold M. change (loop fuel _ (0%nat, 1)) with (loop fuel body (0%nat, 1)). rewrite El' by exact Hf. cbn [bind].
      destruct (Nat.leb_spec M M); [reflexivity|lia].
    + exists (Some (INR n * (collision_cost st * collisions + repetition_setup_cost st * INR (n - ir)))), n. split; [|split; [lia|split; [exact Hm|split; [discriminate|intros c E; injection E as <-; split; [apply Hn; exact L|reflexivity]]]]]. intros fuel Hf. unfold cost_to_confirm. fold M. change (loop fuel _ (0%nat, 1)) with (loop fuel body (0%nat, 1)). rewrite El' by exact Hf. cbn [bind].
      destruct (Nat.leb_spec M n); [lia|reflexivity].
Qed.
Lemma nth_combine {A B} (l : list A) (m : list B) j a b : nth_error (combine l m) j = Some (a, b) -> nth_error l j = Some a /\ nth_error m j = Some b.
Proof. revert l m; induction j as [|j IH]; intros [|x l] [|y m] E; try discriminate E; cbn in *; [injection E as <- <-; split; reflexivity|apply IH; exact E]. Qed.
(** what an entry of the costs must satisfy *)
Definition entry_ok st width d delta ir prefix collisions (e : option R * nat) : Prop :=
  (snd e <= max_repetitions st)%nat /\
  (forall m, (m + 2 <= snd e)%nat -> delta < failure_probability width d m prefix None None) /\
  (fst e = None -> snd e = max_repetitions st) /\
  (forall c, fst e = Some c -> failure_probability width d (snd e) prefix None None <= delta /\
     c = INR (snd e) * (collision_cost st * collisions + repetition_setup_cost st * INR (snd e - ir))).
Lemma costs_ok st max_prefix width d delta ir : 0 < width -> 0 <= d -> (max_prefix < length (expected_collisions st))%nat ->
  exists costs, (forall fuel, (max_repetitions st < fuel)%nat -> costs_to_confirm fuel st max_prefix width d delta ir = Ret costs) /\
    length costs = S max_prefix /\
    forall prefix e, nth_error costs prefix = Some e -> exists collisions, nth_error (expected_collisions st) prefix = Some collisions /\ entry_ok st width d delta ir prefix collisions e.
Proof.
  intros Hw Hd HL. unfold costs_to_confirm.
  set (it := combine (seq 0 (S max_prefix)) (firstn (S max_prefix) (expected_collisions st))).
  assert (Eit : forall j a, nth_error it j = Some a -> fst a = j /\ nth_error (expected_collisions st) j = Some (snd a)).
  { intros j (pr, c) E. unfold it in E. apply nth_combine in E. destruct E as (E1 & E2). cbn [fst snd].
    assert (Hj : (j < S max_prefix)%nat) by (rewrite <- (seq_length (S max_prefix) 0); apply nth_error_Some; rewrite E1; discriminate).
    rewrite (nth_error_nth' _ 0%nat) in E1 by (rewrite seq_length; exact Hj). rewrite seq_nth in E1 by exact Hj. injection E1 as <-. split; [reflexivity|]. rewrite nth_error_firstn in E2 by exact Hj. exact E2. }
  assert (Lit : length it = S max_prefix) by (unfold it; rewrite combine_length, seq_length, firstn_length; lia).
  assert (G : forall its out, (exists pre, it = pre ++ its /\ length out = length pre) ->
     (forall prefix e, nth_error out prefix = Some e -> exists collisions, nth_error (expected_collisions st) prefix = Some collisions /\ entry_ok st width d delta ir prefix collisions e) ->
     exists costs, (forall fuel, (max_repetitions st < fuel)%nat -> foreach its (fun '(prefix, collisions) out => let! c := cost_to_confirm fuel st width d delta ir prefix collisions in Ret (out ++ [c])) out = Ret costs) /\
       length costs = S max_prefix /\
       forall prefix e, nth_error costs prefix = Some e -> exists collisions, nth_error (expected_collisions st) prefix = Some collisions /\ entry_ok st width d delta ir prefix collisions e).
  { induction its as [|(pr, c) its IH]; intros out (pre & Ep & Lo) Ho.
    - exists out. split; [reflexivity|]. split; [|exact Ho]. rewrite Ep, app_nil_r in Lit. lia.
    - destruct (Eit (length pre) (pr, c)) as (E1 & E2); [rewrite Ep, nth_error_app2, Nat.sub_diag by lia; reflexivity|]. cbn [fst snd] in E1, E2.
      destruct (cost_ok st width d delta ir pr c Hw Hd) as (cost & n & Ec & Hc).
      destruct (IH (out ++ [(cost, n)])) as (costs & Ef & Hl & Hs).
      + exists (pre ++ [(pr, c)]). split; [rewrite <- app_assoc; exact Ep|]. rewrite !app_length. cbn [length]. lia.
      + intros prefix e E. destruct (Nat.lt_ge_cases prefix (length out)).
        * rewrite nth_error_app1 in E by assumption. apply Ho. exact E.
        * rewrite nth_error_app2 in E by assumption. destruct (prefix - length out)%nat as [|x] eqn:Ex; [|destruct x; discriminate E]. injection E as <-.
          assert (E0 : pr = prefix) by lia. exists c. rewrite <- E0. split; [rewrite E1; exact E2|exact Hc].
      + exists costs. split; [|split; assumption]. intros fuel Hf. cbn [foreach]. rewrite (Ec fuel Hf). cbn [bind]. apply Ef. exact Hf. }
  destruct (G it []) as (costs & Ef & Hr).
  - exists []. split; reflexivity.
  - intros [|x] e E; discriminate E.
  - exists costs. split; [|exact Hr]. intros fuel Hf. replace (S max_prefix <=? length (expected_collisions st))%nat with true by (symmetry; apply Nat.leb_le; lia). cbn [assert_]. apply Ef. exact Hf.
Qed.

(** ** Independent bytes *)
Fixpoint all2 {A} (es : list (A -> bool)) (l : list A) : bool :=
  match es, l with
  | e :: es, a :: l => e a && all2 es l
  | _, _ => true
  end.
Definition prod (l : list R) : R := fold_right Rmult 1 l.
Lemma total_filter {A} (w : A -> R) (e : A -> bool) l : total (map w (filter e l)) = total (map (fun a => if e a then w a else 0) l).
Proof. induction l as [|a l IH]; [reflexivity|]. cbn [filter map]. destruct (e a); cbn [map]; rewrite ?total_cons, IH; lra. Qed.
Lemma total_flat_map {A B} (f : B -> R) (g : A -> list B) l : total (map f (flat_map g l)) = total (map (fun a => total (map f (g a))) l).
Proof. induction l as [|a l IH]; [reflexivity|]. cbn [flat_map map]. rewrite map_app, total_app, total_cons, IH. reflexivity. Qed.
Lemma total_mult {A} (c : R) (f : A -> R) l : total (map (fun a => c * f a) l) = c * total (map f l).
Proof. induction l as [|a l IH]; cbn [map]; rewrite ?total_nil, ?total_cons, ?IH; lra. Qed.
Lemma total_mult_r {A} (c : R) (f : A -> R) l : total (map (fun a => f a * c) l) = total (map f l) * c.
Proof. induction l as [|a l IH]; cbn [map]; rewrite ?total_nil, ?total_cons, ?IH; lra. Qed.
Lemma total_product {A} (g : A -> R) (l : list A) es :
  total (map (fun o => if all2 es o then prod (map g o) else 0) (lists_of l (length es))) =
  prod (map (fun e : A -> bool => total (map (fun a => if e a then g a else 0) l)) es).
Proof.
  induction es as [|e es IH]; [cbn; lra|]. cbn [length lists_of map]. rewrite total_flat_map. unfold prod at 2. cbn [fold_right]. fold (prod (map (fun e0 : A -> bool => total (map (fun a => if e0 a then g a else 0) l)) es)).
  rewrite <- IH, <- total_mult_r. apply f_equal, map_ext. intros a. rewrite map_map, <- total_mult. apply f_equal, map_ext. intros o.
  cbn [all2 map prod fold_right]. unfold prod. cbn [fold_right]. destruct (e a), (all2 es o); cbn [andb]; lra.
Qed.
Lemma all2_true {A} (es : list (A -> bool)) l : (forall e, In e es -> forall a, e a = true) -> all2 es l = true.
Proof. revert l; induction es as [|e es IH]; intros [|a l] H; try reflexivity. cbn [all2]. rewrite (H e (or_introl eq_refl)). apply IH. intros e' I. apply H. right. exact I. Qed.
Lemma all2_nth {A} (es : list (A -> bool)) l d t : length l = length es -> all2 es l = forallb (fun i => nth i es t (nth i l d)) (seq 0 (length es)).
Proof.
  revert l; induction es as [|e es IH]; intros [|a l] E; try discriminate E; [reflexivity|]. cbn [all2 length seq forallb nth]. f_equal.
  rewrite (IH l) by (cbn in E; lia). rewrite <- seq_shift. generalize (seq 0 (length es)). intros s. induction s as [|i s IHs]; [reflexivity|]. cbn [map forallb nth]. f_equal. exact IHs.
Qed.
Lemma lists_of_len {A} (l : list A) n o : In o (lists_of l n) -> length o = n.
Proof.
  revert o; induction n as [|n IH]; intros o; cbn [lists_of].
  - intros [<-|[]]. reflexivity.
  - intros H. apply in_flat_map in H. destruct H as (a & _ & H). apply in_map_iff in H. destruct H as (o' & <- & H). cbn [length]. f_equal. apply IH. exact H.
Qed.
Lemma lists_of_in {A} (l : list A) n o a : In o (lists_of l n) -> In a o -> In a l.
Proof.
  revert o; induction n as [|n IH]; intros o; cbn [lists_of].
  - intros [<-|[]] [].
  - intros H. apply in_flat_map in H. destruct H as (b & Hb & H). apply in_map_iff in H. destruct H as (o' & <- & H). intros [<-|I]; [exact Hb|]. exact (IH o' H I).
Qed.
Lemma prod_app a b : prod (a ++ b) = prod a * prod b.
Proof. unfold prod. induction a as [|x a IH]; cbn [app fold_right]; [lra|rewrite IH; lra]. Qed.
Lemma prod_repeat x n : prod (repeat x n) = x ^ n.
Proof. unfold prod. induction n as [|n IH]; cbn [repeat fold_right pow]; [reflexivity|rewrite IH; reflexivity]. Qed.
Lemma map_repeat {A B} (f : A -> B) x n : map f (repeat x n) = repeat (f x) n.
Proof. induction n as [|n IH]; [reflexivity|]. cbn [repeat map]. rewrite IH. reflexivity. Qed.

Section Bytes.
  Context (p : R).
  Let byte (equal : bool) := if equal then p else 1 - p.
  Lemma weight_rows o : weight p o = prod (map (fun row => prod (map byte row)) o).
  Proof.
    unfold weight. fold byte. induction o as [|row o IH]; [reflexivity|]. cbn [concat map]. rewrite map_app. unfold prod at 1. cbn [fold_right]. fold (prod (map (fun row0 => prod (map byte row0)) o)).
    rewrite <- IH. exact (prod_app _ _).
  Qed.
  Definition row_total (k : nat) (e : list bool -> bool) : R := total (map (fun row => if e row then prod (map byte row) else 0) (lists_of [true; false] k)).
  Lemma collides_all2 prefix k row : (prefix <= k)%nat -> length row = k ->
    collides_at prefix row = all2 (repeat (fun b => b) prefix ++ repeat (fun _ => true) (k - prefix)) row.
  Proof.
    unfold collides_at. revert k row; induction prefix as [|n IH]; intros k row L E; cbn [repeat app firstn forallb].
    - symmetry. apply all2_true. intros e I. apply repeat_spec in I. subst e. reflexivity.
    - destruct row as [|b row]; [cbn in E; lia|]. cbn [forallb all2]. f_equal. destruct k as [|k]; [lia|]. cbn [Nat.sub]. apply IH; [lia|cbn in E; lia].
  Qed.
  Lemma collides_total prefix k : (prefix <= k)%nat -> row_total k (collides_at prefix) = p ^ prefix.
  Proof.
    intros L. unfold row_total. set (es := repeat (fun b : bool => b) prefix ++ repeat (fun _ => true) (k - prefix)).
    assert (Ee : length es = k) by (unfold es; rewrite app_length, !repeat_length; lia).
    transitivity (total (map (fun row => if all2 es row then prod (map byte row) else 0) (lists_of [true; false] (length es)))).
    - rewrite Ee. apply f_equal, map_ext_in. intros row I. rewrite (collides_all2 prefix k row L) by (apply (lists_of_len _ _ _ I)). reflexivity.
    - rewrite total_product. unfold es. rewrite map_app, prod_app, !map_repeat, !prod_repeat. cbn [map]. rewrite !total_cons, !total_nil. unfold byte.
      replace (p + (1 - p + 0)) with 1 by lra. replace (p + (0 + 0)) with p by lra. rewrite pow1. lra.
  Qed.
  Lemma any_total k : row_total k (fun _ => true) = 1.
  Proof. exact (collides_total 0 k (Nat.le_0_l k)). Qed.
  Lemma avoids_total prefix k : (prefix <= k)%nat -> row_total k (fun row => negb (collides_at prefix row)) = 1 - p ^ prefix.
  Proof.
    intros L. rewrite <- (collides_total prefix k L), <- (any_total k). unfold row_total. induction (lists_of [true; false] k) as [|row l IH]; [cbn; lra|].
    cbn [map]. rewrite !total_cons, IH. destruct (collides_at prefix row); cbn [negb]; lra.
  Qed.
  Definition row_event (reps prefix prev_reps prev i : nat) (row : list bool) : bool :=
    if (i <? reps)%nat then negb (collides_at prefix row) else if (i <? prev_reps)%nat then negb (collides_at prev row) else true.
  Lemma prod_rows a b reps prev_reps n : (reps <= n)%nat -> (prev_reps <= n)%nat ->
    prod (map (fun i => if (i <? reps)%nat then a else if (i <? prev_reps)%nat then b else 1) (seq 0 n)) = a ^ reps * b ^ (prev_reps - reps).
  Proof.
    intros L1 L2.
    assert (G : forall m, prod (map (fun i => if (i <? reps)%nat then a else if (i <? prev_reps)%nat then b else 1) (seq 0 m)) =
                 a ^ (Nat.min m reps) * b ^ (Nat.min m prev_reps - reps)).
    { induction m as [|m IH]; [cbn; lra|]. rewrite seq_S, map_app, prod_app, IH. cbn [map]. unfold prod. cbn [fold_right]. rewrite Nat.add_0_l.
      destruct (Nat.ltb_spec m reps); [|destruct (Nat.ltb_spec m prev_reps)].
      - replace (Nat.min (S m) reps) with (S (Nat.min m reps)) by lia. replace (Nat.min (S m) prev_reps - reps)%nat with 0%nat by lia. replace (Nat.min m prev_reps - reps)%nat with 0%nat by lia. cbn [pow]. ring.
      - replace (Nat.min (S m) reps) with (Nat.min m reps) by lia. replace (Nat.min (S m) prev_reps - reps)%nat with (S (Nat.min m prev_reps - reps)) by lia. cbn [pow]. ring.
      - replace (Nat.min (S m) reps) with (Nat.min m reps) by lia. replace (Nat.min (S m) prev_reps) with (Nat.min m prev_reps) by lia. ring. }
    rewrite G. replace (Nat.min n reps) with reps by lia. replace (Nat.min n prev_reps) with prev_reps by lia. reflexivity.
  Qed.
  Lemma missed_probability reps prefix prev_reps prev n k event : (reps <= n)%nat -> (prev_reps <= n)%nat -> (prefix <= k)%nat -> (prev <= k)%nat ->
    (forall o, length o = n -> event o = forallb (fun i => row_event reps prefix prev_reps prev i (nth i o [])) (seq 0 n)) ->
    probability p n k event = (1 - p ^ prefix) ^ reps * (1 - p ^ prev) ^ (prev_reps - reps).
  Proof.
    intros L1 L2 L3 L4 He. unfold probability, outcomes. rewrite total_filter. set (es := map (row_event reps prefix prev_reps prev) (seq 0 n)).
    assert (Ee : length es = n) by (unfold es; rewrite map_length, seq_length; reflexivity).
    transitivity (total (map (fun o => if all2 es o then prod (map (fun row => prod (map byte row)) o) else 0) (lists_of (lists_of [true; false] k) (length es)))).
    - rewrite Ee. apply f_equal, map_ext_in. intros o I. pose proof (lists_of_len _ _ _ I) as Eo. rewrite weight_rows, (He o Eo).
      rewrite (all2_nth es o [] (row_event reps prefix prev_reps prev 0)) by congruence. rewrite Ee. replace (forallb _ (seq 0 n)) with (forallb (fun i => nth i es (row_event reps prefix prev_reps prev 0) (nth i o [])) (seq 0 n)); [reflexivity|].
      apply eq_true_iff_eq. rewrite !forallb_forall. unfold es.
      assert (Hn : forall i, In i (seq 0 n) -> nth i (map (row_event reps prefix prev_reps prev) (seq 0 n)) (row_event reps prefix prev_reps prev 0) = row_event reps prefix prev_reps prev i).
      { intros i Hi. apply in_seq in Hi. rewrite map_nth. rewrite seq_nth by lia. reflexivity. }
      split; intros H i Hi; specialize (H i Hi); rewrite (Hn i Hi) in *; exact H.
    - rewrite total_product. unfold es. rewrite map_map. rewrite <- (prod_rows (1 - p ^ prefix) (1 - p ^ prev) reps prev_reps n L1 L2). f_equal. apply map_ext. intros i.
      unfold row_event. destruct (Nat.ltb_spec i reps); [exact (avoids_total prefix k L3)|]. destruct (Nat.ltb_spec i prev_reps); [exact (avoids_total prev k L4)|exact (any_total k)].
  Qed.
End Bytes.
Lemma collides_shorter q q' row : (q <= q')%nat -> collides_at q' row = true -> collides_at q row = true.
Proof.
  unfold collides_at. revert q q'; induction row as [|b row IH]; intros q q' L H; [rewrite firstn_nil; reflexivity|]. destruct q as [|q]; [reflexivity|]. destruct q' as [|q']; [lia|].
  cbn [firstn forallb] in *. apply andb_true_iff in H. destruct H as (-> & H). cbn [andb]. apply (IH q q'); [lia|exact H].
Qed.
Lemma never_met_rows earlier reps prefix prev_reps prev n o : (prefix <= prev)%nat -> (reps <= n)%nat -> (prev_reps <= n)%nat ->
  (forall r q, In (r, q) earlier -> (r < prev_reps)%nat /\ (prev <= q)%nat) ->
  never_met (earlier ++ pass prev_reps prev ++ pass reps prefix) o = forallb (fun i => row_event reps prefix prev_reps prev i (nth i o [])) (seq 0 n).
Proof.
  intros Lp L1 L2 He. apply eq_true_iff_eq. unfold never_met. rewrite !forallb_forall. split.
  - intros H i Hi. apply in_seq in Hi. unfold row_event. destruct (Nat.ltb_spec i reps); [|destruct (Nat.ltb_spec i prev_reps)]; [| |reflexivity].
    + apply (H (i, prefix)). apply in_or_app; right; apply in_or_app; right. apply in_map_iff. exists i. split; [reflexivity|apply in_seq; lia].
    + apply (H (i, prev)). apply in_or_app; right; apply in_or_app; left. apply in_map_iff. exists i. split; [reflexivity|apply in_seq; lia].
  - intros H.
    assert (Hc : forall i, (i < reps)%nat -> collides_at prefix (nth i o []) = false).
    { intros i Hi. specialize (H i ltac:(apply in_seq; lia)). unfold row_event in H. destruct (Nat.ltb_spec i reps); [|lia]. apply negb_true_iff in H. exact H. }
    assert (Hv : forall i, (i < prev_reps)%nat -> collides_at prev (nth i o []) = false).
    { intros i Hi. destruct (collides_at prev (nth i o [])) eqn:E; [|reflexivity]. exfalso. destruct (Nat.lt_ge_cases i reps) as [G|G].
      - pose proof (Hc i G) as F. rewrite (collides_shorter prefix prev _ Lp E) in F. discriminate F.
      - specialize (H i ltac:(apply in_seq; lia)). unfold row_event in H. destruct (Nat.ltb_spec i reps); [lia|]. destruct (Nat.ltb_spec i prev_reps); [|lia]. rewrite E in H. discriminate H. }
    intros (r, q) I. apply negb_true_iff. apply in_app_or in I. destruct I as [I|I]; [|apply in_app_or in I; destruct I as [I|I]].
    + destruct (He r q I) as (G1 & G2). destruct (collides_at q (nth r o [])) eqn:E; [|reflexivity]. rewrite <- (Hv r G1). symmetry. apply (collides_shorter prev q); assumption.
    + apply in_map_iff in I. destruct I as (i & E & I). injection E as <- <-. apply in_seq in I. apply Hv. lia.
    + apply in_map_iff in I. destruct I as (i & E & I). injection E as <- <-. apply in_seq in I. apply Hc. lia.
Qed.
