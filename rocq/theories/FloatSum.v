(** Errors of sums, relative to the sum of absolute values, however the terms are grouped. *)
From Coq Require Import Reals Lra Lia Floats.SpecFloat.
From Flocq Require Import Core Relative Plus_error BinarySingleNaN.
From Verif Require Import Base F64 RSpec RealProofs Iterator FpOps FloatSeries FloatProofs FloatRoll FloatBound FloatDist FloatDist2 FloatErr FloatMean FloatSd.
Local Open Scope R_scope.

(** absolute values *)
Definition weight (l : list f64) : R := total (map (fun x => Rabs (fval x)) l).
Lemma weight_nonneg l : 0 <= weight l.
Proof. apply RealProofs.total_nonneg. intros; apply Rabs_pos. Qed.
Lemma weight_total l : Rabs (total (vals l)) <= weight l.
Proof.
  induction l as [|x l IH]; [cbn; rewrite Rabs_R0; lra|]. unfold weight in *. cbn [map]. rewrite !total_cons. eapply Rle_trans; [apply Rabs_triang|]. lra.
Qed.
Definition grow (n : nat) : R := (1 + u) ^ n - 1.
Lemma grow_S n : grow (S n) = grow n * (1 + u) + u.
Proof. unfold grow. cbn [pow]. ring. Qed.
Lemma grow_plus n k : grow (n + k) = grow n * (1 + grow k) + grow k.
Proof. unfold grow. rewrite pow_add. ring. Qed.
Lemma grow_nonneg n : 0 <= grow n.
Proof. unfold grow. pose proof (pow_grow n). lra. Qed.
Lemma grow_le n k : (n <= k)%nat -> grow n <= grow k.
Proof. intros H. unfold grow. assert ((1 + u) ^ n <= (1 + u) ^ k) by (apply Rle_pow; [pose proof u_pos; lra|exact H]). lra. Qed.
Lemma grow_small n : INR n * u <= / 2 -> grow n <= 2 * (INR n * u).
Proof. intros H. unfold grow. pose proof (growth n u ltac:(pose proof u_pos; lra) H). lra. Qed.

Lemma add_step k n a x : (-1074 <= k <= 970)%Z -> number a -> Rabs (fval a) <= INR n * bp k -> (Z.of_nat (S n) <= 2 ^ 53)%Z -> bnd x k ->
  number (fadd a x) /\ Rabs (fval (fadd a x)) <= INR (S n) * bp k /\ Rabs (fval (fadd a x) - (fval a + fval x)) <= u * (Rabs (fval a) + Rabs (fval x)).
Proof.
  intros K Na A L (Nx & X). destruct (fold_bound k [x] K n a Na A) as (N1 & B1); [cbn [length]; lia|intros y [<-|[]]; split; assumption|].
  cbn [fold_left length] in N1, B1. rewrite Nat.add_1_r in B1. split; [exact N1|]. split; [exact B1|].
  eapply Rle_trans; [apply (add_err a x 1023 Na Nx); [lia|]|].
  - eapply Rle_trans; [apply Rabs_triang|]. apply Rle_trans with (bp 53 * bp k).
    + apply Rle_trans with (INR (S n) * bp k); [rewrite S_INR; lra|]. apply Rmult_le_compat_r; [apply bpow_ge_0|].
      rewrite INR_IZR_INZ. change (bp 53) with (IZR (2 ^ 53)). apply IZR_le. lia.
    + rewrite <- bpow_plus. apply bpow_le. lia.
  - apply Rmult_le_compat_l; [apply bpow_ge_0|apply Rabs_triang].
Qed.
Lemma step_bound s t g v c : 0 <= g -> Rabs (s - t) <= v * c -> Rabs t <= c -> 0 <= v -> Rabs s <= (1 + v) * c.
Proof. intros G H T V. replace s with ((s - t) + t) by ring. eapply Rle_trans; [apply Rabs_triang|]. lra. Qed.

Lemma fold_grow k l : (-1074 <= k <= 970)%Z -> forall n acc, number acc -> Rabs (fval acc) <= INR n * bp k ->
  (Z.of_nat (n + length l) <= 2 ^ 53)%Z -> (forall x, In x l -> bnd x k) ->
  Rabs (fval (fold_left fadd l acc) - (fval acc + total (vals l))) <= grow (length l) * (Rabs (fval acc) + weight l).
Proof.
  intros K. induction l as [|x l IH]; intros n acc Na A L H.
  - cbn. unfold grow. cbn [pow length]. replace (fval acc - (fval acc + 0)) with 0 by ring. rewrite Rabs_R0. lra.
  - cbn [fold_left length] in *. destruct (add_step k n acc x K Na A ltac:(lia) (H x (or_introl eq_refl))) as (N1 & B1 & E1).
    specialize (IH (S n) (fadd acc x) N1 B1 ltac:(lia) ltac:(intros; apply H; right; assumption)).
    unfold weight in *. cbn [map]. rewrite !total_cons, grow_S. fold (weight l) in *. pose proof (weight_nonneg l) as PW. pose proof (grow_nonneg (length l)) as PG. pose proof u_pos as UP.
    pose proof (Rabs_pos (fval acc)) as PA. pose proof (Rabs_pos (fval x)) as PX.
    assert (E2 : Rabs (fval (fadd acc x)) <= (1 + u) * (Rabs (fval acc) + Rabs (fval x))) by (apply (step_bound _ _ u _ _ ltac:(lra) E1); [apply Rabs_triang|lra]).
    match goal with |- Rabs (?f - (_ + (_ + ?t))) <= _ => replace (f - (fval acc + (fval x + t))) with ((f - (fval (fadd acc x) + t)) + (fval (fadd acc x) - (fval acc + fval x))) by ring end.
    eapply Rle_trans; [apply Rabs_triang|]. set (s := Rabs (fval acc) + Rabs (fval x)) in *.
    assert (grow (length l) * (Rabs (fval (fadd acc x)) + weight l) <= grow (length l) * ((1 + u) * s + (1 + u) * weight l)).
    { apply Rmult_le_compat_l; [exact PG|]. assert (0 <= u * weight l) by (apply Rmult_le_pos; lra). lra. }
    assert (0 <= u * weight l) by (apply Rmult_le_pos; lra). replace (Rabs (fval acc) + (Rabs (fval x) + weight l)) with (s + weight l) by (unfold s; ring). lra.
Qed.
Lemma fsum_grow z k l : (-1074 <= k <= 970)%Z -> (Z.of_nat (length l) <= 2 ^ 53)%Z -> (forall x, In x l -> bnd x k) ->
  Rabs (fval (fsum z l) - total (vals l)) <= grow (length l) * weight l.
Proof.
  intros K L H. unfold fsum. pose proof (fold_grow k l K 0 (S754_zero (z_scalar z)) (zero_number _)) as E. cbn [fval SF2R INR Nat.add] in E.
  rewrite Rabs_R0, Rmult_0_l, !Rplus_0_l in E. apply E; auto. lra.
Qed.

(** ** Sums in lanes *)
Lemma weight_app a b : weight (a ++ b) = weight a + weight b.
Proof. unfold weight. rewrite map_app. apply total_app. Qed.
Lemma lanes_step k n (acc c : list f64) : (-1074 <= k <= 970)%Z -> length c = length acc ->
  (forall x, In x acc -> number x /\ Rabs (fval x) <= INR n * bp k) -> (Z.of_nat (S n) <= 2 ^ 53)%Z -> (forall x, In x c -> bnd x k) ->
  (forall x, In x (zip_with fadd acc c) -> number x /\ Rabs (fval x) <= INR (S n) * bp k) /\
  weight (zip_with fadd acc c) <= (1 + u) * (weight acc + weight c) /\
  Rabs (total (vals (zip_with fadd acc c)) - (total (vals acc) + total (vals c))) <= u * (weight acc + weight c).
Proof.
  intros K. revert c. induction acc as [|a acc IH]; intros [|x c] L A N C; try discriminate L.
  - cbn. split; [tauto|]. replace (0 - (0 + 0)) with 0 by ring. rewrite Rabs_R0. unfold weight. cbn. lra.
  - injection L as L. destruct (IH c L ltac:(intros; apply A; right; assumption) N ltac:(intros; apply C; right; assumption)) as (I1 & I2 & I3).
    destruct (A a (or_introl eq_refl)) as (Na & Ba). destruct (add_step k n a x K Na Ba N (C x (or_introl eq_refl))) as (S1 & S2 & S3).
    pose proof u_pos as UP. assert (S4 : Rabs (fval (fadd a x)) <= (1 + u) * (Rabs (fval a) + Rabs (fval x))) by (apply (step_bound _ _ u _ _ ltac:(lra) S3); [apply Rabs_triang|lra]).
    unfold zip_with in *. cbn [combine map fst snd]. unfold weight in *. cbn [map]. rewrite !total_cons. split; [|split].
    + intros y [<-|Hy]; auto.
    + lra.
    + match goal with |- Rabs (?p + ?q - (?r + ?s + (?t + ?v))) <= _ => replace (p + q - (r + s + (t + v))) with ((p - (r + t)) + (q - (s + v))) by ring end.
      eapply Rle_trans; [apply Rabs_triang|]. lra.
Qed.
Lemma lanes_grow k m l : (-1074 <= k <= 970)%Z -> forall n acc, length acc = m ->
  (forall x, In x acc -> number x /\ Rabs (fval x) <= INR n * bp k) -> (Z.of_nat (n + length l) <= 2 ^ 53)%Z ->
  (forall c, In c l -> length c = m /\ forall x, In x c -> bnd x k) ->
  let r := fold_left (zip_with fadd) l acc in
  length r = m /\ (forall x, In x r -> number x /\ Rabs (fval x) <= INR (n + length l) * bp k) /\
  weight r <= (1 + grow (length l)) * (weight acc + weight (concat l)) /\
  Rabs (total (vals r) - (total (vals acc) + total (vals (concat l)))) <= grow (length l) * (weight acc + weight (concat l)).
Proof.
  intros K. induction l as [|c l IH]; intros n acc La A N C; cbn [fold_left].
  - cbn [length concat map]. rewrite Nat.add_0_r. unfold grow. cbn [pow]. rewrite total_nil. split; [exact La|]. split; [exact A|]. unfold weight at 3 5. cbn [map]. rewrite total_nil.
    split; [lra|]. match goal with |- Rabs ?x <= _ => replace x with 0 by ring end. rewrite Rabs_R0. lra.
  - destruct (C c (or_introl eq_refl)) as (Lc & Bc). cbn [length] in *. destruct (lanes_step k n acc c K ltac:(congruence) A ltac:(lia) Bc) as (S1 & S2 & S3).
    destruct (IH (S n) (zip_with fadd acc c)) as (R1 & R2 & R3 & R4); auto; try lia.
    { unfold zip_with. rewrite map_length, combine_length. lia. }
    { intros; apply C; right; assumption. }
    split; [exact R1|]. split; [replace (n + S (length l))%nat with (S n + length l)%nat by lia; exact R2|].
    cbn [concat]. rewrite weight_app, map_app, total_app, grow_S. pose proof (weight_nonneg acc). pose proof (weight_nonneg c). pose proof (weight_nonneg (concat l)) as PW. pose proof (grow_nonneg (length l)) as PG. pose proof u_pos as UP.
    set (s := weight acc + weight c) in *. set (t := weight (concat l)) in *. set (g := grow (length l)) in *. assert (0 <= u * t) by (apply Rmult_le_pos; lra).
    assert (Q : weight (zip_with fadd acc c) + t <= (1 + u) * (s + t)) by lra. split.
    + eapply Rle_trans; [exact R3|]. apply Rle_trans with ((1 + g) * ((1 + u) * (s + t))); [apply Rmult_le_compat_l; lra|]. unfold s. lra.
    + assert (Q2 : g * (weight (zip_with fadd acc c) + t) <= g * ((1 + u) * (s + t))) by (apply Rmult_le_compat_l; lra).
      match goal with |- Rabs (?r - (?p + (?q + ?v))) <= _ => replace (r - (p + (q + v))) with ((r - (total (vals (zip_with fadd acc c)) + v)) + (total (vals (zip_with fadd acc c)) - (p + q))) by ring end.
      eapply Rle_trans; [apply Rabs_triang|]. unfold s in *. lra.
Qed.

(** ** Chunks *)
Lemma chunks_concat {A} k (l : list A) : (0 < k)%nat -> concat (whole_chunks k l) ++ rest k l = l.
Proof.
  intros K. unfold whole_chunks, rest. assert (G : forall n, (n * k <= length l)%nat -> concat (map (fun c => firstn k (skipn (c * k) l)) (seq 0 n)) = firstn (n * k) l).
  { induction n as [|n IH]; intros H; [reflexivity|]. rewrite seq_S, map_app, concat_app, IH by lia. cbn [Nat.add map concat]. rewrite app_nil_r.
    rewrite <- (firstn_skipn (n * k) (firstn (S n * k) l)). rewrite firstn_firstn, Nat.min_l by lia. f_equal. rewrite skipn_firstn_comm. f_equal. lia. }
  rewrite G; [apply firstn_skipn|]. pose proof (Nat.div_mod (length l) k ltac:(lia)). lia.
Qed.
Lemma combine_skipn {A B} n : forall (a : list A) (b : list B), skipn n (combine a b) = combine (skipn n a) (skipn n b).
Proof. induction n as [|n IH]; intros [|x a] [|y b]; cbn [skipn combine]; try reflexivity; [destruct (skipn n a); reflexivity|apply IH]. Qed.
Lemma zip_length {A B} (f : A -> A -> B) a b : length a = length b -> length (zip_with f a b) = length a.
Proof. intros L. unfold zip_with. rewrite map_length, combine_length. lia. Qed.
Lemma zip_chunks {A B} (f : A -> A -> B) k a b : length a = length b -> zip_with (zip_with f) (whole_chunks k a) (whole_chunks k b) = whole_chunks k (zip_with f a b).
Proof.
  intros L. unfold whole_chunks. rewrite zip_length by exact L. rewrite <- L.
  induction (seq 0 (length a / k)) as [|c l IH]; [reflexivity|]. cbn [map]. unfold zip_with in *. cbn [combine map fst snd]. rewrite IH. f_equal.
  rewrite <- combine_firstn, <- combine_skipn, <- firstn_map, <- skipn_map. reflexivity.
Qed.
Lemma zip_rest {A B} (f : A -> A -> B) k a b : length a = length b -> zip_with f (rest k a) (rest k b) = rest k (zip_with f a b).
Proof.
  intros L. unfold rest. rewrite zip_length by exact L. rewrite <- L. unfold zip_with. rewrite <- combine_skipn, <- skipn_map. reflexivity.
Qed.
Lemma chunk_in {A} k (l c : list A) : (0 < k)%nat -> In c (whole_chunks k l) -> length c = k /\ incl c l.
Proof. intros K H. apply in_chunk in H; auto. Qed.

(** the sums of [dot] and [zdot] *)
Definition two_sums (z : zeros) (m : nat) (l : list f64) : f64 := fadd (fsum z (fsimd_sum z m (whole_chunks m l))) (fsum z (rest m l)).
Lemma weight_zeros m s : weight (repeat (S754_zero s) m) = 0.
Proof. induction m as [|m IH]; [reflexivity|]. unfold weight in *. cbn [repeat map]. rewrite total_cons, IH. cbn. rewrite Rabs_R0. lra. Qed.
Lemma total_zeros m s : total (vals (repeat (S754_zero s) m)) = 0.
Proof. induction m as [|m IH]; [reflexivity|]. cbn [repeat map]. rewrite total_cons, IH. cbn. lra. Qed.
Lemma two_sums_err z m l k : (0 < m <= 8)%nat -> (-1074 <= k <= 900)%Z -> (Z.of_nat (length l) <= 2 ^ 52)%Z -> (forall x, In x l -> bnd x k) ->
  number (two_sums z m l) /\ Rabs (fval (two_sums z m l) - total (vals l)) <= grow (length l + 9) * weight l.
Proof.
  intros Km K L H. unfold two_sums, fsimd_sum. pose proof (chunks_concat m l ltac:(lia)) as Cat. pose proof (chunks_length m l) as Cl. pose proof (Nat.div_mod (length l) m ltac:(lia)) as Dm.
  pose proof (rest_length m l ltac:(lia)) as Rl. pose proof (Nat.mod_upper_bound (length l) m ltac:(lia)) as Mb.
  assert (Cn : (length (whole_chunks m l) <= length l)%nat) by nia.
  assert (W : weight l = weight (concat (whole_chunks m l)) + weight (rest m l)) by (rewrite <- weight_app, Cat; reflexivity).
  assert (T : total (vals l) = total (vals (concat (whole_chunks m l))) + total (vals (rest m l))) by (rewrite <- total_app, <- map_app, Cat; reflexivity).
  destruct (lanes_grow k m (whole_chunks m l) ltac:(lia) 0 (repeat (S754_zero (z_simd z)) m)) as (R1 & R2 & R3 & R4).
  { apply repeat_length. }
  { intros x Hx. apply repeat_spec in Hx. subst x. split; [apply zero_number|]. cbn. rewrite Rabs_R0. lra. }
  { lia. }
  { intros c Hc. destruct (in_chunk m l c ltac:(lia) Hc) as (Lc & Ic). split; [exact Lc|]. intros x Hx. apply H, Ic, Hx. }
  rewrite weight_zeros, total_zeros, !Rplus_0_l in *. cbv zeta in *. set (lanes := fold_left _ _ _) in *. set (n := length (whole_chunks m l)) in *.
  assert (B : forall x, In x lanes -> bnd x (52 + k)) by (intros x Hx; destruct (R2 x Hx) as (N & B); apply INR_bnd with (n := (0 + n)%nat); auto; lia).
  destruct (fsum_bound z (52 + k) lanes ltac:(lia)) as (N1 & S1); [rewrite R1; lia|exact B|].
  assert (Br : forall x, In x (rest m l) -> bnd x k) by (intros x Hx; apply H; eapply in_rest; eauto).
  destruct (fsum_bound z k (rest m l) ltac:(lia) ltac:(rewrite Rl; lia) Br) as (N2 & S2).
  pose proof (fsum_grow z (52 + k) lanes ltac:(lia) ltac:(rewrite R1; lia) B) as E1. rewrite R1 in E1.
  pose proof (fsum_grow z k (rest m l) ltac:(lia) ltac:(rewrite Rl; lia) Br) as E2.
  assert (B1 : bnd (fsum z lanes) (3 + (52 + k))) by (apply INR_bnd with (n := length lanes); auto; rewrite ?R1; lia).
  assert (B2 : bnd (fsum z (rest m l)) (3 + (52 + k))).
  { apply bnd_le with (3 + k)%Z; [lia|]. apply INR_bnd with (n := length (rest m l)); auto; rewrite ?Rl; lia. }
  destruct (add_err (fsum z lanes) (fsum z (rest m l)) (3 + (52 + k) + 1) N1 N2 ltac:(lia)) as (N3 & E3).
  { rewrite bp_double. eapply Rle_trans; [apply Rabs_triang|]. destruct B1, B2. lra. }
  split; [exact N3|]. 
  set (V1 := weight (concat (whole_chunks m l))) in *. set (V2 := weight (rest m l)) in *. set (T1 := total (vals (concat (whole_chunks m l)))) in *. set (T2 := total (vals (rest m l))) in *.
  assert (P1 : 0 <= V1) by apply weight_nonneg. assert (P2 : 0 <= V2) by apply weight_nonneg. assert (A1 : Rabs T1 <= V1) by apply weight_total. assert (A2 : Rabs T2 <= V2) by apply weight_total.
  pose proof (grow_nonneg m) as Gm. pose proof (grow_nonneg n) as Gn. pose proof u_pos as UP. pose proof (grow_nonneg (length l + 8)) as Gt.
  assert (Gnm : grow (n + m) <= grow (length l + 8)) by (apply grow_le; lia).
  assert (Gr : grow (length (rest m l)) <= grow (length l + 8)) by (apply grow_le; rewrite Rl; lia).
  rewrite grow_plus in Gnm.
  assert (F1 : Rabs (fval (fsum z lanes) - T1) <= grow (length l + 8) * V1).
  { replace (fval (fsum z lanes) - T1) with ((fval (fsum z lanes) - total (vals lanes)) + (total (vals lanes) - T1)) by ring. eapply Rle_trans; [apply Rabs_triang|].
    assert (grow m * weight lanes <= grow m * ((1 + grow n) * V1)) by (apply Rmult_le_compat_l; assumption).
    assert ((grow n * (1 + grow m) + grow m) * V1 <= grow (length l + 8) * V1) by (apply Rmult_le_compat_r; assumption). lra. }
  assert (F2 : Rabs (fval (fsum z (rest m l)) - T2) <= grow (length l + 8) * V2).
  { eapply Rle_trans; [exact E2|]. apply Rmult_le_compat_r; assumption. }
  rewrite W, T. replace (length l + 9)%nat with (S (length l + 8)) by lia. rewrite grow_S. set (g := grow (length l + 8)) in *. set (p := fval (fsum z lanes)) in *. set (q := fval (fsum z (rest m l))) in *.
  assert (F3 : Rabs (p + q - (T1 + T2)) <= g * (V1 + V2)).
  { replace (p + q - (T1 + T2)) with ((p - T1) + (q - T2)) by ring. eapply Rle_trans; [apply Rabs_triang|]. lra. }
  assert (F4 : Rabs (p + q) <= (1 + g) * (V1 + V2)).
  { replace (p + q) with ((p + q - (T1 + T2)) + (T1 + T2)) by ring. eapply Rle_trans; [apply Rabs_triang|]. assert (Rabs (T1 + T2) <= V1 + V2) by (eapply Rle_trans; [apply Rabs_triang|]; lra). lra. }
  match goal with |- Rabs (?f - _) <= _ => replace (f - (T1 + T2)) with ((f - (p + q)) + (p + q - (T1 + T2))) by ring end.
  eapply Rle_trans; [apply Rabs_triang|]. assert (u * Rabs (p + q) <= u * ((1 + g) * (V1 + V2))) by (apply Rmult_le_compat_l; lra). lra.
Qed.
