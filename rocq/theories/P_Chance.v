(** How likely two subsequences are to get the same byte (C104), and the random difference
    between their projections (C105). *)
From Coq Require Import Reals Lra.
From Coquelicot Require Import Coquelicot.
From Verif Require Import Base RSpec RealProofs Gauss Collision CollisionProofs Hashing HashingProofs ChanceSpec ChanceProofs NormalProofs.
Local Open Scope R_scope.

(** * C104: the collision probability the library computes is a lower bound on the real one *)
Lemma near width x y : 0 < width -> Rabs (x / width - y / width) = Rabs (x - y) / width.
Proof. intros W. replace (x / width - y / width) with ((x - y) / width) by (field; lra). unfold Rdiv. rewrite Rabs_mult, (Rabs_pos_eq (/ width)); [reflexivity|]. left. apply Rinv_0_lt_compat, W. Qed.
Lemma uniform_same width x y p : 0 < width -> is_RInt (same (x / width) (y / width)) 0 1 p ->
  uniform_probability (fun u => (quantise (u * width) width x =? quantise (u * width) width y)%N) p.
Proof.
  intros W. apply is_RInt_ext. intros u _. rewrite !(quantise_cell width) by exact W. reflexivity.
Qed.
(** over the random shift, for any two projections *)
Theorem c104_shift :
  forall width x y : R, 0 < width ->
    exists p, uniform_probability (fun u => (quantise (u * width) width x =? quantise (u * width) width y)%N) p /\
      Rmax 0 (1 - Rabs (x - y) / width) <= p <= 1.
Proof.
  intros width x y W. destruct (same_bound (x / width) (y / width)) as (p & I & L & U). exists p. split; [apply uniform_same; assumption|].
  rewrite near in L by exact W. split; [apply Rmax_lub|]; lra.
Qed.
Print Assumptions c104_shift.
(** it is exact where nothing is rounded towards 0 from below, or clipped *)
Theorem c104_shift_exact :
  forall width x y : R, 0 < width -> 0 <= x <= 126 * width -> 0 <= y <= 126 * width ->
    forall p, uniform_probability (fun u => (quantise (u * width) width x =? quantise (u * width) width y)%N) p <-> p = Rmax 0 (1 - Rabs (x - y) / width).
Proof.
  intros width x y W Hx Hy p.
  assert (B : forall x, 0 <= x <= 126 * width -> 0 <= x / width <= 126).
  { intros z Hz. split; [apply Rdiv_le_0_compat; lra|]. apply (Rmult_le_reg_r width); [exact W|]. replace (z / width * width) with z by (field; lra). lra. }
  assert (E : uniform_probability (fun u => (quantise (u * width) width x =? quantise (u * width) width y)%N) (Rmax 0 (1 - Rabs (x - y) / width))).
  { apply uniform_same; [exact W|]. rewrite <- near by exact W. apply same_exact; apply B; assumption. }
  split; [|intros ->; exact E]. intros H. pose proof (is_RInt_unique _ _ _ _ H) as U1. pose proof (is_RInt_unique _ _ _ _ E) as U2. rewrite <- U1, <- U2. reflexivity.
Qed.
Print Assumptions c104_shift_exact.
Lemma density_normal z : density z = normal_density 1 z.
Proof. unfold density, normal_density, gauss. rewrite !Rmult_1_l. replace (2 * 1) with 2 by ring. reflexivity. Qed.
Lemma tent_over width d z : 0 < width -> 0 < d -> tent (width / d) z = Rmax 0 (1 - Rabs (d * z) / width).
Proof. intros W D. unfold tent. rewrite Rabs_mult, (Rabs_pos_eq d) by lra. f_equal. field. lra. Qed.
(** The formula is the average of that bound over a difference which is [d] times a standard
    normal number. *)
Theorem c104_formula :
  forall width d : R, 0 < width -> 0 < d ->
    over_line (fun z => normal_density 1 z * Rmax 0 (1 - Rabs (d * z) / width)) (collision_probability_at width d).
Proof.
  intros width d W D. pose proof (formula width d W D) as F. unfold over_line. revert F. apply is_RInt_gen_ext.
  apply filter_forall. intros ab z _. rewrite density_normal, tent_over by assumption. reflexivity.
Qed.
Print Assumptions c104_formula.
(** Over the shift and the random vector together: [X z] is the projection of one window when
    the difference is [d * z]. *)
Theorem c104_same_byte :
  forall (width d : R) (X : R -> R), 0 < width -> 0 < d -> (forall z, continuous X z) ->
    exists (same_byte : R -> R) (P : R),
      (forall z, uniform_probability (fun u => (quantise (u * width) width (X z) =? quantise (u * width) width (X z + d * z)%R)%N) (same_byte z)) /\
      over_line (fun z => normal_density 1 z * same_byte z) P /\
      collision_probability_at width d <= P <= 1.
Proof.
  intros width d X W D C. destruct (same_byte width d X W D C) as (P & I & B).
  exists (fun z => chance (X z / width) ((X z + d * z) / width)), P. split; [|split; [|exact B]].
  - intros z. apply uniform_same; [exact W|]. apply chance_int.
  - unfold over_line. revert I. apply is_RInt_gen_ext. apply filter_forall. intros ab z _. rewrite density_normal. reflexivity.
Qed.
Print Assumptions c104_same_byte.

(** two projections one quarter of a bucket apart *)
Example c104_shift_met : forall p, uniform_probability (fun u => (quantise (u * 4) 4 5 =? quantise (u * 4) 4 6)%N) p <-> p = 3 / 4.
Proof.
  intros p. rewrite c104_shift_exact by lra. replace (5 - 6) with (- (1)) by ring. rewrite Rabs_Ropp, Rabs_pos_eq by lra. rewrite Rmax_right by lra. split; intros ->; lra.
Qed.
(** across 0, buckets [-1] and [0] share a byte, and the probability is larger *)
Example c104_shift_merged : exists p, uniform_probability (fun u => (quantise (u * 1) 1 (-1) =? quantise (u * 1) 1 0)%N) p /\ 0 <= p <= 1 /\ 0 < p.
Proof.
  exists 1. split; [|lra]. apply (is_RInt_ext (fun _ => 1)).
  - rewrite Rmin_left, Rmax_right by lra. intros u Hu. rewrite !(quantise_cell 1) by lra.
    rewrite (cell_inside (-1) (-1 / 1 + u)), (cell_inside 0 (0 / 1 + u)) by lra.
    assert (E : cell (IZR (-1) + / 2) = cell (IZR 0 + / 2)); [|rewrite E, N.eqb_refl; reflexivity].
    unfold cell. destruct (Rlt_dec 128 (Rabs (-1 + / 2))) as [L|_]; [rewrite Rabs_left in L; lra|]. destruct (Rlt_dec 128 (Rabs (0 + / 2))) as [L|_]; [rewrite Rabs_pos_eq in L; lra|].
    rewrite (trunc_neg (-1 + / 2) 0), (trunc_pos (0 + / 2) 0) by lra. reflexivity.
  - pose proof (is_RInt_const (V := R_NormedModule) 0 1 1) as H. unfold scal in H. cbn in H. unfold mult in H. cbn in H. replace ((1 - 0) * 1) with 1 in H by ring. exact H.
Qed.
Example c104_same_byte_met : exists P, collision_probability_at 4 2 <= P <= 1.
Proof.
  destruct (c104_same_byte 4 2 (fun z => z)) as (_ & P & _ & _ & B); [lra|lra|intros z; apply continuous_id|]. exists P. exact B.
Qed.

(** * C105: the difference of two projections is normal with the distance as its deviation *)
Theorem c105_difference :
  forall v a b : list R, length a = length v -> length b = length v ->
    inner v a - inner v b = total (map (fun vab => fst vab * (fst (snd vab) - snd (snd vab))) (combine v (combine a b))).
Proof.
  induction v as [|x v IH]; intros [|y a] [|z b] La Lb; try discriminate; [unfold inner; cbn; lra|].
  injection La as La. injection Lb as Lb. specialize (IH a b La Lb). unfold inner, total in *. cbn [combine map fold_right fst snd]. rewrite <- IH. ring.
Qed.
Print Assumptions c105_difference.
Theorem c105_normal :
  forall (a b : list R) (f : R -> R), 0 < euclid a b ->
    sum_density (deviations a b) f <-> (forall x, f x = normal_density (euclid a b) x).
Proof. exact projection_density. Qed.
Print Assumptions c105_normal.
(** so for the z-normalised windows that are projected it is the z-normalised distance *)
Theorem c105_windows :
  forall (a b : list R) (f : R -> R), 0 < zdistance a b ->
    sum_density (deviations (znorm a) (znorm b)) f <-> (forall x, f x = normal_density (zdistance a b) x).
Proof. intros a b. apply projection_density. Qed.
Print Assumptions c105_windows.
Theorem c105_density : forall s m : R, 0 < s -> over_line (fun t => normal_density s (t - m)) 1.
Proof. exact normal_whole. Qed.
Print Assumptions c105_density.

Example c105_met : forall f, sum_density (deviations [1; 2; 0] [0; 4; 0]) f <-> (forall x, f x = normal_density (sqrt 5) x).
Proof.
  intros f. assert (E : euclid [1; 2; 0] [0; 4; 0] = sqrt 5) by (unfold euclid, total; cbn; f_equal; ring).
  rewrite c105_normal, E by (rewrite E; apply sqrt_lt_R0; lra). reflexivity.
Qed.
Example c105_two : deviations [1; 2; 0] [0; 4; 0] = [1; 2].
Proof.
  unfold deviations. cbn [combine map fst snd]. replace (Rabs (1 - 0)) with 1 by (rewrite Rabs_pos_eq; lra). replace (Rabs (2 - 4)) with 2 by (rewrite Rabs_left; lra).
  replace (Rabs (0 - 0)) with 0 by (rewrite Rabs_pos_eq; lra). cbn [filter]. repeat (match goal with |- context [Rlt_dec ?a ?b] => destruct (Rlt_dec a b) end; try lra). reflexivity.
Qed.
