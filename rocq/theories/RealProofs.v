From Coq Require Import Reals Lra Psatz.
From Verif Require Import Base RSpec.
Local Open Scope R_scope.

(** ** Sums *)
Lemma total_cons x l : total (x :: l) = x + total l.
Proof. reflexivity. Qed.
Lemma total_nil : total [] = 0.
Proof. reflexivity. Qed.
Lemma total_app a b : total (a ++ b) = total a + total b.
Proof. induction a as [|x a IH]; cbn [app]; rewrite ?total_cons, ?total_nil, ?IH; lra. Qed.
Lemma total_plus {A} (f g : A -> R) l : total (map (fun x => f x + g x) l) = total (map f l) + total (map g l).
Proof. induction l as [|x l IH]; cbn [map]; rewrite ?total_cons, ?total_nil, ?IH; try lra. Qed.
Lemma total_minus {A} (f g : A -> R) l : total (map (fun x => f x - g x) l) = total (map f l) - total (map g l).
Proof. induction l as [|x l IH]; cbn [map]; rewrite ?total_cons, ?total_nil, ?IH; try lra. Qed.
Lemma total_scale {A} (c : R) (f : A -> R) l : total (map (fun x => c * f x) l) = c * total (map f l).
Proof. induction l as [|x l IH]; cbn [map]; rewrite ?total_cons, ?total_nil, ?IH; try lra. Qed.
Lemma total_scale_r {A} (c : R) (f : A -> R) l : total (map (fun x => f x * c) l) = total (map f l) * c.
Proof. induction l as [|x l IH]; cbn [map]; rewrite ?total_cons, ?total_nil, ?IH; try lra. Qed.
Lemma total_const {A} (c : R) (l : list A) : total (map (fun _ => c) l) = INR (length l) * c.
Proof. induction l as [|x l IH]; cbn [map length]; rewrite ?total_cons, ?total_nil, ?S_INR, ?IH; cbn [INR]; try lra. Qed.
Lemma total_ext {A} (f g : A -> R) l : (forall x, In x l -> f x = g x) -> total (map f l) = total (map g l).
Proof. intros H. f_equal. apply map_ext_in. exact H. Qed.
Lemma total_nonneg {A} (f : A -> R) l : (forall x, In x l -> 0 <= f x) -> 0 <= total (map f l).
Proof.
  induction l as [|x l IH]; intros H; cbn [map]; [cbn; lra|]. rewrite total_cons.
  pose proof (H x (or_introl eq_refl)). specialize (IH (fun y Hy => H y (or_intror Hy))). lra.
Qed.
Lemma total_le {A} (f g : A -> R) l : (forall x, In x l -> f x <= g x) -> total (map f l) <= total (map g l).
Proof.
  intros H. enough (0 <= total (map (fun x => g x - f x) l)) by (rewrite total_minus in *; lra).
  apply total_nonneg. intros x Hx. specialize (H x Hx). lra.
Qed.
Lemma total_zero {A} (f : A -> R) l : (forall x, In x l -> 0 <= f x) -> total (map f l) = 0 -> forall x, In x l -> f x = 0.
Proof.
  induction l as [|y l IH]; intros H E x Hx; [destruct Hx|]. cbn [map] in E. rewrite total_cons in E.
  pose proof (H y (or_introl eq_refl)). pose proof (total_nonneg f l (fun z Hz => H z (or_intror Hz))).
  destruct Hx as [->|Hx]; [lra|]. apply IH; auto; [intros; apply H; right; auto|lra].
Qed.
Lemma total_perm a b : Permutation a b -> total a = total b.
Proof. intros P. induction P; rewrite ?total_cons in *; lra. Qed.
Lemma total_map_id l : total (map (fun x => x) l) = total l.
Proof. rewrite map_id. reflexivity. Qed.
Lemma total_concat l : total (concat l) = total (map total l).
Proof. induction l as [|x l IH]; [reflexivity|]. cbn [concat map]. rewrite total_app, total_cons, IH. reflexivity. Qed.

(** ** Cauchy-Schwarz and the triangle inequality *)
Lemma cauchy_schwarz {A} (f g : A -> R) l :
  total (map (fun x => f x * g x) l) * total (map (fun x => f x * g x) l) <= total (map (fun x => f x * f x) l) * total (map (fun x => g x * g x) l).
Proof.
  set (P := total (map (fun x => f x * g x) l)). set (F := total (map (fun x => f x * f x) l)). set (G := total (map (fun x => g x * g x) l)).
  assert (G0 : 0 <= G) by (apply total_nonneg; intros; apply Rle_0_sqr).
  assert (F0 : 0 <= F) by (apply total_nonneg; intros; apply Rle_0_sqr).
  destruct (Req_dec G 0) as [E|E].
  - assert (P = 0).
    { unfold P. rewrite (total_ext _ (fun _ => 0)); [rewrite total_const; lra|]. intros x Hx.
      assert (g x * g x = 0) by (apply (total_zero (fun x => g x * g x) l); auto; intros; nra). assert (g x = 0) by nra. nra. }
    rewrite H, E. lra.
  - assert (H : 0 <= total (map (fun x => (G * f x - P * g x) * (G * f x - P * g x)) l)) by (apply total_nonneg; intros; apply Rle_0_sqr).
    rewrite (total_ext _ (fun x => (G * G) * (f x * f x) + ((- 2 * G * P) * (f x * g x) + (P * P) * (g x * g x)))) in H by (intros; ring).
    rewrite total_plus, total_plus, !total_scale in H. fold P F G in H.
    apply Rmult_le_reg_l with G; [lra|].
    replace (G * G * F + (- 2 * G * P * P + P * P * G)) with (G * (F * G) - G * (P * P)) in H by ring. lra.
Qed.
Definition dist {A} (f g : A -> R) (l : list A) : R := sqrt (total (map (fun x => (f x - g x) * (f x - g x)) l)).
Lemma norm_triangle {A} (f g : A -> R) l :
  sqrt (total (map (fun x => (f x + g x) * (f x + g x)) l)) <= sqrt (total (map (fun x => f x * f x) l)) + sqrt (total (map (fun x => g x * g x) l)).
Proof.
  set (F := total (map (fun x => f x * f x) l)). set (G := total (map (fun x => g x * g x) l)).
  assert (G0 : 0 <= G) by (apply total_nonneg; intros; apply Rle_0_sqr).
  assert (F0 : 0 <= F) by (apply total_nonneg; intros; apply Rle_0_sqr).
  pose proof (cauchy_schwarz f g l) as CS. fold F G in CS. set (P := total (map (fun x => f x * g x) l)) in CS.
  rewrite (total_ext _ (fun x => f x * f x + (2 * (f x * g x) + g x * g x))) by (intros; ring). rewrite total_plus, total_plus, total_scale. fold F G P.
  assert (0 <= sqrt F) by apply sqrt_pos. assert (0 <= sqrt G) by apply sqrt_pos.
  apply Rsqr_incr_0_var; [unfold Rsqr|lra].
  - assert (0 <= F + (2 * P + G)).
    { replace (F + (2 * P + G)) with (total (map (fun x => (f x + g x) * (f x + g x)) l)); [apply total_nonneg; intros; apply Rle_0_sqr|].
      rewrite (total_ext _ (fun x => f x * f x + (2 * (f x * g x) + g x * g x))) by (intros; ring). rewrite total_plus, total_plus, total_scale. reflexivity. }
    rewrite sqrt_sqrt by lra.
    replace ((sqrt F + sqrt G) * (sqrt F + sqrt G)) with (sqrt F * sqrt F + 2 * (sqrt F * sqrt G) + sqrt G * sqrt G) by ring.
    rewrite !sqrt_sqrt by lra.
    assert (P <= sqrt F * sqrt G).
    { rewrite <- sqrt_mult by lra. destruct (Rle_dec P 0) as [L|L]; [pose proof (sqrt_pos (F * G)); lra|].
      rewrite <- (sqrt_square P) by lra. apply sqrt_le_1; nra. }
    lra.
Qed.
Lemma dist_triangle {A} (f g h : A -> R) l : dist f h l <= dist f g l + dist g h l.
Proof.
  unfold dist. rewrite (total_ext (fun x => (f x - h x) * (f x - h x)) (fun x => ((f x - g x) + (g x - h x)) * ((f x - g x) + (g x - h x)))) by (intros; f_equal; ring).
  apply (norm_triangle (fun x => f x - g x) (fun x => g x - h x)).
Qed.

(** lists as functions of positions *)
Lemma nth_map {A B} (f : A -> B) l i d d' : (i < length l)%nat -> nth i (map f l) d = f (nth i l d').
Proof. intros L. rewrite (nth_indep _ d (f d')) by (rewrite map_length; exact L). apply map_nth. Qed.
Lemma map_seq_nth {A} (l : list A) d : map (fun i => nth i l d) (seq 0 (length l)) = l.
Proof.
  induction l as [|x l IH]; [reflexivity|]. cbn [length seq map nth]. f_equal. rewrite <- seq_shift, map_map. exact IH.
Qed.
Lemma combine_seq {A} (a b : list A) da db n : length a = n -> length b = n ->
  combine a b = map (fun i => (nth i a da, nth i b db)) (seq 0 n).
Proof.
  intros <- H. revert b H. induction a as [|x a IH]; intros [|y b] H; try discriminate; [reflexivity|].
  cbn [combine length seq map nth]. f_equal. rewrite <- seq_shift, map_map. apply IH. cbn in H; lia.
Qed.
Lemma euclid_dist a b n : length a = n -> length b = n -> euclid a b = dist (fun i => nth i a 0) (fun i => nth i b 0) (seq 0 n).
Proof. intros Ha Hb. unfold euclid, dist. rewrite (combine_seq a b 0 0 n) by auto. rewrite map_map. reflexivity. Qed.
Lemma inner_seq a b n : length a = n -> length b = n -> inner a b = total (map (fun i => nth i a 0 * nth i b 0) (seq 0 n)).
Proof. intros Ha Hb. unfold inner. rewrite (combine_seq a b 0 0 n) by auto. rewrite map_map. reflexivity. Qed.

Lemma euclid_nonneg a b : 0 <= euclid a b.
Proof. apply sqrt_pos. Qed.
Lemma euclid_refl a : euclid a a = 0.
Proof.
  rewrite (euclid_dist a a (length a)) by auto. unfold dist. rewrite (total_ext _ (fun _ => 0)) by (intros; ring). rewrite total_const, Rmult_0_r. apply sqrt_0.
Qed.
Lemma euclid_sym a b : length a = length b -> euclid a b = euclid b a.
Proof. intros E. rewrite (euclid_dist a b (length a)), (euclid_dist b a (length a)) by auto. unfold dist. f_equal. apply total_ext. intros; ring. Qed.
Lemma euclid_triangle a b c : length a = length b -> length b = length c -> euclid a c <= euclid a b + euclid b c.
Proof. intros E1 E2. rewrite (euclid_dist a c (length a)), (euclid_dist a b (length a)), (euclid_dist b c (length a)) by congruence. apply dist_triangle. Qed.
Lemma euclid_square a b : length a = length b -> euclid a b = sqrt (inner a a + inner b b - 2 * inner a b).
Proof.
  intros E. rewrite (euclid_dist a b (length a)) by auto. rewrite (inner_seq a a (length a)), (inner_seq b b (length a)), (inner_seq a b (length a)) by auto.
  unfold dist. f_equal. rewrite (total_ext _ (fun i => nth i a 0 * nth i a 0 + (nth i b 0 * nth i b 0 - 2 * (nth i a 0 * nth i b 0)))) by (intros; ring).
  rewrite total_plus, total_minus, total_scale. ring.
Qed.
Lemma inner_cs a b : length a = length b -> inner a b * inner a b <= inner a a * inner b b.
Proof.
  intros E. rewrite (inner_seq a a (length a)), (inner_seq b b (length a)), (inner_seq a b (length a)) by auto. apply (cauchy_schwarz (fun i => nth i a 0) (fun i => nth i b 0)).
Qed.
Lemma inner_sym a b : length a = length b -> inner a b = inner b a.
Proof. intros E. rewrite (inner_seq a b (length a)), (inner_seq b a (length a)) by auto. apply total_ext. intros; ring. Qed.

(** ** Means and standard deviations *)
Definition var_sum (l : list R) : R := total (map (fun x => (x - mean_of l) * (x - mean_of l)) l).
Lemma var_nonneg l : 0 <= var_sum l.
Proof. apply total_nonneg. intros. apply Rle_0_sqr. Qed.
Lemma mean_total l : (0 < length l)%nat -> total l = INR (length l) * mean_of l.
Proof. intros L. unfold mean_of. field. apply not_0_INR. lia. Qed.
Lemma sd_var l : sd_of l = sqrt (var_sum l / INR (length l)).
Proof. reflexivity. Qed.
Lemma sd_pos_var l : 0 < sd_of l -> 0 < var_sum l /\ (0 < length l)%nat.
Proof.
  intros H. destruct l as [|x l]; [unfold sd_of in H; cbn in H; unfold Rdiv in H; rewrite Rmult_0_l, sqrt_0 in H; lra|].
  split; [|cbn; lia]. pose proof (var_nonneg (x :: l)). rewrite sd_var in H. destruct (Req_dec (var_sum (x :: l)) 0) as [E|]; [|lra].
  rewrite E in H. unfold Rdiv in H. rewrite Rmult_0_l, sqrt_0 in H. lra.
Qed.
Lemma sd_square l : (0 < length l)%nat -> INR (length l) * (sd_of l * sd_of l) = var_sum l.
Proof.
  intros L. rewrite sd_var. rewrite sqrt_sqrt; [field; apply not_0_INR; lia|].
  apply Rmult_le_pos; [apply var_nonneg|]. left. apply Rinv_0_lt_compat. apply lt_0_INR. lia.
Qed.
Lemma sd_nonneg l : 0 <= sd_of l.
Proof. apply sqrt_pos. Qed.
Lemma znorm_length l : length (znorm l) = length l.
Proof. apply map_length. Qed.
(** the squared norm of z-normalised values is their number *)
Lemma znorm_norm l : 0 < sd_of l -> inner (znorm l) (znorm l) = INR (length l).
Proof.
  intros H. destruct (sd_pos_var l H) as [Hv L]. rewrite (inner_seq _ _ (length l)) by apply znorm_length.
  assert (E : forall i, In i (seq 0 (length l)) -> nth i (znorm l) 0 * nth i (znorm l) 0 = (nth i l 0 - mean_of l) * (nth i l 0 - mean_of l) * / (sd_of l * sd_of l)).
  { intros i Hi. apply in_seq in Hi. unfold znorm. rewrite (nth_map _ l i 0 0) by lia. field. lra. }
  rewrite (total_ext _ _ _ E), total_scale_r.
  replace (total (map (fun x => (nth x l 0 - mean_of l) * (nth x l 0 - mean_of l)) (seq 0 (length l)))) with (var_sum l).
  - rewrite <- (sd_square l L). field. lra.
  - unfold var_sum. rewrite <- (map_map (fun i => nth i l 0) (fun x => (x - mean_of l) * (x - mean_of l))), map_seq_nth. reflexivity.
Qed.

(** ** Scale and offset *)
Lemma mean_affine a b l : (0 < length l)%nat -> mean_of (map (fun x => a * x + b) l) = a * mean_of l + b.
Proof.
  intros L. unfold mean_of. rewrite map_length, total_plus, total_scale, total_const, total_map_id. field. apply not_0_INR. lia.
Qed.
Lemma sd_affine a b l : 0 < a -> (0 < length l)%nat -> sd_of (map (fun x => a * x + b) l) = a * sd_of l.
Proof.
  intros Ha L. unfold sd_of. rewrite mean_affine, map_length, map_map by auto.
  rewrite (total_ext _ (fun x => (a * a) * ((x - mean_of l) * (x - mean_of l)))) by (intros; ring). rewrite total_scale.
  fold (var_sum l). replace (a * a * var_sum l / INR (length l)) with ((a * a) * (var_sum l / INR (length l))) by (unfold Rdiv; ring).
  rewrite sqrt_mult, sqrt_square; try lra; try nra. apply Rmult_le_pos; [apply var_nonneg|]. left. apply Rinv_0_lt_compat, lt_0_INR. lia.
Qed.
Lemma znorm_affine a b l : 0 < a -> 0 < sd_of l -> znorm (map (fun x => a * x + b) l) = znorm l.
Proof.
  intros Ha Hs. destruct (sd_pos_var l Hs) as [_ L]. unfold znorm. rewrite mean_affine, sd_affine, map_map by auto.
  apply map_ext. intros x. field. split; lra.
Qed.
