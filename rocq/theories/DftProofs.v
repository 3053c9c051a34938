(** The product of two Fourier transforms, transformed back. *)
From Coq Require Import Reals Lra.
From Coquelicot Require Import Complex.
From Verif Require Import Base FFT.
Local Open Scope R_scope.
Local Open Scope C_scope.

Definition S_ (n : nat) (f : nat -> C) : C := csum (map f (seq 0 n)).

Lemma csum_cons x a : csum (x :: a) = x + csum a.
Proof. reflexivity. Qed.
Lemma csum_nil : csum [] = 0.
Proof. reflexivity. Qed.
Lemma csum_app a b : csum (a ++ b) = csum a + csum b.
Proof. induction a as [|x a IH]; cbn [app]; rewrite ?csum_nil, ?csum_cons; [ring|]. rewrite IH. ring. Qed.
Lemma S_0 f : S_ 0 f = 0.
Proof. reflexivity. Qed.
Lemma S_S n f : S_ (S n) f = S_ n f + f n.
Proof. unfold S_. rewrite seq_S, map_app, csum_app. cbn [map Nat.add]. rewrite csum_cons, csum_nil. ring. Qed.
Lemma S_ext n f g : (forall i, (i < n)%nat -> f i = g i) -> S_ n f = S_ n g.
Proof. induction n as [|n IH]; intros H; [reflexivity|]. rewrite !S_S, IH by (intros; apply H; lia). rewrite H by lia. reflexivity. Qed.
Lemma S_plus n f g : S_ n (fun i => f i + g i) = S_ n f + S_ n g.
Proof. induction n as [|n IH]; [rewrite !S_0; ring|]. rewrite !S_S, IH. ring. Qed.
Lemma S_scale n c f : S_ n (fun i => c * f i) = c * S_ n f.
Proof. induction n as [|n IH]; [rewrite !S_0; ring|]. rewrite !S_S, IH. ring. Qed.
Lemma S_scale_r n c f : S_ n (fun i => f i * c) = S_ n f * c.
Proof. induction n as [|n IH]; [rewrite !S_0; ring|]. rewrite !S_S, IH. ring. Qed.
Lemma S_zero n (f : nat -> C) : (forall i, (i < n)%nat -> f i = 0) -> S_ n f = 0.
Proof. induction n as [|n IH]; intros H; [reflexivity|]. rewrite !S_S, IH by (intros; apply H; lia). rewrite H by lia. ring. Qed.
Lemma S_swap n m (f : nat -> nat -> C) : S_ n (fun i => S_ m (fun j => f i j)) = S_ m (fun j => S_ n (fun i => f i j)).
Proof.
  induction n as [|n IH]; [rewrite S_0; symmetry; apply S_zero; reflexivity|].
  rewrite S_S, IH, <- S_plus. apply S_ext. intros j _. rewrite S_S. reflexivity.
Qed.
Lemma S_single n k (f : nat -> C) : (k < n)%nat -> (forall i, (i < n)%nat -> i <> k -> f i = 0) -> S_ n f = f k.
Proof.
  induction n as [|n IH]; intros L H; [lia|]. rewrite S_S. destruct (Nat.eq_dec k n) as [->|Nk].
  - rewrite S_zero by (intros; apply H; lia). ring.
  - rewrite IH by (intros; apply H || idtac; lia). rewrite (H n) by lia. ring.
Qed.
Lemma S_split n m (f : nat -> C) : (m <= n)%nat -> (forall i, (m <= i < n)%nat -> f i = 0) -> S_ n f = S_ m f.
Proof.
  intros L H. induction n as [|n IH]; [replace m with 0%nat by lia; reflexivity|].
  destruct (Nat.eq_dec m (S n)) as [->|N]; [reflexivity|]. rewrite S_S, IH by (intros; apply H || idtac; lia). rewrite H by lia. ring.
Qed.

(** ** Roots of unity *)
Lemma cis_add x y : cis (x + y) = cis x * cis y.
Proof. unfold cis, Cmult. cbn [fst snd]. rewrite cos_plus, sin_plus. f_equal; ring. Qed.
Lemma cis_0 : cis 0 = 1.
Proof. unfold cis. rewrite cos_0, sin_0. reflexivity. Qed.
Lemma cis_turns n : cis (2 * PI * INR n) = 1.
Proof.
  unfold cis. replace (2 * PI * INR n)%R with (0 + 2 * INR n * PI)%R by ring. rewrite cos_period, sin_period, cos_0, sin_0. reflexivity.
Qed.
Lemma cis_neg_one x : cis x = 1 -> cis (- x) = 1.
Proof. unfold cis. intros E. rewrite cos_neg, sin_neg. injection E as E1 E2. rewrite E1, E2, Ropp_0. reflexivity. Qed.
Lemma cis_one x : cis x = 1 -> cis (- x) = 1.
Proof. apply cis_neg_one. Qed.
Lemma cis_not_one x : (0 < x < 2 * PI)%R -> cis x <> 1.
Proof.
  intros H E. unfold cis in E. injection E as E _. replace x with (2 * (x / 2))%R in E by field. rewrite cos_2a_sin in E.
  pose proof (sin_gt_0 (x / 2)). assert (sin (x / 2) > 0)%R by (apply H0; lra). nra.
Qed.
Lemma geometric x n : (cis x - 1) * S_ n (fun k => cis (INR k * x)) = cis (INR n * x) - 1.
Proof.
  induction n as [|n IH].
  - rewrite S_0. cbn [INR]. rewrite Rmult_0_l, cis_0. ring.
  - rewrite S_S, Cmult_plus_distr_l, IH, S_INR, Rmult_plus_distr_r, Rmult_1_l, cis_add. ring.
Qed.
(** [d] is an integer between [-n] and [n] *)
Lemma roots_sum (n : nat) (d : Z) : (0 < n)%nat -> (- Z.of_nat n < d < Z.of_nat n)%Z ->
  S_ n (fun k => cis (INR k * (2 * PI * IZR d / INR n))) = if (d =? 0)%Z then RtoC (INR n) else 0.
Proof.
  intros Ln Hd. assert (Hn : (0 < INR n)%R) by (apply lt_0_INR; exact Ln). destruct (Z.eqb_spec d 0) as [->|N].
  - rewrite (S_ext n _ (fun _ => 1)).
    + clear. induction n as [|n IH]; [reflexivity|]. rewrite S_S, IH, S_INR, RtoC_plus. reflexivity.
    + intros k _. replace (INR k * (2 * PI * 0 / INR n))%R with 0%R by (field; lra). apply cis_0.
  - set (x := (2 * PI * IZR d / INR n)%R). pose proof (geometric x n) as G.
    assert (E : cis (INR n * x) = 1).
    { replace (INR n * x)%R with (2 * PI * IZR d)%R by (unfold x; field; lra). destruct (Z.le_gt_cases 0 d).
      - replace (IZR d) with (INR (Z.to_nat d)) by (rewrite INR_IZR_INZ, Z2Nat.id by lia; reflexivity). apply cis_turns.
      - replace (2 * PI * IZR d)%R with (- (2 * PI * INR (Z.to_nat (- d))))%R; [apply cis_one, cis_turns|].
        rewrite INR_IZR_INZ, Z2Nat.id, opp_IZR by lia. ring. }
    rewrite E in G. replace (1 - 1) with (RtoC 0) in G by ring.
    assert (Hx : cis x <> 1).
    { pose proof PI_RGT_0. assert (Hb : (- INR n < IZR d < INR n)%R) by (rewrite INR_IZR_INZ, <- opp_IZR; split; apply IZR_lt; lia).
      destruct (Z.le_gt_cases 0 d).
      - apply cis_not_one. assert (0 < IZR d)%R by (apply IZR_lt; lia). unfold x. split.
        + apply Rmult_lt_0_compat; [nra|apply Rinv_0_lt_compat; lra].
        + apply (Rmult_lt_reg_r (INR n)); [lra|]. unfold Rdiv. rewrite Rmult_assoc, Rinv_l by lra. nra.
      - intros C. apply cis_neg_one in C. revert C. apply cis_not_one. assert (IZR d < 0)%R by (apply IZR_lt; lia).
        replace (- x)%R with (2 * PI * - IZR d / INR n)%R by (unfold x; field; lra). split.
        + apply Rmult_lt_0_compat; [nra|apply Rinv_0_lt_compat; lra].
        + apply (Rmult_lt_reg_r (INR n)); [lra|]. unfold Rdiv. rewrite Rmult_assoc, Rinv_l by lra. nra. }
    assert (Hd0 : cis x - 1 <> 0).
    { intros Z0. apply Hx. replace (cis x) with ((cis x - 1) + 1) by ring. rewrite Z0. ring. }
    rewrite <- (Cmult_1_l (S_ _ _)), <- (Cinv_l _ Hd0), <- Cmult_assoc, G. ring.
Qed.

(** ** The convolution *)
Lemma dft_nth x k : (k < length x)%nat -> nth k (dft x) 0 = S_ (length x) (fun j => nth j x 0 * cis (- (2 * PI * INR j * INR k / INR (length x)))).
Proof.
  intros L. unfold dft. set (F := fun k : nat => csum _).
  rewrite (nth_indep _ (RtoC 0) (F 0%nat)) by (rewrite map_length, seq_length; exact L). rewrite map_nth, seq_nth by exact L. reflexivity.
Qed.
Lemma idft_nth x k : (k < length x)%nat -> nth k (idft x) 0 = S_ (length x) (fun j => nth j x 0 * cis (2 * PI * INR j * INR k / INR (length x))).
Proof.
  intros L. unfold idft. set (F := fun k : nat => csum _).
  rewrite (nth_indep _ (RtoC 0) (F 0%nat)) by (rewrite map_length, seq_length; exact L). rewrite map_nth, seq_nth by exact L. reflexivity.
Qed.
Lemma dft_length x : length (dft x) = length x.
Proof. unfold dft. rewrite map_length, seq_length. reflexivity. Qed.
Lemma idft_length x : length (idft x) = length x.
Proof. unfold idft. rewrite map_length, seq_length. reflexivity. Qed.

(** The first [w] entries of [v] are the others' zero: position [m] of the product, for
    [w - 1 <= m], does not wrap around. *)
Lemma convolution L w (v c p : list C) m : (1 <= w <= L)%nat -> length v = L -> length c = L -> length p = L ->
  (forall a, (w <= a < L)%nat -> nth a v 0 = 0) ->
  (forall k, (k < L)%nat -> nth k p 0 = nth k (dft v) 0 * nth k (dft c) 0) ->
  (w - 1 <= m < L)%nat ->
  nth m (idft p) 0 = RtoC (INR L) * S_ w (fun a => nth a v 0 * nth (m - a) c 0).
Proof.
  intros Lw Lv Lc Lp Zv Hp Hm. rewrite idft_nth, Lp by lia.
  transitivity (S_ L (fun a => S_ L (fun b => nth a v 0 * nth b c 0 * S_ L (fun k => cis (INR k * (2 * PI * IZR (Z.of_nat m - Z.of_nat a - Z.of_nat b) / INR L)))))).
  - rewrite (S_ext L _ (fun k => S_ L (fun a => S_ L (fun b => nth a v 0 * nth b c 0 * cis (INR k * (2 * PI * IZR (Z.of_nat m - Z.of_nat a - Z.of_nat b) / INR L)))))).
    + rewrite S_swap. apply S_ext. intros a _. rewrite S_swap. apply S_ext. intros b _. rewrite S_scale. reflexivity.
    + intros k Lk. rewrite Hp, !dft_nth, Lv, Lc by lia. rewrite <- S_scale_r, <- S_scale_r. apply S_ext. intros a _.
      rewrite <- S_scale, <- S_scale_r. apply S_ext. intros b _.
      replace (INR k * (2 * PI * IZR (Z.of_nat m - Z.of_nat a - Z.of_nat b) / INR L))%R
        with (- (2 * PI * INR a * INR k / INR L) + - (2 * PI * INR b * INR k / INR L) + 2 * PI * INR k * INR m / INR L)%R.
      * rewrite !cis_add. ring.
      * rewrite !minus_IZR, <- !INR_IZR_INZ. field. apply not_0_INR. lia.
  - etransitivity; [apply (S_split L w); [lia|]; intros a Ha; apply S_zero; intros b Lb; rewrite Zv by lia; ring|].
    rewrite <- S_scale. apply S_ext. intros a La. etransitivity; [apply (S_single L (m - a)); [lia|]|].
    + intros b Lb Nb. rewrite roots_sum by lia. replace (_ =? 0)%Z with false by (symmetry; apply Z.eqb_neq; lia). ring.
    + cbv beta. rewrite roots_sum by lia. replace (_ =? 0)%Z with true by (symmetry; apply Z.eqb_eq; lia). ring.
Qed.
