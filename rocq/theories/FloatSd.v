(** How far the sums of squares and the standard deviations are from the exact ones. *)
From Coq Require Import Reals Lra Lia Floats.SpecFloat.
From Flocq Require Import Core Relative Plus_error BinarySingleNaN.
From Verif Require Import Base F64 RSpec RealProofs Series SeriesProofs Iterator FpOps FloatSeries FloatProofs FloatRoll FloatBound FloatDist FloatDist2 FloatThr FloatErr FloatMean.
Local Open Scope R_scope.

(** ** Sums of numbers that are not negative *)
Lemma within_rel x y : Rabs (x - y) <= u * Rabs y -> 0 <= y -> (1 - u) * y <= x <= (1 + u) * y.
Proof. intros H Y. rewrite (Rabs_right y) in H by lra. apply abs_between in H. lra. Qed.
Lemma u_small : u <= / 1024.
Proof. apply Rle_trans with (bp (-10)); [apply bpow_le; lia|]. change (bp (-10)) with (/ IZR (2 ^ 10)). apply Rle_refl. Qed.
Lemma total_nonneg l : (forall x, In x l -> 0 <= x) -> 0 <= total l.
Proof. induction l as [|x l IH]; intros H; [apply Rle_refl|]. rewrite total_cons. pose proof (H x (or_introl eq_refl)). specialize (IH ltac:(intros; apply H; right; assumption)). lra. Qed.
Lemma pow_grow n : 1 <= (1 + u) ^ n.
Proof. pose proof u_pos. apply pow_R1_Rle. lra. Qed.
Lemma pow_shrink n : 0 <= (1 - u) ^ n <= 1.
Proof. pose proof u_pos. pose proof u_small. split; [apply pow_le; lra|]. apply Rle_trans with (1 ^ n); [apply pow_incr; lra|rewrite pow1; lra]. Qed.
Lemma fold_rel k l : (-1074 <= k <= 970)%Z -> forall n acc, number acc -> 0 <= fval acc -> Rabs (fval acc) <= INR n * bp k ->
  (Z.of_nat (n + length l) <= 2 ^ 53)%Z -> (forall x, In x l -> bnd x k /\ 0 <= fval x) ->
  (1 - u) ^ length l * (fval acc + total (vals l)) <= fval (fold_left fadd l acc) <= (1 + u) ^ length l * (fval acc + total (vals l)).
Proof.
  intros K. induction l as [|x l IH]; intros n acc Na Pa A L H.
  - cbn. lra.
  - cbn [fold_left map length pow]. rewrite total_cons. destruct (H x (or_introl eq_refl)) as ((Nx & X) & Px).
    destruct (fold_bound k [x] K n acc Na A) as (N1 & B1); [cbn [length] in *; lia|intros y [<-|[]]; split; assumption|].
    cbn [fold_left length] in N1, B1. rewrite Nat.add_1_r in B1.
    assert (E : Rabs (fval (fadd acc x) - (fval acc + fval x)) <= u * Rabs (fval acc + fval x)).
    { apply (add_err acc x 1023); auto; try lia. eapply Rle_trans; [apply Rabs_triang|]. apply Rle_trans with (bp 53 * bp k).
      - apply Rle_trans with (INR (S n) * bp k); [rewrite S_INR; lra|]. apply Rmult_le_compat_r; [apply bpow_ge_0|].
        rewrite INR_IZR_INZ. change (bp 53) with (IZR (2 ^ 53)). apply IZR_le. cbn [length] in L. lia.
      - rewrite <- bpow_plus. apply bpow_le. lia. }
    apply within_rel in E; [|lra]. pose proof u_pos as UP. pose proof u_small as US.
    assert (P1 : 0 <= fval (fadd acc x)) by (assert (0 <= (1 - u) * (fval acc + fval x)) by (apply Rmult_le_pos; lra); lra).
    specialize (IH (S n) (fadd acc x) N1 P1 B1 ltac:(cbn [length] in L; lia) ltac:(intros; apply H; right; assumption)).
    assert (T : 0 <= total (vals l)) by (apply total_nonneg; intros y Hy; apply in_map_iff in Hy as (v & <- & Hv); apply (H v); right; exact Hv).
    set (t := total (vals l)) in *. set (s := fval (fadd acc x)) in *. set (a := fval acc) in *. set (b := fval x) in *.
    pose proof (pow_shrink (length l)) as Ps. pose proof (pow_grow (length l)) as Pg. set (p := (1 - u) ^ length l) in *. set (g := (1 + u) ^ length l) in *.
    clearbody p g s t a b. generalize dependent u. intros v. intros. split.
    + apply Rle_trans with (p * (s + t)); [|apply IH]. replace ((1 - v) * p * (a + (b + t))) with (p * ((1 - v) * (a + b) + (1 - v) * t)) by ring.
      apply Rmult_le_compat_l; [apply Ps|]. assert ((1 - v) * t <= t) by nra. lra.
    + apply Rle_trans with (g * (s + t)); [apply IH|]. replace ((1 + v) * g * (a + (b + t))) with (g * ((1 + v) * (a + b) + (1 + v) * t)) by ring.
      apply Rmult_le_compat_l; [lra|]. assert (t <= (1 + v) * t) by nra. lra.
Qed.
(** powers *)
Lemma bernoulli n x : 0 <= x -> x <= 1 -> 1 - INR n * x <= (1 - x) ^ n.
Proof.
  intros X Y. induction n as [|n IH]; [cbn; lra|]. rewrite S_INR. cbn [pow]. assert (0 <= (1 - x) ^ n) by (apply pow_le; lra). pose proof (pos_INR n).
  destruct (Rle_lt_dec 0 (1 - INR n * x)) as [P|P]; [|assert (0 <= (1 - x) * (1 - x) ^ n) by (apply Rmult_le_pos; lra); lra].
  assert ((1 - x) * (1 - INR n * x) <= (1 - x) * (1 - x) ^ n) by (apply Rmult_le_compat_l; lra). assert (0 <= INR n * x * x) by (apply Rmult_le_pos; [apply Rmult_le_pos|]; lra). nra.
Qed.
Lemma growth n x : 0 <= x -> INR n * x <= / 2 -> (1 + x) ^ n <= 1 + 2 * (INR n * x).
Proof.
  intros X Y. assert (H : (1 + x) ^ n * (1 - INR n * x) <= 1).
  { induction n as [|n IH]; [cbn; lra|]. rewrite S_INR in *. cbn [pow]. specialize (IH ltac:(nra)).
    assert (0 <= (1 + x) ^ n) by (apply pow_le; lra). pose proof (pos_INR n).
    assert ((1 + x) * (1 - (INR n + 1) * x) <= 1 - INR n * x) by (assert (0 <= INR n * x * x) by (apply Rmult_le_pos; [apply Rmult_le_pos|]; lra); nra).
    replace ((1 + x) * (1 + x) ^ n * (1 - (INR n + 1) * x)) with ((1 + x) ^ n * ((1 + x) * (1 - (INR n + 1) * x))) by ring.
    apply Rle_trans with ((1 + x) ^ n * (1 - INR n * x)); [apply Rmult_le_compat_l; assumption|exact IH]. }
  assert (0 <= (1 + x) ^ n) by (apply pow_le; lra). pose proof (pos_INR n). assert (0 <= INR n * x) by (apply Rmult_le_pos; lra).
  set (g := (1 + x) ^ n) in *. set (y := INR n * x) in *. clearbody g y. apply Rmult_le_reg_r with (1 - y); [lra|]. nra.
Qed.

(** ** Square roots *)
Lemma sqrt_close v V g t : 0 <= v -> 0 <= V -> 0 <= g -> 0 <= t -> Rabs (v - V) <= g * V + t * t -> Rabs (sqrt v - sqrt V) <= g * sqrt V + t.
Proof.
  intros Pv PV G T H. apply abs_between in H. pose proof (sqrt_pos v) as Sv. pose proof (sqrt_pos V) as SV. pose proof (sqrt_sqrt v Pv) as Ev. pose proof (sqrt_sqrt V PV) as EV.
  set (a := sqrt v) in *. set (b := sqrt V) in *. clearbody a b. subst v V.
  assert (G1 : 0 <= g * b) by (apply Rmult_le_pos; assumption). apply Rabs_le. split.
  - apply Rnot_lt_le. intros C. assert (D : g * b + t < b - a) by lra.
    assert ((g * b + t) * b <= (b - a) * b) by (apply Rmult_le_compat_r; lra). assert (t * t <= t * b) by (apply Rmult_le_compat_l; lra).
    assert (0 < (b - a - g * b - t) * b) by (apply Rmult_lt_0_compat; lra). assert (0 <= (b - a) * a) by (apply Rmult_le_pos; lra). nra.
  - apply Rnot_lt_le. intros C. assert (D : g * b + t < a - b) by lra.
    assert ((g * b + t) * (b + (g * b + t)) < (a - b) * (a + b)) by (apply Rmult_le_0_lt_compat; lra || (assert (0 <= (g * b + t)) by lra; lra)). nra.
Qed.

(** ** Sums of squares *)
Section Squares.
  Variables (z : zeros) (m : f64) (l : list f64) (e : Z).
  Hypothesis He : (-400 <= e <= 450)%Z.
  Hypothesis Ln : (Z.of_nat (length l) <= 2 ^ 52)%Z.
  Hypothesis Bm : bnd m (e + 21).
  Hypothesis Data : forall x, In x l -> bnd x e.
  Definition dev : R := total (map (fun x => (fval x - fval m) * (fval x - fval m)) l).
  Lemma square_term x : bnd x e ->
    bnd (fmul (fsub x m) (fsub x m)) (2 * e + 44) /\
    Rabs (fval (fmul (fsub x m) (fsub x m)) - (fval x - fval m) * (fval x - fval m)) <= 4 * u * ((fval x - fval m) * (fval x - fval m)) + tiny.
  Proof.
    intros X. assert (Bd : bnd (fsub x m) (e + 22)).
    { replace (e + 22)%Z with (e + 21 + 1)%Z by lia. apply sub_bnd; try lia; [|exact Bm]. apply bnd_le with e; [lia|exact X]. }
    assert (Bp : bnd (fmul (fsub x m) (fsub x m)) (2 * e + 44)) by (replace (2 * e + 44)%Z with (e + 22 + (e + 22))%Z by lia; apply mul_bnd; auto; lia).
    split; [exact Bp|].
    destruct (sub_err x m (e + 22)) as (_ & E1); [apply X|apply Bm|lia| |].
    { replace (e + 22)%Z with (e + 21 + 1)%Z by lia. rewrite bp_double. eapply Rle_trans; [apply Rabs_triang|]. rewrite Rabs_Ropp.
      destruct X as (_ & X), Bm as (_ & B). assert (bp e <= bp (e + 21)) by (apply bpow_le; lia). lra. }
    destruct (mul_err (fsub x m) (fsub x m) (e + 22 + (e + 22))) as (_ & E2); [apply Bd|apply Bd|lia| |].
    { rewrite Rabs_mult, bpow_plus. apply Rmult_le_compat; auto using Rabs_pos; apply Bd. }
    set (d := fsub x m) in *. set (y := fval x - fval m) in *. rewrite (Rabs_right (fval d * fval d)) in E2 by (apply Rle_ge, Rle_0_sqr).
    pose proof u_pos as UP. pose proof u_small as US.
    assert (D2 : Rabs (fval d * fval d - y * y) <= u * (2 + u) * (y * y)).
    { replace (fval d * fval d - y * y) with ((fval d - y) * (2 * y + (fval d - y))) by ring. rewrite Rabs_mult.
      assert (A : Rabs (2 * y + (fval d - y)) <= (2 + u) * Rabs y) by (eapply Rle_trans; [apply Rabs_triang|]; rewrite Rabs_mult, (Rabs_right 2) by lra; lra).
      replace (u * (2 + u) * (y * y)) with ((u * Rabs y) * ((2 + u) * Rabs y)).
      - apply Rmult_le_compat; auto using Rabs_pos.
      - replace (y * y) with (Rabs y * Rabs y) by (rewrite <- Rabs_mult; apply Rabs_right, Rle_ge, Rle_0_sqr). ring. }
    assert (Y : 0 <= y * y) by apply Rle_0_sqr. assert (D3 := abs_between _ _ D2). 
    assert (fval d * fval d <= (1 + u * (2 + u)) * (y * y)) by lra.
    assert (u * (fval d * fval d) <= u * ((1 + u * (2 + u)) * (y * y))) by (apply Rmult_le_compat_l; lra).
    replace (fval (fmul d d) - y * y) with ((fval (fmul d d) - fval d * fval d) + (fval d * fval d - y * y)) by ring. eapply Rle_trans; [apply Rabs_triang|].
    eapply Rle_trans; [apply Rplus_le_compat; [exact E2|exact D2]|].
    assert (u * (1 + u * (2 + u)) + u * (2 + u) <= 4 * u) by (generalize dependent u; intros v; intros; nra).
    assert ((u * (1 + u * (2 + u)) + u * (2 + u)) * (y * y) <= 4 * u * (y * y)) by (apply Rmult_le_compat_r; assumption). lra.
  Qed.
  Lemma dev_nonneg : 0 <= dev.
  Proof. apply total_nonneg. intros x Hx. apply in_map_iff in Hx as (y & <- & _). apply Rle_0_sqr. Qed.
  Lemma squares_err : Rabs (fval (squares z l m) - dev) <= (2 * INR (length l) + 8) * u * dev + 2 * INR (length l) * tiny.
  Proof.
    unfold squares, fsum. set (ps := map (fun x => let d := fsub x m in fmul d d) l).
    assert (Lp : length ps = length l) by apply map_length.
    assert (Hp : forall x, In x ps -> bnd x (2 * e + 44) /\ 0 <= fval x).
    { intros x Hx. apply in_map_iff in Hx as (y & <- & Hy). cbv zeta. destruct (square_term y (Data y Hy)) as (B & _). split; [exact B|].
      apply sign_val; [apply B|apply mul_self_sign]. }
    pose proof (fold_rel (2 * e + 44) ps ltac:(lia) 0 (S754_zero (z_scalar z)) (zero_number _)) as R. cbn [fval SF2R INR Nat.add] in R.
    rewrite Rabs_R0, Rmult_0_l, Rplus_0_l, Lp in R. specialize (R (Rle_refl 0) (Rle_refl 0) ltac:(lia) Hp).
    assert (T : Rabs (total (vals ps) - dev) <= 4 * u * dev + INR (length l) * tiny).
    { unfold dev, ps. pose proof square_term as ST. clear - ST Data. induction l as [|x r IH]; [cbn; replace (0 - 0) with 0 by ring; rewrite Rabs_R0; lra|].
      specialize (IH ltac:(intros; apply Data; right; assumption)). cbn [map length]. rewrite !total_cons, S_INR.
      destruct (ST x (Data x (or_introl eq_refl))) as (_ & E). cbv zeta in *.
      match goal with |- Rabs (?a + ?b - (?c + ?d)) <= _ => replace (a + b - (c + d)) with ((a - c) + (b - d)) by ring end.
      eapply Rle_trans; [apply Rabs_triang|]. lra. }
    pose proof dev_nonneg as Pd. pose proof u_pos as UP. pose proof u_small as US. pose proof tiny_pos as TP. pose proof (pos_INR (length l)) as PN.
    assert (Wu : INR (length l) * u <= / 2).
    { rewrite INR_IZR_INZ. apply Rle_trans with (bp 52 * u); [apply Rmult_le_compat_r; [apply bpow_ge_0|]; change (bp 52) with (IZR (2 ^ 52)); apply IZR_le, Ln|].
      rewrite <- bpow_plus. apply Rle_refl. }
    pose proof (growth (length l) u ltac:(lra) Wu) as G. pose proof (bernoulli (length l) u ltac:(lra) ltac:(lra)) as B.
    assert (Tp : 0 <= total (vals ps)) by (apply total_nonneg; intros x Hx; apply in_map_iff in Hx as (y & <- & Hy); apply (Hp y Hy)).
    set (S := fval (fold_left fadd ps (S754_zero (z_scalar z)))) in *. set (t := total (vals ps)) in *. set (n := INR (length l)) in *. set (D := dev) in *.
    set (g := (1 + u) ^ length l) in *. set (h := (1 - u) ^ length l) in *. clearbody S t n D g h.
    apply abs_between in T.
    assert (H1 : S <= (1 + 2 * (n * u)) * t) by (eapply Rle_trans; [apply R|]; apply Rmult_le_compat_r; assumption).
    assert (H2 : (1 - n * u) * t <= S) by (eapply Rle_trans; [|apply R]; apply Rmult_le_compat_r; assumption).
    clear R G B. set (y := n * u) in *. assert (Y : 0 <= y) by (apply Rmult_le_pos; lra). replace ((2 * n + 8) * u * D) with (2 * (y * D) + 8 * (u * D)) by (unfold y; ring).
    assert (Yt : y * (n * tiny) <= / 2 * (n * tiny)) by (apply Rmult_le_compat_r; [apply Rmult_le_pos; lra|exact Wu]).
    assert (Yd : y * (u * D) <= / 2 * (u * D)) by (apply Rmult_le_compat_r; [apply Rmult_le_pos; lra|exact Wu]).
    assert (Nt : 0 <= n * tiny) by (apply Rmult_le_pos; lra). assert (Nd : 0 <= u * D) by (apply Rmult_le_pos; lra). assert (Nyd : 0 <= y * D) by (apply Rmult_le_pos; lra).
    assert (U1 : y * t <= y * (D + 4 * (u * D) + n * tiny)) by (apply Rmult_le_compat_l; lra).
    apply Rabs_le. split; lra.
  Qed.
End Squares.

(** ** Standard deviations *)
Lemma dev_var (m : f64) (l : list f64) : l <> [] ->
  dev m l = var_sum (vals l) + INR (length l) * ((mean_of (vals l) - fval m) * (mean_of (vals l) - fval m)).
Proof.
  intros N. unfold dev. assert (P : INR (length l) <> 0) by (apply not_0_INR; destruct l; [congruence|cbn; lia]).
  assert (T : total (vals l) = INR (length l) * mean_of (vals l)) by (unfold mean_of; rewrite map_length; field; exact P).
  unfold var_sum. set (a := mean_of (vals l)) in *. clearbody a.
  assert (G : forall c, total (map (fun x => (fval x - c) * (fval x - c)) l) = total (map (fun x => fval x * fval x) l) - 2 * c * total (vals l) + INR (length l) * (c * c)).
  { intros c. clear. induction l as [|x l IH]; [cbn; ring|]. cbn [map length]. rewrite !total_cons, S_INR, IH. ring. }
  rewrite map_map, !G, T. ring.
Qed.
Lemma var_sum_abs l b : (forall x, In x l -> Rabs x <= b) -> var_sum l <= INR (length l) * (b * b).
Proof.
  intros H. destruct l as [|x l]; [cbn; lra|]. set (v := x :: l) in *. rewrite (var_squares v) by (cbn; lia).
  assert (Q : Rabs (total (map (fun x => x * x) v)) <= INR (length (map (fun x => x * x) v)) * (b * b)).
  { apply total_abs. intros y Hy. apply in_map_iff in Hy as (a & <- & Ha). rewrite Rabs_mult. specialize (H a Ha). apply Rmult_le_compat; auto using Rabs_pos. }
  rewrite map_length in Q. apply abs_between in Q. pose proof (pos_INR (length v)).
  assert (0 <= INR (length v) * (mean_of v * mean_of v)) by (apply Rmult_le_pos; [assumption|apply Rle_0_sqr]). lra.
Qed.
Lemma sqrt_plus_sq a b : 0 <= a -> sqrt (a * a + b * b) <= a + Rabs b.
Proof.
  intros A. pose proof (Rabs_pos b). rewrite <- (sqrt_square (a + Rabs b)) by lra. apply sqrt_le_1_alt.
  assert (b * b = Rabs b * Rabs b) by (rewrite <- Rabs_mult; symmetry; apply Rabs_right, Rle_ge, Rle_0_sqr). nra.
Qed.

Section Deviations.
  Variables (z : zeros) (ts : list f64) (w : nat) (e : Z).
  Hypothesis He : (-400 <= e <= 450)%Z.
  Hypothesis Lw : (1 <= w)%nat.
  Hypothesis Hw : (Z.of_nat w <= 2 ^ 52)%Z.
  Hypothesis Data : forall x, In x ts -> bnd x e.
  Notation W := (INR w).
  Notation M := (bp e).
  Notation mu := (mu ts w).
  Definition sigma (i : nat) : R := sd_of (vals (win ts w i)).
  Definition var (i : nat) : R := var_sum (vals (win ts w i)).

  Lemma wu : W * u <= / 2.
  Proof. pose proof (W52 w Hw) as H. apply Rle_trans with (bp 52 * u); [apply Rmult_le_compat_r; [apply bpow_ge_0|exact H]|]. rewrite <- bpow_plus. apply Rle_refl. Qed.
  Lemma var_sigma i : (i + w <= length ts)%nat -> var i = W * (sigma i * sigma i).
  Proof. intros L. unfold var, sigma. rewrite <- (sd_square (vals (win ts w i))), (vals_win_length ts w) by (rewrite ?(vals_win_length ts w); auto). reflexivity. Qed.
  Lemma var_pos i : 0 <= var i. Proof. apply var_nonneg. Qed.
  Lemma sigma_pos i : 0 <= sigma i. Proof. apply sd_nonneg. Qed.
  Lemma var_M i : (i + w <= length ts)%nat -> var i <= W * (M * M).
  Proof. intros L. pose proof (var_sum_abs (vals (win ts w i)) M (vals_bnd ts w e Data i)) as H. rewrite (vals_win_length ts w) in H by exact L. exact H. Qed.
  Lemma sigma_M i : (i + w <= length ts)%nat -> sigma i <= M.
  Proof.
    intros L. pose proof (var_M i L) as V. rewrite var_sigma in V by exact L. pose proof (W1 w Lw). pose proof (sigma_pos i). pose proof (bpow_gt_0 radix2 e).
    apply Rmult_le_reg_l in V; [|lra]. nra.
  Qed.
  Lemma mean0_close i : (i + w <= length ts)%nat -> Rabs (mu i - fval (mean0 z ts w i)) <= (W + 5) / 2 * (u * M).
  Proof. intros L. rewrite Rabs_minus_sym. apply mean0_err; assumption. Qed.
  Definition dev0 (i : nat) : R := dev (mean0 z ts w i) (win ts w i).
  Lemma dev0_eq i : (i + w <= length ts)%nat -> dev0 i = W * (sigma i * sigma i + (mu i - fval (mean0 z ts w i)) * (mu i - fval (mean0 z ts w i))).
  Proof.
    intros L. unfold dev0. assert (Ln : length (win ts w i) = w) by (apply win_length, L).
    rewrite dev_var by (intros E; rewrite E in Ln; cbn in Ln; lia). fold (var i). rewrite var_sigma, Ln by exact L. unfold FloatMean.mu. ring.
  Qed.
  Lemma squares0_err i : (i + w <= length ts)%nat -> Rabs (fval (squares0 z ts w i) - dev0 i) <= (2 * W + 8) * u * dev0 i + 2 * W * tiny.
  Proof.
    intros L. pose proof (squares_err z (mean0 z ts w i) (win ts w i) e) as H. rewrite win_length in H by exact L. apply H; auto.
    - apply bnd_le with e; [lia|]. apply mean0_bnd; assumption.
    - apply (win_bnd ts w e Data).
  Qed.
  Lemma squares0_pos i : (i + w <= length ts)%nat -> number (squares0 z ts w i) /\ is_sign_negative (squares0 z ts w i) = false /\ 0 <= fval (squares0 z ts w i) /\ bnd (squares0 z ts w i) (2 * e + 55).
  Proof.
    intros L. destruct (squares_bnd z ts w e He Lw Hw Data i e (mean0 z ts w i) L) as (N & S & B); [lia|apply mean0_bnd; assumption|].
    split; [exact N|]. split; [exact S|]. split; [apply sign_val; [apply N|exact S]|]. split; [exact N|]. eapply Rle_trans; [exact B|].
    replace (2 * e + 55)%Z with (53 + (2 * e + 2))%Z by lia. rewrite (bpow_plus radix2 53). apply Rmult_le_compat_r; [apply bpow_ge_0|].
    pose proof (W52 w Hw). assert (bp 52 <= bp 53) by (apply bpow_le; lia). lra.
  Qed.

  (** dividing and taking the root *)
  Lemma over_w x : 0 <= x -> 0 <= x / W.
  Proof. intros H. apply Rmult_le_pos; [exact H|]. apply Rlt_le, Rinv_0_lt_compat. pose proof (W1 w Lw). lra. Qed.
  Lemma abs_over_w x b : Rabs x <= b -> Rabs (x / W) <= b / W.
  Proof.
    intros H. pose proof (W1 w Lw). assert (0 < / W) by (apply Rinv_0_lt_compat; lra). unfold Rdiv. rewrite Rabs_mult, (Rabs_right (/ W)) by lra. apply Rmult_le_compat_r; lra.
  Qed.
  Lemma quotient_err d : bnd d (2 * e + 55) -> 0 <= fval d ->
    number (fdiv d (f_of_nat w)) /\ Rabs (fval (fdiv d (f_of_nat w)) - fval d / W) <= u * (fval d / W) + tiny.
  Proof.
    intros (N & B) P. destruct (w_number w Lw Hw) as (Nw & Vw). pose proof (W1 w Lw).
    assert (D : Rabs (fval d / W) <= bp (2 * e + 55)).
    { rewrite Rabs_right by (apply Rle_ge, over_w, P). rewrite Rabs_right in B by lra. apply Rle_trans with (fval d); [|exact B].
      apply Rmult_le_reg_r with W; [lra|]. unfold Rdiv. rewrite Rmult_assoc, Rinv_l, Rmult_1_r by lra. nra. }
    destruct (div_err d (f_of_nat w) (2 * e + 55) N Nw) as (R1 & R2); [rewrite Vw; lra|lia|rewrite Vw; exact D|]. rewrite Vw in R2.
    rewrite (Rabs_right (fval d / W)) in R2 by (apply Rle_ge, over_w, P). auto.
  Qed.
  Notation theta := (bp (-536)).
  Lemma theta_sq : theta * theta = 8 * tiny.
  Proof. rewrite <- bpow_plus. change (-536 + -536)%Z with (3 + -1075)%Z. rewrite bpow_plus. reflexivity. Qed.
  Lemma theta_M : 8 * theta <= u * M.
  Proof. change 8 with (bp 3). rewrite <- !bpow_plus. apply bpow_le. lia. Qed.
  Lemma tiny_theta : tiny <= / 4 * theta.
  Proof. apply Rle_trans with (bp (-538)); [apply bpow_le; lia|]. change (-538)%Z with (-2 + -536)%Z. rewrite bpow_plus. apply Rle_refl. Qed.

  Lemma sd0_err i : (i + w <= length ts)%nat ->
    Rabs (fval (sd_from w (squares0 z ts w i)) - sqrt (dev0 i / W)) <= (2 * W + 14) * u * sqrt (dev0 i / W) + 2 * theta.
  Proof.
    intros L. destruct (squares0_pos i L) as (N & Sg & P & B). pose proof (squares0_err i L) as E. pose proof (quotient_err _ B P) as (Nq & Eq).
    unfold sd_from. set (s := squares0 z ts w i) in *.
    assert (Pq : 0 <= fval (fdiv s (f_of_nat w))) by (apply sign_val; [apply Nq|]; apply fdiv_sign; [exact Sg|apply w_sign; assumption]).
    destruct (sqrt_err _ Nq Pq) as (_ & _ & Es). set (q := fval (fdiv s (f_of_nat w))) in *.
    assert (PD : 0 <= dev0 i) by apply dev_nonneg. pose proof (W1 w Lw) as HW. pose proof u_pos as UP. pose proof u_small as US. pose proof wu as WU. pose proof tiny_pos as TP.
    assert (E1 : Rabs (fval s / W - dev0 i / W) <= (2 * W + 8) * u * (dev0 i / W) + 2 * tiny).
    { replace (fval s / W - dev0 i / W) with ((fval s - dev0 i) / W) by (unfold Rdiv; ring). eapply Rle_trans; [apply abs_over_w, E|]. apply Req_le. field. lra. }
    pose proof (over_w _ PD) as PV. pose proof (over_w _ P) as PS. set (V := dev0 i / W) in *. set (s' := fval s / W) in *. clearbody V s'. clear E P PD B.
    pose proof (abs_between _ _ E1) as A1.
    assert (US' : u * s' <= 3 * u * V + tiny).
    { assert (s' <= V + (2 * W + 8) * u * V + 2 * tiny) by lra. assert ((2 * W + 8) * u <= 1 + 8 * u) by lra.
      assert ((2 * W + 8) * u * V <= (1 + 8 * u) * V) by (apply Rmult_le_compat_r; assumption). assert (8 * u * V <= V) by (assert (8 * u <= 1) by lra; assert (8 * u * V <= 1 * V) by (apply Rmult_le_compat_r; assumption); lra).
      assert (s' <= 3 * V + 2 * tiny) by lra. assert (u * s' <= u * (3 * V + 2 * tiny)) by (apply Rmult_le_compat_l; lra).
      assert (u * tiny <= / 2 * tiny) by (apply Rmult_le_compat_r; lra). lra. }
    assert (E2 : Rabs (q - V) <= (2 * W + 11) * u * V + theta * theta).
    { rewrite theta_sq. replace (q - V) with ((q - s') + (s' - V)) by ring. eapply Rle_trans; [apply Rabs_triang|]. lra. }
    assert (G : 0 <= (2 * W + 11) * u) by (apply Rmult_le_pos; lra).
    pose proof (sqrt_close q V _ theta Pq PV G (bpow_ge_0 _ _) E2) as E3. pose proof (sqrt_pos V) as SV. set (r := sqrt V) in *. set (t := sqrt q) in *. clearbody r t.
    pose proof (abs_between _ _ E3) as A3.
    assert (Ut : u * t <= 3 * u * r + / 4 * theta).
    { assert ((2 * W + 11) * u <= 2) by lra. assert ((2 * W + 11) * u * r <= 2 * r) by (apply Rmult_le_compat_r; assumption).
      assert (t <= 3 * r + theta) by lra. assert (u * t <= u * (3 * r + theta)) by (apply Rmult_le_compat_l; lra).
      assert (u * theta <= / 4 * theta) by (apply Rmult_le_compat_r; [apply bpow_ge_0|lra]). lra. }
    pose proof tiny_theta. match goal with |- Rabs (?a - r) <= _ => replace (a - r) with ((a - t) + (t - r)) by ring end.
    eapply Rle_trans; [apply Rabs_triang|]. assert (0 <= theta) by apply bpow_ge_0. lra.
  Qed.
  Lemma root_dev i : (i + w <= length ts)%nat -> sigma i <= sqrt (dev0 i / W) <= sigma i + (W + 5) / 2 * (u * M).
  Proof.
    intros L. pose proof (W1 w Lw) as HW. pose proof (sigma_pos i) as SP. pose proof (mean0_close i L) as C. rewrite dev0_eq by exact L.
    replace (W * (sigma i * sigma i + (mu i - fval (mean0 z ts w i)) * (mu i - fval (mean0 z ts w i))) / W) with (sigma i * sigma i + (mu i - fval (mean0 z ts w i)) * (mu i - fval (mean0 z ts w i))) by (field; lra).
    split.
    - rewrite <- (sqrt_square (sigma i)) at 1 by exact SP. apply sqrt_le_1_alt. pose proof (Rle_0_sqr (mu i - fval (mean0 z ts w i))) as Q. unfold Rsqr in Q. lra.
    - eapply Rle_trans; [apply sqrt_plus_sq, SP|]. lra.
  Qed.
  Lemma sd_precise i : (i + w <= length ts)%nat -> Rabs (fval (sd_from w (squares0 z ts w i)) - sigma i) <= (W + 6) * (4 * (u * M)).
  Proof.
    intros L. pose proof (sd0_err i L) as E. pose proof (root_dev i L) as R. pose proof (sigma_M i L) as SM. pose proof (sigma_pos i) as SP. set (r := sqrt (dev0 i / W)) in *. set (sd := fval _) in *.
    pose proof (W1 w Lw) as HW. pose proof u_pos as UP. pose proof u_small as US. pose proof wu as WU. pose proof theta_M as TM. assert (PM : 0 < M) by apply bpow_gt_0.
    assert (UM : 0 < u * M) by (apply Rmult_lt_0_compat; assumption).
    assert (Small : (W + 5) / 2 * (u * M) <= / 3 * M).
    { replace ((W + 5) / 2 * (u * M)) with ((W * u + 5 * u) / 2 * M) by field. apply Rmult_le_compat_r; lra. }
    assert (r <= 4 / 3 * M) by lra.
    assert ((2 * W + 14) * u * r <= (2 * W + 14) * u * (4 / 3 * M)) by (apply Rmult_le_compat_l; [apply Rmult_le_pos; lra|lra]).
    replace (sd - sigma i) with ((sd - r) + (r - sigma i)) by ring. eapply Rle_trans; [apply Rabs_triang|].
    rewrite (Rabs_right (r - sigma i)) by lra. assert (0 <= W * (u * M)) by (apply Rmult_le_pos; lra). lra.
  Qed.
End Deviations.
