(** Errors of normalised values, of the terms of a distance and of their sums. *)
From Coq Require Import Reals Lra Lia Floats.SpecFloat.
From Flocq Require Import Core Relative Plus_error BinarySingleNaN.
From Verif Require Import Base F64 RSpec RealProofs SeriesProofs Iterator FpOps FloatSeries FloatProofs FloatRoll FloatBound FloatDist FloatDist2 FloatThr FloatErr FloatMean FloatSd FloatSum.
Local Open Scope R_scope.

(** sums over pairs *)
Lemma total_fst (f : f64 -> R) (a b : list f64) : length a = length b -> total (map (fun p => f (fst p)) (combine a b)) = total (map f a).
Proof. revert b. induction a as [|x a IH]; intros [|y b] L; try discriminate L; [reflexivity|]. cbn [combine map fst]. rewrite !total_cons, IH by (injection L as L; exact L). reflexivity. Qed.
Lemma total_snd (f : f64 -> R) (a b : list f64) : length a = length b -> total (map (fun p => f (snd p)) (combine a b)) = total (map f b).
Proof. revert b. induction a as [|x a IH]; intros [|y b] L; try discriminate L; [reflexivity|]. cbn [combine map snd]. rewrite !total_cons, IH by (injection L as L; exact L). reflexivity. Qed.
Lemma combine_vals (a b : list f64) (f g : R -> R) : combine (map f (vals a)) (map g (vals b)) = map (fun p => (f (fval (fst p)), g (fval (snd p)))) (combine a b).
Proof. revert b. induction a as [|x a IH]; intros [|y b]; cbn; try reflexivity. rewrite IH. reflexivity. Qed.
Lemma total_abs_le {A} (f g : A -> R) l : (forall x, In x l -> Rabs (f x) <= g x) -> Rabs (total (map f l)) <= total (map g l).
Proof.
  induction l as [|x l IH]; intros H; cbn [map]; [cbn; rewrite Rabs_R0; lra|]. rewrite !total_cons. eapply Rle_trans; [apply Rabs_triang|].
  pose proof (H x (or_introl eq_refl)). specialize (IH ltac:(intros; apply H; right; assumption)). lra.
Qed.
Lemma mul_rel x y X Y g h : Rabs (x - X) <= g * Rabs X -> Rabs (y - Y) <= h * Rabs Y -> 0 <= g -> 0 <= h ->
  Rabs (x * y - X * Y) <= ((1 + g) * (1 + h) - 1) * Rabs (X * Y).
Proof.
  intros Hx Hy G H. replace (x * y - X * Y) with ((x - X) * (y - Y) + ((x - X) * Y + X * (y - Y))) by ring. rewrite Rabs_mult.
  pose proof (Rabs_pos X) as PX. pose proof (Rabs_pos Y) as PY. pose proof (Rabs_pos (x - X)) as P1. pose proof (Rabs_pos (y - Y)) as P2.
  eapply Rle_trans; [apply Rabs_triang|]. eapply Rle_trans; [apply Rplus_le_compat_l, Rabs_triang|]. rewrite !Rabs_mult.
  assert (Rabs (x - X) * Rabs (y - Y) <= (g * Rabs X) * (h * Rabs Y)) by (apply Rmult_le_compat; assumption).
  assert (Rabs (x - X) * Rabs Y <= g * Rabs X * Rabs Y) by (apply Rmult_le_compat_r; assumption).
  assert (Rabs X * Rabs (y - Y) <= Rabs X * (h * Rabs Y)) by (apply Rmult_le_compat_l; assumption). lra.
Qed.
Lemma quotient_close n q N Q A B r : 0 < Q -> Rabs (n - r * Q) <= A * Q -> Rabs (q - Q) <= B * Q -> Rabs r <= N -> B < 1 -> 0 <= N -> 0 < q /\ Rabs (n / q - r) <= (A + N * B) / (1 - B).
Proof.
  intros PQ Hn Hq Hr HB PN. assert (Pq : (1 - B) * Q <= q) by (apply abs_between in Hq; lra). assert (Pq' : 0 < q) by (assert (0 < (1 - B) * Q) by (apply Rmult_lt_0_compat; lra); lra).
  split; [exact Pq'|]. replace (n / q - r) with ((n - r * q) / q) by (field; lra). unfold Rdiv. rewrite Rabs_mult, (Rabs_right (/ q)) by (apply Rle_ge, Rlt_le, Rinv_0_lt_compat, Pq').
  assert (H : Rabs (n - r * q) <= (A + N * B) * Q).
  { replace (n - r * q) with ((n - r * Q) + r * (Q - q)) by ring. eapply Rle_trans; [apply Rabs_triang|]. rewrite Rabs_mult, (Rabs_minus_sym Q q).
    assert (Rabs r * Rabs (q - Q) <= N * (B * Q)) by (apply Rmult_le_compat; auto using Rabs_pos). lra. }
  apply Rmult_le_reg_r with q; [exact Pq'|]. rewrite Rmult_assoc, Rinv_l, Rmult_1_r by lra. eapply Rle_trans; [exact H|].
  assert (P0 : 0 <= A + N * B). { assert (0 <= (A + N * B) * Q) by (eapply Rle_trans; [apply Rabs_pos|exact H]). apply Rmult_le_reg_r with Q; lra. }
  replace ((A + N * B) * Q) with ((A + N * B) * / (1 - B) * ((1 - B) * Q)) by (field; lra). apply Rmult_le_compat_l; [|exact Pq].
  apply Rmult_le_pos; [exact P0|]. apply Rlt_le, Rinv_0_lt_compat. lra.
Qed.

Lemma inner_vals (l : list f64) (f : R -> R) : inner (map f (vals l)) (map f (vals l)) = total (map (fun x => f (fval x) * f (fval x)) l).
Proof. unfold inner. induction l as [|x l IH]; [reflexivity|]. cbn [map combine fst snd]. rewrite !total_cons, IH. reflexivity. Qed.
Lemma centered_sum l : (0 < length l)%nat -> total (map (fun x => (fval x - mean_of (vals l)) / sd_of (vals l)) l) = 0.
Proof.
  intros L. unfold Rdiv. rewrite total_scale_r, total_minus, total_const. pose proof (mean_total (vals l) ltac:(rewrite map_length; exact L)) as H. rewrite map_length in H. rewrite H. ring.
Qed.


(** ** One normalised value *)
Lemma over_abs x c d : 0 < d -> Rabs x <= c * d -> Rabs (x / d) <= c.
Proof.
  intros D H. unfold Rdiv. rewrite Rabs_mult, (Rabs_right (/ d)) by (apply Rle_ge, Rlt_le, Rinv_0_lt_compat, D). apply Rmult_le_reg_r with d; [exact D|]. rewrite Rmult_assoc, Rinv_l by lra. lra.
Qed.
Lemma centered x m : bnd x 200 -> bnd m 221 -> bnd (fsub x m) 222 /\ Rabs (fval (fsub x m) - (fval x - fval m)) <= u * Rabs (fval x - fval m).
Proof.
  intros X Mm. split; [change 222%Z with (221 + 1)%Z; apply sub_bnd; auto; try lia; apply bnd_le with 200%Z; [lia|exact X]|].
  destruct (sub_err x m 222 (bnd_number _ _ X) (bnd_number _ _ Mm) ltac:(lia)) as (_ & E); [|exact E].
  change 222%Z with (221 + 1)%Z. rewrite bp_double. destruct X as (_ & X), Mm as (_ & Y). assert (bp 200 <= bp 221) by (apply bpow_le; lia).
  unfold Rminus. eapply Rle_trans; [apply Rabs_triang|]. rewrite Rabs_Ropp. lra.
Qed.
Lemma small_pow k l c : (k <= l)%Z -> c = bp l -> bp k <= c.
Proof. intros H ->. apply bpow_le, H. Qed.
(** the quotient of the exact values *)
Lemma ratio_err n s mu sg x eps : 0 < sg -> 0 < eps <= / 64 -> n = x -> Rabs (mu) <= eps * sg -> Rabs (s - sg) <= eps * sg ->
  0 < s /\ Rabs ((n + mu) / s - n / sg) <= 1016 / 1000 * eps * (1 + Rabs (n / sg)).
Proof.
  intros P He _ Hm Hs. set (t := n / sg). assert (T : n = t * sg) by (unfold t; field; lra).
  destruct (quotient_close (n + mu) s (Rabs t) sg eps eps t P) as (Ps & Q); auto using Rle_refl, Rabs_pos; try lra.
  { replace (n + mu - t * sg) with mu by (rewrite T; ring). exact Hm. }
  split; [exact Ps|]. eapply Rle_trans; [exact Q|]. apply Rmult_le_reg_r with (1 - eps); [lra|]. unfold Rdiv at 1. rewrite Rmult_assoc, Rinv_l by lra. rewrite Rmult_1_r.
  pose proof (Rabs_pos t) as PT. set (q := eps * (1 + Rabs t)). assert (PQ : 0 <= q) by (apply Rmult_le_pos; lra).
  replace (eps + Rabs t * eps) with q by (unfold q; ring). replace (1016 / 1000 * eps * (1 + Rabs t) * (1 - eps)) with (1016 / 1000 * q * (1 - eps)) by (unfold q; ring).
  assert (q * eps <= q * / 64) by (apply Rmult_le_compat_l; lra). lra.
Qed.
Lemma normal_err x m s mu sg eps : bnd x 200 -> bnd m 221 -> bnd s 228 -> bp (-15) <= fval s -> 0 < sg -> 0 < eps <= / 64 -> u <= eps / 17 ->
  Rabs (fval m - mu) <= eps * sg -> Rabs (fval s - sg) <= eps * sg ->
  bnd (fdiv (fsub x m) s) 237 /\
  Rabs (fval (fdiv (fsub x m) s) - (fval x - mu) / sg) <= 115 / 100 * eps * (1 + Rabs ((fval x - mu) / sg)).
Proof.
  intros X Mm S G P He UE Cm Cs. destruct (centered x m X Mm) as (B1 & E1). pose proof (bpow_gt_0 radix2 (-15)) as P15. pose proof u_pos as UP.
  split. { change 237%Z with (222 - -15)%Z. apply div_bnd; try lia; [exact B1|apply S|]. rewrite Rabs_right; lra. }
  destruct (ratio_err (fval x - mu) (fval s) (mu - fval m) sg (fval x - mu) eps P He eq_refl) as (Ps & R); [rewrite Rabs_minus_sym; exact Cm|exact Cs|].
  replace (fval x - mu + (mu - fval m)) with (fval x - fval m) in R by ring. set (t := (fval x - mu) / sg) in *. set (r := (fval x - fval m) / fval s) in *. set (r' := fval (fsub x m) / fval s).
  assert (E2 : Rabs (r' - r) <= u * Rabs r).
  { unfold r', r. replace (fval (fsub x m) / fval s - (fval x - fval m) / fval s) with ((fval (fsub x m) - (fval x - fval m)) / fval s) by (field; lra). apply over_abs; [exact Ps|].
    eapply Rle_trans; [exact E1|]. apply Req_le. unfold Rdiv. rewrite Rabs_mult, (Rabs_right (/ fval s)) by (apply Rle_ge, Rlt_le, Rinv_0_lt_compat, Ps). field. lra. }
  assert (B2 : Rabs r' <= (1 + u) * Rabs r) by (replace r' with ((r' - r) + r) by ring; eapply Rle_trans; [apply Rabs_triang|]; lra).
  destruct (div_err (fsub x m) s 237 (bnd_number _ _ B1) (bnd_number _ _ S) ltac:(lra) ltac:(lia)) as (_ & E3).
  { fold r'. unfold r'. apply over_abs; [exact Ps|]. change 237%Z with (222 + 15)%Z. rewrite bpow_plus. destruct B1 as (_ & B1). apply Rle_trans with (bp 222 * bp 15 * bp (-15)).
    - rewrite Rmult_assoc, <- (bpow_plus radix2 15). change (15 + -15)%Z with 0%Z. change (bp 0) with 1. lra.
    - apply Rmult_le_compat_l; [apply Rmult_le_pos; apply bpow_ge_0|exact G]. }
  fold r' in E3. assert (B3 : Rabs r <= Rabs t + 1016 / 1000 * eps * (1 + Rabs t)) by (replace r with ((r - t) + t) by ring; eapply Rle_trans; [apply Rabs_triang|]; lra).
  set (q := 1 + Rabs t) in *. pose proof (Rabs_pos t) as PT. assert (PQ : 1 <= q) by (unfold q; lra).
  assert (B4 : Rabs r <= 102 / 100 * q) by (assert (eps * q <= / 64 * q) by (apply Rmult_le_compat_r; lra); unfold q in *; lra).
  assert (US : u <= / 1024) by apply u_small.
  assert (B5 : u * Rabs r' <= u * (103 / 100 * q)).
  { apply Rmult_le_compat_l; [lra|]. eapply Rle_trans; [exact B2|]. apply Rle_trans with ((1 + / 1024) * (102 / 100 * q)); [apply Rmult_le_compat; auto using Rabs_pos; lra|lra]. }
  assert (B6 : u * Rabs r <= u * (102 / 100 * q)) by (apply Rmult_le_compat_l; lra).
  assert (TU : tiny <= u / 16) by (apply (small_pow (-1075) (-57)); [lia|]; change (-57)%Z with (-53 + -4)%Z; rewrite bpow_plus; reflexivity).
  replace (fval (fdiv (fsub x m) s) - t) with ((fval (fdiv (fsub x m) s) - r') + ((r' - r) + (r - t))) by ring. eapply Rle_trans; [apply Rabs_triang|]. eapply Rle_trans; [apply Rplus_le_compat_l, Rabs_triang|].
  assert (u * q <= eps / 17 * q) by (apply Rmult_le_compat_r; lra). assert (u / 16 * 1 <= u / 16 * q) by (apply Rmult_le_compat_l; lra). lra.
Qed.
(** the difference of two normalised values *)
Lemma diff_err c d t v eps : bnd c 237 -> bnd d 237 -> 0 < eps <= / 64 -> u <= eps / 17 ->
  Rabs (fval c - t) <= 115 / 100 * eps * (1 + Rabs t) -> Rabs (fval d - v) <= 115 / 100 * eps * (1 + Rabs v) ->
  bnd (fsub c d) 238 /\ Rabs (fval (fsub c d) - (t - v)) <= 14 / 10 * eps * (2 + Rabs t + Rabs v).
Proof.
  intros C D He UE Et Ev. assert (B1 : bnd (fsub c d) 238) by (change 238%Z with (237 + 1)%Z; apply sub_bnd; auto; lia). split; [exact B1|].
  destruct (sub_err c d 238 (bnd_number _ _ C) (bnd_number _ _ D) ltac:(lia)) as (_ & E).
  { change 238%Z with (237 + 1)%Z. rewrite bp_double. destruct C as (_ & C), D as (_ & D). unfold Rminus. eapply Rle_trans; [apply Rabs_triang|]. rewrite Rabs_Ropp. lra. }
  pose proof (Rabs_pos t) as PT. pose proof (Rabs_pos v) as PV. pose proof u_pos as UP. set (q := 2 + Rabs t + Rabs v) in *. assert (PQ : 2 <= q) by (unfold q; lra).
  assert (E1 : Rabs (fval c - fval d - (t - v)) <= 115 / 100 * eps * q).
  { replace (fval c - fval d - (t - v)) with ((fval c - t) - (fval d - v)) by ring. unfold Rminus at 1. eapply Rle_trans; [apply Rabs_triang|]. rewrite Rabs_Ropp. unfold q. lra. }
  assert (E2 : Rabs (fval c - fval d) <= 2 * q).
  { replace (fval c - fval d) with ((fval c - fval d - (t - v)) + (t - v)) by ring. eapply Rle_trans; [apply Rabs_triang|].
    assert (Rabs (t - v) <= q) by (unfold Rminus; eapply Rle_trans; [apply Rabs_triang|]; rewrite Rabs_Ropp; unfold q; lra). assert (eps * q <= / 64 * q) by (apply Rmult_le_compat_r; unfold q; lra). lra. }
  replace (fval (fsub c d) - (t - v)) with ((fval (fsub c d) - (fval c - fval d)) + (fval c - fval d - (t - v))) by ring. eapply Rle_trans; [apply Rabs_triang|].
  assert (u * Rabs (fval c - fval d) <= eps / 17 * (2 * q)) by (apply Rmult_le_compat; auto using Rabs_pos; lra). assert (0 <= eps * q) by (apply Rmult_le_pos; unfold q; lra). lra.
Qed.

(** ** The difference before it is divided by the deviations *)
Lemma cross_err x y p q K k l : bnd x k -> bnd y k -> bnd p l -> bnd q l -> (0 <= k)%Z -> (0 <= l)%Z -> (k + l <= 900)%Z ->
  bp (-15) <= fval p -> bp (-15) <= fval q -> bp (-15) <= K -> Rabs (fval x) <= K -> Rabs (fval y) <= K ->
  let d := fsub (fmul x p) (fmul y q) in let P := K * (fval p + fval q) in
  bnd d (k + l + 1) /\ Rabs (fval d - (fval x * fval p - fval y * fval q)) <= 201 / 100 * u * P /\ Rabs (fval d) <= 101 / 100 * P.
Proof.
  intros X Y Bp Bq Hk Hl Hkl Gp Gq GK Kx Ky. cbv zeta. pose proof (bpow_gt_0 radix2 (-15)) as P15. pose proof u_pos as UP. pose proof u_small as US. set (P := K * (fval p + fval q)).
  assert (TU : tiny <= u / 1024 * (K * fval p) /\ tiny <= u / 1024 * (K * fval q)).
  { assert (Q : forall r, bp (-15) <= r -> tiny <= u / 1024 * (K * r)).
    { intros r Hr. apply Rle_trans with (u / 1024 * (bp (-15) * bp (-15))).
      - apply (small_pow (-1075) (-93)); [lia|]. change (-93)%Z with (-53 + -10 + (-15 + -15))%Z. rewrite !bpow_plus. reflexivity.
      - apply Rmult_le_compat_l; [lra|]. apply Rmult_le_compat; lra. }
    split; apply Q; assumption. }
  destruct TU as (T1 & T2).
  assert (M1 : bnd (fmul x p) (k + l)) by (apply mul_bnd; auto; lia). assert (M2 : bnd (fmul y q) (k + l)) by (apply mul_bnd; auto; lia).
  assert (D : bnd (fsub (fmul x p) (fmul y q)) (k + l + 1)) by (apply sub_bnd; auto; lia). split; [exact D|].
  assert (Q : forall v r, bnd v k -> bnd r l -> bp (-15) <= fval r -> Rabs (fval v) <= K -> tiny <= u / 1024 * (K * fval r) ->
    Rabs (fval (fmul v r) - fval v * fval r) <= 1001 / 1000 * u * (K * fval r) /\ Rabs (fval (fmul v r)) <= 1001 / 1000 * (K * fval r)).
  { intros v r Bv Br Gr Kv T. destruct (mul_err v r (k + l) (bnd_number _ _ Bv) (bnd_number _ _ Br) ltac:(lia)) as (_ & E).
    { rewrite bpow_plus, Rabs_mult. apply Rmult_le_compat; auto using Rabs_pos; [apply Bv|apply Br]. }
    assert (A : Rabs (fval v * fval r) <= K * fval r) by (rewrite Rabs_mult, (Rabs_right (fval r)) by lra; apply Rmult_le_compat_r; lra).
    assert (PK : 0 <= K * fval r) by (apply Rmult_le_pos; lra).
    assert (E' : Rabs (fval (fmul v r) - fval v * fval r) <= 1001 / 1000 * u * (K * fval r)).
    { eapply Rle_trans; [exact E|]. assert (u * Rabs (fval v * fval r) <= u * (K * fval r)) by (apply Rmult_le_compat_l; lra). assert (0 <= u * (K * fval r)) by (apply Rmult_le_pos; lra). lra. }
    split; [exact E'|]. replace (fval (fmul v r)) with ((fval (fmul v r) - fval v * fval r) + fval v * fval r) by ring. eapply Rle_trans; [apply Rabs_triang|].
    assert (u * (K * fval r) <= / 1024 * (K * fval r)) by (apply Rmult_le_compat_r; lra).
    assert (0 <= u * (K * fval r)) by (apply Rmult_le_pos; lra). lra. }
  destruct (Q x p X Bp Gp Kx T1) as (E1 & A1). destruct (Q y q Y Bq Gq Ky T2) as (E2 & A2). clear Q.
  destruct (sub_err (fmul x p) (fmul y q) (k + l + 1) (bnd_number _ _ M1) (bnd_number _ _ M2) ltac:(lia)) as (_ & E3).
  { rewrite bp_double. destruct M1 as (_ & M1), M2 as (_ & M2). unfold Rminus. eapply Rle_trans; [apply Rabs_triang|]. rewrite Rabs_Ropp. lra. }
  assert (A3 : Rabs (fval (fmul x p) - fval (fmul y q)) <= 1001 / 1000 * P) by (unfold Rminus; eapply Rle_trans; [apply Rabs_triang|]; rewrite Rabs_Ropp; unfold P; lra).
  assert (PP : 0 <= P) by (apply Rmult_le_pos; lra). assert (PU : 0 <= u * P) by (apply Rmult_le_pos; lra). assert (UU : u * P <= / 1024 * P) by (apply Rmult_le_compat_r; lra).
  assert (A4 : u * Rabs (fval (fmul x p) - fval (fmul y q)) <= u * (1001 / 1000 * P)) by (apply Rmult_le_compat_l; lra). split.
  - match goal with |- Rabs (?d - (?s - ?t)) <= _ => replace (d - (s - t)) with ((d - (fval (fmul x p) - fval (fmul y q))) + ((fval (fmul x p) - s) - (fval (fmul y q) - t))) by ring end.
    eapply Rle_trans; [apply Rabs_triang|]. unfold Rminus at 3. eapply Rle_trans; [apply Rplus_le_compat_l, Rabs_triang|]. rewrite Rabs_Ropp. unfold P in *. lra.
  - match goal with |- Rabs ?d <= _ => replace d with ((d - (fval (fmul x p) - fval (fmul y q))) + (fval (fmul x p) - fval (fmul y q))) by ring end.
    eapply Rle_trans; [apply Rabs_triang|]. lra.
Qed.
(** [x sb - y sa - (ma sb - mb sa)], divided by [sa sb] *)
Definition cross (ma sa mb sb x y : f64) : f64 := fsub (fsub (fmul x sb) (fmul y sa)) (fsub (fmul ma sb) (fmul mb sa)).
Lemma cross_close x y ma sa mb sb mua al mub be M eps : bnd x 200 -> bnd y 200 -> bnd ma 221 -> bnd mb 221 -> bnd sa 228 -> bnd sb 228 ->
  bp (-15) <= fval sa -> bp (-15) <= fval sb -> bp (-15) <= M -> Rabs (fval x) <= M -> Rabs (fval y) <= M -> Rabs (fval ma) <= 102 / 100 * M -> Rabs (fval mb) <= 102 / 100 * M ->
  0 < al -> 0 < be -> 0 < eps <= / 64 -> Rabs (fval ma - mua) <= eps * al -> Rabs (fval mb - mub) <= eps * be -> Rabs (fval sa - al) <= eps * al -> Rabs (fval sb - be) <= eps * be ->
  17 * (u * M) <= eps * al -> 17 * (u * M) <= eps * be ->
  bnd (cross ma sa mb sb x y) 451 /\
  Rabs (fval (cross ma sa mb sb x y) / (fval sa * fval sb) - ((fval x - mua) / al - (fval y - mub) / be)) <= 14 / 10 * eps * (2 + Rabs ((fval x - mua) / al) + Rabs ((fval y - mub) / be)).
Proof.
  intros X Y Ma Mb Sa Sb Ga Gb GM Kx Ky Kma Kmb Pa Pb He Cma Cmb Csa Csb Ra Rb. pose proof (bpow_gt_0 radix2 (-15)) as P15. pose proof u_pos as UP. pose proof u_small as US. unfold cross.
  destruct (cross_err x y sb sa M 200 228 X Y Sb Sa ltac:(lia) ltac:(lia) ltac:(lia) Gb Ga GM Kx Ky) as (B1 & E1 & A1).
  destruct (cross_err ma mb sb sa (102 / 100 * M) 221 228 Ma Mb Sb Sa ltac:(lia) ltac:(lia) ltac:(lia) Gb Ga ltac:(lra) Kma Kmb) as (B2 & E2 & A2). cbv zeta in *.
  set (d := fsub (fmul x sb) (fmul y sa)) in *. set (off := fsub (fmul ma sb) (fmul mb sa)) in *. set (P := M * (fval sb + fval sa)). replace (102 / 100 * M * (fval sb + fval sa)) with (102 / 100 * P) in * by (unfold P; ring). fold P in E1, A1.
  change (200 + 228 + 1)%Z with 429%Z in B1. change (221 + 228 + 1)%Z with 450%Z in B2.
  split. { change 451%Z with (450 + 1)%Z. apply sub_bnd; try lia; [apply bnd_le with 429%Z; [lia|exact B1]|exact B2]. }
  assert (PP : 0 <= P) by (apply Rmult_le_pos; lra). assert (PU : 0 <= u * P) by (apply Rmult_le_pos; lra).
  assert (A3 : Rabs (fval d - fval off) <= 205 / 100 * P) by (unfold Rminus; eapply Rle_trans; [apply Rabs_triang|]; rewrite Rabs_Ropp; lra).
  destruct (sub_err d off 451 (bnd_number _ _ B1) (bnd_number _ _ B2) ltac:(lia)) as (_ & E3).
  { change 451%Z with (450 + 1)%Z. rewrite bp_double. assert (bp 429 <= bp 450) by (apply bpow_le; lia). destruct B1 as (_ & B1), B2 as (_ & B2). unfold Rminus. eapply Rle_trans; [apply Rabs_triang|]. rewrite Rabs_Ropp. lra. }
  set (D := (fval x - fval ma) * fval sb - (fval y - fval mb) * fval sa).
  assert (E4 : Rabs (fval (fsub d off) - D) <= 62 / 10 * (u * P)).
  { set (dx := fval x * fval sb - fval y * fval sa) in *. set (ox := fval ma * fval sb - fval mb * fval sa) in *.
    replace (fval (fsub d off) - D) with ((fval (fsub d off) - (fval d - fval off)) + ((fval d - dx) - (fval off - ox))) by (unfold D, dx, ox; ring).
    eapply Rle_trans; [apply Rabs_triang|]. unfold Rminus at 3. eapply Rle_trans; [apply Rplus_le_compat_l, Rabs_triang|]. rewrite Rabs_Ropp.
    assert (u * Rabs (fval d - fval off) <= u * (205 / 100 * P)) by (apply Rmult_le_compat_l; lra). lra. }
  destruct (ratio_err (fval x - mua) (fval sa) (mua - fval ma) al (fval x - mua) eps Pa He eq_refl) as (Psa & Rx); [rewrite Rabs_minus_sym; exact Cma|exact Csa|].
  destruct (ratio_err (fval y - mub) (fval sb) (mub - fval mb) be (fval y - mub) eps Pb He eq_refl) as (Psb & Ry); [rewrite Rabs_minus_sym; exact Cmb|exact Csb|].
  replace (fval x - mua + (mua - fval ma)) with (fval x - fval ma) in Rx by ring. replace (fval y - mub + (mub - fval mb)) with (fval y - fval mb) in Ry by ring.
  set (t := (fval x - mua) / al) in *. set (v := (fval y - mub) / be) in *. set (rx := (fval x - fval ma) / fval sa) in *. set (ry := (fval y - fval mb) / fval sb) in *.
  assert (PS : 0 < fval sa * fval sb) by (apply Rmult_lt_0_compat; assumption).
  assert (DE : D / (fval sa * fval sb) = rx - ry) by (unfold D, rx, ry; field; lra).
  assert (E5 : Rabs (fval (fsub d off) / (fval sa * fval sb) - (rx - ry)) <= 76 / 100 * eps).
  { rewrite <- DE. replace (fval (fsub d off) / (fval sa * fval sb) - D / (fval sa * fval sb)) with ((fval (fsub d off) - D) / (fval sa * fval sb)) by (field; lra).
    apply over_abs; [exact PS|]. eapply Rle_trans; [exact E4|]. apply abs_between in Csa. apply abs_between in Csb. unfold P.
    assert (La : u * M <= 6 / 100 * eps * fval sa) by (assert (eps * al <= eps * (1016 / 1000 * fval sa)) by (apply Rmult_le_compat_l; [lra|]; assert (eps * al <= / 64 * al) by (apply Rmult_le_compat_r; lra); lra); lra).
    assert (Lb : u * M <= 6 / 100 * eps * fval sb) by (assert (eps * be <= eps * (1016 / 1000 * fval sb)) by (apply Rmult_le_compat_l; [lra|]; assert (eps * be <= / 64 * be) by (apply Rmult_le_compat_r; lra); lra); lra).
    assert (u * M * fval sb <= 6 / 100 * eps * fval sa * fval sb) by (apply Rmult_le_compat_r; lra). assert (u * M * fval sa <= 6 / 100 * eps * fval sb * fval sa) by (apply Rmult_le_compat_r; lra).
    assert (0 <= eps * (fval sa * fval sb)) by (apply Rmult_le_pos; lra). lra. }
  pose proof (Rabs_pos t) as PT. pose proof (Rabs_pos v) as PV.
  match goal with |- Rabs (?f - (t - v)) <= _ => replace (f - (t - v)) with ((f - (rx - ry)) + ((rx - t) - (ry - v))) by ring end.
  eapply Rle_trans; [apply Rabs_triang|]. unfold Rminus at 3. eapply Rle_trans; [apply Rplus_le_compat_l, Rabs_triang|]. rewrite Rabs_Ropp.
  assert (0 <= eps * Rabs t) by (apply Rmult_le_pos; lra). assert (0 <= eps * Rabs v) by (apply Rmult_le_pos; lra). lra.
Qed.

(** ** The terms *)
Notation mini := (bp (-1000)).
Lemma square_err d : bnd d 451 -> bnd (fmul d d) 902 /\ Rabs (fval (fmul d d) - fval d * fval d) <= u * (fval d * fval d) + tiny.
Proof.
  intros D. split; [change 902%Z with (451 + 451)%Z; apply mul_bnd; auto; lia|].
  destruct (mul_err d d 902 (bnd_number _ _ D) (bnd_number _ _ D) ltac:(lia)) as (_ & E).
  { change 902%Z with (451 + 451)%Z. rewrite bpow_plus, Rabs_mult. apply Rmult_le_compat; auto using Rabs_pos; apply D. }
  rewrite (Rabs_right (fval d * fval d)) in E by (apply Rle_ge, Rle_0_sqr). exact E.
Qed.
Lemma mul_err_rel x y k : number x -> number y -> (-1074 <= k < 1024)%Z -> bp (-1022) <= fval x * fval y <= bp k ->
  number (fmul x y) /\ (1 - u) * (fval x * fval y) <= fval (fmul x y) <= (1 + u) * (fval x * fval y).
Proof.
  intros Nx Ny K (H1 & H2). pose proof (bpow_gt_0 radix2 (-1022)) as P. destruct (fmul_le x y (bp k) Nx Ny) as (N & V & _); [apply fmt_bpow; lia|apply bp_top; lia|rewrite Rabs_right; lra|].
  split; [exact N|]. rewrite V. apply within_rel; [|lra]. apply rel_err. rewrite Rabs_right; lra.
Qed.
Definition den (sa sb : f64) : f64 := fmul (fmul (fmul sa sb) sa) sb.
Lemma den_err4 sa sb : bnd sa 228 -> bnd sb 228 -> bp (-15) <= fval sa -> bp (-15) <= fval sb ->
  let Q := (fval sa * fval sb) * (fval sa * fval sb) in
  number (den sa sb) /\ Rabs (fval (den sa sb) - Q) <= 4 * u * Q /\ bp (-60) <= Q.
Proof.
  intros (Na & Sa) (Nb & Sb) Ga Gb. cbv zeta. pose proof (bpow_gt_0 radix2 (-15)) as P15. pose proof u_pos as UP. pose proof u_small as US. rewrite Rabs_right in Sa by lra. rewrite Rabs_right in Sb by lra.
  assert (P1 : bp (-30) <= fval sa * fval sb <= bp 456).
  { change (-30)%Z with (-15 + -15)%Z. change 456%Z with (228 + 228)%Z. rewrite !bpow_plus. split; apply Rmult_le_compat; lra. }
  assert (Z1 : 0 < bp (-30)) by apply bpow_gt_0. assert (Z2 : 0 < bp (-45)) by apply bpow_gt_0. assert (Z3 : 0 < bp (-60)) by apply bpow_gt_0.
  set (k := fval sa * fval sb) in *.
  assert (P2 : bp (-45) <= k * fval sa <= bp 684) by (change (-45)%Z with (-30 + -15)%Z; change 684%Z with (456 + 228)%Z; rewrite !bpow_plus; split; apply Rmult_le_compat; lra).
  assert (P3 : bp (-60) <= k * fval sa * fval sb <= bp 912) by (change (-60)%Z with (-45 + -15)%Z; change 912%Z with (684 + 228)%Z; rewrite !bpow_plus; split; apply Rmult_le_compat; lra).
  assert (L : forall m n, (m <= n)%Z -> bp m <= bp n) by (intros; apply bpow_le; assumption).
  destruct (mul_err_rel sa sb 456 Na Nb ltac:(lia)) as (N1 & E1); [fold k; pose proof (L (-1022)%Z (-30)%Z ltac:(lia)); lra|]. fold k in E1. set (q1 := fval (fmul sa sb)) in *.
  assert (Q1 : (1 - u) * (k * fval sa) <= q1 * fval sa <= (1 + u) * (k * fval sa)) by (split; rewrite <- Rmult_assoc; apply Rmult_le_compat_r; lra).
  assert (H46 : 2 * bp (-46) = bp (-45)) by (rewrite <- bp_double; reflexivity). assert (H685 : bp 685 = 2 * bp 684) by (rewrite <- bp_double; reflexivity).
  assert (W1 : / 1024 * (k * fval sa) >= u * (k * fval sa)) by (apply Rle_ge, Rmult_le_compat_r; lra).
  destruct (mul_err_rel (fmul sa sb) sa 685 N1 Na ltac:(lia)) as (N2 & E2); [fold q1; pose proof (L (-1022)%Z (-46)%Z ltac:(lia)); lra|]. fold q1 in E2. set (q2 := fval (fmul (fmul sa sb) sa)) in *.
  assert (R2 : (1 - u) * ((1 - u) * (k * fval sa)) <= q2 <= (1 + u) * ((1 + u) * (k * fval sa))).
  { assert ((1 - u) * ((1 - u) * (k * fval sa)) <= (1 - u) * (q1 * fval sa)) by (apply Rmult_le_compat_l; lra). assert ((1 + u) * (q1 * fval sa) <= (1 + u) * ((1 + u) * (k * fval sa))) by (apply Rmult_le_compat_l; lra). lra. }
  set (Q := k * fval sa * fval sb) in *. assert (EQ : k * k = Q) by (unfold Q, k; ring).
  assert (Q2 : (1 - u) * ((1 - u) * Q) <= q2 * fval sb <= (1 + u) * ((1 + u) * Q)).
  { replace ((1 - u) * ((1 - u) * Q)) with ((1 - u) * ((1 - u) * (k * fval sa)) * fval sb) by (unfold Q; ring). replace ((1 + u) * ((1 + u) * Q)) with ((1 + u) * ((1 + u) * (k * fval sa)) * fval sb) by (unfold Q; ring).
    split; apply Rmult_le_compat_r; lra. }
  assert (H61 : 2 * bp (-61) = bp (-60)) by (rewrite <- bp_double; reflexivity). assert (H913 : bp 913 = 2 * bp 912) by (rewrite <- bp_double; reflexivity).
  assert (W2 : / 1024 * Q >= u * Q) by (apply Rle_ge, Rmult_le_compat_r; lra). assert (W3 : 0 <= u * (u * Q) <= / 1024 * (u * Q)) by (split; [repeat apply Rmult_le_pos; lra|apply Rmult_le_compat_r; [apply Rmult_le_pos|]; lra]).
  destruct (mul_err_rel (fmul (fmul sa sb) sa) sb 913 N2 Nb ltac:(lia)) as (N3 & E3); [fold q2; pose proof (L (-1022)%Z (-61)%Z ltac:(lia)); lra|]. fold q2 in E3. fold (den sa sb) in N3, E3.
  split; [exact N3|]. rewrite EQ. split; [|lra]. assert (W4 : 0 <= u * (u * (u * Q)) <= / 1024 * (u * (u * Q))) by (split; [repeat apply Rmult_le_pos; lra|apply Rmult_le_compat_r; lra]).
  assert ((1 - u) * ((1 - u) * ((1 - u) * Q)) <= (1 - u) * (q2 * fval sb)) by (apply Rmult_le_compat_l; lra). assert ((1 + u) * (q2 * fval sb) <= (1 + u) * ((1 + u) * ((1 + u) * Q))) by (apply Rmult_le_compat_l; lra).
  apply Rabs_le. lra.
Qed.

(** the squares of one chunk, added and divided *)
Lemma squares_sum z (l : list f64) : length l = 4%nat -> (forall d, In d l -> bnd d 451) ->
  let s := fsum z (map (fun d => fmul d d) l) in let F := total (map (fun d => fval d * fval d) l) in
  bnd s 904 /\ 0 <= F /\ Rabs (fval s - F) <= 51 / 10 * (u * F) + 5 * tiny.
Proof.
  intros L H. cbv zeta. set (ss := map (fun d => fmul d d) l). set (F := total _). pose proof u_pos as UP. pose proof u_small as US. pose proof tiny_pos as TP.
  assert (PF : 0 <= F) by (apply RealProofs.total_nonneg; intros; apply Rle_0_sqr).
  assert (Ls : length ss = 4%nat) by (unfold ss; rewrite map_length; exact L).
  assert (Bs : forall t, In t ss -> bnd t 902) by (intros t Ht; apply in_map_iff in Ht as (d & <- & Hd); apply square_err, H, Hd).
  destruct (fsum_bound z 902 ss ltac:(lia) ltac:(rewrite Ls; lia) Bs) as (N & R). rewrite Ls in R.
  split. { change 904%Z with (2 + 902)%Z. apply INR_bnd with (n := 4%nat); auto; lia. } split; [exact PF|].
  pose proof (fsum_grow z 902 ss ltac:(lia) ltac:(rewrite Ls; lia) Bs) as E. rewrite Ls in E.
  assert (E1 : Rabs (total (vals ss) - F) <= u * F + 4 * tiny).
  { unfold ss, F. rewrite map_map, <- total_minus. eapply Rle_trans; [apply (total_abs_le _ (fun d => u * (fval d * fval d) + tiny)); intros d Hd; apply square_err, H, Hd|].
    rewrite total_plus, total_scale, total_const, L. apply Req_le. cbn [INR]. ring. }
  assert (E2 : weight ss <= (1 + u) * F + 4 * tiny).
  { unfold weight, ss. rewrite map_map. eapply Rle_trans; [apply (total_le _ (fun d => (1 + u) * (fval d * fval d) + tiny))|].
    - intros d Hd. destruct (square_err d (H d Hd)) as (_ & E'). replace (fval (fmul d d)) with ((fval (fmul d d) - fval d * fval d) + fval d * fval d) by ring.
      eapply Rle_trans; [apply Rabs_triang|]. rewrite (Rabs_right (fval d * fval d)) by (apply Rle_ge, Rle_0_sqr). lra.
    - rewrite total_plus, total_scale, total_const, L. unfold F. cbn [INR]. lra. }
  assert (G4 : grow 4 <= 402 / 100 * u). { unfold grow. cbn [pow]. assert (u * u <= / 1024 * u) by (apply Rmult_le_compat_r; lra). assert (0 <= u * u) by (apply Rmult_le_pos; lra).
    assert (u * u * u <= / 1024 * (u * u)) by (rewrite Rmult_comm, <- Rmult_assoc; rewrite (Rmult_assoc u u u); replace (u * (u * u)) with ((u * u) * u) by ring; replace (/ 1024 * (u * u)) with ((u * u) * / 1024) by ring; apply Rmult_le_compat_l; lra).
    assert (u * u * u * u <= / 1024 * (u * u * u)) by (replace (/ 1024 * (u * u * u)) with ((u * u * u) * / 1024) by ring; apply Rmult_le_compat_l; [repeat apply Rmult_le_pos; lra|lra]). lra. }
  assert (UF : 0 <= u * F) by (apply Rmult_le_pos; lra). assert (UUF : u * (u * F) <= / 1024 * (u * F)) by (apply Rmult_le_compat_r; lra). assert (UT : u * tiny <= / 1024 * tiny) by (apply Rmult_le_compat_r; lra).
  assert (PW : 0 <= weight ss) by apply weight_nonneg.
  assert (E3 : grow 4 * weight ss <= 402 / 100 * u * ((1 + u) * F + 4 * tiny)) by (apply Rmult_le_compat; auto using grow_nonneg).
  replace (fval (fsum z ss) - F) with ((fval (fsum z ss) - total (vals ss)) + (total (vals ss) - F)) by ring. eapply Rle_trans; [apply Rabs_triang|]. lra.
Qed.
Lemma chunk_err z ma sa mb sb x y (k := fval sa * fval sb) : bnd sa 228 -> bnd sb 228 -> bp (-15) <= fval sa -> bp (-15) <= fval sb -> length x = 4%nat -> length y = 4%nat ->
  (forall p q, In p x -> In q y -> bnd (cross ma sa mb sb p q) 451) ->
  let E := total (map (fun p => fval (cross ma sa mb sb (fst p) (snd p)) / k * (fval (cross ma sa mb sb (fst p) (snd p)) / k)) (combine x y)) in
  0 <= E /\ number (fchunk_term z ma sa mb sb x y) /\ Rabs (fval (fchunk_term z ma sa mb sb x y) - E) <= 11 * (u * E) + mini.
Proof.
  intros Sa Sb Ga Gb Lx Ly H. cbv zeta. unfold k. clear k. set (E := total _). pose proof (bpow_gt_0 radix2 (-15)) as P15. pose proof u_pos as UP. pose proof u_small as US. pose proof tiny_pos as TP.
  assert (PE : 0 <= E) by (apply RealProofs.total_nonneg; intros; apply Rle_0_sqr). split; [exact PE|].
  set (ds := zip_with (cross ma sa mb sb) x y).
  assert (Lds : length ds = 4%nat) by (unfold ds; rewrite zip_length; congruence).
  assert (Hds : forall d, In d ds -> bnd d 451) by (intros d Hd; apply in_zip_with in Hd as (p & q & Hp & Hq & ->); auto).
  change (fchunk_term z ma sa mb sb x y) with (fdiv (fsum z (map (fun d => fmul d d) ds)) (den sa sb)).
  destruct (squares_sum z ds Lds Hds) as (Bs & PF & Es). cbv zeta in *. set (s := fsum z (map (fun d => fmul d d) ds)) in *. set (F := total (map (fun d => fval d * fval d) ds)) in *.
  destruct (den_err4 sa sb Sa Sb Ga Gb) as (Nd & Ed & GQ). cbv zeta in *. set (k := fval sa * fval sb) in *. set (Q := k * k) in *. set (q := fval (den sa sb)) in *.
  assert (P60 : 0 < bp (-60)) by apply bpow_gt_0. assert (PQ : 0 < Q) by lra. assert (Pk : k <> 0) by (intros C; unfold Q in PQ; rewrite C in PQ; lra).
  assert (EF : F = E * Q).
  { unfold F, ds, E, zip_with. rewrite map_map, <- total_scale_r. apply total_ext. intros p _. unfold Q. field. exact Pk. }
  destruct (quotient_close (fval s) q E Q (51 / 10 * (u * E) + 5 * tiny / Q) (4 * u) E PQ) as (Pq & Qe); try lra.
  { rewrite <- EF. eapply Rle_trans; [exact Es|]. rewrite EF. apply Req_le. field. lra. }
  { rewrite Rabs_right; lra. }
  assert (T1 : 5 * tiny / Q <= / 4 * mini).
  { apply Rmult_le_reg_r with Q; [exact PQ|]. replace (5 * tiny / Q * Q) with (5 * tiny) by (field; lra). apply Rle_trans with (/ 4 * mini * bp (-60)); [|apply Rmult_le_compat_l; [pose proof (bpow_gt_0 radix2 (-1000)); lra|lra]].
    apply Rle_trans with (bp 3 * tiny); [change (bp 3) with 8; lra|]. replace (/ 4) with (bp (-2)) by reflexivity. rewrite <- !bpow_plus. apply bpow_le. lia. }
  assert (PM : 0 < mini) by apply bpow_gt_0. assert (UE : 0 <= u * E) by (apply Rmult_le_pos; lra). assert (UUE : u * (u * E) <= / 1024 * (u * E)) by (apply Rmult_le_compat_r; lra).
  assert (UM : u * mini <= / 1024 * mini) by (apply Rmult_le_compat_r; lra). assert (UE1 : u * E <= / 1024 * E) by (apply Rmult_le_compat_r; lra).
  assert (Q2 : Rabs (fval s / q - E) <= 93 / 10 * (u * E) + / 3 * mini).
  { eapply Rle_trans; [exact Qe|]. apply Rmult_le_reg_r with (1 - 4 * u); [lra|]. unfold Rdiv at 1. rewrite Rmult_assoc, Rinv_l, Rmult_1_r by lra. lra. }
  assert (Q3 : Rabs (fval s / q) <= 102 / 100 * E + / 3 * mini) by (replace (fval s / q) with ((fval s / q - E) + E) by ring; eapply Rle_trans; [apply Rabs_triang|]; rewrite (Rabs_right E); lra).
  assert (Gq : bp (-61) <= q) by (apply abs_between in Ed; assert (2 * bp (-61) = bp (-60)) by (rewrite <- bp_double; reflexivity); assert (u * Q <= / 1024 * Q) by (apply Rmult_le_compat_r; lra); lra).
  assert (B : Rabs (fval s / q) <= bp 965).
  { apply over_abs; [exact Pq|]. eapply Rle_trans; [apply Bs|]. change 904%Z with (965 + -61)%Z. rewrite bpow_plus. apply Rmult_le_compat_l; [apply bpow_ge_0|exact Gq]. }
  destruct (div_err s (den sa sb) 965 (bnd_number _ _ Bs) Nd ltac:(fold q; lra) ltac:(lia) B) as (N & Ee). split; [exact N|]. fold q in Ee.
  assert (T2 : tiny <= / 8 * mini) by (replace (/ 8) with (bp (-3)) by reflexivity; rewrite <- bpow_plus; apply bpow_le; lia).
  replace (fval (fdiv s (den sa sb)) - E) with ((fval (fdiv s (den sa sb)) - fval s / q) + (fval s / q - E)) by ring. eapply Rle_trans; [apply Rabs_triang|].
  assert (u * Rabs (fval s / q) <= u * (102 / 100 * E + / 3 * mini)) by (apply Rmult_le_compat_l; lra). lra.
Qed.

(** ** Norms *)
Lemma norm_close {K} (e d r : K -> R) l : (forall k, In k l -> Rabs (e k - d k) <= r k) ->
  Rabs (sqrt (total (map (fun k => e k * e k) l)) - sqrt (total (map (fun k => d k * d k) l))) <= sqrt (total (map (fun k => r k * r k) l)).
Proof.
  intros H. set (D := sqrt (total (map (fun k => (e k - d k) * (e k - d k)) l))).
  assert (HD : D <= sqrt (total (map (fun k => r k * r k) l))).
  { apply sqrt_le_1_alt, total_le. intros k Hk. specialize (H k Hk). apply abs_between in H. nra. }
  assert (T1 : sqrt (total (map (fun k => e k * e k) l)) <= D + sqrt (total (map (fun k => d k * d k) l))).
  { pose proof (norm_triangle (fun k => e k - d k) d l) as N. fold D in N. rewrite (total_ext (fun x => (e x - d x + d x) * (e x - d x + d x)) (fun k => e k * e k)) in N by (intros; ring). exact N. }
  assert (T2 : sqrt (total (map (fun k => d k * d k) l)) <= D + sqrt (total (map (fun k => e k * e k) l))).
  { pose proof (norm_triangle (fun k => - (e k - d k)) e l) as N. rewrite (total_ext (fun x => (- (e x - d x) + e x) * (- (e x - d x) + e x)) (fun k => d k * d k)) in N by (intros; ring).
    rewrite (total_ext (fun x => - (e x - d x) * - (e x - d x)) (fun k => (e k - d k) * (e k - d k))) in N by (intros; ring). exact N. }
  apply Rabs_le. lra.
Qed.
Lemma spread_le {K} (x y : K -> R) (c W : R) l : total (map (fun k => x k * x k) l) = W -> total (map (fun k => y k * y k) l) = W -> INR (length l) = W -> 0 <= c ->
  sqrt (total (map (fun k => c * (2 + Rabs (x k) + Rabs (y k)) * (c * (2 + Rabs (x k) + Rabs (y k)))) l)) <= 4 * c * sqrt W.
Proof.
  intros X Y L C. assert (PW : 0 <= W) by (rewrite <- L; apply pos_INR). rewrite <- (sqrt_square (4 * c)) by lra. rewrite <- sqrt_mult_alt by nra. apply sqrt_le_1_alt.
  apply Rle_trans with (total (map (fun k => c * c * 4 * ((2 + x k * x k) + y k * y k)) l)).
  - apply total_le. intros k _. set (p := Rabs (x k)). set (q := Rabs (y k)). assert (EX : x k * x k = p * p) by (unfold p; rewrite <- Rabs_mult; symmetry; apply Rabs_right, Rle_ge, Rle_0_sqr).
    assert (EY : y k * y k = q * q) by (unfold q; rewrite <- Rabs_mult; symmetry; apply Rabs_right, Rle_ge, Rle_0_sqr). rewrite EX, EY.
    replace (c * (2 + p + q) * (c * (2 + p + q))) with (c * c * ((2 + p + q) * (2 + p + q))) by ring. rewrite (Rmult_assoc (c * c) 4). apply Rmult_le_compat_l; [apply Rle_0_sqr|].
    pose proof (Rle_0_sqr (p - 1)). pose proof (Rle_0_sqr (q - 1)). pose proof (Rle_0_sqr (p - q)). unfold Rsqr in *. lra.
  - rewrite total_scale, !total_plus, total_const, X, Y, L. apply Req_le. ring.
Qed.
