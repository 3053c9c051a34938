(** The collision probability in floating point. *)
From Coq Require Import Reals Lra Lia QArith Qreals Qabs Floats.SpecFloat.
From Coquelicot Require Import Coquelicot.
From Flocq Require Import Core Relative Sterbenz BinarySingleNaN.
From Verif Require Import Base F64 Series Iterator Collision CollisionProofs FpOps FloatProofs FloatBound FloatErr FloatTerm FloatProj PolyZ Gauss Erf ErfSpec ErfProofs ErfBound ErfLow ErfAll FloatErf FloatErfSpec FloatErfP FloatErfR FloatErfI.
Local Open Scope R_scope.

(** ** Relative errors, in units of [u] *)
Definition rel (k x X : R) : Prop := 0 < X /\ Rabs (x - X) <= k * u * X.
Lemma u_small : u <= / 1000000000. Proof. rewrite u53. lra. Qed.
Lemma rel_pos k x X : 0 <= k <= 1000 -> rel k x X -> X * (1 - k * u) <= x <= X * (1 + k * u) /\ 0 < x.
Proof.
  intros K (P & E). pose proof u_pos. pose proof u_small. apply Rabs_le_inv in E. split; [lra|]. assert (k * u * X <= 1000 * (/ 1000000000) * X) by (apply Rmult_le_compat_r; [lra|]; apply Rmult_le_compat; lra). lra.
Qed.
Lemma rel_refl x : 0 < x -> rel 0 x x.
Proof. intros P. split; [exact P|]. rewrite Rminus_diag_eq, Rabs_R0 by reflexivity. lra. Qed.
Lemma rel_weak a b x X : a <= b -> rel a x X -> rel b x X.
Proof. intros L (P & E). split; [exact P|]. eapply Rle_trans; [exact E|]. pose proof u_pos. apply Rmult_le_compat_r; [lra|]. apply Rmult_le_compat_r; lra. Qed.
Lemma rel_trans a b x y z : 0 <= a <= 30 -> 0 <= b <= 30 -> rel a x y -> rel b y z -> rel (a + b + / 100) x z.
Proof.
  intros A B (P & E) (P' & E'). pose proof u_pos as UP. pose proof u_small as US. split; [exact P'|]. apply Rabs_le_inv in E, E'.
  assert (H : a * u * y <= a * u * (z * (1 + b * u))) by (apply Rmult_le_compat_l; [apply Rmult_le_pos; lra|lra]).
  assert (a * (b * u) <= 30 * (30 * / 1000000000)) by (apply Rmult_le_compat; [lra|apply Rmult_le_pos; lra|lra|apply Rmult_le_compat; lra]).
  assert (I : a * (b * u) * (u * z) <= / 100 * (u * z)) by (apply Rmult_le_compat_r; [apply Rmult_le_pos; lra|lra]).
  apply Rabs_le. split; lra.
Qed.
Lemma rel_mul a b x y X Y : 0 <= a <= 30 -> 0 <= b <= 30 -> rel a x X -> rel b y Y -> rel (a + b + / 100) (x * y) (X * Y).
Proof.
  intros A B RX RY. assert (RX' := RX). assert (RY' := RY). destruct RX' as (P & E), RY' as (P' & E'). destruct (rel_pos b y Y ltac:(lra) RY) as (_ & Py).
  apply (rel_trans a b (x * y) (X * y) (X * Y)); try assumption.
  - split; [apply Rmult_lt_0_compat; assumption|]. rewrite <- Rmult_minus_distr_r, Rabs_mult, (Rabs_pos_eq y) by lra. rewrite <- Rmult_assoc. apply Rmult_le_compat_r; lra.
  - split; [apply Rmult_lt_0_compat; assumption|]. rewrite <- Rmult_minus_distr_l, Rabs_mult, (Rabs_pos_eq X) by lra. replace (b * u * (X * Y)) with (X * (b * u * Y)) by ring. apply Rmult_le_compat_l; lra.
Qed.
Lemma rel_inv b y Y : 0 <= b <= 29 -> rel b y Y -> rel (b + / 100) (/ y) (/ Y).
Proof.
  intros B RY. destruct (rel_pos b y Y ltac:(lra) RY) as (By & Py). destruct RY as (P & E). pose proof u_pos as UP. pose proof u_small as US. split; [apply Rinv_0_lt_compat, P|].
  replace (/ y - / Y) with (- ((y - Y) * (/ y * / Y))) by (field; lra). rewrite Rabs_Ropp, Rabs_mult, (Rabs_pos_eq (/ y * / Y)) by (apply Rmult_le_pos; left; apply Rinv_0_lt_compat; lra).
  apply Rle_trans with (b * u * Y * (/ y * / Y)); [apply Rmult_le_compat_r; [apply Rmult_le_pos; left; apply Rinv_0_lt_compat; lra|exact E]|].
  replace (b * u * Y * (/ y * / Y)) with (b * u * / y) by (field; lra).
  apply (Rmult_le_reg_r (y * Y)); [apply Rmult_lt_0_compat; lra|]. replace (b * u * / y * (y * Y)) with (u * (b * Y)) by (field; lra). replace ((b + / 100) * u * / Y * (y * Y)) with (u * ((b + / 100) * y)) by (field; lra).
  apply Rmult_le_compat_l; [lra|]. apply Rle_trans with ((b + / 100) * (Y * (1 - b * u))); [|apply Rmult_le_compat_l; lra].
  replace ((b + / 100) * (Y * (1 - b * u))) with (Y * ((b + / 100) * (1 - b * u))) by ring. rewrite (Rmult_comm b Y). apply Rmult_le_compat_l; [lra|].
  assert ((b + / 100) * (b * u) <= 30 * (29 * / 1000000000)) by (apply Rmult_le_compat; [lra|apply Rmult_le_pos; lra|lra|apply Rmult_le_compat; lra]). lra.
Qed.
Lemma rel_rnd k x X : 0 <= k <= 29 -> rel k x X -> bp (-1000) <= X -> rel (k + 11 / 10) (rnd x) X.
Proof.
  intros K R B. destruct (rel_pos k x X ltac:(lra) R) as (_ & Px). apply (rel_weak (1 + / 100 + k + / 100)); [lra|]. assert (R' := R). destruct R' as (P & E). pose proof u_pos as UP. pose proof u_small as US.
  apply (rel_trans (1 + / 100) k (rnd x) x X); [lra|lra| |exact R].
  split; [exact Px|]. eapply Rle_trans; [apply err_any|]. rewrite Rabs_pos_eq by lra.
  assert (T : tiny <= u * bp (-1010)) by (apply tiny_u; lia). assert (bp (-1010) <= / 1000 * bp (-1000)).
  { replace (bp (-1010)) with (bp (-10) * bp (-1000)) by (rewrite <- bpow_plus; reflexivity). apply Rmult_le_compat_r; [apply bpow_ge_0|]. change (bp (-10)) with (/ 1024). lra. }
  apply Rabs_le_inv in E. assert (k * u * X <= / 2 * X). { apply Rmult_le_compat_r; [lra|]. assert (k * u <= 30 * / 1000000000) by (apply Rmult_le_compat; lra). lra. }
  assert (u * bp (-1010) <= u * (/ 100 * x)) by (apply Rmult_le_compat_l; lra). lra.
Qed.
Lemma fmul_rel x y a b X Y : number x -> number y -> 0 <= a <= 14 -> 0 <= b <= 14 -> rel a (fval x) X -> rel b (fval y) Y -> bp (-1000) <= X * Y <= bp 1000 ->
  number (fmul x y) /\ rel (a + b + 12 / 10) (fval (fmul x y)) (X * Y).
Proof.
  intros Nx Ny A B RX RY R. pose proof (rel_mul a b _ _ _ _ ltac:(lra) ltac:(lra) RX RY) as RM. destruct (rel_pos (a + b + / 100) _ _ ltac:(lra) RM) as (BM & PM).
  destruct (fmul_le x y (bp 1001) Nx Ny) as (N & V & _); [apply fmt_bpow; lia|apply bp_top; lia| |].
  { rewrite Rabs_pos_eq by lra. replace (bp 1001) with (2 * bp 1000) by (change 2 with (bp 1); rewrite <- bpow_plus; reflexivity).
    pose proof u_pos as UP. pose proof u_small as US. pose proof (bpow_gt_0 radix2 1000). assert ((a + b + / 100) * u <= 30 * / 1000000000) by (apply Rmult_le_compat; lra). 
    apply Rle_trans with (X * Y * 2); [|lra]. eapply Rle_trans; [apply BM|]. apply Rmult_le_compat_l; [|lra]. destruct RM; lra. }
  split; [exact N|]. rewrite V. apply (rel_weak (a + b + / 100 + 11 / 10)); [lra|]. apply rel_rnd; [lra|exact RM|lra].
Qed.
Lemma fdiv_rel x y a b X Y : number x -> number y -> 0 <= a <= 14 -> 0 <= b <= 14 -> rel a (fval x) X -> rel b (fval y) Y -> bp (-1000) <= X / Y <= bp 1000 ->
  number (fdiv x y) /\ rel (a + b + 12 / 10) (fval (fdiv x y)) (X / Y).
Proof.
  intros Nx Ny A B RX RY R. pose proof (rel_mul a (b + / 100) _ _ _ _ ltac:(lra) ltac:(lra) RX (rel_inv b _ _ ltac:(lra) RY)) as RM. destruct (rel_pos (a + (b + / 100) + / 100) _ _ ltac:(lra) RM) as (BM & PM).
  fold (fval x / fval y) in *. fold (X / Y) in *. destruct (rel_pos b _ _ ltac:(lra) RY) as (_ & Py).
  destruct (fdiv_le x y (bp 1001) Nx Ny ltac:(lra)) as (N & V & _); [apply fmt_bpow; lia|apply bp_top; lia| |].
  { rewrite Rabs_pos_eq by lra. replace (bp 1001) with (2 * bp 1000) by (change 2 with (bp 1); rewrite <- bpow_plus; reflexivity).
    pose proof u_pos as UP. pose proof u_small as US. pose proof (bpow_gt_0 radix2 1000). assert ((a + (b + / 100) + / 100) * u <= 30 * / 1000000000) by (apply Rmult_le_compat; lra). 
    apply Rle_trans with (X / Y * 2); [|lra]. eapply Rle_trans; [apply BM|]. apply Rmult_le_compat_l; [|lra]. destruct RM; lra. }
  split; [exact N|]. rewrite V. apply (rel_weak (a + (b + / 100) + / 100 + 11 / 10)); [lra|]. apply rel_rnd; [lra|exact RM|lra].
Qed.
Lemma fsqrt_rel x a X : number x -> 0 <= a <= 14 -> rel a (fval x) X -> bp (-1000) <= sqrt X -> number (fsqrt64 x) /\ rel (a + 11 / 10) (fval (fsqrt64 x)) (sqrt X).
Proof.
  intros Nx A RX R. destruct (rel_pos a _ _ ltac:(lra) RX) as (_ & Px). destruct (fsqrt_val x Nx ltac:(lra)) as (N & V). split; [exact N|]. rewrite V. apply rel_rnd; [lra| |exact R].
  destruct RX as (P & E). pose proof (sqrt_lt_R0 X P) as SP. pose proof (sqrt_lt_R0 _ Px) as Sx. split; [exact SP|].
  assert (D : fval x - X = (sqrt (fval x) - sqrt X) * (sqrt (fval x) + sqrt X)). { pose proof (sqrt_sqrt X ltac:(lra)). pose proof (sqrt_sqrt (fval x) ltac:(lra)). set (s := sqrt X) in *. set (t := sqrt (fval x)) in *. lra. }
  rewrite D, Rabs_mult, (Rabs_pos_eq (sqrt (fval x) + sqrt X)) in E by lra. apply (Rmult_le_reg_r (sqrt X)); [exact SP|].
  apply Rle_trans with (Rabs (sqrt (fval x) - sqrt X) * (sqrt (fval x) + sqrt X)); [apply Rmult_le_compat_l; [apply Rabs_pos|lra]|]. eapply Rle_trans; [exact E|].
  rewrite (Rmult_assoc (a * u) (sqrt X)), sqrt_sqrt by lra. lra.
Qed.

(** ** The constants *)
Lemma lit_rel q k X : 0 <= k <= 14 -> / 2 <= X <= 100 -> rel k (Q2R q) X -> number (lit q) /\ rel (k + 11 / 10) (fval (lit q)) X.
Proof.
  intros K B R. destruct (rel_pos k _ _ ltac:(lra) R) as (BX & P). pose proof u_pos as UP. pose proof u_small as US. assert (k * u <= 14 * / 1000000000) by (apply Rmult_le_compat; lra).
  assert (M : Q2R q <= 128). { destruct BX as (_ & BX). eapply Rle_trans; [exact BX|]. apply Rle_trans with (100 * (1 + / 10)); [apply Rmult_le_compat; try lra|lra]. assert (0 <= k * u) by (apply Rmult_le_pos; lra). lra. }
  destruct (lit_val q) as (N & V). { rewrite Rabs_pos_eq by lra. apply Rle_trans with (bp 7); [exact M|apply bpow_le; lia]. }
  split; [exact N|]. rewrite V. apply rel_rnd; [lra|exact R|]. apply Rle_trans with (bp (-1)); [apply bpow_le; lia|change (bp (-1)) with (/ 2); lra].
Qed.
Lemma root2 : number (lit 1.41421356237309504880168872420969807856967187537694) /\ rel (12 / 10) (fval (lit 1.41421356237309504880168872420969807856967187537694)) (sqrt 2).
Proof.
  assert (S : 141421356237309504880168 / 10 ^ 23 <= sqrt 2 <= 141421356237309504880169 / 10 ^ 23).
  { split; [rewrite <- (sqrt_Rsqr (141421356237309504880168 / 10 ^ 23)) by lra|rewrite <- (sqrt_Rsqr (141421356237309504880169 / 10 ^ 23)) by lra]; apply sqrt_le_1_alt; unfold Rsqr; lra. }
  destruct (lit_rel 1.41421356237309504880168872420969807856967187537694 (/ 10) (sqrt 2)) as (N & R); [lra|lra| |split; [exact N|apply (rel_weak (/ 10 + 11 / 10)); [lra|exact R]]].
  split; [lra|]. rewrite u53. unfold Q2R. cbn [Qnum Qden]. apply Rabs_le. lra.
Qed.
Lemma PI_18 : 3.141592653589793238 <= PI <= 3.141592653589793239.
Proof.
  pose proof (PI_2_3_7_ineq 11) as [A B].
  unfold PI_2_3_7_tg, tg_alt, Ratan_seq in A, B.
  cbn [sum_f_R0 Nat.mul Nat.add] in A, B.
  repeat rewrite INR_IZR_INZ in A; repeat rewrite INR_IZR_INZ in B. cbn [Z.of_nat Pos.of_succ_nat Pos.succ] in A, B.
  cbn [pow] in A, B.
  split; lra.
Qed.
Lemma pi_lit : number (lit 3.14159265358979323846264338327950288419716939937510) /\ rel (12 / 10) (fval (lit 3.14159265358979323846264338327950288419716939937510)) PI.
Proof.
  pose proof PI_18 as S. destruct (lit_rel 3.14159265358979323846264338327950288419716939937510 (/ 10) PI) as (N & R); [lra|lra| |split; [exact N|apply (rel_weak (/ 10 + 11 / 10)); [lra|exact R]]].
  split; [lra|]. rewrite u53. unfold Q2R. cbn [Qnum Qden]. apply Rabs_le. lra.
Qed.
