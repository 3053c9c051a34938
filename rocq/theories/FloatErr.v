(** Rounding errors of single operations, of sums and of means. *)
From Coq Require Import Reals Lra Lia Floats.SpecFloat.
From Flocq Require Import Core Relative Plus_error BinarySingleNaN.
From Verif Require Import Base F64 RSpec Iterator FpOps FloatSeries FloatProofs FloatRoll FloatBound FloatDist FloatDist2 FloatThr.
Local Open Scope R_scope.

Notation u := (bp (-53)).
Notation tiny := (bp (-1075)).
Lemma u_pos : 0 < u. Proof. apply bpow_gt_0. Qed.
Lemma tiny_pos : 0 < tiny. Proof. apply bpow_gt_0. Qed.
Lemma tiny_u k : (-1022 <= k)%Z -> tiny <= u * bp k.
Proof. intros K. rewrite <- bpow_plus. apply bpow_le. lia. Qed.

Lemma err_any x : Rabs (rnd x - x) <= u * Rabs x + tiny.
Proof.
  destruct (error_N_FLT radix2 (-1074) 53 ltac:(lia) (fun z => negb (Z.even z)) x) as (eps & eta & E1 & E2 & _ & E).
  change (- (53) + 1)%Z with (-52)%Z in E1. replace (/ 2 * bp (-52)) with u in E1 by (change (-52)%Z with (-53 + 1)%Z; rewrite bp_double; field).
  replace (/ 2 * bp (-1074)) with tiny in E2 by (change (-1074)%Z with (-1075 + 1)%Z; rewrite bp_double; field).
  change (rnd x) with (round radix2 (FLT_exp (-1074) 53) (Znearest (fun z => negb (Z.even z))) x). rewrite E.
  replace (x * (1 + eps) + eta - x) with (eps * x + eta) by ring. eapply Rle_trans; [apply Rabs_triang|]. apply Rplus_le_compat; [|exact E2].
  rewrite Rabs_mult. apply Rmult_le_compat_r; [apply Rabs_pos|exact E1].
Qed.
Lemma err_plus x y : fmt x -> fmt y -> Rabs (rnd (x + y) - (x + y)) <= u * Rabs (x + y).
Proof.
  intros X Y. destruct (Rle_lt_dec (bp (-1022)) (Rabs (x + y))) as [H|H]; [apply rel_err, H|].
  rewrite rnd_id.
  - unfold Rminus. rewrite Rplus_opp_r, Rabs_R0. apply Rmult_le_pos; [apply bpow_ge_0|apply Rabs_pos].
  - apply (FLT_format_plus_small radix2 (-1074) 53 x y X Y). apply Rlt_le. eapply Rlt_le_trans; [exact H|]. apply bpow_le. lia.
Qed.
Lemma err_minus x y : fmt x -> fmt y -> Rabs (rnd (x - y) - (x - y)) <= u * Rabs (x - y).
Proof. intros X Y. apply (err_plus x (- y)); [exact X|]. apply generic_format_opp, Y. Qed.

(** ** Operations on numbers that stay below [2^k] *)
Lemma add_err a b k : number a -> number b -> (-1074 <= k < 1024)%Z -> Rabs (fval a + fval b) <= bp k ->
  number (fadd a b) /\ Rabs (fval (fadd a b) - (fval a + fval b)) <= u * Rabs (fval a + fval b).
Proof.
  intros A B K H. destruct (fadd_le a b (bp k) A B) as (N & V & _); [apply fmt_bpow; lia|apply bp_top; lia|exact H|].
  split; [exact N|]. rewrite V. apply err_plus; apply fmt_val; [apply A|apply B].
Qed.
Lemma sub_err a b k : number a -> number b -> (-1074 <= k < 1024)%Z -> Rabs (fval a - fval b) <= bp k ->
  number (fsub a b) /\ Rabs (fval (fsub a b) - (fval a - fval b)) <= u * Rabs (fval a - fval b).
Proof.
  intros A B K H. destruct (fsub_le a b (bp k) A B) as (N & V & _); [apply fmt_bpow; lia|apply bp_top; lia|exact H|].
  split; [exact N|]. rewrite V. apply err_minus; apply fmt_val; [apply A|apply B].
Qed.
Lemma mul_err a b k : number a -> number b -> (-1074 <= k < 1024)%Z -> Rabs (fval a * fval b) <= bp k ->
  number (fmul a b) /\ Rabs (fval (fmul a b) - fval a * fval b) <= u * Rabs (fval a * fval b) + tiny.
Proof.
  intros A B K H. destruct (fmul_le a b (bp k) A B) as (N & V & _); [apply fmt_bpow; lia|apply bp_top; lia|exact H|].
  split; [exact N|]. rewrite V. apply err_any.
Qed.
Lemma div_err a b k : number a -> number b -> fval b <> 0 -> (-1074 <= k < 1024)%Z -> Rabs (fval a / fval b) <= bp k ->
  number (fdiv a b) /\ Rabs (fval (fdiv a b) - fval a / fval b) <= u * Rabs (fval a / fval b) + tiny.
Proof.
  intros A B Z K H. destruct (fdiv_le a b (bp k) A B Z) as (N & V & _); [apply fmt_bpow; lia|apply bp_top; lia|exact H|].
  split; [exact N|]. rewrite V. apply err_any.
Qed.
Lemma sqrt_err a : number a -> 0 <= fval a ->
  number (fsqrt64 a) /\ 0 <= fval (fsqrt64 a) /\ Rabs (fval (fsqrt64 a) - sqrt (fval a)) <= u * sqrt (fval a) + tiny.
Proof.
  intros A P. destruct (fsqrt_val a A P) as (N & V). split; [exact N|]. rewrite V. split; [rewrite <- rnd0 at 1; apply rnd_le, sqrt_pos|].
  pose proof (err_any (sqrt (fval a))) as E. rewrite (Rabs_right (sqrt _)) in E by (apply Rle_ge, sqrt_pos). exact E.
Qed.

(** ** Sums *)
Notation vals := (map fval).
Lemma total_cons x l : total (x :: l) = x + total l. Proof. reflexivity. Qed.
Lemma fold_err k l : (-1074 <= k <= 970)%Z -> forall n acc, number acc -> Rabs (fval acc) <= INR n * bp k ->
  (Z.of_nat (n + length l) <= 2 ^ 53)%Z -> (forall x, In x l -> bnd x k) ->
  Rabs (fval (fold_left fadd l acc) - (fval acc + total (vals l))) <= u * bp k * (INR (length l) * (2 * INR n + INR (length l) + 1) / 2).
Proof.
  intros K. induction l as [|x l IH]; intros n acc Na A L H.
  - cbn. replace (fval acc - (fval acc + 0)) with 0 by ring. rewrite Rabs_R0. lra.
  - cbn [fold_left map]. rewrite total_cons. destruct (H x (or_introl eq_refl)) as (Nx & X).
    assert (B : Rabs (fval acc + fval x) <= INR (S n) * bp k) by (eapply Rle_trans; [apply Rabs_triang|]; rewrite S_INR; lra).
    destruct (fold_bound k [x] K n acc Na A) as (N1 & B1); [cbn [length] in *; lia|intros y [<-|[]]; split; assumption|].
    cbn [fold_left length] in N1, B1. rewrite Nat.add_1_r in B1.
    assert (E : Rabs (fval (fadd acc x) - (fval acc + fval x)) <= u * Rabs (fval acc + fval x)).
    { apply (add_err acc x 1023); auto; try lia. eapply Rle_trans; [exact B|]. apply Rle_trans with (bp 53 * bp k).
      - apply Rmult_le_compat_r; [apply bpow_ge_0|]. rewrite INR_IZR_INZ. change (bp 53) with (IZR (2 ^ 53)). apply IZR_le. cbn [length] in L. lia.
      - rewrite <- bpow_plus. apply bpow_le. lia. }
    assert (E' : Rabs (fval (fadd acc x) - (fval acc + fval x)) <= u * bp k * INR (S n)).
    { eapply Rle_trans; [exact E|]. rewrite Rmult_assoc. apply Rmult_le_compat_l; [apply bpow_ge_0|]. lra. }
    specialize (IH (S n) (fadd acc x) N1 B1 ltac:(cbn [length] in L; lia) ltac:(intros; apply H; right; assumption)).
    replace (fval (fold_left fadd l (fadd acc x)) - (fval acc + (fval x + total (vals l))))
      with ((fval (fold_left fadd l (fadd acc x)) - (fval (fadd acc x) + total (vals l))) + (fval (fadd acc x) - (fval acc + fval x))) by ring.
    eapply Rle_trans; [apply Rabs_triang|]. eapply Rle_trans; [apply Rplus_le_compat; [exact IH|exact E']|].
    cbn [length]. rewrite !S_INR. apply Req_le. field.
Qed.
Lemma fsum_err z k l : (-1074 <= k <= 970)%Z -> (Z.of_nat (length l) <= 2 ^ 53)%Z -> (forall x, In x l -> bnd x k) ->
  Rabs (fval (fsum z l) - total (vals l)) <= u * bp k * (INR (length l) * (INR (length l) + 1) / 2).
Proof.
  intros K L H. unfold fsum. pose proof (fold_err k l K 0 (S754_zero (z_scalar z)) (zero_number _)) as E. cbn [fval SF2R INR Nat.add] in E.
  rewrite Rabs_R0, Rmult_0_l, Rplus_0_l, Rmult_0_r, Rplus_0_l in E. apply E; auto. lra.
Qed.

(** ** Real sums *)
Lemma total_abs l b : (forall x, In x l -> Rabs x <= b) -> Rabs (total l) <= INR (length l) * b.
Proof.
  induction l as [|x l IH]; intros H; [cbn; rewrite Rabs_R0; lra|]. rewrite total_cons. eapply Rle_trans; [apply Rabs_triang|].
  cbn [length]. rewrite S_INR. pose proof (H x (or_introl eq_refl)). specialize (IH ltac:(intros; apply H; right; assumption)). lra.
Qed.
Lemma mean_abs l b : l <> [] -> (forall x, In x l -> Rabs x <= b) -> Rabs (mean_of l) <= b.
Proof.
  intros N H. unfold mean_of. assert (P : 0 < INR (length l)) by (apply lt_0_INR; destruct l; [congruence|cbn; lia]).
  unfold Rdiv. rewrite Rabs_mult, (Rabs_right (/ INR (length l))) by (apply Rle_ge, Rlt_le, Rinv_0_lt_compat, P).
  apply Rmult_le_reg_r with (INR (length l)); [exact P|]. rewrite Rmult_assoc, Rinv_l by lra. pose proof (total_abs l b H). lra.
Qed.
