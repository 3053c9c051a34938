(** Sizes: no overflow for series of moderate values. *)
From Coq Require Import Reals Lra Lia Floats.SpecFloat.
From Flocq Require Import Core BinarySingleNaN.
From Verif Require Import Base F64 Iterator F64Arith FpOps FloatSeries FloatProofs FloatRoll.
Local Open Scope R_scope.

Notation bp := (bpow radix2).

(** a number of absolute value at most [2^k] *)
Definition bnd (x : f64) (k : Z) : Prop := number x /\ Rabs (fval x) <= bp k.
Lemma bnd_number x k : bnd x k -> number x. Proof. intros H; apply H. Qed.
Lemma bp_top k : (k < 1024)%Z -> bp k < top.
Proof. intros H. apply bpow_lt. exact H. Qed.
Lemma bnd_le x k l : (k <= l)%Z -> bnd x k -> bnd x l.
Proof. intros L (N & H). split; [exact N|]. eapply Rle_trans; [exact H|]. apply bpow_le, L. Qed.
Lemma bp_double k : bp (k + 1) = 2 * bp k.
Proof. rewrite bpow_plus. change (bp 1) with 2. ring. Qed.
Lemma add_bnd a b k : bnd a k -> bnd b k -> (-1074 <= k)%Z -> (k < 1023)%Z -> bnd (fadd a b) (k + 1).
Proof.
  intros (Na & A) (Nb & B) K1 K2.
  destruct (fadd_le a b (bp (k + 1)) Na Nb) as (N & _ & L); [apply fmt_bpow; lia|apply bp_top; lia| |split; assumption].
  eapply Rle_trans; [apply Rabs_triang|]. rewrite bp_double. lra.
Qed.
Lemma sub_bnd a b k : bnd a k -> bnd b k -> (-1074 <= k)%Z -> (k < 1023)%Z -> bnd (fsub a b) (k + 1).
Proof.
  intros (Na & A) (Nb & B) K1 K2.
  destruct (fsub_le a b (bp (k + 1)) Na Nb) as (N & _ & L); [apply fmt_bpow; lia|apply bp_top; lia| |split; assumption].
  unfold Rminus. eapply Rle_trans; [apply Rabs_triang|]. rewrite Rabs_Ropp, bp_double. lra.
Qed.
Lemma mul_bnd a b k l : bnd a k -> bnd b l -> (-1074 <= k + l)%Z -> (k + l < 1024)%Z -> bnd (fmul a b) (k + l).
Proof.
  intros (Na & A) (Nb & B) K1 K2.
  destruct (fmul_le a b (bp (k + l)) Na Nb) as (N & _ & L); [apply fmt_bpow; lia|apply bp_top; lia| |split; assumption].
  rewrite Rabs_mult, bpow_plus. apply Rmult_le_compat; auto using Rabs_pos.
Qed.
Lemma div_bnd a b k l : bnd a k -> number b -> bp l <= Rabs (fval b) -> (-1074 <= k - l)%Z -> (k - l < 1024)%Z -> bnd (fdiv a b) (k - l).
Proof.
  intros (Na & A) Nb B K1 K2. pose proof (bpow_gt_0 radix2 l) as P.
  assert (Z : fval b <> 0) by (intros E; rewrite E, Rabs_R0 in B; lra).
  destruct (fdiv_le a b (bp (k - l)) Na Nb Z) as (N & _ & L); [apply fmt_bpow; lia|apply bp_top; lia| |split; assumption].
  unfold Rdiv. rewrite Rabs_mult, Rabs_inv. unfold Zminus. rewrite bpow_plus, bpow_opp.
  apply Rmult_le_compat; auto using Rabs_pos. apply Rlt_le, Rinv_0_lt_compat. lra. apply Rinv_le_contravar; lra.
Qed.
Lemma sqrt_bnd a k : bnd a (2 * k) -> 0 <= fval a -> (-1074 <= k)%Z -> bnd (fsqrt64 a) k /\ 0 <= fval (fsqrt64 a).
Proof.
  intros (Na & A) P K. destruct (fsqrt_val a Na P) as (N & E). pose proof (bpow_ge_0 radix2 k) as Pk.
  assert (H : rnd (sqrt (fval a)) <= bp k).
  { apply rnd_le_fmt; [apply fmt_bpow, K|]. rewrite <- (sqrt_square (bp k)) by exact Pk. apply sqrt_le_1_alt.
    rewrite <- bpow_plus. replace (k + k)%Z with (2 * k)%Z by lia. rewrite Rabs_right in A by lra. exact A. }
  assert (H0 : 0 <= rnd (sqrt (fval a))) by (rewrite <- rnd0; apply rnd_le, sqrt_pos).
  rewrite E. split; [split; [exact N|rewrite E, Rabs_right by lra; exact H]|exact H0].
Qed.
Lemma sign_val x : is_f64 x -> is_sign_negative x = false -> 0 <= fval x.
Proof.
  intros _ S. unfold fval. destruct x as [s|s| |[] m e]; cbn [SF2R]; try lra; [discriminate S|].
  apply F2R_ge_0. cbn. lia.
Qed.

(** sums: [n] terms of size [2^k] *)
Lemma fold_bound k l : (-1074 <= k <= 970)%Z -> forall n acc, number acc -> Rabs (fval acc) <= INR n * bp k ->
  (Z.of_nat (n + length l) <= 2 ^ 53)%Z -> (forall x, In x l -> bnd x k) ->
  number (fold_left fadd l acc) /\ Rabs (fval (fold_left fadd l acc)) <= INR (n + length l) * bp k.
Proof.
  intros K. induction l as [|x l IH]; intros n acc Na A L H; cbn [fold_left length] in *; [rewrite Nat.add_0_r; auto|].
  destruct (H x (or_introl eq_refl)) as (Nx & X).
  assert (B : Rabs (fval acc + fval x) <= INR (S n) * bp k).
  { eapply Rle_trans; [apply Rabs_triang|]. rewrite S_INR. lra. }
  destruct (fadd_le acc x (INR (S n) * bp k) Na Nx) as (N & _ & R); [| |exact B|].
  - rewrite INR_IZR_INZ. apply fmt_int; lia.
  - apply Rle_lt_trans with (bp (53 + k)); [|apply bp_top; lia]. rewrite bpow_plus. apply Rmult_le_compat_r; [apply bpow_ge_0|].
    rewrite INR_IZR_INZ. change (bp 53) with (IZR (2 ^ 53)). apply IZR_le. lia.
  - destruct (IH (S n) (fadd acc x) N R) as (R1 & R2); [lia|intros; apply H; right; assumption|].
    replace (n + S (length l))%nat with (S n + length l)%nat by lia. auto.
Qed.
Lemma zero_number s : number (S754_zero s). Proof. split; reflexivity. Qed.
Lemma fsum_bound z k l : (-1074 <= k <= 970)%Z -> (Z.of_nat (length l) <= 2 ^ 53)%Z -> (forall x, In x l -> bnd x k) ->
  number (fsum z l) /\ Rabs (fval (fsum z l)) <= INR (length l) * bp k.
Proof.
  intros K L H. unfold fsum. apply (fold_bound k l K 0); [apply zero_number| |exact L|exact H].
  cbn. rewrite Rabs_R0. lra.
Qed.

(** ** Rolling statistics *)
Section Stats.
  Variables (z : zeros) (ts : list f64) (w : nat) (e : Z).
  Hypothesis He : (-400 <= e <= 450)%Z.
  Hypothesis Lw : (1 <= w)%nat.
  Hypothesis Hw : (Z.of_nat w <= 2 ^ 52)%Z.
  Hypothesis Data : forall x, In x ts -> bnd x e.

  Lemma w_number : number (f_of_nat w) /\ fval (f_of_nat w) = INR w.
  Proof. apply of_nat_exact. lia. Qed.
  Lemma w_pos : 1 <= INR w.
  Proof. change 1 with (INR 1). apply le_INR, Lw. Qed.
  Lemma w_sign : is_sign_negative (f_of_nat w) = false.
  Proof. destruct (f_of_nat_pos w Lw ltac:(lia)) as (m & k & ->). reflexivity. Qed.
  Lemma div_w_bnd x k : (-1074 <= k < 1024)%Z -> bnd x k -> bnd (fdiv x (f_of_nat w)) k.
  Proof.
    intros K B. destruct w_number as (N & V). replace k with (k - 0)%Z by lia. apply div_bnd; auto; try lia.
    rewrite V. pose proof w_pos. rewrite Rabs_right by lra. exact w_pos.
  Qed.

  Lemma win_bnd i x : In x (win ts w i) -> bnd x e.
  Proof. intros H. apply Data. eapply win_incl; eauto. Qed.
  Lemma mean0_bnd i : (i + w <= length ts)%nat -> bnd (mean0 z ts w i) e.
  Proof.
    intros L. unfold mean0. destruct (fsum_bound z e (win ts w i)) as (N & B); [lia|rewrite win_length by exact L; lia|apply win_bnd|].
    rewrite win_length in B by exact L. destruct w_number as (Nw & Vw). pose proof w_pos as Pw.
    destruct (fdiv_le (fsum z (win ts w i)) (f_of_nat w) (bp e) N Nw) as (R1 & _ & R2);
      [rewrite Vw; lra|apply fmt_bpow; lia|apply bp_top; lia| |split; assumption].
    rewrite Vw. unfold Rdiv. rewrite Rabs_mult, Rabs_inv, (Rabs_right (INR w)) by lra.
    apply Rmult_le_reg_r with (INR w); [lra|]. rewrite Rmult_assoc, Rinv_l by lra. lra.
  Qed.
  Lemma squares_bnd i k m : (i + w <= length ts)%nat -> (e <= k <= 450)%Z -> bnd m k ->
    number (squares z (win ts w i) m) /\ is_sign_negative (squares z (win ts w i) m) = false /\
    Rabs (fval (squares z (win ts w i) m)) <= INR w * bp (2 * k + 2).
  Proof.
    intros L K M. unfold squares.
    assert (T : forall x, In x (map (fun x => let d := fsub x m in fmul d d) (win ts w i)) -> bnd x (2 * k + 2) /\ is_sign_negative x = false).
    { intros x H. apply in_map_iff in H as (y & <- & H). split; [|apply mul_self_sign].
      assert (D : bnd (fsub y m) (k + 1)) by (apply sub_bnd; auto; try lia; apply bnd_le with e; [lia|apply (win_bnd i), H]).
      replace (2 * k + 2)%Z with (k + 1 + (k + 1))%Z by lia. apply mul_bnd; auto; lia. }
    destruct (fsum_bound z (2 * k + 2) (map (fun x => let d := fsub x m in fmul d d) (win ts w i))) as (N & B);
      [lia|rewrite map_length, win_length by exact L; lia|intros x H; apply T, H|].
    rewrite map_length, win_length in B by exact L. split; [exact N|]. split; [|exact B].
    apply fsum_sign; [|intros x H; apply T, H]. intros E. apply map_eq_nil in E. apply (f_equal (@length _)) in E. rewrite win_length in E by exact L. cbn in E. lia.
  Qed.
  Lemma sd_from_bnd d : number d -> is_sign_negative d = false -> bnd d (2 * e + 55) -> bnd (sd_from w d) (e + 28) /\ 0 <= fval (sd_from w d) /\ is_sign_negative (sd_from w d) = false.
  Proof.
    intros N S B. unfold sd_from. assert (D : bnd (fdiv d (f_of_nat w)) (2 * e + 55)) by (apply div_w_bnd; [lia|exact B]).
    assert (Sd : is_sign_negative (fdiv d (f_of_nat w)) = false) by (apply fdiv_sign; [exact S|apply w_sign]).
    destruct (sqrt_bnd (fdiv d (f_of_nat w)) (e + 28)) as (R1 & R2); [apply bnd_le with (2 * e + 55)%Z; [lia|exact D]|apply sign_val; [apply D|exact Sd]|lia|].
    split; [exact R1|]. split; [exact R2|]. apply fsqrt_sign, Sd.
  Qed.

  Lemma elem_bnd i : (i < length ts)%nat -> bnd (elem ts i) e.
  Proof. intros L. apply Data, elem_in, L. Qed.
  Lemma flt_zero_sign x : flt f_zero x = true -> is_sign_negative x = false.
  Proof. destruct x as [[]|[]| |[] m k]; cbn; try discriminate; reflexivity. Qed.

  Lemma roll_bnd a j : (Z.of_nat j < 2 ^ 20)%Z -> (a + j + w <= length ts)%nat ->
    let '(m, d) := roll z ts w a j in
    (number m /\ Rabs (fval m) <= IZR (2 * Z.of_nat j + 1) * bp e) /\
    number d /\ is_sign_negative d = false /\ Rabs (fval d) <= IZR (Z.of_nat w + Z.of_nat j * 2 ^ 23) * bp (2 * e + 2).
  Proof.
    induction j as [|j IH]; intros J L; cbn [roll].
    - rewrite Nat.add_0_r in L. split.
      + change (2 * Z.of_nat 0 + 1)%Z with 1%Z. rewrite Rmult_1_l. apply mean0_bnd, L.
      + change (Z.of_nat 0 * 2 ^ 23)%Z with 0%Z. rewrite Z.add_0_r, <- INR_IZR_INZ. apply squares_bnd; [exact L|lia|apply mean0_bnd, L].
    - specialize (IH ltac:(lia) ltac:(lia)). destruct (roll z ts w a j) as [m d]. destruct IH as ((Nm & Bm) & Nd & Sd & Bd).
      unfold roll_step. set (i := (a + S j)%nat).
      assert (Enew : bnd (elem ts (i + w - 1)) e) by (apply elem_bnd; lia).
      assert (Eold : bnd (elem ts (i - 1)) e) by (apply elem_bnd; lia).
      assert (Diff : bnd (fsub (elem ts (i + w - 1)) (elem ts (i - 1))) (e + 1)) by (apply sub_bnd; auto; lia).
      assert (Q : bnd (fdiv (fsub (elem ts (i + w - 1)) (elem ts (i - 1))) (f_of_nat w)) (e + 1)) by (apply div_w_bnd; [lia|exact Diff]).
      assert (M' : number (roll_mean ts w i m) /\ Rabs (fval (roll_mean ts w i m)) <= IZR (2 * Z.of_nat (S j) + 1) * bp e).
      { unfold roll_mean. destruct Q as (Nq & Bq).
        destruct (fadd_le m (fdiv (fsub (elem ts (i + w - 1)) (elem ts (i - 1))) (f_of_nat w)) (IZR (2 * Z.of_nat (S j) + 1) * bp e) Nm Nq) as (R1 & _ & R2).
        - apply fmt_int; lia.
        - apply Rle_lt_trans with (bp (53 + e)); [|apply bp_top; lia]. rewrite bpow_plus. apply Rmult_le_compat_r; [apply bpow_ge_0|].
          change (bp 53) with (IZR (2 ^ 53)). apply IZR_le. lia.
        - eapply Rle_trans; [apply Rabs_triang|]. rewrite bp_double in Bq.
          replace (2 * Z.of_nat (S j) + 1)%Z with (2 * Z.of_nat j + 1 + 2)%Z by lia. rewrite plus_IZR. lra.
        - split; assumption. }
      set (m' := roll_mean ts w i m) in *.
      assert (G : forall x (k : nat), (Z.of_nat k < 2 ^ 20)%Z -> number x -> Rabs (fval x) <= IZR (2 * Z.of_nat k + 1) * bp e -> bnd x (e + 21)).
      { intros x k Hk Nx Bx. split; [exact Nx|]. eapply Rle_trans; [exact Bx|]. rewrite (Z.add_comm e 21), bpow_plus. apply Rmult_le_compat_r; [apply bpow_ge_0|].
        change (bp 21) with (IZR (2 ^ 21)). apply IZR_le. lia. }
      assert (Gm : bnd m (e + 21)) by (apply (G m j); auto; lia).
      assert (Gm' : bnd m' (e + 21)) by (apply (G m' (S j)); auto; apply M').
      split; [exact M'|].
      assert (U : bnd (fsub (fadd (fsub (elem ts (i + w - 1)) m') (elem ts (i - 1))) m) (e + 24)).
      { replace (e + 24)%Z with (e + 23 + 1)%Z by lia. apply sub_bnd; try lia; [|apply bnd_le with (e + 21)%Z; [lia|exact Gm]].
        replace (e + 23)%Z with (e + 22 + 1)%Z by lia. apply add_bnd; try lia; [|apply bnd_le with e; [lia|exact Eold]].
        replace (e + 22)%Z with (e + 21 + 1)%Z by lia. apply sub_bnd; try lia; [|exact Gm']. apply bnd_le with e; [lia|exact Enew]. }
      assert (P : bnd (fmul (fsub (elem ts (i + w - 1)) (elem ts (i - 1))) (fsub (fadd (fsub (elem ts (i + w - 1)) m') (elem ts (i - 1))) m)) (2 * e + 25)).
      { replace (2 * e + 25)%Z with (e + 1 + (e + 24))%Z by lia. apply mul_bnd; auto; lia. }
      destruct (flt f_zero (roll_update ts w i m m' d)) eqn:F.
      + destruct P as (Np & Bp). unfold roll_update in *. cbv zeta in *.
        destruct (fadd_le d _ (IZR (Z.of_nat w + Z.of_nat (S j) * 2 ^ 23) * bp (2 * e + 2)) Nd Np) as (R1 & _ & R2).
        * apply fmt_int; lia.
        * apply Rle_lt_trans with (bp (53 + (2 * e + 2))); [|apply bp_top; lia]. rewrite (bpow_plus radix2 53). apply Rmult_le_compat_r; [apply bpow_ge_0|].
          change (bp 53) with (IZR (2 ^ 53)). apply IZR_le. lia.
        * eapply Rle_trans; [apply Rabs_triang|]. replace (2 * e + 25)%Z with (23 + (2 * e + 2))%Z in Bp by lia. rewrite (bpow_plus radix2 23) in Bp.
          change (bp 23) with (IZR (2 ^ 23)) in Bp.
          replace (Z.of_nat w + Z.of_nat (S j) * 2 ^ 23)%Z with (Z.of_nat w + Z.of_nat j * 2 ^ 23 + 2 ^ 23)%Z by lia. rewrite (plus_IZR _ (2 ^ 23)). lra.
        * split; [exact R1|]. split; [apply flt_zero_sign, F|exact R2].
      + destruct (squares_bnd i e (mean0 z ts w i)) as (R1 & R2 & R3); [lia|lia|apply mean0_bnd; lia|]. fold (squares0 z ts w i) in R1, R2, R3.
        split; [exact R1|]. split; [exact R2|]. eapply Rle_trans; [exact R3|]. apply Rmult_le_compat_r; [apply bpow_ge_0|].
        rewrite INR_IZR_INZ. apply IZR_le. lia.
  Qed.
  (** the statistics of a window *)
  Lemma roll_stats a j : (Z.of_nat j < 2 ^ 20)%Z -> (a + j + w <= length ts)%nat ->
    bnd (fst (roll z ts w a j)) (e + 21) /\ bnd (sd_from w (snd (roll z ts w a j))) (e + 28) /\ is_sign_negative (sd_from w (snd (roll z ts w a j))) = false.
  Proof.
    intros J L. pose proof (roll_bnd a j J L) as H. destruct (roll z ts w a j) as [m d]. cbn [fst snd]. destruct H as ((Nm & Bm) & Nd & Sd & Bd).
    split; [|]. { split; [exact Nm|]. eapply Rle_trans; [exact Bm|]. rewrite (Z.add_comm e 21), bpow_plus. apply Rmult_le_compat_r; [apply bpow_ge_0|].
        change (bp 21) with (IZR (2 ^ 21)). apply IZR_le. lia. }
    destruct (sd_from_bnd d Nd Sd) as (R1 & _ & R2); [|auto].
    split; [exact Nd|]. eapply Rle_trans; [exact Bd|]. replace (2 * e + 55)%Z with (53 + (2 * e + 2))%Z by lia. rewrite (bpow_plus radix2 53). apply Rmult_le_compat_r; [apply bpow_ge_0|].
    change (bp 53) with (IZR (2 ^ 53)). apply IZR_le. lia.
  Qed.
  Lemma slow_stats i : (i + w <= length ts)%nat ->
    bnd (mean0 z ts w i) (e + 21) /\ bnd (sd_from w (squares0 z ts w i)) (e + 28) /\ is_sign_negative (sd_from w (squares0 z ts w i)) = false.
  Proof. intros L. pose proof (roll_stats i 0 ltac:(lia)) as H. cbn [roll fst snd] in H. apply H. lia. Qed.
End Stats.
