(** C111: dot products and norms. *)
From Coq Require Import Reals Lra Lia Floats.SpecFloat.
From Flocq Require Import Core BinarySingleNaN.
From Verif Require Import Base F64 RSpec RealProofs Iterator FpOps FloatSeries FloatSpec FloatProofs FloatRoll FloatBound FloatDist FloatDist2 FloatThr FloatErr FloatMean FloatSd FloatVar FloatSum FloatTerm P_Float P_Float2 P_Acc.
Local Open Scope R_scope.

(** ** Signs *)
Definition plus_like (x : f64) : Prop := is_sign_negative x = false \/ x = S754_zero true.
Lemma plus_like_add a b : plus_like a -> plus_like b -> plus_like (fadd a b).
Proof.
  intros A [B| ->]; [left; apply fadd_sign; assumption|]. destruct A as [A| ->]; [|right; reflexivity].
  left. destruct a as [s|s| |s m e]; try reflexivity; exact A || (destruct s; [discriminate A|reflexivity]).
Qed.
Lemma plus_like_val x : is_f64 x -> plus_like x -> 0 <= fval x.
Proof. intros F [S| ->]; [apply sign_val; assumption|cbn; lra]. Qed.
Lemma plus_like_fold l : forall acc, plus_like acc -> (forall x, In x l -> plus_like x) -> plus_like (fold_left fadd l acc).
Proof.
  induction l as [|x l IH]; intros acc A H; [exact A|]. cbn [fold_left]. apply IH; [apply plus_like_add; [exact A|apply H; left; reflexivity]|intros y Hy; apply H; right; exact Hy].
Qed.
Lemma plus_like_lanes l : forall acc, (forall x, In x acc -> plus_like x) -> (forall c x, In c l -> In x c -> plus_like x) ->
  forall x, In x (fold_left (zip_with fadd) l acc) -> plus_like x.
Proof.
  induction l as [|c l IH]; intros acc A H x; [apply A|]. cbn [fold_left]. apply IH.
  - intros y Hy. apply in_zip_with in Hy as (p & q & Hp & Hq & ->). apply plus_like_add; [apply A, Hp|apply (H c); [left; reflexivity|exact Hq]].
  - intros c' y Hc. apply H. right. exact Hc.
Qed.
Lemma plus_like_zero s : plus_like (S754_zero s).
Proof. destruct s; [right|left]; reflexivity. Qed.
Lemma two_sums_plus z m l : (0 < m)%nat -> (forall x, In x l -> plus_like x) -> plus_like (two_sums z m l).
Proof.
  intros M H. unfold two_sums, fsum, fsimd_sum. apply plus_like_add.
  - apply plus_like_fold; [apply plus_like_zero|]. apply plus_like_lanes.
    + intros x Hx. apply repeat_spec in Hx. subst x. apply plus_like_zero.
    + intros c x Hc Hx. destruct (chunk_in m l c M Hc) as (_ & I). apply H, I, Hx.
  - apply plus_like_fold; [apply plus_like_zero|]. intros x Hx. apply H. eapply in_rest; eauto.
Qed.

(** ** Errors *)
Lemma fdot_sums z a b : length a = length b -> fdot z a b = two_sums z 8 (zip_with fmul a b).
Proof. intros L. unfold fdot, two_sums. rewrite (zip_chunks fmul 8 a b L), (zip_rest fmul 8 a b L). reflexivity. Qed.
Lemma dot_error z a b : length a = length b -> (Z.of_nat (length a) <= 2 ^ 48)%Z ->
  (forall x, In x a -> bnd x 400) -> (forall x, In x b -> bnd x 400) ->
  number (fdot z a b) /\
  Rabs (fval (fdot z a b) - inner (vals a) (vals b)) <=
    grow (length a + 10) * inner (map Rabs (vals a)) (map Rabs (vals b)) + 2 * (INR (length a) * tiny).
Proof.
  intros L Ln A B. rewrite (fdot_sums z a b L). set (ps := combine a b).
  assert (Lz : length (zip_with fmul a b) = length a) by (apply zip_length, L).
  assert (Lp : length ps = length a) by (unfold ps; rewrite combine_length; lia).
  assert (Bz : forall x, In x (zip_with fmul a b) -> bnd x 800).
  { intros x Hx. apply in_zip_with in Hx as (p & q & Hp & Hq & ->). change 800%Z with (400 + 400)%Z. apply mul_bnd; auto; lia. }
  destruct (two_sums_err z 8 (zip_with fmul a b) 800 ltac:(lia) ltac:(lia) ltac:(lia) Bz) as (N & E). rewrite Lz in E. split; [exact N|].
  assert (Ei : inner (vals a) (vals b) = total (map (fun p => fval (fst p) * fval (snd p)) ps)).
  { unfold inner, ps. f_equal. clear. revert b. induction a as [|x a IH]; intros [|y b]; cbn; try reflexivity. f_equal. apply IH. }
  assert (Ea : inner (map Rabs (vals a)) (map Rabs (vals b)) = total (map (fun p => Rabs (fval (fst p) * fval (snd p))) ps)).
  { unfold inner, ps. f_equal. clear. revert b. induction a as [|x a IH]; intros [|y b]; cbn; try reflexivity. rewrite Rabs_mult. f_equal. apply IH. }
  rewrite Ei, Ea. set (S := total (map (fun p => Rabs (fval (fst p) * fval (snd p))) ps)). set (P := total (map (fun p => fval (fst p) * fval (snd p)) ps)).
  pose proof u_pos as UP. pose proof tiny_pos as TP.
  assert (Er : forall p, In p ps -> Rabs (fval (fmul (fst p) (snd p)) - fval (fst p) * fval (snd p)) <= u * Rabs (fval (fst p) * fval (snd p)) + tiny).
  { intros [x y] Hp. pose proof (in_combine_l _ _ _ _ Hp) as Hx. pose proof (in_combine_r _ _ _ _ Hp) as Hy. cbn [fst snd]. destruct (A x Hx) as (Nx & Bx). destruct (B y Hy) as (Ny & By).
    apply (mul_err x y 800); auto; [lia|]. change 800%Z with (400 + 400)%Z. rewrite bpow_plus, Rabs_mult. apply Rmult_le_compat; auto using Rabs_pos. }
  assert (PS : 0 <= S) by (apply RealProofs.total_nonneg; intros; apply Rabs_pos).
  assert (T1 : Rabs (total (vals (zip_with fmul a b)) - P) <= u * S + INR (length a) * tiny).
  { unfold zip_with. rewrite map_map. unfold P. fold ps. rewrite <- RealProofs.total_minus. eapply Rle_trans; [apply (total_abs_le _ (fun p => u * Rabs (fval (fst p) * fval (snd p)) + tiny)); exact Er|].
    rewrite RealProofs.total_plus, total_scale, total_const, Lp. fold S. lra. }
  assert (T2 : weight (zip_with fmul a b) <= (1 + u) * S + INR (length a) * tiny).
  { unfold weight, zip_with. rewrite map_map. fold ps. eapply Rle_trans; [apply (RealProofs.total_le _ (fun p => (1 + u) * Rabs (fval (fst p) * fval (snd p)) + tiny))|].
    - intros p Hp. pose proof (Er p Hp) as E'. set (v := fval (fmul (fst p) (snd p))) in *. set (t := fval (fst p) * fval (snd p)) in *.
      replace v with ((v - t) + t) by ring. eapply Rle_trans; [apply Rabs_triang|]. lra.
    - rewrite RealProofs.total_plus, total_scale, total_const, Lp. fold S. lra. }
  pose proof (grow_nonneg (length a + 9)) as G9.
  assert (G10 : grow (length a + 10) = grow (length a + 9) * (1 + u) + u) by (rewrite <- grow_S; f_equal; lia).
  assert (G1 : grow (length a + 9) <= 1).
  { assert (H : INR (length a + 9) * u <= / 2).
    { apply Rle_trans with (bp 49 * u).
      - apply Rmult_le_compat_r; [lra|]. rewrite INR_IZR_INZ. change (bp 49) with (IZR (2 ^ 49)). apply IZR_le. lia.
      - rewrite <- bpow_plus. change (49 + -53)%Z with (-4)%Z. change (bp (-4)) with (/ 16). lra. }
    pose proof (grow_small _ H). lra. }
  assert (PT : 0 <= INR (length a) * tiny) by (apply Rmult_le_pos; [apply pos_INR|lra]).
  set (X := fval (two_sums z 8 (zip_with fmul a b))) in *. set (T := total (vals (zip_with fmul a b))) in *.
  replace (X - P) with ((X - T) + (T - P)) by ring. eapply Rle_trans; [apply Rabs_triang|].
  assert (grow (length a + 9) * weight (zip_with fmul a b) <= grow (length a + 9) * ((1 + u) * S + INR (length a) * tiny)) by (apply Rmult_le_compat_l; assumption).
  assert (grow (length a + 9) * (INR (length a) * tiny) <= 1 * (INR (length a) * tiny)) by (apply Rmult_le_compat_r; assumption). rewrite G10. lra.
Qed.

(** * C111 *)
(** values of absolute value at most [2^400]; at most [2^48] of them *)
Theorem c111_dot :
  forall (z : zeros) (a b : list f64),
    length a = length b -> (Z.of_nat (length a) <= 2 ^ 48)%Z -> at_most 400 a -> at_most 400 b ->
    number (fdot z a b) /\
    Rabs (fval (fdot z a b) - inner (map fval a) (map fval b)) <=
      (INR (length a) + 10) * powerRZ 2 (-52) * inner (map Rabs (map fval a)) (map Rabs (map fval b)) + INR (length a) * powerRZ 2 (-1074).
Proof.
  intros z a b L Ln A B. destruct (dot_error z a b L Ln (at_most_bnd _ _ A) (at_most_bnd _ _ B)) as (N & E). split; [exact N|].
  eapply Rle_trans; [exact E|]. rewrite !power_bp.
  assert (PS : 0 <= inner (map Rabs (vals a)) (map Rabs (vals b))).
  { unfold inner. apply RealProofs.total_nonneg. intros [x y] Hp. cbn. apply in_combine_l in Hp as Hx. apply in_combine_r in Hp as Hy.
    apply in_map_iff in Hx as (x' & <- & _). apply in_map_iff in Hy as (y' & <- & _). apply Rmult_le_pos; apply Rabs_pos. }
  apply Rplus_le_compat.
  - apply Rmult_le_compat_r; [exact PS|]. 
    assert (H : INR (length a + 10) * u <= / 2).
    { apply Rle_trans with (bp 49 * u).
      - apply Rmult_le_compat_r; [pose proof u_pos; lra|]. rewrite INR_IZR_INZ. change (bp 49) with (IZR (2 ^ 49)). apply IZR_le. lia.
      - rewrite <- bpow_plus. change (49 + -53)%Z with (-4)%Z. change (bp (-4)) with (/ 16). lra. }
    eapply Rle_trans; [apply grow_small, H|]. rewrite plus_INR. replace (INR 10) with 10 by (cbn; lra). change (-52)%Z with (-53 + 1)%Z. rewrite bp_double. lra.
  - change (-1074)%Z with (-1075 + 1)%Z. rewrite bp_double. lra.
Qed.
Print Assumptions c111_dot.

(** the order of the arguments does not matter *)
Theorem c111_dot_symmetric : forall (z : zeros) (a b : list f64), length a = length b -> fdot z a b = fdot z b a.
Proof.
  intros z a b L. rewrite !fdot_sums by congruence. f_equal. revert b L.
  induction a as [|x a IH]; intros [|y b] L; try discriminate; [reflexivity|]. unfold zip_with in *. cbn. rewrite fmul_comm. f_equal. apply IH. injection L as L. exact L.
Qed.
Print Assumptions c111_dot_symmetric.

Lemma inner_square l : inner (map Rabs l) (map Rabs l) = inner l l.
Proof.
  unfold inner. f_equal. induction l as [|x l IH]; [reflexivity|]. cbn. f_equal; [|exact IH]. rewrite <- Rabs_mult. apply Rabs_right, Rle_ge, Rle_0_sqr.
Qed.
Theorem c111_norm :
  forall (z : zeros) (a : list f64),
    (Z.of_nat (length a) <= 2 ^ 48)%Z -> at_most 400 a ->
    number (fnorm z a) /\ 0 <= fval (fnorm z a) /\
    Rabs (fval (fnorm z a) - sqrt (inner (map fval a) (map fval a))) <=
      (INR (length a) + 12) * powerRZ 2 (-52) * sqrt (inner (map fval a) (map fval a)) + powerRZ 2 (-512).
Proof.
  intros z a Ln A. destruct (dot_error z a a eq_refl Ln (at_most_bnd _ _ A) (at_most_bnd _ _ A)) as (N & E). rewrite inner_square in E.
  set (V := inner (vals a) (vals a)) in *. unfold fnorm. set (d := fdot z a a) in *.
  assert (Pd : 0 <= fval d).
  { apply plus_like_val; [apply N|]. unfold d. rewrite fdot_sums by reflexivity. apply two_sums_plus; [lia|].
    intros x Hx. unfold zip_with in Hx. apply in_map_iff in Hx as ([p q] & <- & Hp). cbn [fst snd].
    assert (p = q) by (clear - Hp; induction a as [|y a IH]; [destruct Hp|destruct Hp as [E|Hp]; [congruence|auto]]). subst q. left. apply mul_self_sign. }
  assert (PV : 0 <= V) by (unfold V; rewrite <- inner_square; unfold inner; apply RealProofs.total_nonneg; intros [x y] Hp; cbn; apply in_combine_l in Hp as Hx; apply in_combine_r in Hp as Hy;
    apply in_map_iff in Hx as (x' & <- & _); apply in_map_iff in Hy as (y' & <- & _); apply Rmult_le_pos; apply Rabs_pos).
  destruct (sqrt_err d N Pd) as (N' & P' & E'). split; [exact N'|]. split; [exact P'|]. rewrite !power_bp.
  pose proof u_pos as UP. pose proof tiny_pos as TP.
  assert (Ln' : INR (length a) <= bp 48) by (rewrite INR_IZR_INZ; change (bp 48) with (IZR (2 ^ 48)); apply IZR_le; exact Ln).
  assert (T : 2 * (INR (length a) * tiny) <= bp (-513) * bp (-513)).
  { rewrite <- bpow_plus. change (-513 + -513)%Z with (1 + (48 + -1075))%Z. rewrite 2!bpow_plus. change (bp 1) with 2. apply Rmult_le_compat_l; [lra|]. apply Rmult_le_compat_r; lra. }
  assert (Hs : INR (length a + 10) * u <= / 16).
  { apply Rle_trans with (bp 49 * u).
    - apply Rmult_le_compat_r; [lra|]. rewrite INR_IZR_INZ. change (bp 49) with (IZR (2 ^ 49)). apply IZR_le. lia.
    - rewrite <- bpow_plus. change (49 + -53)%Z with (-4)%Z. change (bp (-4)) with (/ 16). lra. }
  pose proof (grow_small (length a + 10) ltac:(lra)) as G. pose proof (grow_nonneg (length a + 10)) as Gn. set (g := grow (length a + 10)) in *.
  pose proof (bpow_gt_0 radix2 (-513)) as P5.
  pose proof (sqrt_close (fval d) V g (bp (-513)) Pd PV Gn ltac:(lra) ltac:(lra)) as C.
  set (r := sqrt V) in *. set (s := sqrt (fval d)) in *. pose proof (sqrt_pos V) as Pr. fold r in Pr. pose proof (sqrt_pos (fval d)) as Ps. fold s in Ps.
  assert (S1 : s <= r + g * r + bp (-513)) by (apply Rabs_le_inv in C; lra).
  set (f := fval (fsqrt64 d)) in *. replace (f - r) with ((f - s) + (s - r)) by ring. eapply Rle_trans; [apply Rabs_triang|].
  rewrite plus_INR in *. replace (INR 10) with 10 in * by (cbn; lra). set (n := INR (length a)) in *.
  assert (S2 : u * s <= u * (r + g * r + bp (-513))) by (apply Rmult_le_compat_l; lra).
  change (-52)%Z with (-53 + 1)%Z. change (-512)%Z with (-513 + 1)%Z. rewrite !bp_double.
  assert (T2 : u * bp (-513) + tiny <= bp (-513)).
  { assert (u <= / 4) by (change (/ 4) with (bp (-2)); apply bpow_le; lia). assert (tiny <= / 4 * bp (-513)) by (change (/ 4) with (bp (-2)); rewrite <- bpow_plus; apply bpow_le; lia).
    assert (u * bp (-513) <= / 4 * bp (-513)) by (apply Rmult_le_compat_r; lra). lra. }
  assert (G8 : g <= / 8) by lra. assert (U2 : u * (g * r) <= u * (/ 8 * r)) by (apply Rmult_le_compat_l; [lra|]; apply Rmult_le_compat_r; lra).
  assert (U3 : g * r <= (2 * ((n + 10) * u)) * r) by (apply Rmult_le_compat_r; lra).
  assert (0 <= u * r) by (apply Rmult_le_pos; lra). lra.
Qed.
Print Assumptions c111_norm.

(** ten values and their mirror image *)
Example c111_case :
  let a := map (fun n => f_of_nat n) (seq 1 10) in let b := rev a in
  length a = length b /\ (Z.of_nat (length a) <= 2 ^ 48)%Z /\ at_most 400 a /\ at_most 400 b /\
  fdot (Zeros false false) a b = f_of_nat 220 /\ fnorm (Zeros false false) (map (fun n => f_of_nat n) [3; 4]%nat) = f_of_nat 5.
Proof.
  cbv zeta. assert (H : forall n, (1 <= n <= 10)%nat -> number (f_of_nat n) /\ Rabs (fval (f_of_nat n)) <= powerRZ 2 400).
  { intros n L. destruct (of_nat_exact n ltac:(lia)) as (N & V). split; [exact N|]. rewrite V, power_bp, Rabs_right by (apply Rle_ge, pos_INR).
    rewrite INR_IZR_INZ. apply Rle_trans with (bp 4); [change (bp 4) with 16; apply IZR_le; lia|apply bpow_le; lia]. }
  assert (A : at_most 400 (map (fun n => f_of_nat n) (seq 1 10))) by (intros x Hx; apply in_map_iff in Hx as (n & <- & Hn); apply in_seq in Hn; apply H; lia).
  split; [rewrite rev_length; reflexivity|]. split; [cbn; lia|]. split; [exact A|]. split; [intros x Hx; apply A, in_rev, Hx|]. split; vm_compute; reflexivity.
Qed.
