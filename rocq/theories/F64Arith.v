(** A few facts about the arithmetic of [spec_float]: conversions from naturals, products
    and sums with infinities. *)
From Coq Require Import Floats.SpecFloat.
From Verif Require Import Base F64 Iterator.
Local Open Scope Z_scope.

Lemma digits_low m : 2 ^ (Zpos (digits2_pos m) - 1) <= Zpos m.
Proof.
  induction m as [m IH|m IH|]; cbn [digits2_pos]; [| |cbn; lia];
  rewrite Pos2Z.inj_succ; replace (Z.succ (Zpos (digits2_pos m)) - 1) with (Z.succ (Zpos (digits2_pos m) - 1)) by lia;
  rewrite Z.pow_succ_r by lia; lia.
Qed.
Lemma digits_shift m d : Zpos (digits2_pos (Zpower.shift_pos d m)) = Zpos (digits2_pos m) + Zpos d.
Proof.
  unfold Zpower.shift_pos. induction d as [|d IH] using Pos.peano_ind; [cbn; lia|].
  rewrite Pos.iter_succ. cbn [digits2_pos]. lia.
Qed.

Lemma fexp_small z : -1021 <= z -> fexp prec emax z = z - 53.
Proof. intros H. unfold fexp, emin, prec, emax. lia. Qed.

Lemma round_aux_exact m e : Zpos (digits2_pos m) = 53 -> -1000 <= e <= 0 -> binary_round_aux prec emax false (Zpos m) e loc_Exact = S754_finite false m e.
Proof.
  intros D E. unfold binary_round_aux, shr_fexp. cbn [Zdigits2]. rewrite D, fexp_small by lia.
  replace (53 + e - 53 - e) with 0 by lia. cbn [shr shr_record_of_loc shr_m loc_of_shr_record round_nearest_even Zdigits2].
  rewrite D, fexp_small by lia. replace (53 + e - 53 - e) with 0 by lia. cbn [shr shr_m].
  destruct (Z.leb_spec e (emax - prec)); [reflexivity|]. unfold emax, prec in *. lia.
Qed.

Lemma f_of_nat_pos n : (1 <= n)%nat -> Z.of_nat n < 2 ^ 53 -> exists m e, f_of_nat n = S754_finite false m e.
Proof.
  intros L H. unfold f_of_nat. destruct n as [|n]; [lia|]. cbn [Z.of_nat binary_normalize] in *. set (m := Pos.of_succ_nat n) in *.
  pose proof (digits_low m) as D.
  assert (D53 : Zpos (digits2_pos m) <= 53).
  { destruct (Z.le_gt_cases (Zpos (digits2_pos m)) 53) as [|G]; [assumption|exfalso].
    assert (2 ^ 53 <= 2 ^ (Zpos (digits2_pos m) - 1)) by (apply Z.pow_le_mono_r; lia). lia. }
  unfold binary_round. rewrite fexp_small by lia. unfold shl_align. rewrite Z.sub_0_r, Z.add_0_r.
  destruct (Z.eq_dec (Zpos (digits2_pos m)) 53) as [E|E].
  - rewrite E. change (53 - 53) with 0. cbv beta iota. rewrite round_aux_exact by lia. eauto.
  - destruct (Zpos (digits2_pos m) - 53) as [|q|q] eqn:Eq; try lia. rewrite round_aux_exact; [eauto| |lia]. rewrite digits_shift. lia.
Qed.

Lemma shr_nonneg mrs e n : 0 <= shr_m mrs -> 0 <= shr_m (fst (shr mrs e n)).
Proof.
  intros H. unfold shr. destruct n as [|q|q]; cbn [fst]; try exact H.
  assert (G : forall x, 0 <= shr_m x -> 0 <= shr_m (shr_1 x)).
  { intros [m r s]. cbn. destruct m as [|[p|p|]|[p|p|]]; cbn; lia. }
  revert mrs H. induction q as [q IH|q IH|]; intros mrs H; cbn [iter_pos]; [apply IH, IH, G, H|apply IH, IH, H|apply G, H].
Qed.
Lemma round_even_nonneg m l : 0 <= m -> 0 <= round_nearest_even m l.
Proof. intros H. unfold round_nearest_even. destruct l as [|[]]; try destruct (Z.even m); lia. Qed.
Lemma record_of_loc_m m l : shr_m (shr_record_of_loc m l) = m.
Proof. destruct l as [|[]]; reflexivity. Qed.
(** rounding a non-negative number gives no NaN and keeps the sign *)
Lemma round_aux_sign s m e l : 0 <= m ->
  let x := binary_round_aux prec emax s m e l in
  x = S754_zero s \/ x = S754_infinity s \/ exists m e, x = S754_finite s m e.
Proof.
  intros H. unfold binary_round_aux, shr_fexp.
  pose proof (shr_nonneg (shr_record_of_loc m l) e (fexp prec emax (Zdigits2 m + e) - e)) as H1. rewrite record_of_loc_m in H1. specialize (H1 H).
  destruct (shr _ e _) as [mrs1 e1]. cbn [fst] in H1.
  set (m1 := round_nearest_even _ _). assert (Hm1 : 0 <= m1) by (apply round_even_nonneg, H1).
  pose proof (shr_nonneg (shr_record_of_loc m1 loc_Exact) e1 (fexp prec emax (Zdigits2 m1 + e1) - e1)) as H2. rewrite record_of_loc_m in H2. specialize (H2 Hm1).
  destruct (shr _ e1 _) as [mrs2 e2]. cbn [fst] in H2. destruct (shr_m mrs2); [auto| |lia]. destruct (_ <=? _); eauto.
Qed.

(** [n * (c * inf + s * k)] is infinite *)
Lemma cost_infinite n k c s : (1 <= n)%nat -> Z.of_nat n < 2 ^ 53 -> Z.of_nat k < 2 ^ 53 ->
  flt f_zero c = true -> fle f_zero s = true -> is_finite s = true ->
  SFmul prec emax (f_of_nat n) (SFadd prec emax (SFmul prec emax c f_inf) (SFmul prec emax s (f_of_nat k))) = f_inf.
Proof.
  intros Ln Hn Hk Hc Hs Fs. destruct (f_of_nat_pos n Ln Hn) as (m & e & ->).
  assert (Ec : SFmul prec emax c f_inf = f_inf) by (destruct c as [[]|[]| |[]]; try discriminate Hc; reflexivity). rewrite Ec.
  assert (Ek : k = 0%nat \/ (1 <= k)%nat) by lia.
  assert (Es : exists x, SFmul prec emax s (f_of_nat k) = x /\ (x = S754_zero false \/ x = S754_zero true \/ x = S754_infinity false \/ exists m e, x = S754_finite false m e)).
  { eexists. split; [reflexivity|]. destruct Ek as [->|Ek].
    - destruct s as [[]|[]| |[]]; try discriminate Fs; try discriminate Hs; cbn; auto.
    - destruct (f_of_nat_pos k Ek Hk) as (m' & e' & ->).
      destruct s as [[]|[]| |[] ms es]; try discriminate Fs; try discriminate Hs; cbn [SFmul xorb]; auto.
      destruct (round_aux_sign false (Zpos (ms * m')) (es + e') loc_Exact ltac:(lia)) as [-> |[-> |(a & b & ->)]]; eauto 6. }
  destruct Es as (x & -> & [->|[->|[->|(a & b & ->)]]]); reflexivity.
Qed.
