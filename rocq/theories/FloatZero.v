(** A window against an exact copy of it. *)
From Coq Require Import Reals Lra Lia Floats.SpecFloat.
From Flocq Require Import Core BinarySingleNaN.
From Verif Require Import Base F64 Iterator FpOps FloatSeries FloatProofs FloatRoll FloatBound FloatDist FloatDist2 FloatThr.
Local Open Scope R_scope.

Definition zero_like (x : f64) : Prop := number x /\ fval x = 0.
Lemma small_top : Rabs 0 < top.
Proof. rewrite Rabs_R0. apply bpow_gt_0. Qed.
Lemma sub_self x : number x -> zero_like (fsub x x).
Proof.
  intros N. destruct (fsub_val x x N N) as (A & B).
  - replace (fval x - fval x) with 0 by ring. rewrite rnd0. apply small_top.
  - split; [exact A|]. rewrite B. replace (fval x - fval x) with 0 by ring. apply rnd0.
Qed.
Lemma sub_zero x y : zero_like x -> zero_like y -> zero_like (fsub x y).
Proof.
  intros (N & X) (M & Y). destruct (fsub_val x y N M) as (A & B).
  - rewrite X, Y. replace (0 - 0) with 0 by ring. rewrite rnd0. apply small_top.
  - split; [exact A|]. rewrite B, X, Y. replace (0 - 0) with 0 by ring. apply rnd0.
Qed.
Lemma add_zero x y : zero_like x -> zero_like y -> zero_like (fadd x y).
Proof.
  intros (N & X) (M & Y). destruct (fadd_val x y N M) as (A & B).
  - rewrite X, Y. replace (0 + 0) with 0 by ring. rewrite rnd0. apply small_top.
  - split; [exact A|]. rewrite B, X, Y. replace (0 + 0) with 0 by ring. apply rnd0.
Qed.
Lemma mul_zero x : zero_like x -> zero_like (fmul x x).
Proof.
  intros (N & X). destruct (fmul_val x x N N) as (A & B).
  - rewrite X. replace (0 * 0) with 0 by ring. rewrite rnd0. apply small_top.
  - split; [exact A|]. rewrite B, X. replace (0 * 0) with 0 by ring. apply rnd0.
Qed.
Lemma div_zero x y : zero_like x -> number y -> fval y <> 0 -> zero_like (fdiv x y).
Proof.
  intros (N & X) M Y. assert (E : fval x / fval y = 0) by (rewrite X; unfold Rdiv; ring). destruct (fdiv_val x y N M Y) as (A & B).
  - rewrite E, rnd0. apply small_top.
  - split; [exact A|]. rewrite B, E. apply rnd0.
Qed.
Lemma sum_zero l acc : zero_like acc -> (forall x, In x l -> zero_like x) -> zero_like (fold_left fadd l acc).
Proof.
  revert acc. induction l as [|x l IH]; intros acc A H; cbn [fold_left]; [exact A|]. apply IH; [|intros y Hy; apply H; right; exact Hy].
  apply add_zero; [exact A|apply H; left; reflexivity].
Qed.
Lemma zero_zero s : zero_like (S754_zero s). Proof. split; [apply zero_number|reflexivity]. Qed.
Lemma zip_self {A B} (f : A -> A -> B) l x : In x (zip_with f l l) -> exists u, In u l /\ x = f u u.
Proof.
  unfold zip_with. intros H. apply in_map_iff in H as ((u & v) & <- & H). exists u. cbn [fst snd].
  assert (u = v /\ In u l) as (<- & I).
  { revert H. clear. induction l as [|y l IH]; cbn [combine]; [intros []|]. intros [E|H]; [injection E as <- <-; split; [reflexivity|left; reflexivity]|].
    destruct (IH H). split; [assumption|right; assumption]. }
  split; [exact I|reflexivity].
Qed.

Section Copy.
  Variables (z : zeros) (e : Z) (m sd : f64) (a : list f64).
  Hypothesis He : (0 <= e <= 200)%Z.
  Hypothesis M : bnd m (e + 21).
  Hypothesis Sd : bnd sd (e + 28).
  Hypothesis F : not_flat sd.
  Hypothesis A : forall x, In x a -> bnd x e.

  Lemma fterm_zero x : bnd x e -> zero_like (fterm m sd m sd x x).
  Proof.
    intros X. unfold fterm. cbv zeta. apply mul_zero, sub_self.
    pose proof (not_flat_val sd (bnd_number _ _ Sd) F) as G. pose proof (bpow_gt_0 radix2 (-14)) as P.
    eapply bnd_number. apply (div_bnd _ _ (e + 22) (-14)); [|apply Sd| |lia|lia]; [|rewrite Rabs_right; lra].
    replace (e + 22)%Z with (e + 21 + 1)%Z by lia. apply sub_bnd; try lia; [|exact M]. apply bnd_le with e; [lia|exact X].
  Qed.
  Lemma chunk_zero c : length c = 4%nat -> incl c a -> zero_like (fchunk_term z m sd m sd c c).
  Proof.
    intros Lc Ic. unfold fchunk_term. cbv zeta. pose proof (not_flat_val sd (bnd_number _ _ Sd) F) as Gi. pose proof (bpow_gt_0 radix2 (-14)) as P.
    assert (B1 : bnd (fmul sd sd) (e + 28 + (e + 28))) by (apply mul_bnd; auto; lia).
    assert (G1 : bp (-28) <= fval (fmul sd sd)) by (apply (prod_ge' sd sd (-14) (-14) (e + 28) (e + 28)); auto; lia).
    assert (B2 : bnd (fmul (fmul sd sd) sd) (e + 28 + (e + 28) + (e + 28))) by (apply mul_bnd; auto; lia).
    assert (G2 : bp (-42) <= fval (fmul (fmul sd sd) sd)) by (apply (prod_ge' (fmul sd sd) sd (-28) (-14) (e + 28 + (e + 28)) (e + 28)); auto; lia).
    assert (B3 : bnd (fmul (fmul (fmul sd sd) sd) sd) (e + 28 + (e + 28) + (e + 28) + (e + 28))) by (apply mul_bnd; auto; lia).
    assert (G3 : bp (-56) <= fval (fmul (fmul (fmul sd sd) sd) sd)) by (apply (prod_ge' (fmul (fmul sd sd) sd) sd (-42) (-14) (e + 28 + (e + 28) + (e + 28)) (e + 28)); auto; lia).
    apply div_zero; [|apply B3|pose proof (bpow_gt_0 radix2 (-56)); lra].
    unfold fsum. apply sum_zero; [apply zero_zero|]. intros t Ht. apply in_map_iff in Ht as (d & <- & Hd). apply mul_zero.
    apply zip_self in Hd as (u & Hu & ->). apply sub_zero; apply sub_self; eapply bnd_number; apply (mul_bnd _ _ _ _ (A u (Ic u Hu)) Sd) || apply (mul_bnd _ _ _ _ M Sd); lia.
  Qed.
  Lemma copy_zero : zero_like (fsqrt64 (fold_left fadd (fterms z m sd m sd a a) f_zero)).
  Proof.
    assert (Z : zero_like (fold_left fadd (fterms z m sd m sd a a) f_zero)).
    { apply sum_zero; [apply zero_zero|]. intros x Hx. unfold fterms in Hx. apply in_app_or in Hx as [H|H]; apply zip_self in H as (u & Hu & ->).
      - apply fterm_zero, A. eapply in_rest; eauto.
      - destruct (in_chunk 4 a u ltac:(lia) Hu). apply chunk_zero; auto. }
    destruct Z as (N & V). destruct (fsqrt_val _ N ltac:(lra)) as (R1 & R2). split; [exact R1|]. rewrite R2, V, sqrt_0. apply rnd0.
  Qed.
End Copy.
