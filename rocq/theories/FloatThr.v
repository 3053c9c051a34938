(** The square root of a rounded square: a pair rejected by the threshold is at least that
    far apart. *)
From Coq Require Import Reals Lra Lia Floats.SpecFloat.
From Flocq Require Import Core Relative BinarySingleNaN.
From Verif Require Import Base F64 Iterator F64Arith FpOps FloatSeries FloatProofs FloatRoll FloatBound FloatDist FloatDist2.
Local Open Scope R_scope.

Notation fe := (SpecFloat.fexp prec emax).
Lemma rel_err x : bp (-1022) <= Rabs x -> Rabs (rnd x - x) <= bp (-53) * Rabs x.
Proof.
  intros H. pose proof (relative_error_N_FLT radix2 (-1074) 53 ltac:(lia) (fun z => negb (Z.even z)) x H) as R.
  change (- (53) + 1)%Z with (-52)%Z in R. replace (/ 2 * bp (-52)) with (bp (-53)) in R; [exact R|].
  change (-52)%Z with (-53 + 1)%Z. rewrite bp_double. field.
Qed.

Lemma sqrt_rnd_square t y : fmt t -> fmt y -> 0 <= y -> rnd (t * t) < y -> t <= rnd (sqrt y).
Proof.
  intros F Fy Py Y. apply rnd_ge; [exact F|]. destruct (Rle_or_lt t 0) as [N|P]; [pose proof (sqrt_pos y); lra|].
  destruct (Rle_or_lt (t * t) y) as [G|G]; [|exfalso; apply Rlt_le in G; pose proof (rnd_ge _ _ Fy G); lra].
  rewrite <- (sqrt_square t) by lra. apply sqrt_le_1_alt, G.
Qed.

Lemma rejected_far t x : is_f64 t -> is_nan t = false -> is_f64 x -> is_sign_negative x = false ->
  flt (fmul t t) x = true -> fle t (fsqrt64 x) = true.
Proof.
  intros Ht Nn X Sx F. assert (Nt : number t).
  { split; [exact Ht|]. destruct t as [|[]| |]; try reflexivity; try discriminate Nn; exfalso.
    - change (fmul (S754_infinity true) (S754_infinity true)) with f_inf in F. rewrite flt_inf in F. discriminate F.
    - change (fmul (S754_infinity false) (S754_infinity false)) with f_inf in F. rewrite flt_inf in F. discriminate F. }
  destruct (is_finite x) eqn:Fx.
  - assert (Nx : number x) by (split; assumption). assert (P : 0 <= fval x) by (apply sign_val; assumption).
    destruct (fsqrt_val x Nx P) as (Ns & E). rewrite (fle_val _ _ Nt Ns), E. apply Rle_bool_true.
    destruct (fmul_or t t Nt Nt) as [(Nm & Em)|Em].
    + apply sqrt_rnd_square; [apply fmt_val, Nt|apply fmt_val, Nx|exact P|]. rewrite <- Em. rewrite (flt_val _ _ Nm Nx) in F.
      unfold Rlt_bool in F. destruct (Rcompare_spec (fval (fmul t t)) (fval x)); try discriminate F. assumption.
    + exfalso. rewrite Em, xorb_nilpotent in F. change (S754_infinity false) with f_inf in F. rewrite flt_inf in F. discriminate F.
  - destruct x as [|[]| |]; try discriminate; [|destruct (fmul t t) as [[]|[]| |[]]; discriminate F].
    destruct Nt as (_ & Nt). destruct t as [[]|[]| |[]]; try discriminate Nt; reflexivity.
Qed.

(** all thresholds at once *)
Lemma threshold_all z s i j d : fseries_ok s -> fzeucl_threshold z s i j f_inf = Ret (Some d) -> is_nan d = false ->
  exists x, is_f64 x /\ is_sign_negative x = false /\ d = fsqrt64 x /\
    forall t, fzeucl_threshold z s i j t = Ret (if flt (fmul t t) x then None else Some d).
Proof.
  intros Ok H N. destruct (fzeucl_threshold_windows _ _ _ _ _ _ H) as (mi & si & a & mj & sj & b & Wi & Wj).
  destruct (fwindow_ok s i mi si a Ok Wi) as (Mi & Si & A). destruct (fwindow_ok s j mj sj b Ok Wj) as (Mj & Sj & B).
  rewrite (fzeucl_threshold_eq z s i j _ _ _ _ _ _ f_inf Wi Wj) in H. change (fmul f_inf f_inf) with f_inf in H. rewrite faccumulate_inf in H. cbn [option_map] in H. injection H as H.
  set (l := fterms z mi si mj sj a b) in *. set (x := fold_left fadd l f_zero) in *.
  assert (Hl : forall y, In y l -> is_f64 y /\ is_sign_negative y = false) by (intros y Hy; split; [apply (terms_f64 z mi si mj sj a b); assumption|apply (fterms_sign z mi si mj sj a b), Hy]).
  assert (Sx : is_sign_negative x = false) by (apply fold_sign; [reflexivity|intros y Hy; apply Hl, Hy]).
  assert (Nx : is_nan x = false) by (rewrite <- (sqrt_nan_pos x Sx), H; exact N).
  exists x. split; [apply fold_f64; [apply zero_f64|intros y Hy; apply Hl, Hy]|]. split; [exact Sx|]. split; [symmetry; exact H|]. intros t.
  rewrite (fzeucl_threshold_eq z s i j _ _ _ _ _ _ t Wi Wj). fold l.
  rewrite (faccumulate_spec l (fmul t t) f_zero); [|apply zero_f64|reflexivity|exact Hl|exact Nx|apply fmul_self_zero].
  fold x. destruct (flt (fmul t t) x); [reflexivity|]. cbn [option_map]. rewrite H. reflexivity.
Qed.

(** ** When [zeucl] aborts *)
Lemma fzeucl_windows s i j z d : fzeucl z s i j = Ret d -> i <> j ->
  exists mi si a mj sj b, fwindow s i mi si a /\ fwindow s j mj sj b.
Proof.
  unfold fzeucl, fwindow. intros H Nij. rewrite (proj2 (Nat.eqb_neq i j) Nij) in H.
  destruct (fsubsequence s i) as [a| |] eqn:E1; try discriminate H. cbn [bind] in H. destruct (fmean s i) as [mi| |] eqn:E2; try discriminate H. cbn [bind] in H.
  destruct (fsd s i) as [si| |] eqn:E3; try discriminate H. cbn [bind] in H. destruct (fsubsequence s j) as [b| |] eqn:E4; try discriminate H. cbn [bind] in H.
  destruct (fmean s j) as [mj| |] eqn:E5; try discriminate H. cbn [bind] in H. destruct (fsd s j) as [sj| |] eqn:E6; try discriminate H.
  exists mi, si, a, mj, sj, b. auto 10.
Qed.
Lemma fzeucl_eq z s i j mi si a mj sj b : i <> j -> fwindow s i mi si a -> fwindow s j mj sj b ->
  fzeucl z s i j =
    let dotp := fzdot z a mi si b mj sj in
    let d := if flt (f_of_nat (fs_w s)) dotp then fsqrt64 (fold_left fadd (zip_with (fterm mi si mj sj) a b) f_zero)
             else fsqrt64 (fsub (fmul f_two (f_of_nat (fs_w s))) (fmul f_two dotp)) in
    if is_nan d then Panic else Ret d.
Proof.
  intros Nij (Mi & Si & A) (Mj & Sj & B). unfold fzeucl. rewrite (proj2 (Nat.eqb_neq i j) Nij), A, Mi, Si, B, Mj, Sj. cbn [bind]. cbv zeta.
  assert (E : fzeucl_slow s i j = Ret (fsqrt64 (fold_left fadd (zip_with (fterm mi si mj sj) a b) f_zero))).
  { unfold fzeucl_slow. rewrite Mi, Mj, Si, Sj, A, B. cbn [bind]. rewrite slow_fold. reflexivity. }
  rewrite E. destruct (flt _ _); cbn [bind]; unfold assert_; destruct (is_nan _); reflexivity.
Qed.
