(** Rounding errors of the error function, branch by branch. *)
From Coq Require Import Reals Lra Lia QArith Qreals Qabs Floats.SpecFloat.
From Flocq Require Import Core Relative Sterbenz BinarySingleNaN.
From Verif Require Import Base F64 Series Iterator FpOps FloatProofs FloatBound FloatErr FloatTerm FloatProj PolyZ Erf ErfSpec ErfProofs ErfBound ErfLow ErfAll FloatErf FloatErfSpec FloatErfP.
Local Open Scope R_scope.

(** ** The size of the polynomials on an interval [0, p/q] *)
Definition sizes (p q : Z) (num den : list Q) : bool :=
  let N := map scaled num in
  let D := map scaled den in
  (forallb exact num && forallb exact den && forallb (fun c => Qle_bool (Qabs c) 8) (num ++ den) &&
   (0 <? length num)%nat && (length num <=? 8)%nat && (0 <? length den)%nat && (length den <=? 8)%nat && (0 <? p)%Z && (0 <? q)%Z &&
   nonneg_on p q 4 (zadd (zscale 3 D) (zscale (-10) (map Z.abs N))) &&
   nonneg_on p q 4 (zadd (zscale 2 D) (zopp (map Z.abs D))) &&
   nonneg_on p q 4 (zadd (zscale 2 D) [(- SCALE)%Z]))%bool.
Lemma zev_mag x l : forallb exact l = true -> zev (map Z.abs (map scaled l)) x = IZR SCALE * mag x l.
Proof.
  induction l as [|c l IH]; cbn [forallb map zev mag]; intros E; [symmetry; apply Rmult_0_r|]. apply andb_prop in E. destruct E as [E1 E2].
  rewrite IH by exact E2. rewrite abs_IZR, scaled_ok, Rabs_mult, (Rabs_pos_eq (IZR SCALE)) by (exact E1 || (left; apply SCALE_pos)). generalize (IZR SCALE). intros. ring.
Qed.
Lemma sizes_ok p q num den x : sizes p q num den = true -> 0 <= x <= IZR p / IZR q ->
  10 * mag x num <= 3 * poly x den /\ mag x den <= 2 * poly x den /\ / 2 <= poly x den /\
  (forall c, In c (num ++ den) -> Rabs (Q2R c) <= bp 3) /\ (0 < length num <= 8)%nat /\ (0 < length den <= 8)%nat.
Proof.
  unfold sizes. cbv zeta. rewrite !andb_true_iff. intros (((((((((((C1 & C2) & C3) & C4) & C5) & C6) & C7) & C8) & C9) & C10) & C11) & C12) X.
  apply Nat.ltb_lt in C4, C6. apply Nat.leb_le in C5, C7. apply Z.ltb_lt in C8, C9. rewrite forallb_forall in C3.
  pose proof (nonneg_on_ok p q 4 _ x C8 C9 ltac:(lia) C10 X) as A1. pose proof (nonneg_on_ok p q 4 _ x C8 C9 ltac:(lia) C11 X) as A2. pose proof (nonneg_on_ok p q 4 _ x C8 C9 ltac:(lia) C12 X) as A3.
  clear C10 C11 C12. rewrite zev_add, !zev_scale, zev_mag, scaled_poly in A1 by assumption. rewrite zev_add, !zev_scale, zev_opp, zev_mag, scaled_poly in A2 by assumption.
  rewrite zev_add, zev_scale, scaled_poly in A3 by assumption. change (zev [(- SCALE)%Z] x) with (IZR (- SCALE) + x * 0) in A3. rewrite opp_IZR in A3.
  fold (poly x den) in A1, A2, A3. pose proof SCALE_pos as S. set (k := IZR SCALE) in *. clearbody k.
  assert (T : forall a, 0 <= k * a -> 0 <= a) by (intros a Ha; apply (Rmult_le_reg_l k); [exact S|]; lra).
  split; [|split; [|split]].
  - assert (0 <= 3 * poly x den - 10 * mag x num) by (apply T; lra). lra.
  - assert (0 <= 2 * poly x den - mag x den) by (apply T; lra). lra.
  - assert (0 <= 2 * poly x den - 1) by (apply T; lra). lra.
  - split; [|lia]. intros c Hc. specialize (C3 c Hc). apply Qle_bool_iff, Qle_Rle in C3. rewrite Q2R_Qabs in C3. replace (Q2R 8) with 8 in C3 by qval. exact C3.
Qed.

(** ** The two polynomials and their quotient *)
Lemma evaluated z num den : number z -> 0 <= fval z <= bp 7 -> (forall c, In c (num ++ den) -> Rabs (Q2R c) <= bp 3) -> (0 < length num <= 8)%nat -> (0 < length den <= 8)%nat ->
  let D := poly (fval z) den in
  10 * mag (fval z) num <= 3 * D -> mag (fval z) den <= 2 * D -> / 2 <= D ->
  number (fpoly z num) /\ Rabs (fval (fpoly z num) - poly (fval z) num) <= 25 * u * D /\
  number (fpoly z den) /\ Rabs (fval (fpoly z den) - D) <= 49 * u * D /\ Rabs (poly (fval z) num) <= 3 / 10 * D.
Proof.
  intros Nz X Hc Ln Ld D M1 M2 HD. pose proof u_pos as UP.
  destruct (horner z num Nz X) as (N1 & E1); [destruct num; [cbn in Ln; lia|discriminate]|intros; apply Hc, in_or_app; auto|lia|].
  destruct (horner z den Nz X) as (N2 & E2); [destruct den; [cbn in Ld; lia|discriminate]|intros; apply Hc, in_or_app; auto|lia|].
  pose proof (mag_pos (fval z) num (proj1 X)) as P1. pose proof (mag_pos (fval z) den (proj1 X)) as P2. pose proof (poly_mag (fval z) num (proj1 X)) as Pm.
  assert (T : forall l : list Q, (length l <= 8)%nat -> bp (10 * Z.of_nat (length l) - 1075) <= u * D /\ 3 * INR (length l) * u <= 24 * u).
  { intros l Ll. split.
    - apply Rle_trans with (u * / 2); [|apply Rmult_le_compat_l; lra]. apply Rle_trans with (bp (-54)); [apply bpow_le; lia|]. change (-54)%Z with (-53 + -1)%Z. rewrite bpow_plus. right. reflexivity.
    - apply Rmult_le_compat_r; [lra|]. apply le_INR in Ll. rewrite (INR_IZR_INZ 8) in Ll. change (IZR (Z.of_nat 8)) with 8 in Ll. lra. }
  destruct (T num ltac:(lia)) as (T1 & T2). destruct (T den ltac:(lia)) as (T3 & T4).
  assert (A1 : 3 * INR (length num) * u * mag (fval z) num <= 24 * u * (3 / 10 * D)) by (apply Rmult_le_compat; [apply Rmult_le_pos; [pose proof (pos_INR (length num)); lra|lra]|exact P1|exact T2|lra]).
  assert (A2 : 3 * INR (length den) * u * mag (fval z) den <= 24 * u * (2 * D)) by (apply Rmult_le_compat; [apply Rmult_le_pos; [pose proof (pos_INR (length den)); lra|lra]|exact P2|exact T4|exact M2]).
  assert (0 <= u * D) by (apply Rmult_le_pos; lra).
  split; [exact N1|]. split; [eapply Rle_trans; [exact E1|]; lra|]. split; [exact N2|]. split; [eapply Rle_trans; [exact E2|]; fold D; lra|lra].
Qed.
Lemma quotient_core (D X n d a b : R) : 0 < D -> 0 <= a <= / 1000 -> 0 <= b <= / 1000 -> Rabs (n - X) <= a * D -> Rabs (d - D) <= b * D -> Rabs X <= D ->
  / 2 * D <= d /\ Rabs (n / d - X / D) <= 101 / 100 * (a + b).
Proof.
  intros PD A B En Ed HX. pose proof (Rabs_le_inv _ _ Ed) as Id. assert (BD : b * D <= / 1000 * D) by (apply Rmult_le_compat_r; lra).
  assert (Pd : 999 / 1000 * D <= d) by lra. split; [lra|]. assert (d0 : 0 < d) by lra.
  set (r := X / D). assert (Hr : Rabs r <= 1).
  { unfold r, Rdiv. rewrite Rabs_mult, (Rabs_right (/ D)) by (apply Rle_ge, Rlt_le, Rinv_0_lt_compat, PD). apply (Rmult_le_reg_r D); [exact PD|]. rewrite Rmult_assoc, Rinv_l by lra. lra. }
  replace (n / d - r) with (((n - X) - r * (d - D)) / d) by (unfold r; field; lra).
  unfold Rdiv. rewrite Rabs_mult, (Rabs_right (/ d)) by (apply Rle_ge, Rlt_le, Rinv_0_lt_compat, d0).
  apply (Rmult_le_reg_r d); [exact d0|]. rewrite Rmult_assoc, Rinv_l, Rmult_1_r by lra.
  assert (Rabs (r * (d - D)) <= 1 * (b * D)) by (rewrite Rabs_mult; apply Rmult_le_compat; auto using Rabs_pos).
  apply Rle_trans with (a * D + b * D).
  - unfold Rminus at 1. eapply Rle_trans; [apply Rabs_triang|]. rewrite Rabs_Ropp. lra.
  - assert (0 <= (a + b) * (101 / 100 * d - D)) by (apply Rmult_le_pos; lra). lra.
Qed.
(** the rounded quotient of a value near [X] and the denominator *)
Lemma quotient (x y : f64) (D X a b : R) : number x -> number y -> / 2 <= D <= bp 100 -> 0 <= a <= 100 * u -> 0 <= b <= 100 * u ->
  Rabs (fval x - X) <= a * D -> Rabs (fval y - D) <= b * D -> Rabs X <= D ->
  number (fdiv x y) /\ Rabs (fval (fdiv x y) - X / D) <= 101 / 100 * (a + b) + 11 / 10 * u.
Proof.
  intros Nx Ny HD A B Ex Ey HX. pose proof u_pos as UP. assert (US : u <= / 100000000) by (rewrite u53; lra).
  destruct (quotient_core D X (fval x) (fval y) a b ltac:(lra) ltac:(lra) ltac:(lra) Ex Ey HX) as (Py & E).
  assert (HX' : Rabs (X / D) <= 1).
  { unfold Rdiv. rewrite Rabs_mult, (Rabs_right (/ D)) by (apply Rle_ge, Rlt_le, Rinv_0_lt_compat; lra). apply (Rmult_le_reg_r D); [lra|]. rewrite Rmult_assoc, Rinv_l by lra. lra. }
  pose proof (near_abs _ _ _ E) as Nq. destruct (div_err x y 1 Nx Ny ltac:(lra) ltac:(lia)) as (Nd & Ed); [change (bp 1) with 2; lra|]. split; [exact Nd|].
  replace (fval (fdiv x y) - X / D) with ((fval (fdiv x y) - fval x / fval y) + (fval x / fval y - X / D)) by ring. eapply Rle_trans; [apply Rabs_triang|].
  assert (u * Rabs (fval x / fval y) <= u * (1 + 1 / 100)) by (apply Rmult_le_compat_l; lra). pose proof tiny_le. lra.
Qed.

(** ** The branches above 1/2 *)
Lemma piece_sizes : forallb (fun c => sizes (Qnum (pstop c - pstart c)) (Zpos (Qden (pstop c - pstart c))) (pnum c) (pden c) &&
  dyadic 2 (pstart c) && Qle_bool 0.5 (pstart c) && Qle_bool (pstop c) (2 * pstart c) && Qle_bool (pstop c) 110 && Qle_bool 0.31 (pb c) && Qle_bool (pb c) 0.6)%bool pieces = true.
Proof. vm_compute. reflexivity. Qed.
Lemma low_sizes : sizes 1 2 ERF_IMPL_AN ERF_IMPL_AD = true.
Proof. vm_compute. reflexivity. Qed.
Lemma flt_lit k q z : dyadic k q = true -> number z -> flt z (lit q) = if Rlt_dec (fval z) (Q2R q) then true else false.
Proof.
  intros D Nz. destruct (lit_exact k q D) as (Nq & V). rewrite flt_val, V by assumption. destruct (Rlt_dec (fval z) (Q2R q)); [apply Rlt_bool_true; assumption|apply Rlt_bool_false; lra].
Qed.
Lemma fle_lit k q z : dyadic k q = true -> number z -> fle (lit q) z = if Rle_dec (Q2R q) (fval z) then true else false.
Proof.
  intros D Nz. destruct (lit_exact k q D) as (Nq & V). rewrite fle_val, V by assumption. destruct (Rle_dec (Q2R q) (fval z)); [apply Rle_bool_true; assumption|apply Rle_bool_false; lra].
Qed.
Lemma fbranches z : number z -> Q2R 0.5 <= fval z -> fval z < 110 -> exists c, In c pieces /\ Q2R (pstart c) <= fval z <= Q2R (pstop c) /\
  erf_result (fval z) = formula c (fval z) /\ ferf_branches z = fbranch z (pstart c) (pnum c) (pden c) (pb c).
Proof.
  intros Nz H1 H2. unfold erf_result. destruct (Rlt_dec (fval z) (Q2R 0.5)) as [L|_]; [lra|]. destruct (Rlt_dec (fval z) 110) as [_|L]; [|lra].
  assert (Fin : forall c, In c pieces -> Q2R (pstart c) <= fval z <= Q2R (pstop c) -> erf_branches (fval z) = branch (fval z) (pstart c) (pnum c) (pden c) (pb c) ->
    ferf_branches z = fbranch z (pstart c) (pnum c) (pden c) (pb c) ->
    exists c, In c pieces /\ Q2R (pstart c) <= fval z <= Q2R (pstop c) /\
      (let '(r, b) := erf_branches (fval z) in let g := exp (- fval z * fval z) / fval z in g * b + g * r) = formula c (fval z) /\
      ferf_branches z = fbranch z (pstart c) (pnum c) (pden c) (pb c)).
  { intros c Hc Hr E E'. exists c. split; [exact Hc|]. split; [exact Hr|]. rewrite E. split; [reflexivity|exact E']. }
  unfold erf_branches, ferf_branches in Fin |- *. rewrite !(flt_lit 2) in Fin |- * by (exact Nz || reflexivity).
  repeat match goal with |- context [Rlt_dec (fval z) ?q] => destruct (Rlt_dec (fval z) q) end;
  match goal with |- context [branch (fval z) ?s ?n ?d ?b] =>
    match eval unfold pieces in pieces with context [Piece s ?t n d b ?g] => apply (Fin (Piece s t n d b g)) end end;
  try reflexivity; try (unfold pieces; repeat (try (left; reflexivity); right); fail); cbn [pstart pstop]; try rewrite q110; lra.
Qed.
Lemma sub_exact z q k : number z -> dyadic k q = true -> 0 < Q2R q -> Q2R q <= fval z <= 2 * Q2R q -> fval z <= bp 7 ->
  number (fsub z (lit q)) /\ fval (fsub z (lit q)) = fval z - Q2R q.
Proof.
  intros Nz D P H B. destruct (lit_exact k q D) as (Nq & V).
  assert (F : fmt (fval z - fval (lit q))).
  { apply sterbenz; [exact _|exact _|apply fmt_val, Nz|apply fmt_val, Nq|]. rewrite V. lra. }
  rewrite <- V. destruct (fsub_val z (lit q) Nz Nq) as (N & E).
  - rewrite rnd_id by exact F. rewrite V, Rabs_pos_eq by lra. apply Rle_lt_trans with (bp 7); [lra|]. apply bpow_lt. reflexivity.
  - split; [exact N|]. rewrite E. apply rnd_id, F.
Qed.

(** ** The exponential *)
Lemma exp_lip a b : a <= b -> b <= 0 -> 0 <= exp b - exp a <= (b - a) * exp b.
Proof.
  intros L B. assert (exp a <= exp b) by (destruct L as [L| ->]; [left; apply exp_increasing, L|lra]). split; [lra|].
  replace (exp a) with (exp b * exp (a - b)) by (rewrite <- exp_plus; f_equal; ring). pose proof (exp_ineq1_le (a - b)) as I. pose proof (exp_pos b).
  assert (exp b * (1 + (a - b)) <= exp b * exp (a - b)) by (apply Rmult_le_compat_l; lra). lra.
Qed.
Lemma x_exp x : 0 <= x -> x * exp (- (x / 2)) <= 2.
Proof.
  intros P. rewrite exp_Ropp. pose proof (exp_ineq1_le (x / 2)) as I. pose proof (exp_pos (x / 2)) as E.
  apply (Rmult_le_reg_r (exp (x / 2))); [exact E|]. rewrite Rmult_assoc, Rinv_l by lra. lra.
Qed.
(** an exponent with a relative error of at most 8 roundings *)
Lemma exp_near (y x : R) : 0 <= x -> y <= 0 -> Rabs (y + x) <= 8 * u * x + tiny -> Rabs (exp y - exp (- x)) <= 17 * u.
Proof.
  intros P Y E. pose proof u_pos as UP. pose proof tiny_le as TL. assert (US : u <= / 100000000) by (rewrite u53; lra). pose proof tiny_pos.
  apply Rabs_le_inv in E. assert (8 * u * x <= / 100 * x) by (apply Rmult_le_compat_r; lra).
  pose proof (x_exp x P) as XE. pose proof (exp_pos (- (x / 2))) as Pe.
  assert (G : forall a b, a <= b -> b <= 0 -> b <= - (x / 2) + tiny -> b - a <= 8 * u * x + tiny -> 0 <= exp b - exp a <= 17 * u).
  { intros a b L B Hb D. destruct (exp_lip a b L B) as (G0 & G1). split; [exact G0|]. eapply Rle_trans; [exact G1|].
    assert (T : exp tiny <= 101 / 100).
    { destruct (exp_lip (- tiny) 0 ltac:(lra) ltac:(lra)) as (_ & T). rewrite exp_0 in T. rewrite exp_Ropp in T. pose proof (exp_pos tiny) as Q.
      assert (999 / 1000 <= / exp tiny) by lra. apply (Rmult_le_compat_r (exp tiny)) in H1; [|lra]. rewrite Rinv_l in H1 by lra. lra. }
    assert (Eb : exp b <= 101 / 100 * exp (- (x / 2))).
    { apply Rle_trans with (exp (- (x / 2) + tiny)); [destruct Hb as [Hb| ->]; [left; apply exp_increasing, Hb|lra]|]. rewrite exp_plus. rewrite Rmult_comm. apply Rmult_le_compat_r; lra. }
    assert (E1 : exp (- (x / 2)) <= 1) by (apply exp_le_1; lra). pose proof (exp_pos b).
    apply Rle_trans with ((8 * u * x + tiny) * (101 / 100 * exp (- (x / 2)))); [apply Rmult_le_compat; lra|].
    replace ((8 * u * x + tiny) * (101 / 100 * exp (- (x / 2)))) with (808 / 100 * u * (x * exp (- (x / 2))) + 101 / 100 * (tiny * exp (- (x / 2)))) by field.
    assert (808 / 100 * u * (x * exp (- (x / 2))) <= 808 / 100 * u * 2) by (apply Rmult_le_compat_l; lra).
    assert (tiny * exp (- (x / 2)) <= tiny * 1) by (apply Rmult_le_compat_l; lra). lra. }
  destruct (Rle_lt_dec y (- x)) as [L|L].
  - destruct (G y (- x) L ltac:(lra) ltac:(lra) ltac:(lra)). rewrite Rabs_minus_sym. rewrite Rabs_pos_eq; lra.
  - destruct (G (- x) y ltac:(lra) Y ltac:(lra) ltac:(lra)). rewrite Rabs_pos_eq; lra.
Qed.
Lemma opp_val x : number x -> number (SFopp x) /\ fval (SFopp x) = - fval x.
Proof.
  intros (V & F). destruct x as [s|s| |s m e]; try discriminate F; split.
  - split; reflexivity.
  - cbn. lra.
  - split; [exact V|reflexivity].
  - unfold fval. cbn [SFopp SF2R]. rewrite <- F2R_Zopp. destruct s; reflexivity.
Qed.
Lemma mult_near a b A B da db : Rabs (a - A) <= da -> Rabs (b - B) <= db -> Rabs (a * b - A * B) <= da * Rabs b + Rabs A * db.
Proof.
  intros Ha Hb. replace (a * b - A * B) with ((a - A) * b + A * (b - B)) by ring. eapply Rle_trans; [apply Rabs_triang|]. rewrite !Rabs_mult.
  apply Rplus_le_compat; [apply Rmult_le_compat_r; [apply Rabs_pos|exact Ha]|apply Rmult_le_compat_l; [apply Rabs_pos|exact Hb]].
Qed.
Lemma small_bp x k : (0 <= k)%Z -> Rabs x <= 1 -> Rabs x <= bp k.
Proof. intros K H. eapply Rle_trans; [exact H|]. change 1 with (bp 0). apply bpow_le. exact K. Qed.
Lemma piece_ratio c z : In c pieces -> number z -> Q2R (pstart c) <= fval z <= Q2R (pstop c) ->
  exists r b, fbranch z (pstart c) (pnum c) (pden c) (pb c) = (r, b) /\ number r /\ number b /\
    let q := poly (fval z - Q2R (pstart c)) (pnum c) / poly (fval z - Q2R (pstart c)) (pden c) in
    Rabs (fval r - q) <= 77 * u /\ Rabs q <= 3 / 10 /\ Rabs (fval b - Q2R (pb c)) <= u /\ 31 / 100 <= Q2R (pb c) <= 6 / 10.
Proof.
  intros Hc Nz H. pose proof piece_sizes as P. rewrite forallb_forall in P. specialize (P c Hc). rewrite !andb_true_iff in P.
  destruct P as ((((((P1 & P2) & P3) & P4) & P5) & P6) & P7). apply Qle_bool_iff, Qle_Rle in P3, P4, P5, P6, P7. rewrite Q2R_mult in P4.
  replace (Q2R 2) with 2 in P4 by qval. replace (Q2R 0.5) with (/ 2) in P3 by qval. replace (Q2R 110) with 110 in P5 by qval. replace (Q2R 0.31) with (31 / 100) in P6 by qval. replace (Q2R 0.6) with (6 / 10) in P7 by qval.
  assert (B7 : bp 7 = 128) by reflexivity.
  destruct (sub_exact z (pstart c) 2 Nz P2 ltac:(lra) ltac:(lra) ltac:(rewrite B7; lra)) as (Nx & Vx).
  assert (X : 0 <= fval z - Q2R (pstart c) <= IZR (Qnum (pstop c - pstart c)) / IZR (Zpos (Qden (pstop c - pstart c)))).
  { change (IZR (Qnum (pstop c - pstart c)) / IZR (Z.pos (Qden (pstop c - pstart c)))) with (Q2R (pstop c - pstart c)). rewrite Q2R_minus. lra. }
  destruct (sizes_ok _ _ _ _ _ P1 X) as (S1 & S2 & S3 & S4 & S5 & S6). rewrite <- Vx in S1, S2, S3 |- *.
  assert (XB : 0 <= fval (fsub z (lit (pstart c))) <= bp 7) by (rewrite Vx, B7; lra).
  destruct (evaluated _ (pnum c) (pden c) Nx XB S4 S5 S6 S1 S2 S3) as (Nn & En & Nd & Ed & Mn).
  exists (fdiv (fpoly (fsub z (lit (pstart c))) (pnum c)) (fpoly (fsub z (lit (pstart c))) (pden c))), (lit (pb c)).
  pose proof u_pos as UP. pose proof tiny_le as TL. pose proof tiny_pos as TP.
  assert (DB : poly (fval (fsub z (lit (pstart c)))) (pden c) <= bp 100).
  { eapply Rle_trans; [apply Rle_abs|]. eapply Rle_trans; [apply poly_mag; lra|]. eapply Rle_trans; [apply mag_le; [exact XB|intros k Hk; apply S4, in_or_app; right; exact Hk]|]. apply bpow_le. lia. }
  destruct (quotient _ _ _ _ (25 * u) (49 * u) Nn Nd (conj S3 DB) ltac:(lra) ltac:(lra) En Ed ltac:(lra)) as (Nr & Er).
  destruct (lit_err (pb c)) as (Nb & Eb). { apply small_bp; [lia|]. rewrite Rabs_pos_eq; lra. }
  split; [reflexivity|]. split; [exact Nr|]. split; [exact Nb|]. cbv zeta. split; [lra|]. split; [|split; [|lra]].
  - unfold Rdiv. rewrite Rabs_mult, Rabs_inv, (Rabs_pos_eq (poly (fval (fsub z (lit (pstart c)))) (pden c))) by lra.
    apply (Rmult_le_reg_r (poly (fval (fsub z (lit (pstart c)))) (pden c))); [lra|]. rewrite Rmult_assoc, Rinv_l by lra. lra.
  - eapply Rle_trans; [exact Eb|]. rewrite Rabs_pos_eq by lra. assert (u * Q2R (pb c) <= u * (6 / 10)) by (apply Rmult_le_compat_l; lra). lra.
Qed.
Lemma rnd_opp x : rnd (- x) = - rnd x.
Proof. apply round_NE_opp. Qed.
Lemma rnd_pos x : 0 <= x -> 0 <= rnd x.
Proof. intros H. rewrite <- rnd0. apply rnd_le, H. Qed.
Lemma exp_square fexp z : exp_within fexp -> number z -> 0 <= fval z <= bp 500 ->
  number (fexp (fmul (SFopp z) z)) /\ 0 <= fval (fexp (fmul (SFopp z) z)) <= 1 /\ Rabs (fval (fexp (fmul (SFopp z) z)) - exp (- fval z * fval z)) <= 25 * u.
Proof.
  intros (X & _) Nz B. destruct (opp_val z Nz) as (No & Vo). pose proof u_pos as UP. pose proof tiny_pos as TP.
  assert (B2 : fval z * fval z <= bp 1000). { replace (bp 1000) with (bp 500 * bp 500) by (rewrite <- bpow_plus; reflexivity). apply Rmult_le_compat; lra. }
  assert (P2 : 0 <= fval z * fval z) by (apply Rmult_le_pos; lra).
  destruct (mul_err (SFopp z) z 1000 No Nz ltac:(lia)) as (Ny & Ey).
  { rewrite Vo, <- Ropp_mult_distr_l, Rabs_Ropp, Rabs_pos_eq; lra. }
  assert (Y0 : fval (fmul (SFopp z) z) <= 0).
  { destruct (fmul_le (SFopp z) z (bp 1000) No Nz) as (_ & V & _); [apply fmt_bpow; lia|apply bp_top; lia| |].
    - rewrite Vo, <- Ropp_mult_distr_l, Rabs_Ropp, Rabs_pos_eq; lra.
    - rewrite V, <- rnd0. apply rnd_le. rewrite Vo, <- Ropp_mult_distr_l. lra. }
  destruct (X _ Ny Y0) as (Ne & Be & Ee). split; [exact Ne|]. split; [exact Be|].
  rewrite Vo, <- Ropp_mult_distr_l, Rabs_Ropp, (Rabs_pos_eq (fval z * fval z)) in Ey by lra.
  pose proof (exp_near (fval (fmul (SFopp z) z)) (fval z * fval z) P2 Y0) as N. replace (fval (fmul (SFopp z) z) - - (fval z * fval z)) with (fval (fmul (SFopp z) z) + fval z * fval z) in Ey by ring.
  assert (0 <= u * (fval z * fval z)) by (apply Rmult_le_pos; lra).
  specialize (N ltac:(lra)). rewrite <- Ropp_mult_distr_l. assert (E50 : powerRZ 2 (-50) = 8 * u).
  { transitivity (bp (-50)); [symmetry; apply (bpow_powerRZ radix2)|]. change 8 with (bp 3). change u with (bp (-53)). rewrite <- bpow_plus. reflexivity. }
  rewrite E50 in Ee.
  replace (fval (fexp (fmul (SFopp z) z)) - exp (- (fval z * fval z))) with
    ((fval (fexp (fmul (SFopp z) z)) - exp (fval (fmul (SFopp z) z))) + (exp (fval (fmul (SFopp z) z)) - exp (- (fval z * fval z)))) by ring.
  eapply Rle_trans; [apply Rabs_triang|]. lra.
Qed.
Lemma upper fexp z : exp_within fexp -> number z -> Q2R 0.5 <= fval z -> fval z < 110 ->
  number (ferf_result fexp z) /\ 0 <= fval (ferf_result fexp z) /\ Rabs (fval (ferf_result fexp z) - erf_result (fval z)) <= 256 * u.
Proof.
  intros X Nz H1 H2. destruct (fbranches z Nz H1 H2) as (c & Hc & Hr & E & Eb). unfold ferf_result. rewrite (flt_lit 2 0.5), (flt_lit 2 110) by (exact Nz || reflexivity). rewrite q110.
  destruct (Rlt_dec (fval z) (Q2R 0.5)) as [L|_]; [lra|]. destruct (Rlt_dec (fval z) 110) as [_|L]; [|lra].
  destruct (piece_ratio c z Hc Nz Hr) as (r & b & F & Nr & Nb & Er & Mr & Ebb & Bb). rewrite Eb, F, E. clear E Eb F. unfold formula.
  set (q := poly (fval z - Q2R (pstart c)) (pnum c) / poly (fval z - Q2R (pstart c)) (pden c)) in *. clearbody q. set (B := Q2R (pb c)) in *. clearbody B.
  assert (H05 : Q2R 0.5 = / 2) by qval. rewrite H05 in H1. clear Hr Hc H05.
  pose proof u_pos as UP. pose proof tiny_le as TL. pose proof tiny_pos as TP. assert (US : u <= / 100000000) by (rewrite u53; lra).
  destruct (exp_square fexp z X Nz) as (Ne & Be & Ee). { split; [lra|]. apply Rle_trans with (bp 7); [change (bp 7) with 128; lra|apply bpow_le; lia]. }
  set (e := fexp (fmul (SFopp z) z)) in *. clearbody e. set (ex := exp (- fval z * fval z)) in *.
  assert (Xb : 0 <= ex <= 1). { split; [left; apply exp_pos|]. apply exp_le_1. assert (0 <= fval z * fval z) by (apply Rmult_le_pos; lra). lra. }
  clearbody ex. assert (I : 0 <= / fval z <= 2). { split; [left; apply Rinv_0_lt_compat; lra|]. replace 2 with (/ / 2) by lra. apply Rinv_le_contravar; lra. }
  assert (Q0 : 0 <= fval e / fval z <= 2). { unfold Rdiv. split; [apply Rmult_le_pos; lra|]. apply Rle_trans with (1 * 2); [apply Rmult_le_compat; lra|lra]. }
  assert (G0 : 0 <= ex / fval z <= 2). { unfold Rdiv. split; [apply Rmult_le_pos; lra|]. apply Rle_trans with (1 * 2); [apply Rmult_le_compat; lra|lra]. }
  destruct (fdiv_le e z (bp 1) Ne Nz ltac:(lra)) as (Ng & Vg & _); [apply fmt_bpow; lia|apply bp_top; lia|change (bp 1) with 2; rewrite Rabs_pos_eq; lra|].
  pose proof (err_any (fval e / fval z)) as Eg. rewrite <- Vg in Eg. assert (Pg : 0 <= fval (fdiv e z)) by (rewrite Vg; apply rnd_pos; lra).
  rewrite (Rabs_pos_eq (fval e / fval z)) in Eg by lra. assert (u * (fval e / fval z) <= u * 2) by (apply Rmult_le_compat_l; lra).
  assert (Eq : Rabs (fval e / fval z - ex / fval z) <= 50 * u).
  { unfold Rdiv. rewrite <- Rmult_minus_distr_r, Rabs_mult, (Rabs_pos_eq (/ fval z)) by lra. apply Rle_trans with (25 * u * 2); [apply Rmult_le_compat; try lra; apply Rabs_pos|lra]. }
  set (g := fdiv e z) in *. clearbody g. set (G := ex / fval z) in *. clearbody G. set (e1 := fval e / fval z) in *. clearbody e1. clear Ne Be Ee Xb I.
  assert (EG : Rabs (fval g - G) <= 53 * u) by (replace (fval g - G) with ((fval g - e1) + (e1 - G)) by ring; eapply Rle_trans; [apply Rabs_triang|]; lra).
  assert (Gg : fval g <= 3) by (apply Rabs_le_inv in EG; lra).
  assert (Rb : 0 <= fval b <= 61 / 100) by (apply Rabs_le_inv in Ebb; lra).
  assert (Rr : Rabs (fval r) <= 31 / 100) by (apply Rabs_le; apply Rabs_le_inv in Er, Mr; lra).
  assert (Rbr : 0 <= fval b + fval r) by (apply Rabs_le_inv in Er, Mr, Ebb; lra).
  assert (M1 : Rabs (fval g * fval b) <= 2) by (rewrite Rabs_mult, !Rabs_pos_eq by lra; apply Rle_trans with (3 * (61 / 100)); [apply Rmult_le_compat; lra|lra]).
  assert (M2 : Rabs (fval g * fval r) <= 1) by (rewrite Rabs_mult, (Rabs_pos_eq (fval g)) by lra; apply Rle_trans with (3 * (31 / 100)); [apply Rmult_le_compat; try lra; apply Rabs_pos|lra]).
  destruct (fmul_le g b (bp 1) Ng Nb) as (N1 & V1 & _); [apply fmt_bpow; lia|apply bp_top; lia|exact M1|].
  destruct (fmul_le g r (bp 1) Ng Nr) as (N2 & V2 & _); [apply fmt_bpow; lia|apply bp_top; lia|change (bp 1) with 2; lra|].
  pose proof (err_any (fval g * fval b)) as E1. pose proof (err_any (fval g * fval r)) as E2. rewrite <- V1 in E1. rewrite <- V2 in E2.
  pose proof (mult_near (fval g) (fval b) G B _ _ EG Ebb) as D1. pose proof (mult_near (fval g) (fval r) G q _ _ EG Er) as D2.
  rewrite (Rabs_pos_eq G) in D1, D2 by lra. rewrite (Rabs_pos_eq (fval b)) in D1 by lra.
  assert (53 * u * fval b <= 53 * u * (61 / 100)) by (apply Rmult_le_compat_l; lra). assert (53 * u * Rabs (fval r) <= 53 * u * (31 / 100)) by (apply Rmult_le_compat_l; lra).
  assert (G * u <= 2 * u) by (apply Rmult_le_compat_r; lra). assert (G * (77 * u) <= 2 * (77 * u)) by (apply Rmult_le_compat_r; lra).
  assert (u * Rabs (fval g * fval b) <= u * 2) by (apply Rmult_le_compat_l; lra). assert (u * Rabs (fval g * fval r) <= u * 1) by (apply Rmult_le_compat_l; lra).
  assert (Pos : 0 <= fval (fmul g b) + fval (fmul g r)).
  { rewrite V1, V2. assert (rnd (- (fval g * fval r)) <= rnd (fval g * fval b)). { apply rnd_le. assert (0 <= fval g * (fval b + fval r)) by (apply Rmult_le_pos; lra). lra. }
    rewrite rnd_opp in H8. lra. }
  assert (S1 : Rabs (fval (fmul g b)) <= 3 /\ Rabs (fval (fmul g r)) <= 2).
  { split; apply Rabs_le; apply Rabs_le_inv in E1, E2, M1, M2; lra. } destruct S1 as [S1 S2].
  destruct (fadd_le (fmul g b) (fmul g r) (bp 3) N1 N2) as (N3 & V3 & _); [apply fmt_bpow; lia|apply bp_top; lia|change (bp 3) with 8; eapply Rle_trans; [apply Rabs_triang|]; lra|].
  split; [exact N3|]. split; [rewrite V3; apply rnd_pos, Pos|].
  pose proof (err_any (fval (fmul g b) + fval (fmul g r))) as E3. rewrite <- V3 in E3.
  assert (u * Rabs (fval (fmul g b) + fval (fmul g r)) <= u * 5) by (apply Rmult_le_compat_l; [lra|]; eapply Rle_trans; [apply Rabs_triang|]; lra).
  replace (fval (fadd (fmul g b) (fmul g r)) - (G * B + G * q)) with
    ((fval (fadd (fmul g b) (fmul g r)) - (fval (fmul g b) + fval (fmul g r))) + ((fval (fmul g b) - fval g * fval b) + (fval g * fval b - G * B)) + ((fval (fmul g r) - fval g * fval r) + (fval g * fval r - G * q))) by ring.
  eapply Rle_trans; [apply Rabs_triang|]. eapply Rle_trans; [apply Rplus_le_compat; [apply Rabs_triang|apply Rabs_triang]|].
  eapply Rle_trans; [apply Rplus_le_compat_r, Rplus_le_compat_l, Rabs_triang|]. lra.
Qed.
