(** The error function of src/stats/erf.rs against the integral. *)
From Coq Require Import Reals Lra QArith Qreals Qabs ZArith Machin.
From Coquelicot Require Import Coquelicot.
From Verif Require Import Base Series SeriesProofs Collision Gauss CollisionProofs PolyZ Erf.
Local Open Scope R_scope.

Lemma both x a : Rabs x <= a -> - a <= x <= a.
Proof. intros H. pose proof (Rle_abs x). pose proof (Rle_abs (- x)) as B. rewrite Rabs_Ropp in B. lra. Qed.

(** ** The factor of the integral *)
Lemma PI_bounds : 3.14159265358979 <= PI <= 3.14159265358980.
Proof.
  pose proof (PI_2_3_7_ineq 8) as [A B].
  unfold PI_2_3_7_tg, tg_alt, Ratan_seq in A, B.
  cbn [sum_f_R0 Nat.mul Nat.add] in A, B.
  repeat rewrite INR_IZR_INZ in A; repeat rewrite INR_IZR_INZ in B. cbn [Z.of_nat Pos.of_succ_nat Pos.succ] in A, B.
  cbn [pow] in A, B.
  split; lra.
Qed.
Definition K2 : R := 2 / sqrt PI.
Definition k2 : Q := 1.12837916709551257390.
Lemma K2_close : Rabs (K2 - Q2R k2) <= / 10 ^ 13.
Proof.
  pose proof PI_bounds as [A B]. assert (P : 0 < sqrt PI) by (apply sqrt_lt_R0; lra).
  assert (S : sqrt PI * sqrt PI = PI) by (apply sqrt_sqrt; lra).
  assert (E : Q2R k2 = 1.12837916709551257390) by (unfold Q2R, k2; cbn [Qnum Qden]; lra). rewrite E.
  assert (L1 : 1.77245385090551 <= sqrt PI) by (apply Rsqr_incr_0_var; [unfold Rsqr; rewrite S; lra|lra]).
  assert (L2 : sqrt PI <= 1.77245385090552) by (apply Rsqr_incr_0_var; [unfold Rsqr; rewrite S; lra|lra]).
  unfold K2. apply Rabs_le. split.
  - apply (Rmult_le_reg_r (sqrt PI)); [exact P|]. replace ((2 / sqrt PI - 1.12837916709551257390) * sqrt PI) with (2 - 1.12837916709551257390 * sqrt PI) by (field; lra). lra.
  - apply (Rmult_le_reg_r (sqrt PI)); [exact P|]. replace ((2 / sqrt PI - 1.12837916709551257390) * sqrt PI) with (2 - 1.12837916709551257390 * sqrt PI) by (field; lra). lra.
Qed.
Lemma k2_val : Q2R k2 = 1.12837916709551257390.
Proof. unfold Q2R, k2; cbn [Qnum Qden]; lra. Qed.
Lemma K2_bounds : 1.128 <= K2 <= 1.129.
Proof. pose proof K2_close as C. rewrite k2_val in C. apply both in C. lra. Qed.

Definition G (z : R) : R := RInt (fun t => exp (- (t * t))) 0 z.
Lemma bell_continuous t : continuous (fun t => exp (- (t * t))) t.
Proof. apply (ex_derive_continuous (fun t => exp (- (t * t)))). auto_derive. exact I. Qed.
Lemma G_derive z : is_derive G z (exp (- (z * z))).
Proof.
  apply (is_derive_RInt (fun t => exp (- (t * t))) G 0 z).
  - exists (mkposreal 1 Rlt_0_1). intros y _. apply (RInt_correct (fun t => exp (- (t * t)))). apply ex_RInt_continuous. intros; apply bell_continuous.
  - apply bell_continuous.
Qed.
Lemma G_0 : G 0 = 0.
Proof. apply (RInt_point 0 (fun t => exp (- (t * t)))). Qed.
Lemma erfc_G z : erfc z = 1 - K2 * G z.
Proof. reflexivity. Qed.

(** bounded variation from bounded derivatives *)
Lemma variation (E g e : R -> R) (H : R -> R) c x y : x <= y ->
  (forall t, x <= t <= y -> is_derive E t (e t)) -> (forall t, x <= t <= y -> is_derive H t (g t)) ->
  (forall t, x <= t <= y -> Rabs (e t) <= c * g t) -> Rabs (E y - E x) <= c * (H y - H x).
Proof.
  intros Lxy DE DH B.
  assert (Up : forall s, (s = 1 \/ s = -1) -> s * (E y - E x) <= c * (H y - H x)).
  { intros s Hs. destruct (MVT_gen (fun t => c * H t - s * E t) x y (fun t => c * g t - s * e t)) as (t & Ht & Et).
    - intros t Ht. rewrite Rmin_left, Rmax_right in Ht by lra. apply (is_derive_minus (fun t => c * H t) (fun t => s * E t)).
      + apply (is_derive_scal H t c). apply DH. lra.
      + apply (is_derive_scal E t s). apply DE. lra.
    - intros t Ht. rewrite Rmin_left, Rmax_right in Ht by lra. apply continuity_pt_filterlim.
      apply (ex_derive_continuous (fun t => c * H t - s * E t)). exists (c * g t - s * e t).
      apply (is_derive_minus (fun t => c * H t) (fun t => s * E t)).
      + apply (is_derive_scal H t c). apply DH. lra.
      + apply (is_derive_scal E t s). apply DE. lra.
    - rewrite Rmin_left, Rmax_right in Ht by lra. specialize (B t Ht). apply both in B.
      assert (0 <= c * g t - s * e t) by (destruct Hs; subst s; lra).
      assert (0 <= (c * g t - s * e t) * (y - x)) by (apply Rmult_le_pos; lra). lra. }
  pose proof (Up 1 ltac:(auto)). pose proof (Up (-1) ltac:(auto)). apply Rabs_le. lra.
Qed.

(** ** One branch above 0.5 *)
Record piece := Piece { pstart : Q; pstop : Q; pnum : list Q; pden : list Q; pb : Q; pgap : Q }.

Definition formula (c : piece) (z : R) : R :=
  exp (- z * z) / z * Q2R (pb c) + exp (- z * z) / z * (poly (z - Q2R (pstart c)) (pnum c) / poly (z - Q2R (pstart c)) (pden c)).

Definition Dz (c : piece) : list Z := map scaled (pden c).
Definition Wz (c : piece) : list Z := [scaled (pstart c); SCALE].
Definition Mz (c : piece) : list Z := zadd (zscale (scaled (pb c)) (Dz c)) (zscale SCALE (map scaled (pnum c))).
Definition DWz (c : piece) : list Z := zmul (Dz c) (Wz c).
Definition Pm (c : piece) (m dw dw2 : list Z) : list Z :=
  zadd (zscale SCALE (zadd (zmul (zder m) dw) (zopp (zmul m (zder dw)))))
    (zadd (zscale (-2) (zmul (zmul (Wz c) m) dw)) (zscale (scaled k2) dw2)).
Definition Pz (c : piece) : list Z := Pm c (Mz c) (DWz c) (zmul (DWz c) (DWz c)).
Definition eta : Q := 2.5e-10.
Definition piece_ok (n : nat) (c : piece) : bool :=
  let p := Qnum (pstop c - pstart c) in
  let q := Zpos (Qden (pstop c - pstart c)) in
  let dw := DWz c in
  let dw2 := zmul dw dw in
  let w2 := zscale (scaled eta) dw2 in
  let pm := Pm c (Mz c) dw dw2 in
  forallb exact (pnum c) && forallb exact (pden c) && exact (pstart c) && exact (pb c) &&
  (0 <? p)%Z && (0 <? Qnum (pstart c))%Z && (0 <? n)%nat &&
  nonneg_on p q n (zadd (Dz c) [(-1)%Z]) && nonneg_on p q n (zadd w2 pm) && nonneg_on p q n (zadd w2 (zopp pm)).

Lemma SCALE_pos : 0 < IZR SCALE.
Proof. apply IZR_lt. reflexivity. Qed.

Lemma Q2R_pos q : (0 <? Qnum q)%Z = true -> 0 < Q2R q.
Proof. intros H. apply Z.ltb_lt in H. unfold Q2R. apply Rmult_lt_0_compat; [apply IZR_lt, H|apply Rinv_0_lt_compat, IZR_lt; lia]. Qed.

Lemma piece_facts n c u : piece_ok n c = true -> 0 <= u <= Q2R (pstop c) - Q2R (pstart c) ->
  let s := Q2R (pstart c) in let m := zev (Mz c) u in let w := zev (DWz c) u in
  0 < s /\ 0 < zev (Dz c) u /\ 0 < w /\ poly u (pden c) <> 0 /\
  (Q2R (pb c) + poly u (pnum c) / poly u (pden c)) / (s + u) = m / w /\
  Rabs ((zev (zder (Mz c)) u * w - m * zev (zder (DWz c)) u) / (w * w) - 2 * (s + u) * (m / w) + Q2R k2) <= Q2R eta.
Proof.
  intros C Hu s m w. unfold piece_ok in C. cbv zeta in C. fold (Pz c) in C. rewrite !andb_true_iff in C. destruct C as (((((((((C1 & C2) & C3) & C4) & C5) & C6) & C7) & C8) & C9) & C10).
  apply Z.ltb_lt in C5. apply Nat.ltb_lt in C7.
  assert (Hu' : 0 <= u <= IZR (Qnum (pstop c - pstart c)) / IZR (Zpos (Qden (pstop c - pstart c)))).
  { rewrite <- Q2R_minus in Hu. exact Hu. }
  assert (Hs : 0 < s) by (apply Q2R_pos, C6).
  pose proof (nonneg_on_ok _ _ _ _ u C5 (Pos2Z.is_pos _) C7 C8 Hu') as N1. rewrite zev_add in N1. cbn [zev] in N1.
  pose proof (nonneg_on_ok _ _ _ _ u C5 (Pos2Z.is_pos _) C7 C9 Hu') as N2. rewrite zev_add, zev_scale, zev_mul in N2.
  pose proof (nonneg_on_ok _ _ _ _ u C5 (Pos2Z.is_pos _) C7 C10 Hu') as N3. rewrite zev_add, zev_scale, zev_mul, zev_opp in N3.
  pose proof SCALE_pos as HS. set (S := IZR SCALE) in *.
  assert (HD : 0 < zev (Dz c) u) by lra.
  assert (ED : zev (Dz c) u = S * poly u (pden c)) by (apply scaled_poly, C2).
  assert (EN : zev (map scaled (pnum c)) u = S * poly u (pnum c)) by (apply scaled_poly, C1).
  assert (EW : zev (Wz c) u = S * (s + u)) by (cbn [Wz zev]; rewrite (scaled_ok _ C3); fold S; unfold s; ring).
  assert (Ew : w = zev (Dz c) u * (S * (s + u))) by (unfold w, DWz; rewrite zev_mul, EW; reflexivity).
  assert (Hw : 0 < w) by (rewrite Ew; apply Rmult_lt_0_compat; [exact HD|apply Rmult_lt_0_compat; lra]).
  assert (Em : m = S * Q2R (pb c) * zev (Dz c) u + S * (S * poly u (pnum c))).
  { unfold m, Mz. rewrite zev_add, !zev_scale, EN, (scaled_ok _ C4). reflexivity. }
  assert (HP : poly u (pden c) <> 0) by (intros Z0; rewrite Z0, Rmult_0_r in ED; lra).
  split; [exact Hs|]. split; [exact HD|]. split; [exact Hw|]. split; [exact HP|]. split.
  { rewrite Em, Ew, ED. field. repeat split; lra. }
  assert (EP : zev (Pz c) u = S * (zev (zder (Mz c)) u * w - m * zev (zder (DWz c)) u) - 2 * (S * (s + u)) * m * w + S * Q2R k2 * (w * w)).
  { unfold Pz, Pm. rewrite !zev_add, !zev_scale, !zev_add, zev_opp, !zev_mul, EW, (scaled_ok k2 eq_refl). fold S m w. ring. }
  rewrite EP, (scaled_ok eta eq_refl) in N2, N3. fold S w in N2, N3.
  set (a := zev (zder (Mz c)) u) in *. set (b := zev (zder (DWz c)) u) in *. clearbody a b m w s. clear EP Em Ew.
  assert (Hww : 0 < S * (w * w)) by (apply Rmult_lt_0_compat; [lra|apply Rmult_lt_0_compat; lra]).
  apply Rabs_le. split; apply (Rmult_le_reg_r (S * (w * w))); try exact Hww.
  - replace (((a * w - m * b) / (w * w) - 2 * (s + u) * (m / w) + Q2R k2) * (S * (w * w))) with (S * (a * w - m * b) - 2 * (S * (s + u)) * m * w + S * Q2R k2 * (w * w)) by (field; lra). lra.
  - replace (((a * w - m * b) / (w * w) - 2 * (s + u) * (m / w) + Q2R k2) * (S * (w * w))) with (S * (a * w - m * b) - 2 * (S * (s + u)) * m * w + S * Q2R k2 * (w * w)) by (field; lra). lra.
Qed.

Definition error_of (c : piece) (z : R) : R := exp (- (z * z)) * (zev (Mz c) (z - Q2R (pstart c)) / zev (DWz c) (z - Q2R (pstart c))) - erfc z.
Lemma formula_error n c z : piece_ok n c = true -> Q2R (pstart c) <= z <= Q2R (pstop c) -> formula c z - erfc z = error_of c z.
Proof.
  intros C Hz. destruct (piece_facts n c (z - Q2R (pstart c)) C) as (Hs & _ & Hw & HP & E & _); [lra|].
  unfold error_of. rewrite <- E. unfold formula. replace (- z * z) with (- (z * z)) by ring. replace (Q2R (pstart c) + (z - Q2R (pstart c))) with z by ring.
  field. split; [exact HP|lra].
Qed.
Lemma error_derive n c z : piece_ok n c = true -> Q2R (pstart c) <= z <= Q2R (pstop c) ->
  exists r, is_derive (error_of c) z (exp (- (z * z)) * r) /\ Rabs r <= Q2R eta + / 10 ^ 13.
Proof.
  intros C Hz. destruct (piece_facts n c (z - Q2R (pstart c)) C) as (Hs & _ & Hw & HP & E & B); [lra|].
  set (u := z - Q2R (pstart c)) in *. set (m := zev (Mz c) u) in *. set (w := zev (DWz c) u) in *.
  set (a := zev (zder (Mz c)) u) in *. set (b := zev (zder (DWz c)) u) in *.
  exists ((a * w - m * b) / (w * w) - 2 * z * (m / w) + K2). split.
  - assert (Dm : is_derive (fun z => zev (Mz c) (z - Q2R (pstart c))) z a).
    { replace a with (scal 1 a) by apply Rmult_1_l. apply (is_derive_comp (zev (Mz c)) (fun z => z - Q2R (pstart c))); [apply zev_derive|]. auto_derive; [exact I|ring]. }
    assert (Dw : is_derive (fun z => zev (DWz c) (z - Q2R (pstart c))) z b).
    { replace b with (scal 1 b) by apply Rmult_1_l. apply (is_derive_comp (zev (DWz c)) (fun z => z - Q2R (pstart c))); [apply zev_derive|]. auto_derive; [exact I|ring]. }
    assert (Dq : is_derive (fun z => zev (Mz c) (z - Q2R (pstart c)) / zev (DWz c) (z - Q2R (pstart c))) z ((a * w - m * b) / (w * w))).
    { replace ((a * w - m * b) / (w * w)) with ((a * w - m * b) / w ^ 2) by (field; lra).
      apply (is_derive_div (fun z => zev (Mz c) (z - Q2R (pstart c))) (fun z => zev (DWz c) (z - Q2R (pstart c)))); [exact Dm|exact Dw|]. fold u w. lra. }
    assert (De : is_derive (fun z => exp (- (z * z))) z (- 2 * z * exp (- (z * z)))) by (auto_derive; [exact I|ring]).
    unfold error_of. apply (is_derive_ext (fun z => exp (- (z * z)) * (zev (Mz c) (z - Q2R (pstart c)) / zev (DWz c) (z - Q2R (pstart c))) - (1 - K2 * G z))); [reflexivity|].
    replace (exp (- (z * z)) * ((a * w - m * b) / (w * w) - 2 * z * (m / w) + K2))
      with ((- 2 * z * exp (- (z * z)) * (m / w) + exp (- (z * z)) * ((a * w - m * b) / (w * w))) - (0 - K2 * exp (- (z * z)))) by ring.
    apply (is_derive_minus (fun z => exp (- (z * z)) * (zev (Mz c) (z - Q2R (pstart c)) / zev (DWz c) (z - Q2R (pstart c)))) (fun z => 1 - K2 * G z)).
    + apply (is_derive_mult (fun z => exp (- (z * z))) (fun z => zev (Mz c) (z - Q2R (pstart c)) / zev (DWz c) (z - Q2R (pstart c))) z); [exact De|exact Dq|].
      intros x y. apply Rmult_comm.
    + apply (is_derive_minus (fun _ => 1) (fun z => K2 * G z)); [apply (is_derive_const 1 z)|]. apply (is_derive_scal G z K2), G_derive.
  - replace (Q2R (pstart c) + u) with z in B by (unfold u; ring).
    replace ((a * w - m * b) / (w * w) - 2 * z * (m / w) + K2) with (((a * w - m * b) / (w * w) - 2 * z * (m / w) + Q2R k2) + (K2 - Q2R k2)) by ring.
    eapply Rle_trans; [apply Rabs_triang|]. pose proof K2_close. lra.
Qed.

Definition slope : R := Q2R eta + / 10 ^ 13.
Lemma piece_variation n c x y : piece_ok n c = true -> Q2R (pstart c) <= x -> x <= y -> y <= Q2R (pstop c) ->
  Rabs ((formula c y - erfc y) - (formula c x - erfc x)) <= slope * (G y - G x).
Proof.
  intros C Hx Lxy Hy. rewrite !(formula_error n c) by (auto; lra).
  apply (variation (error_of c) (fun t => exp (- (t * t))) (fun t => Derive (error_of c) t) G slope x y Lxy).
  - intros t Ht. destruct (error_derive n c t C) as (r & D & _); [lra|]. apply Derive_correct. eexists. exact D.
  - intros t _. apply G_derive.
  - intros t Ht. destruct (error_derive n c t C) as (r & D & B); [lra|]. rewrite (is_derive_unique _ _ _ D), Rabs_mult, Rabs_pos_eq by (left; apply exp_pos).
    rewrite Rmult_comm. apply Rmult_le_compat_r; [left; apply exp_pos|exact B].
Qed.

(** ** The branches above 0.5, joined *)
Definition qpoly (u : Q) (l : list Q) : Q := fold_right (fun c s => c + u * s)%Q 0%Q l.
Lemma qpoly_ok u l : Q2R (qpoly u l) = poly (Q2R u) l.
Proof.
  unfold poly. induction l as [|c l IH]; cbn [qpoly fold_right map]; [unfold polynomial; cbn; lra|].
  rewrite polynomial_cons, Q2R_plus, Q2R_mult. unfold qpoly in IH. rewrite IH. reflexivity.
Qed.
Definition value (c : piece) (u : Q) : Q := (pb c + qpoly u (pnum c) / qpoly u (pden c))%Q.
Definition value_ok (c : piece) (u : Q) : bool := negb (Qeq_bool (qpoly u (pden c)) 0).
Lemma formula_value c (z : Q) : value_ok c (z - pstart c) = true -> 0 < Q2R z ->
  formula c (Q2R z) = exp (- (Q2R z * Q2R z)) * (Q2R (value c (z - pstart c)) / Q2R z).
Proof.
  intros V P. unfold value_ok in V. apply negb_true_iff in V. apply Qeq_bool_neq in V.
  unfold formula, value. rewrite Q2R_plus, Q2R_div, !qpoly_ok, Q2R_minus by exact V.
  assert (poly (Q2R z - Q2R (pstart c)) (pden c) <> 0).
  { rewrite <- Q2R_minus, <- qpoly_ok. intros E. apply V. apply eqR_Qeq. rewrite E. unfold Q2R. cbn. lra. }
  replace (- Q2R z * Q2R z) with (- (Q2R z * Q2R z)) by ring. field. split; [assumption|lra].
Qed.

Definition joined (c c' : piece) : bool :=
  let s := pstop c in
  Qeq_bool s (pstart c') && (0 <? Qnum s)%Z && value_ok c (s - pstart c) && value_ok c' (s - pstart c') &&
  Qle_bool (Qabs (value c (s - pstart c) - value c' (s - pstart c'))) (pgap c * s).
Lemma exp_le_1 x : x <= 0 -> exp x <= 1.
Proof. intros [L|E]; [rewrite <- exp_0; left; apply exp_increasing, L|rewrite E, exp_0; lra]. Qed.
Lemma Q2R_Qabs q : Q2R (Qabs q) = Rabs (Q2R q).
Proof.
  destruct (Qlt_le_dec q 0) as [L|L].
  - rewrite (Qeq_eqR _ _ (Qabs_neg q (Qlt_le_weak _ _ L))), Q2R_opp. apply Qlt_Rlt in L. replace (Q2R 0) with 0 in L by (unfold Q2R; cbn; lra). rewrite Rabs_left; lra.
  - rewrite (Qeq_eqR _ _ (Qabs_pos q L)). apply Qle_Rle in L. replace (Q2R 0) with 0 in L by (unfold Q2R; cbn; lra). rewrite Rabs_right; lra.
Qed.
Lemma joined_jump c c' : joined c c' = true -> Q2R (pstart c') = Q2R (pstop c) /\ Rabs (formula c (Q2R (pstop c)) - formula c' (Q2R (pstop c))) <= Q2R (pgap c).
Proof.
  unfold joined. cbv zeta. rewrite !andb_true_iff. intros ((((A & B) & C) & D) & E). apply Qeq_bool_eq in A. split; [symmetry; apply Qeq_eqR, A|].
  apply Q2R_pos in B. rewrite (formula_value c), (formula_value c') by assumption.
  apply Qle_bool_iff, Qle_Rle in E. rewrite Q2R_Qabs, Q2R_minus, Q2R_mult in E.
  set (v := Q2R (value c _)) in *. set (v' := Q2R (value c' _)) in *. set (z := Q2R (pstop c)) in *. clearbody v v' z.
  replace (exp (- (z * z)) * (v / z) - exp (- (z * z)) * (v' / z)) with (exp (- (z * z)) * ((v - v') / z)) by (field; lra).
  rewrite Rabs_mult, (Rabs_pos_eq (exp _)) by (left; apply exp_pos).
  assert (X : exp (- (z * z)) <= 1) by (apply exp_le_1; nra).
  assert (Y : Rabs ((v - v') / z) <= Q2R (pgap c)).
  { unfold Rdiv. rewrite Rabs_mult, (Rabs_pos_eq (/ z)) by (left; apply Rinv_0_lt_compat, B).
    apply (Rmult_le_reg_r z); [exact B|]. rewrite Rmult_assoc, Rinv_l, Rmult_1_r by lra. exact E. }
  pose proof (exp_pos (- (z * z))). pose proof (Rabs_pos ((v - v') / z)). nra.
Qed.

Fixpoint chain (n : nat) (l : list piece) : bool :=
  match l with
  | [] => true
  | c :: r => piece_ok n c && match r with [] => true | c' :: _ => joined c c' end && chain n r
  end.
Definition last_stop (l : list piece) : Q := match rev l with c :: _ => pstop c | [] => 0 end.
Definition gaps (l : list piece) : Q := fold_right (fun c s => pgap c + s)%Q 0%Q l.
Lemma G_incr x y : x <= y -> G x <= G y.
Proof.
  intros L. destruct (MVT_gen G x y (fun t => exp (- (t * t)))) as (t & _ & E).
  - intros t _. apply G_derive.
  - intros t _. apply continuity_pt_filterlim. apply (ex_derive_continuous G). eexists. apply G_derive.
  - pose proof (exp_pos (- (t * t))). assert (0 <= exp (- (t * t)) * (y - x)) by (apply Rmult_le_pos; lra). lra.
Qed.
Lemma slope_pos : 0 < slope.
Proof. unfold slope. apply Rplus_lt_0_compat; [apply Q2R_pos; reflexivity|apply Rinv_0_lt_compat, pow_lt; lra]. Qed.
Lemma piece_order n c : piece_ok n c = true -> Q2R (pstart c) <= Q2R (pstop c).
Proof.
  unfold piece_ok. cbv zeta. rewrite !andb_true_iff. intros (((((((((_ & _) & _) & _) & C5) & _) & _) & _) & _) & _).
  pose proof (Q2R_pos _ C5) as P. rewrite Q2R_minus in P. lra.
Qed.
Lemma chain_error n l T : (forall c, In c l -> 0 <= Q2R (pgap c)) -> chain n l = true ->
  (forall c, last l c = c -> In c l -> Rabs (formula c (Q2R (pstop c)) - erfc (Q2R (pstop c))) <= T) ->
  forall c z, In c l -> Q2R (pstart c) <= z <= Q2R (pstop c) -> Rabs (formula c z - erfc z) <= slope * (G (Q2R (last_stop l)) - G z) + Q2R (gaps l) + T.
Proof.
  induction l as [|c l IH]; intros Pos C HT c0 z Hin Hz; [destruct Hin|].
  cbn [chain] in C. rewrite !andb_true_iff in C. destruct C as ((Ck & Cj) & Cr).
  assert (Pc : 0 <= Q2R (pgap c)) by (apply Pos; left; reflexivity).
  destruct l as [|c' l].
  { destruct Hin as [<-|[]]. unfold last_stop, gaps. cbn [rev app fold_right]. rewrite Q2R_plus. replace (Q2R 0) with 0 by (unfold Q2R; cbn; lra).
    pose proof (piece_variation n c z (Q2R (pstop c)) Ck (proj1 Hz) (proj2 Hz) ltac:(lra)) as V. specialize (HT c eq_refl (or_introl eq_refl)).
    apply both in V. apply both in HT. apply Rabs_le. lra. }
  assert (IH' : forall c0 z, In c0 (c' :: l) -> Q2R (pstart c0) <= z <= Q2R (pstop c0) -> Rabs (formula c0 z - erfc z) <= slope * (G (Q2R (last_stop (c' :: l))) - G z) + Q2R (gaps (c' :: l)) + T).
  { apply IH; [intros c1 H1; apply Pos; right; exact H1|exact Cr|]. intros c1 L1 I1. apply HT; [|right; exact I1]. cbn [last]. cbn [last] in L1. destruct l; exact L1. }
  assert (EL : last_stop (c :: c' :: l) = last_stop (c' :: l)).
  { unfold last_stop. cbn [rev]. destruct (rev l) as [|a r]; reflexivity. }
  assert (EG : Q2R (gaps (c :: c' :: l)) = Q2R (pgap c) + Q2R (gaps (c' :: l))) by (unfold gaps; cbn [fold_right]; rewrite Q2R_plus; reflexivity).
  rewrite EL, EG. destruct Hin as [<-|Hin].
  - destruct (joined_jump _ _ Cj) as (Es & J). cbn [chain] in Cr. rewrite !andb_true_iff in Cr.
    pose proof (piece_order _ _ (proj1 (proj1 Cr))) as O'.
    pose proof (IH' c' (Q2R (pstop c)) (or_introl eq_refl) ltac:(lra)) as N.
    pose proof (piece_variation n c z (Q2R (pstop c)) Ck (proj1 Hz) (proj2 Hz) ltac:(lra)) as V.
    apply both in N. apply both in V. apply both in J. apply Rabs_le. lra.
  - pose proof (IH' c0 z Hin Hz). lra.
Qed.
