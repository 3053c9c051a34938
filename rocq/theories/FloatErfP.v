(** Rounding errors of the error function. *)
From Coq Require Import Reals Lra Lia QArith Qreals Floats.SpecFloat.
From Flocq Require Import Core Relative BinarySingleNaN.
From Verif Require Import Base F64 Series Iterator FpOps FloatProofs FloatBound FloatErr FloatTerm FloatProj PolyZ Erf ErfSpec ErfProofs FloatErf.
Local Open Scope R_scope.

Lemma u53 : u = / 9007199254740992. Proof. reflexivity. Qed.
Lemma tiny_le : tiny <= u / 1000000.
Proof.
  apply Rle_trans with (bp (-73)); [apply bpow_le; lia|]. change (-73)%Z with (-53 + -20)%Z. rewrite bpow_plus. fold u.
  unfold Rdiv. apply Rmult_le_compat_l; [apply Rlt_le, u_pos|]. change (bp (-20)) with (/ 1048576). lra.
Qed.

(** ** Literals *)
Lemma lit_val q : Rabs (Q2R q) <= bp 100 -> number (lit q) /\ fval (lit q) = rnd (Q2R q).
Proof.
  intros B. assert (T : Rabs (rnd (Q2R q)) < top).
  { apply Rle_lt_trans with (bp 100); [|apply bpow_lt; reflexivity].
    apply Rabs_le. apply Rabs_le_inv in B. assert (F : fmt (bp 100)) by (apply fmt_bpow; lia).
    split; [|apply rnd_le_fmt; [exact F|lra]]. rewrite <- (rnd_id (- bp 100)) by (apply generic_format_opp, F). apply rnd_le. lra. }
  assert (D : forall s n, Qnum q = SpecFloat.cond_Zopp s (Zpos n) -> lit q = SFdiv prec emax (S754_finite s n 0) (S754_finite false (Qden q) 0) ->
    number (lit q) /\ fval (lit q) = rnd (Q2R q)).
  { intros s n En ->. pose proof (Bdiv_correct_aux prec emax Hprec Hmax mode_NE s n 0 false (Qden q) 0) as C. cbv zeta in C.
    replace (F2R {| Fnum := SpecFloat.cond_Zopp s (Zpos n); Fexp := 0 |} / F2R {| Fnum := SpecFloat.cond_Zopp false (Zpos (Qden q)); Fexp := 0 |}) with (Q2R q) in C
      by (unfold Q2R, F2R; cbn [Fnum Fexp]; rewrite En; cbn [SpecFloat.cond_Zopp]; change (bpow radix2 0) with 1; unfold Rdiv; rewrite !Rmult_1_r; reflexivity).
    change (round radix2 (SpecFloat.fexp prec emax) (round_mode mode_NE)) with rnd in C. rewrite (fits _ T) in C.
    cbn [SFdiv]. destruct (SFdiv_core_binary _ _ _ _ _ _) as [[m e] l]. rewrite aux_equiv. destruct C as (C1 & C2 & C3 & _).
    split; [split; [exact C1|]|exact C2]. destruct (BinarySingleNaN.binary_round_aux _ _ _ _ _ _ _); try discriminate C3; reflexivity. }
  destruct (Qnum q) as [|n|n] eqn:En.
  - unfold lit, Q2R. rewrite En. split; [split; reflexivity|]. cbn. unfold Rdiv. rewrite Rmult_0_l. symmetry. apply rnd0.
  - apply (D false n); [reflexivity|]. unfold lit. rewrite En. reflexivity.
  - apply (D true n); [reflexivity|]. unfold lit. rewrite En. reflexivity.
Qed.
Lemma lit_err q : Rabs (Q2R q) <= bp 100 -> number (lit q) /\ Rabs (fval (lit q) - Q2R q) <= u * Rabs (Q2R q) + tiny.
Proof. intros B. destruct (lit_val q B) as (N & V). split; [exact N|]. rewrite V. apply err_any. Qed.
(** [q] is an integer below 2^53 divided by 2^k *)
Definition dyadic (k : nat) (q : Q) : bool :=
  (let m := Qnum q * 2 ^ Z.of_nat k / Zpos (Qden q) in (Qnum q * 2 ^ Z.of_nat k =? m * Zpos (Qden q)) && (Z.abs m <? 2 ^ 53) && (Z.of_nat k <? 100))%Z%bool.
Lemma lit_exact k q : dyadic k q = true -> number (lit q) /\ fval (lit q) = Q2R q.
Proof.
  unfold dyadic. set (m := (Qnum q * 2 ^ Z.of_nat k / Zpos (Qden q))%Z). intros H. apply andb_prop in H. destruct H as (H & H3). apply andb_prop in H. destruct H as (H1 & H2).
  apply Z.eqb_eq in H1. apply Z.ltb_lt in H2, H3. set (e := Z.of_nat k) in *.
  assert (E : Q2R q = F2R (Float radix2 m (- e))).
  { unfold Q2R, F2R. cbn [Fnum Fexp]. rewrite bpow_opp. apply (f_equal IZR) in H1. rewrite !mult_IZR in H1. change 2%Z with (radix_val radix2) in H1. rewrite IZR_Zpower in H1 by (unfold e; lia).
    assert (P : bp e <> 0) by (apply Rgt_not_eq, bpow_gt_0). assert (D : IZR (Zpos (Qden q)) <> 0) by (apply not_0_IZR; lia).
    apply (Rmult_eq_reg_r (bp e)); [|exact P]. rewrite (Rmult_assoc (IZR m)), Rinv_l, Rmult_1_r by exact P. apply (Rmult_eq_reg_r (IZR (Zpos (Qden q)))); [|exact D]. rewrite <- H1. field. exact D. }
  assert (F : fmt (Q2R q)).
  { rewrite E. apply generic_format_FLT. exists (Float radix2 m (- e)); [reflexivity|exact H2|]. cbn [Fexp]. unfold SpecFloat.emin. cbn. unfold e in *. lia. }
  assert (B : Rabs (Q2R q) <= bp 100).
  { rewrite E, <- F2R_Zabs. unfold F2R. cbn [Fnum Fexp]. apply Rle_trans with (bp 53 * 1); [|rewrite Rmult_1_r; apply bpow_le; lia].
    apply Rmult_le_compat; [apply IZR_le; lia|apply bpow_ge_0| |change 1 with (bp 0); apply bpow_le; unfold e; lia].
    rewrite <- (IZR_Zpower radix2) by lia. apply IZR_le. change (radix_val radix2) with 2%Z. lia. }
  destruct (lit_val q B) as (N & V). split; [exact N|]. rewrite V. apply rnd_id, F.
Qed.

(** ** Polynomials *)
Fixpoint mag (x : R) (l : list Q) : R := match l with [] => 0 | c :: t => Rabs (Q2R c) + x * mag x t end.
Lemma fpolynomial_cons z c d l : fpolynomial z (c :: d :: l) = fadd c (fmul z (fpolynomial z (d :: l))).
Proof.
  unfold fpolynomial. cbn [rev]. destruct (rev l) as [|a r]; cbn [app]; [reflexivity|]. rewrite fold_left_app. cbn. reflexivity.
Qed.
Lemma mag_pos x l : 0 <= x -> 0 <= mag x l.
Proof. intros X. induction l as [|c l IH]; cbn [mag]; [lra|]. pose proof (Rabs_pos (Q2R c)). assert (0 <= x * mag x l) by (apply Rmult_le_pos; assumption). lra. Qed.
Lemma poly_mag x l : 0 <= x -> Rabs (poly x l) <= mag x l.
Proof.
  intros X. unfold poly. induction l as [|c l IH]; cbn [map mag]; [cbn; rewrite Rabs_R0; lra|]. rewrite polynomial_cons.
  eapply Rle_trans; [apply Rabs_triang|]. apply Rplus_le_compat_l. rewrite Rabs_mult, (Rabs_pos_eq x X). apply Rmult_le_compat_l; assumption.
Qed.
Lemma mag_le x l : 0 <= x <= bp 7 -> (forall c, In c l -> Rabs (Q2R c) <= bp 3) -> mag x l <= bp (8 * Z.of_nat (length l)).
Proof.
  intros X. induction l as [|c l IH]; intros H; cbn [mag]; [cbn; lra|]. specialize (IH ltac:(intros; apply H; right; assumption)). specialize (H c (or_introl eq_refl)).
  cbn [length]. replace (8 * Z.of_nat (S (length l)))%Z with (8 + 8 * Z.of_nat (length l))%Z by lia. rewrite bpow_plus. set (b := bp (8 * Z.of_nat (length l))) in *.
  assert (1 <= b) by (change 1 with (bp 0); apply bpow_le; lia). pose proof (mag_pos x l (proj1 X)).
  assert (x * mag x l <= bp 7 * b) by (apply Rmult_le_compat; lra). change (bp 3) with 8 in H. change (bp 7) with 128 in *. change (bp 8) with 256. lra.
Qed.

(** one step *)
Lemma step_core (x m s h c d k q a t e : R) : 0 <= x <= 128 -> 0 <= e <= / 1000 -> 0 <= t -> Rabs s <= m -> Rabs (h - s) <= e * m + t ->
  Rabs (d - c) <= u * Rabs c + tiny -> Rabs (q - x * h) <= u * Rabs (x * h) + tiny -> Rabs (a - (d + q)) <= u * Rabs (d + q) ->
  Rabs (a - (c + x * s)) <= (e + 3 * u) * (Rabs c + x * m) + (400 * t + 4 * tiny).
Proof.
  intros X E T Hs Hh Hd Hq Ha. pose proof u_pos as UP. pose proof tiny_pos as TP. assert (US : u <= / 1000000) by (rewrite u53; lra).
  assert (M : 0 <= m) by (pose proof (Rabs_pos s); lra). pose proof (Rabs_pos c) as PC.
  pose proof (near_abs _ _ _ Hh) as Nh. set (X1 := x * m). assert (PX : 0 <= X1) by (apply Rmult_le_pos; lra).
  set (Y := x * t). assert (PY : 0 <= Y <= 128 * t) by (unfold Y; split; [apply Rmult_le_pos; lra|apply Rmult_le_compat_r; lra]).
  assert (A1 : Rabs (x * h) <= (1 + e) * X1 + Y).
  { rewrite Rabs_mult, (Rabs_pos_eq x) by lra. unfold X1, Y. replace ((1 + e) * (x * m) + x * t) with (x * (m + (e * m + t))) by ring. apply Rmult_le_compat_l; lra. }
  assert (A2 : Rabs (x * h - x * s) <= e * X1 + Y).
  { replace (x * h - x * s) with (x * (h - s)) by ring. rewrite Rabs_mult, (Rabs_pos_eq x) by lra. unfold X1, Y. replace (e * (x * m) + x * t) with (x * (e * m + t)) by ring. apply Rmult_le_compat_l; lra. }
  set (EX := e * X1) in *. assert (PEX : 0 <= EX <= / 1000 * X1) by (unfold EX; split; [apply Rmult_le_pos; lra|apply Rmult_le_compat_r; lra]).
  assert (A3 : u * Rabs (x * h) <= u * (1001 / 1000 * X1 + Y)) by (apply Rmult_le_compat_l; [lra|]; unfold EX in *; lra).
  set (UX := u * X1) in *. assert (PUX : 0 <= UX) by (apply Rmult_le_pos; lra).
  assert (PUY : 0 <= u * Y <= / 1000000 * Y) by (split; [apply Rmult_le_pos; lra|apply Rmult_le_compat_r; lra]).
  replace (u * (1001 / 1000 * X1 + Y)) with (1001 / 1000 * UX + u * Y) in A3 by (unfold UX; ring).
  set (UC := u * Rabs c) in *. assert (PUC : 0 <= UC) by (apply Rmult_le_pos; lra).
  assert (A4 : Rabs (d + q - (c + x * s)) <= UC + EX + 1001 / 1000 * UX + 1001 / 1000 * Y + 2 * tiny).
  { replace (d + q - (c + x * s)) with ((d - c) + (q - x * h) + (x * h - x * s)) by ring. eapply Rle_trans; [apply tri3|]. lra. }
  assert (Ax : Rabs (c + x * s) <= Rabs c + X1).
  { eapply Rle_trans; [apply Rabs_triang|]. apply Rplus_le_compat_l. rewrite Rabs_mult, (Rabs_pos_eq x) by lra. apply Rmult_le_compat_l; lra. }
  pose proof (near_abs _ _ _ A4) as N4.
  assert (UCs : UC <= / 1000000 * Rabs c) by (apply Rmult_le_compat_r; lra). assert (UXs : UX <= / 1000000 * X1) by (apply Rmult_le_compat_r; lra).
  assert (A5 : u * Rabs (d + q) <= 101 / 100 * UC + 101 / 100 * UX + / 100 * Y + / 100 * tiny).
  { apply Rle_trans with (u * (101 / 100 * Rabs c + 101 / 100 * X1 + 2 * Y + 2 * tiny)); [apply Rmult_le_compat_l; lra|].
    assert (u * tiny <= / 1000000 * tiny) by (apply Rmult_le_compat_r; lra). unfold UC, UX. lra. }
  replace (a - (c + x * s)) with ((a - (d + q)) + (d + q - (c + x * s))) by ring. eapply Rle_trans; [apply Rabs_triang|].
  replace ((e + 3 * u) * (Rabs c + X1)) with (e * Rabs c + 3 * UC + EX + 3 * UX) by (unfold UC, UX, EX; ring).
  assert (0 <= e * Rabs c) by (apply Rmult_le_pos; lra). lra.
Qed.
Lemma horner z l : number z -> 0 <= fval z <= bp 7 -> l <> [] -> (forall c, In c l -> Rabs (Q2R c) <= bp 3) -> (length l <= 20)%nat ->
  number (fpoly z l) /\ Rabs (fval (fpoly z l) - poly (fval z) l) <= 3 * INR (length l) * u * mag (fval z) l + bp (10 * Z.of_nat (length l) - 1075).
Proof.
  intros Nz X. unfold fpoly, poly. pose proof u_pos as UP. pose proof tiny_pos as TP. assert (US : u <= / 1000000) by (rewrite u53; lra).
  induction l as [|c l IH]; intros Ne Hc Ll; [congruence|]. pose proof (Hc c (or_introl eq_refl)) as Bc.
  destruct (lit_err c) as (Nc & Ec); [apply Rle_trans with (1 := Bc); apply bpow_le; lia|].
  destruct l as [|d l].
  - cbn [map]. change (fpolynomial z [lit c]) with (lit c). rewrite polynomial_cons. change (polynomial (fval z) []) with 0. rewrite Rmult_0_r, Rplus_0_r.
    split; [exact Nc|]. cbn [mag length INR]. rewrite Rmult_0_r, Rplus_0_r. eapply Rle_trans; [exact Ec|].
    assert (tiny <= bp (10 * Z.of_nat 1 - 1075)) by (apply bpow_le; lia). assert (0 <= u * Rabs (Q2R c)) by (apply Rmult_le_pos; [lra|apply Rabs_pos]). lra.
  - specialize (IH ltac:(congruence) ltac:(intros; apply Hc; right; assumption) ltac:(cbn [length] in *; lia)).
    change (map lit (c :: d :: l)) with (lit c :: lit d :: map lit l). rewrite fpolynomial_cons. change (lit d :: map lit l) with (map lit (d :: l)).
    change (map Q2R (c :: d :: l)) with (Q2R c :: map Q2R (d :: l)). rewrite polynomial_cons.
    pose proof (mag_le (fval z) (d :: l) X ltac:(intros; apply Hc; right; assumption)) as Ml. pose proof (mag_pos (fval z) (d :: l) (proj1 X)) as Mp.
    pose proof (poly_mag (fval z) (d :: l) (proj1 X)) as Pm. unfold poly in Pm.
    set (L := d :: l) in *. assert (LL : (length L <= 19)%nat) by (change (length (c :: L)) with (Datatypes.S (length L)) in Ll; lia).
    set (s := polynomial (fval z) (map Q2R L)) in *. set (h := fpolynomial z (map lit L)) in *. destruct IH as (Nh & Eh).
    set (m := mag (fval z) L) in *. set (k := length L) in *.
    assert (Ik : 0 <= INR k <= 19) by (split; [apply pos_INR|apply (le_INR k 19) in LL; rewrite (INR_IZR_INZ 19) in LL; exact LL]).
    set (e := 3 * INR k * u) in *. assert (Pe : 0 <= e <= / 1000).
    { unfold e. split; [apply Rmult_le_pos; lra|]. apply Rle_trans with (57 * u); [apply Rmult_le_compat_r; lra|lra]. }
    set (t := bp (10 * Z.of_nat k - 1075)) in *. assert (Pt : 0 < t) by apply bpow_gt_0.
    assert (T1 : t <= bp 0) by (apply bpow_le; lia). change (bp 0) with 1 in T1.
    assert (M152 : m <= bp 152) by (eapply Rle_trans; [exact Ml|]; apply bpow_le; lia).
    assert (B152 : 1 <= bp 152) by (change 1 with (bp 0); apply bpow_le; lia).
    assert (Ah : Rabs (fval h) <= 3 * bp 152).
    { pose proof (near_abs _ _ _ Eh). assert (e * m <= 1 * m) by (apply Rmult_le_compat_r; lra). lra. }
    assert (Axh : Rabs (fval z * fval h) <= bp 161).
    { rewrite Rabs_mult, (Rabs_pos_eq (fval z)) by apply X. apply Rle_trans with (bp 7 * (bp 2 * bp 152)); [apply Rmult_le_compat; [apply X|apply Rabs_pos|apply X|change (bp 2) with 4; lra]|].
      rewrite <- !bpow_plus. apply bpow_le. lia. }
    destruct (mul_err z h 161 Nz Nh ltac:(lia) Axh) as (Nq & Eq). set (q := fmul z h) in *.
    assert (Aq : Rabs (fval q) <= bp 162).
    { pose proof (near_abs _ _ _ Eq). assert (u * Rabs (fval z * fval h) <= / 1000000 * bp 161) by (apply Rmult_le_compat; [lra|apply Rabs_pos|lra|exact Axh]).
      pose proof tiny_le. change 162%Z with (161 + 1)%Z. rewrite bp_double. assert (1 <= bp 161) by (change 1 with (bp 0); apply bpow_le; lia). lra. }
    assert (Ac : Rabs (fval (lit c)) <= 9).
    { pose proof (near_abs _ _ _ Ec). pose proof tiny_le. change (bp 3) with 8 in Bc. assert (u * Rabs (Q2R c) <= / 1000000 * 8) by (apply Rmult_le_compat; [lra|apply Rabs_pos|lra|exact Bc]). lra. }
    destruct (add_err (lit c) q 163 Nc Nq ltac:(lia)) as (Na & Ea).
    { eapply Rle_trans; [apply Rabs_triang|]. change 163%Z with (162 + 1)%Z. rewrite bp_double. assert (9 <= bp 162) by (apply Rle_trans with (bp 4); [change (bp 4) with 16; lra|apply bpow_le; lia]). lra. }
    split; [exact Na|].
    pose proof (step_core (fval z) m s (fval h) (Q2R c) (fval (lit c)) (INR k) (fval q) (fval (fadd (lit c) q)) t e ltac:(change (bp 7) with 128 in X; exact X) Pe (Rlt_le _ _ Pt) Pm Eh Ec Eq Ea) as S.
    change (mag (fval z) (c :: L)) with (Rabs (Q2R c) + fval z * m). change (length (c :: L)) with (Datatypes.S k). rewrite S_INR.
    eapply Rle_trans; [exact S|]. apply Rplus_le_compat; [right; unfold e; ring|].
    replace (10 * Z.of_nat (Datatypes.S k) - 1075)%Z with (10 + (10 * Z.of_nat k - 1075))%Z by lia. rewrite bpow_plus. fold t. change (bp 10) with 1024.
    assert (tiny <= t) by (apply bpow_le; lia). lra.
Qed.
