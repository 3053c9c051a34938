(** Polynomials with integer coefficients, and a test for being nonnegative on an interval. *)
From Coq Require Import Reals Lra QArith Qreals ZArith.
From Coquelicot Require Import Coquelicot.
From Verif Require Import Base Series SeriesProofs.
Local Open Scope R_scope.

Fixpoint zev (l : list Z) (x : R) : R := match l with [] => 0 | c :: t => IZR c + x * zev t x end.
Fixpoint zadd (a b : list Z) : list Z :=
  match a, b with
  | [], _ => b
  | _, [] => a
  | x :: a, y :: b => (x + y)%Z :: zadd a b
  end.
Definition zscale (k : Z) (l : list Z) : list Z := map (Z.mul k) l.
Definition zopp (l : list Z) : list Z := map Z.opp l.
Fixpoint zmul (a b : list Z) : list Z := match a with [] => [] | x :: a => zadd (zscale x b) (0%Z :: zmul a b) end.
Fixpoint zder (l : list Z) : list Z := match l with [] => [] | _ :: t => zadd t (0%Z :: zder t) end.
(** at [x + c] *)
Fixpoint zshift (c : Z) (l : list Z) : list Z := match l with [] => [] | a :: t => let s := zshift c t in zadd [a] (zadd (zscale c s) (0%Z :: s)) end.
(** at [x * p / q], times a power of [q] *)
Fixpoint stretch (p q : Z) (l : list Z) : list Z :=
  match l with [] => [] | c :: t => (c * q ^ Z.of_nat (length t))%Z :: zscale p (stretch p q t) end.

Lemma zev_add a : forall b x, zev (zadd a b) x = zev a x + zev b x.
Proof. induction a as [|u a IH]; intros [|v b] x; cbn [zadd zev]; try lra. rewrite plus_IZR, IH. ring. Qed.
Lemma zev_scale k l x : zev (zscale k l) x = IZR k * zev l x.
Proof. induction l as [|c l IH]; cbn [zscale map zev]; [ring|]. unfold zscale in IH. rewrite mult_IZR, IH. ring. Qed.
Lemma zev_opp l x : zev (zopp l) x = - zev l x.
Proof. induction l as [|c l IH]; cbn [zopp map zev]; [ring|]. unfold zopp in IH. rewrite opp_IZR, IH. ring. Qed.
Lemma zev_mul a b x : zev (zmul a b) x = zev a x * zev b x.
Proof. induction a as [|u a IH]; cbn [zmul zev]; [ring|]. rewrite zev_add, zev_scale. cbn [zev]. rewrite IH. ring. Qed.
Lemma zev_shift c l x : zev (zshift c l) x = zev l (x + IZR c).
Proof. induction l as [|a l IH]; cbn [zshift zev]; cbv zeta; [reflexivity|]. rewrite !zev_add, zev_scale. cbn [zev]. rewrite IH. ring. Qed.
Lemma zev_stretch p q l x : (0 < q)%Z -> zev (stretch p q l) x * IZR q = IZR (q ^ Z.of_nat (length l)) * zev l (x * IZR p / IZR q).
Proof.
  intros Hq. assert (Q : IZR q <> 0) by (apply not_0_IZR; lia). induction l as [|c l IH]; [cbn; ring|].
  cbn [stretch zev]. rewrite zev_scale, mult_IZR. change (length (c :: l)) with (S (length l)). rewrite Nat2Z.inj_succ, Z.pow_succ_r, mult_IZR by lia.
  replace ((IZR c * IZR (q ^ Z.of_nat (length l)) + x * (IZR p * zev (stretch p q l) x)) * IZR q)
    with (IZR c * IZR (q ^ Z.of_nat (length l)) * IZR q + x * IZR p * (zev (stretch p q l) x * IZR q)) by ring.
  rewrite IH. field. exact Q.
Qed.
Lemma zev_derive l x : is_derive (zev l) x (zev (zder l) x).
Proof.
  induction l as [|c l IH]; [apply (is_derive_const 0 x)|]. cbn [zder]. rewrite zev_add. cbn [zev].
  apply (is_derive_ext (fun x => IZR c + x * zev l x)); [reflexivity|].
  replace (zev l x + (0 + x * zev (zder l) x)) with (0 + (1 * zev l x + x * zev (zder l) x)) by ring.
  apply (is_derive_plus (fun _ => IZR c) (fun x => x * zev l x)); [apply (is_derive_const (IZR c) x)|].
  apply (is_derive_mult (fun x => x) (zev l) x); [apply (is_derive_id x)|exact IH|]. intros a b. apply Rmult_comm.
Qed.

(** ** Nonnegative on an interval *)
(** the constant term is at least the sum of the others: nonnegative on [-1, 1] *)
Definition dominant (l : list Z) : bool :=
  match l with [] => true | c :: t => (fold_right (fun a s => Z.abs a + s) 0 t <=? c)%Z end.
Lemma zev_small l x : -1 <= x <= 1 -> Rabs (zev l x) <= IZR (fold_right (fun a s => Z.abs a + s)%Z 0%Z l).
Proof.
  intros Hx. induction l as [|c l IH]; cbn [zev fold_right]; [rewrite Rabs_R0; lra|].
  rewrite plus_IZR, abs_IZR. eapply Rle_trans; [apply Rabs_triang|]. apply Rplus_le_compat_l. rewrite Rabs_mult.
  assert (Rabs x <= 1) by (apply Rabs_le; lra). pose proof (Rabs_pos x). pose proof (Rabs_pos (zev l x)). nra.
Qed.
Lemma dominant_nonneg l x : dominant l = true -> -1 <= x <= 1 -> 0 <= zev l x.
Proof.
  destruct l as [|c l]; cbn [dominant zev]; [lra|]. intros D Hx. apply Z.leb_le, IZR_le in D.
  pose proof (zev_small l x Hx) as S. assert (Rabs (x * zev l x) <= Rabs (zev l x)).
  { rewrite Rabs_mult. assert (Rabs x <= 1) by (apply Rabs_le; lra). pose proof (Rabs_pos (zev l x)). nra. }
  pose proof (Rle_abs (- (x * zev l x))) as A. rewrite Rabs_Ropp in A. lra.
Qed.

(** [zev l] on [0, p/q], cut into [n] equal intervals *)
Definition nonneg_exact (p q : Z) (n : nat) (l : list Z) : bool :=
  let m := stretch p (2 * Z.of_nat n * q) l in
  forallb (fun s => dominant (zshift (2 * Z.of_nat s + 1) m)) (seq 0 n).
Lemma nonneg_exact_ok p q n l x : (0 < p)%Z -> (0 < q)%Z -> (0 < n)%nat -> nonneg_exact p q n l = true -> 0 <= x <= IZR p / IZR q -> 0 <= zev l x.
Proof.
  intros Hp Hq Hn C Hx. unfold nonneg_exact in C. set (Q := (2 * Z.of_nat n * q)%Z) in *. assert (HQ : (0 < Q)%Z) by (unfold Q; lia).
  apply IZR_lt in Hp as Rp. apply IZR_lt in Hq as Rq. apply IZR_lt in HQ as RQ.
  set (v := x * IZR Q / IZR p).
  assert (Ev : v * IZR p / IZR Q = x) by (unfold v; field; lra).
  assert (Hv : 0 <= v <= 2 * INR n).
  { split.
    - unfold v. apply Rmult_le_pos; [apply Rmult_le_pos; lra|left; apply Rinv_0_lt_compat, Rp].
    - unfold v. assert (x * IZR Q <= 2 * INR n * IZR p).
      { destruct Hx as [_ Hx]. apply (Rmult_le_compat_r (IZR q)) in Hx; [|lra]. replace (IZR p / IZR q * IZR q) with (IZR p) in Hx by (field; lra).
        unfold Q. rewrite !mult_IZR, <- INR_IZR_INZ. replace (x * (2 * INR n * IZR q)) with (2 * INR n * (x * IZR q)) by ring.
        apply Rmult_le_compat_l; [pose proof (pos_INR n); lra|exact Hx]. }
      apply (Rmult_le_reg_r (IZR p)); [exact Rp|]. replace (x * IZR Q / IZR p * IZR p) with (x * IZR Q) by (field; lra). lra. }
  assert (exists s, (s < n)%nat /\ 2 * INR s <= v <= 2 * INR s + 2) as (s & Ls & Hs).
  { clearbody v. clear - Hv Hn. revert Hv. induction n as [|n IH]; [lia|]. intros Hv. destruct (Rle_dec (2 * INR n) v) as [L|L].
    - exists n. split; [lia|]. rewrite S_INR in Hv. lra.
    - destruct n as [|n]; [cbn in L; lra|]. apply Rnot_le_lt, Rlt_le in L. destruct (IH ltac:(lia) (conj (proj1 Hv) L)) as (s & Ls & Hs). exists s. split; [lia|exact Hs]. }
  rewrite forallb_forall in C. specialize (C s ltac:(apply in_seq; lia)).
  apply (dominant_nonneg _ (v - IZR (2 * Z.of_nat s + 1))) in C.
  - rewrite zev_shift in C. replace (v - IZR (2 * Z.of_nat s + 1) + IZR (2 * Z.of_nat s + 1)) with v in C by ring.
    apply (Rmult_le_compat_r (IZR Q)) in C; [|lra]. rewrite Rmult_0_l, (zev_stretch _ _ _ _ HQ), Ev in C.
    assert (P : 0 < IZR (Q ^ Z.of_nat (length l))) by (apply IZR_lt, Z.pow_pos_nonneg; lia). nra.
  - rewrite plus_IZR, mult_IZR, <- INR_IZR_INZ. lra.
Qed.

(** The same after dropping the last digits of the coefficients, all but about 256 bits of
    the largest one. *)
Definition ztrim (k : Z) (l : list Z) : list Z := map (fun c => (c / 2 ^ k)%Z) l.
Lemma ztrim_le k l x : (0 <= k)%Z -> 0 <= x -> IZR (2 ^ k) * zev (ztrim k l) x <= zev l x.
Proof.
  intros K X. assert (P : (0 < 2 ^ k)%Z) by (apply Z.pow_pos_nonneg; lia). induction l as [|c l IH]; cbn [ztrim map zev]; [rewrite Rmult_0_r; apply Rle_refl|].
  unfold ztrim in IH. rewrite Rmult_plus_distr_l. apply Rplus_le_compat.
  - rewrite <- mult_IZR. apply IZR_le. pose proof (Z.mul_div_le c (2 ^ k) P). lia.
  - rewrite <- Rmult_assoc, (Rmult_comm (IZR (2 ^ k)) x), Rmult_assoc. apply Rmult_le_compat_l; assumption.
Qed.
Definition spare (l : list Z) : Z := Z.max 0 (Z.log2 (fold_right (fun a s => Z.max (Z.abs a) s) 0%Z l) - 256).
Definition nonneg_on (p q : Z) (n : nat) (l : list Z) : bool := nonneg_exact p q n (ztrim (spare l) l).
Lemma nonneg_on_ok p q n l x : (0 < p)%Z -> (0 < q)%Z -> (0 < n)%nat -> nonneg_on p q n l = true -> 0 <= x <= IZR p / IZR q -> 0 <= zev l x.
Proof.
  intros Hp Hq Hn C Hx. pose proof (nonneg_exact_ok p q n _ x Hp Hq Hn C Hx) as N. assert (K : (0 <= spare l)%Z) by (unfold spare; lia).
  pose proof (ztrim_le (spare l) l x K (proj1 Hx)) as T. assert (P : 0 < IZR (2 ^ spare l)) by (apply IZR_lt, Z.pow_pos_nonneg; lia). nra.
Qed.

(** ** Decimal coefficients *)
Definition SCALE : Z := 10 ^ 40.
Definition scaled (q : Q) : Z := (Qnum q * (SCALE / Zpos (Qden q)))%Z.
Definition exact (q : Q) : bool := (SCALE mod Zpos (Qden q) =? 0)%Z.
Lemma scaled_ok q : exact q = true -> IZR (scaled q) = IZR SCALE * Q2R q.
Proof.
  unfold exact, scaled, Q2R. intros E. apply Z.eqb_eq in E. rewrite mult_IZR.
  assert (D : SCALE = (Zpos (Qden q) * (SCALE / Zpos (Qden q)))%Z) by (rewrite (Z.div_mod SCALE (Zpos (Qden q))) at 1; lia).
  rewrite D at 2. rewrite mult_IZR. field. apply not_0_IZR. lia.
Qed.
Lemma polynomial_cons z c l : polynomial z (c :: l) = c + z * polynomial z l.
Proof.
  unfold polynomial. cbn [rev]. destruct (rev l) as [|a r]; cbn [app]; [cbn; ring|]. rewrite fold_left_app. cbn. reflexivity.
Qed.
Lemma scaled_poly z l : forallb exact l = true -> zev (map scaled l) z = IZR SCALE * polynomial z (map Q2R l).
Proof.
  induction l as [|c l IH]; cbn [forallb map zev]; intros E; [symmetry; apply Rmult_0_r|]. apply andb_prop in E. destruct E as [E1 E2].
  rewrite polynomial_cons, IH, scaled_ok by assumption. generalize (IZR SCALE) as k. intros k. ring.
Qed.
