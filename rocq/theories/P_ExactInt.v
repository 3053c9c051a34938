(** Property theorems C137: whole numbers computed through floating point are exact.
    Model: ExactInt.v. *)
From Coq Require Import Reals Lra Floats.SpecFloat.
From Flocq Require Import Core IEEE754.BinarySingleNaN.
From Verif Require Import Base F64 HashValue Overlaps RadixSort Enumerator Iterator FpOps FloatProofs FloatBound FloatErr Counts P_Limit ExactInt CoinProofs Profile EnumSpec ProfileSpec ProfileProofs Calibrate P_Calibrate2 P_Starts P_Profile64.
Local Open Scope R_scope.

(** ** Ceiling *)
Lemma ceil_val x z : number x -> IZR z - 1 < fval x <= IZR z -> (0 <= z <= 2 ^ 53)%Z -> number (f_ceil x) /\ fval (f_ceil x) = IZR z.
Proof.
  intros N H B. pose proof N as (V & F). destruct x as [s|s| |s m e]; try discriminate F.
  - split; [exact N|]. change (fval (f_ceil (S754_zero s))) with 0. change (fval (S754_zero s)) with 0 in H. replace z with 0%Z; [reflexivity|].
    assert (-1 < z < 1 + 1)%Z. { split; apply lt_IZR; [|rewrite plus_IZR]; lra. } assert (z <> 1)%Z; [|lia]. intros ->. lra.
  - assert (Whole : (0 <= e)%Z -> f_ceil (S754_finite s m e) = S754_finite s m e /\ fval (S754_finite s m e) = IZR z).
    { intros E. split; [destruct e; [reflexivity|reflexivity|lia]|].
      assert (I : exists y, fval (S754_finite s m e) = IZR y).
      { exists ((if s then Zneg m else Zpos m) * 2 ^ e)%Z. unfold fval. cbn [SF2R]. unfold F2R. cbn [Fnum Fexp]. rewrite mult_IZR, (IZR_Zpower radix2) by exact E. destruct s; reflexivity. }
      destruct I as (y & I). rewrite I in *. destruct H as (H1 & H2). f_equal. apply le_IZR in H2. rewrite <- minus_IZR in H1. apply lt_IZR in H1. lia. }
    destruct e as [|k|k]; [destruct (Whole ltac:(lia)) as (-> & ->); auto|destruct (Whole ltac:(lia)) as (-> & ->); auto|]. clear Whole.
    cbn [f_ceil]. set (g := (if s then Zneg m else Zpos m)).
    assert (P : (0 < 2 ^ Zpos k)%Z) by (apply Z.pow_pos_nonneg; lia).
    assert (E : fval (S754_finite s m (Zneg k)) * IZR (2 ^ Zpos k) = IZR g).
    { unfold fval. cbn [SF2R]. unfold F2R. cbn [Fnum Fexp]. change (Zneg k) with (- Zpos k)%Z. rewrite bpow_opp.
      replace (bpow radix2 (Zpos k)) with (IZR (2 ^ Zpos k)) by (rewrite <- IZR_Zpower by lia; reflexivity).
      assert (0 < IZR (2 ^ Zpos k)) by (apply IZR_lt; exact P). subst g. destruct s; cbn [cond_Zopp Z.opp]; field; lra. }
    assert (Z0 : (- ((- g) / 2 ^ Zpos k))%Z = z).
    { clearbody g. set (d := (2 ^ Zpos k)%Z) in *. assert (Pr : 0 < IZR d) by (apply IZR_lt; exact P). set (v := fval _) in *. clearbody d v.
      assert (H1 : (- z <= (- g) / d)%Z).
      { apply Z.div_le_lower_bound; [exact P|]. apply le_IZR. rewrite mult_IZR, !opp_IZR, <- E. nra. }
      assert (H2 : ((- g) / d < - z + 1)%Z).
      { apply Z.div_lt_upper_bound; [exact P|]. apply lt_IZR. rewrite mult_IZR, plus_IZR, !opp_IZR, <- E. nra. }
      lia. }
    rewrite Z0. destruct (Z.eqb_spec z 0) as [->|Nz]; [split; [split; reflexivity|reflexivity]|].
    apply of_Z_exact, B.
Qed.

(** ** The number of pairs that each thread sorts *)
Lemma quotient_ceil (len threads : nat) : (1 <= threads)%nat -> (Z.of_nat threads <= 2 ^ 52)%Z -> (Z.of_nat len <= 2 ^ 52)%Z ->
  let k := Z.of_nat ((len + threads - 1) / threads) in
  (0 <= k <= 2 ^ 52)%Z /\ IZR k - 1 < rnd (INR len / INR threads) <= IZR k.
Proof.
  intros T1 T2 L k. assert (D : (k * Z.of_nat threads < Z.of_nat len + Z.of_nat threads <= (k + 1) * Z.of_nat threads)%Z).
  { subst k. rewrite Nat2Z.inj_div. replace (Z.of_nat (len + threads - 1)) with (Z.of_nat len + Z.of_nat threads - 1)%Z by lia.
    pose proof (Z.div_mod (Z.of_nat len + Z.of_nat threads - 1) (Z.of_nat threads) ltac:(lia)) as E.
    pose proof (Z.mod_pos_bound (Z.of_nat len + Z.of_nat threads - 1) (Z.of_nat threads) ltac:(lia)). nia. }
  assert (K0 : (0 <= k)%Z) by (unfold k; lia).
  assert (K1 : (k <= 2 ^ 52)%Z) by nia. split; [lia|].
  rewrite !INR_IZR_INZ. set (l := Z.of_nat len) in *. set (t := Z.of_nat threads) in *. assert (l0 : (0 <= l)%Z) by (unfold l; lia). assert (t1 : (1 <= t)%Z) by (unfold t; lia).
  clearbody k l t. assert (Pt : 1 <= IZR t <= IZR (2 ^ 52)) by (split; apply IZR_le; lia). assert (Pl : 0 <= IZR l <= IZR (2 ^ 52)) by (split; apply IZR_le; lia).
  set (q := IZR l / IZR t). assert (Q : q * IZR t = IZR l) by (unfold q; field; lra).
  assert (Qk : q <= IZR k).
  { apply (Rmult_le_reg_r (IZR t)); [lra|]. rewrite Q, <- mult_IZR. apply IZR_le. lia. }
  assert (Fk : fmt (IZR k)) by (replace (IZR k) with (IZR k * bpow radix2 0) by (cbn [bpow]; ring); apply fmt_int; lia).
  split; [|apply rnd_le_fmt; assumption].
  assert (Gap : IZR k - 1 + / IZR t <= q).
  { apply (Rmult_le_reg_r (IZR t)); [lra|]. rewrite Q. replace ((IZR k - 1 + / IZR t) * IZR t) with (IZR ((k - 1) * t + 1)) by (rewrite plus_IZR, mult_IZR, minus_IZR; field; lra). apply IZR_le. lia. }
  destruct (Z.eq_dec k 0) as [->|Kn].
  { assert (0 <= q) by (apply Rmult_le_pos; [lra|left; apply Rinv_0_lt_compat; lra]). pose proof (rnd_ge q 0 fmt0 H). lra. }
  assert (Kp : 0 <= IZR k - 1) by (rewrite <- minus_IZR; apply IZR_le; lia).
  pose proof (err_any q) as Er. assert (It : / IZR (2 ^ 52) <= / IZR t) by (apply Rinv_le_contravar; lra).
  assert (Qp : 0 < q) by (assert (0 < / IZR t) by (apply Rinv_0_lt_compat; lra); lra).
  rewrite (Rabs_pos_eq q) in Er by lra. apply Rabs_le_inv in Er.
  assert (U : bpow radix2 (-53) * IZR (2 ^ 52) = / 2).
  { rewrite (IZR_Zpower radix2) by lia. rewrite <- bpow_plus. reflexivity. }
  assert (Ql : q * bpow radix2 (-53) <= / 2 * / IZR t).
  { apply (Rmult_le_reg_r (IZR t)); [lra|]. replace (q * bpow radix2 (-53) * IZR t) with (q * IZR t * bpow radix2 (-53)) by ring. rewrite Q.
    replace (/ 2 * / IZR t * IZR t) with (/ 2) by (field; lra). rewrite <- U, Rmult_comm. apply Rmult_le_compat_l; [apply bpow_ge_0|lra]. }
  assert (Ti : bpow radix2 (-1075) < / 2 * / IZR (2 ^ 52)).
  { rewrite (IZR_Zpower radix2) by lia. rewrite <- bpow_opp. change (/ 2) with (bpow radix2 (-1)). rewrite <- bpow_plus. apply bpow_lt. lia. }
  lra.
Qed.

(** Up to 2^52 pairs and 2^52 threads, the size of the chunks is the length divided by the
    number of threads, rounded up. *)
Theorem c137_chunks :
  forall (threads : nat) (data scratch : list hpair) (fuel : nat),
    (1 <= threads)%nat -> (Z.of_nat threads <= 2 ^ 52)%Z -> (Z.of_nat (length data) <= 2 ^ 52)%Z ->
    chunk_size64 (length data) threads = ((length data + threads - 1) / threads)%nat /\
    par_sort_hash_pairs64 threads data scratch fuel = par_sort_hash_pairs threads data scratch fuel.
Proof.
  intros threads data scratch fuel T1 T2 L.
  assert (E : chunk_size64 (length data) threads = ((length data + threads - 1) / threads)%nat); [|split; [exact E|unfold par_sort_hash_pairs64, par_sort_hash_pairs; rewrite E; reflexivity]].
  destruct (quotient_ceil (length data) threads T1 T2 L) as (B & C). set (k := ((length data + threads - 1) / threads)%nat) in *.
  destruct (of_nat_exact (length data)) as (Nl & El); [lia|]. destruct (of_nat_exact threads) as (Nt & Et); [lia|].
  assert (Big : IZR (Z.of_nat k) <= IZR (2 ^ 52)) by (apply IZR_le; lia).
  assert (Rp : 0 <= rnd (INR (length data) / INR threads)).
  { apply rnd_ge; [apply fmt0|]. apply Rmult_le_pos; [apply pos_INR|]. left. apply Rinv_0_lt_compat. apply (lt_INR 0). lia. }
  destruct (fdiv_val (f_of_nat (length data)) (f_of_nat threads) Nl Nt) as (Nd & Ed).
  { rewrite Et. apply not_0_INR. lia. }
  { rewrite El, Et, Rabs_pos_eq by exact Rp. apply Rle_lt_trans with (IZR (2 ^ 52)); [lra|].
    unfold top. rewrite <- (IZR_Zpower radix2) by (unfold emax; lia). apply IZR_lt. reflexivity. }
  rewrite El, Et in Ed. destruct (ceil_val _ (Z.of_nat k) Nd) as (Nc & Ec); [rewrite Ed; exact C|lia|].
  unfold chunk_size64. pose proof (as_usize_floor _ Nc) as Fl. rewrite Ec in Fl.
  destruct Fl as (F1 & F2); [split; [apply IZR_le; lia|apply IZR_lt; lia]|].
  apply le_IZR in F1. rewrite <- plus_IZR in F2. apply lt_IZR in F2. lia.
Qed.
Print Assumptions c137_chunks.

(** ** Very large buckets *)
Lemma large_exact (len n : nat) : (Z.of_nat len <= 2 ^ 50)%Z -> (Z.of_nat n <= 2 ^ 50)%Z -> very_large64 len n = (n <? len * len)%nat.
Proof.
  intros Ll Ln. destruct (of_nat_exact len) as (Nl & El); [lia|]. destruct (of_nat_exact n) as (Nn & En); [lia|].
  assert (P : 0 <= INR n) by apply pos_INR. assert (Pl : 0 <= INR len) by apply pos_INR.
  destruct (fsqrt_val (f_of_nat n) Nn) as (Ns & Es); [rewrite En; exact P|]. rewrite En in Es.
  unfold very_large64. rewrite (flt_val _ _ Ns Nl), Es, El. destruct (Nat.ltb_spec n (len * len)) as [H|H].
  - apply Rlt_bool_true. assert (Hr : INR n + 1 <= INR len * INR len) by (rewrite <- mult_INR, <- S_INR; apply le_INR; lia).
    destruct (Nat.eq_dec n 0) as [->|N0].
    { cbn [INR]. rewrite sqrt_0, rnd0. assert (len <> 0)%nat by (intros ->; cbn in H; lia). apply (lt_INR 0). lia. }
    assert (N1 : 1 <= INR n) by (apply (le_INR 1); lia).
    assert (S1 : 1 <= sqrt (INR n)) by (rewrite <- sqrt_1; apply sqrt_le_1; lra).
    pose proof (err_any (sqrt (INR n))) as Er. rewrite (Rabs_pos_eq (sqrt (INR n))) in Er by lra. apply Rabs_le_inv in Er.
    assert (Ti : bpow radix2 (-1075) <= bpow radix2 (-53) * sqrt (INR n)).
    { apply Rle_trans with (bpow radix2 (-53) * 1); [rewrite Rmult_1_r; apply bpow_le; lia|apply Rmult_le_compat_l; [apply bpow_ge_0|exact S1]]. }
    set (v := bpow radix2 (-52)). assert (V : v = 2 * bpow radix2 (-53)) by (unfold v; change (-52)%Z with (1 + -53)%Z; rewrite bpow_plus; reflexivity).
    assert (Up : rnd (sqrt (INR n)) <= sqrt (INR n) * (1 + v)) by (rewrite V; lra).
    eapply Rle_lt_trans; [exact Up|]. assert (V0 : 0 < v) by apply bpow_gt_0.
    assert (V1 : v * IZR (2 ^ 50) = / 4) by (unfold v; rewrite (IZR_Zpower radix2), <- bpow_plus by lia; reflexivity).
    assert (Nb : INR n <= IZR (2 ^ 50)) by (rewrite INR_IZR_INZ; apply IZR_le; exact Ln).
    assert (Vs : v <= / 4) by (unfold v; change (/ 4) with (bpow radix2 (-2)); apply bpow_le; lia).
    assert (Sq : sqrt (INR n) * sqrt (INR n) = INR n) by (apply sqrt_sqrt; exact P).
    apply Rsqr_incrst_0; [|nra|exact Pl]. unfold Rsqr.
    replace (sqrt (INR n) * (1 + v) * (sqrt (INR n) * (1 + v))) with (sqrt (INR n) * sqrt (INR n) * ((1 + v) * (1 + v))) by ring.
    rewrite Sq. replace (INR n * ((1 + v) * (1 + v))) with (INR n + INR n * v * (2 + v)) by ring.
    assert (Nv : INR n * v <= / 4) by (rewrite <- V1, Rmult_comm; apply Rmult_le_compat_l; lra).
    assert (0 <= INR n * v) by (apply Rmult_le_pos; lra). assert (INR n * v * (2 + v) <= / 4 * 3) by (apply Rmult_le_compat; lra). lra.
  - apply Rlt_bool_false. apply rnd_ge.
    + replace (INR len) with (IZR (Z.of_nat len) * bpow radix2 0) by (rewrite INR_IZR_INZ; cbn [bpow]; ring). apply fmt_int; lia.
    + rewrite <- (sqrt_square (INR len) Pl). apply sqrt_le_1_alt. rewrite <- mult_INR. apply le_INR. exact H.
Qed.

(** ** The estimate of collisions *)
Lemma loop_same {S R} (body body' : S -> res (S + R)) (I : S -> Prop) :
  (forall s, I s -> body s = body' s) -> (forall s s', I s -> body s = Ret (inl s') -> I s') -> forall fuel s, I s -> loop fuel body s = loop fuel body' s.
Proof.
  intros E K fuel. induction fuel as [|f IH]; intros s H; [reflexivity|]. cbn [loop]. rewrite <- (E s H).
  destruct (body s) as [[s'|r]| |] eqn:B; try reflexivity. apply IH, (K s s' H B).
Qed.
Lemma next_range_keeps fuel s s' : next_range fuel s = Ret s' -> e_hashes s' = e_hashes s.
Proof.
  unfold next_range. intros E.
  repeat (match type of E with
    | (let! _ := ?e in _) = Ret _ => destruct e; cbn [bind] in E; try discriminate E
    | (if ?c then _ else _) = Ret _ => destruct c
    | (let '(_, _) := ?e in _) = Ret _ => destruct e
    | assert_ ?c _ = Ret _ => destruct c; cbn [assert_] in E; try discriminate E
    end); apply Ret_inj in E; subst s'; reflexivity.
Qed.

(** Up to 2^50 windows, deciding with a square root in floating point whether a bucket is very
    large is the same as comparing the square of its size, so the number of collisions
    estimated is the one of C81. *)
Theorem c137_large_buckets :
  forall (fuel ez : nat) (s : enumerator),
    (Z.of_nat (length (e_hashes s)) <= 2 ^ 50)%Z ->
    (forall len, (len <= length (e_hashes s))%nat -> very_large64 len (length (e_hashes s)) = true <-> (length (e_hashes s) < len * len)%nat) /\
    estimate_num_collisions64 fuel ez s = estimate_num_collisions fuel ez s.
Proof.
  intros fuel ez s L. split.
  - intros len Hl. rewrite large_exact by lia. apply Nat.ltb_lt.
  - unfold estimate_num_collisions64, estimate_num_collisions.
    apply (loop_same _ _ (fun st : enumerator * nat => (Z.of_nat (length (e_hashes (fst st))) <= 2 ^ 50)%Z)); [| |exact L].
    + intros (t, cnt) H. cbn [fst] in H. destruct (Nat.ltb_spec (e_end t) (length (e_hashes t))) as [Lt|]; [|reflexivity].
      cbv zeta. rewrite large_exact by lia. reflexivity.
    + intros (t, cnt) (t', cnt') H E. cbn [fst] in *. destruct (e_end t <? length (e_hashes t))%nat; [|discriminate E].
      cbv zeta in E. match type of E with (let! _ := ?e in _) = _ => destruct e as [c| |]; cbn [bind] in E; try discriminate E end.
      destruct (next_range fuel t) as [t2| |] eqn:En; cbn [bind] in E; try discriminate E. apply Ret_inj in E. injection E as <- <-.
      rewrite (next_range_keeps fuel t t2 En). exact H.
Qed.
Print Assumptions c137_large_buckets.

(** 1000003 pairs for 7 threads; buckets of 10 and 11 windows among 100 and 120; and the
    chunks of a small sort *)
Definition seven_pairs : list hpair := [(5, 0); (3, 1); (9, 2); (1, 3); (7, 4); (3, 5); (2, 6)]%N.
Example c137_case :
  as_usize (f_ceil (fdiv (Counts.f_of_N 1000003) (Counts.f_of_N 7))) = 142858%N /\
  chunk_size64 (length seven_pairs) 3 = 3%nat /\
  par_sort_hash_pairs64 3 seven_pairs seven_pairs 10 = Ret [(1, 3); (2, 6); (3, 1); (3, 5); (5, 0); (7, 4); (9, 2)]%N /\
  very_large64 10 100 = false /\ very_large64 11 120 = true /\ very_large64 11 121 = false.
Proof. vm_compute. auto 8. Qed.

(** ** The counts of collisions *)
Lemma positive_sign x : number x -> 0 < fval x -> is_sign_negative x = false.
Proof.
  intros (_ & F) H. destruct x as [s|s| |s m e]; try discriminate F; [change (fval (S754_zero s)) with 0 in H; lra|].
  destruct s; [|reflexivity]. exfalso. unfold fval in H. cbn [SF2R] in H. assert (F2R (Float radix2 (cond_Zopp true (Zpos m)) e) < 0) by (apply F2R_lt_0; reflexivity). lra.
Qed.
Lemma sub_self x : number x -> fsub x x = S754_zero false \/ x = S754_zero true.
Proof.
  intros (_ & F). destruct x as [s|s| |s m e]; try discriminate F; [destruct s; [right|left]; reflexivity|]. left. unfold fsub, SFsub. rewrite Z.sub_diag. reflexivity.
Qed.
Lemma of_Z_sub a b : (0 <= b <= a)%Z -> (a <= 2 ^ 53)%Z -> fsub (f_of_Z a) (f_of_Z b) = f_of_Z (a - b).
Proof.
  intros A L. destruct (of_Z_exact a ltac:(lia)) as (Na & Ea). destruct (of_Z_exact b ltac:(lia)) as (Nb & Eb). destruct (of_Z_exact (a - b) ltac:(lia)) as (Nc & Ec).
  destruct (Z.eq_dec a b) as [->|D].
  - destruct (sub_self _ Nb) as [E|E]; [rewrite E, Z.sub_diag; reflexivity|]. pose proof (of_Z_sign b ltac:(lia)) as S. rewrite E in S. discriminate S.
  - assert (R : rnd (fval (f_of_Z a) - fval (f_of_Z b)) = IZR (a - b)).
    { rewrite Ea, Eb, <- minus_IZR. rewrite <- Ec. apply rnd_id, fmt_val, Nc. }
    destruct (fsub_val _ _ Na Nb) as (Nr & Er).
    { rewrite R, <- Ec. destruct (to_B _ (proj1 Nc)) as (eb & <-). rewrite fval_B. apply abs_B2R_lt_emax. }
    assert (0 < IZR (a - b)) by (apply IZR_lt; lia).
    apply same_number; [exact Nr|exact Nc|rewrite Er, R, Ec; reflexivity|]. rewrite !positive_sign; [reflexivity|exact Nc|rewrite Ec|exact Nr|rewrite Er, R]; assumption.
Qed.
(** For tables of up to [2^26] entries the profile computed with floating point numbers is the
    one of C13, each count exact; in particular the assertion holds. *)
Theorem c137_profile :
  forall (hashes indices : list N) (ez : nat),
    table_ok hashes indices -> (Z.of_nat (length hashes) <= 2 ^ 26)%Z ->
    exists counts, returns (collision_profile_at hashes indices ez) counts /\
      returns (collision_profile_at64 hashes indices ez) (profile_row counts).
Proof.
  intros hashes indices ez T L.
  set (tr := triv8 hashes indices ez). set (c8 := cnt8 hashes indices ez).
  exists (map (fun p => (Z.of_nat (cnt_at hashes p) - Z.of_nat tr)%Z) (seq 1 7) ++ [Z.of_nat c8]). split.
  { exists (S (length hashes)). intros fuel Hf. apply (collision_profile_ok hashes indices ez T). lia. }
  exists (S (length hashes)). intros fuel Hf. unfold collision_profile_at64.
  assert (S1 : forall p, (1 <= p < 8)%nat -> exists t, scan_prefix hashes indices ez p fuel = Ret (cnt_at hashes p, t)).
  { intros p Hp. destruct (scan_prefix_ok hashes indices ez T p fuel ltac:(lia) ltac:(lia)) as (t & E & _). exists t. rewrite E.
    do 2 f_equal. apply cntf_ext. intros x y _. destruct (Nat.eqb_spec p 8); [lia|]. apply andb_true_r. }
  assert (S8 : scan_prefix hashes indices ez 8 fuel = Ret (c8, tr)).
  { destruct (scan_prefix_ok hashes indices ez T 8 fuel ltac:(lia) ltac:(lia)) as (t & E & Tt). rewrite E, Tt by reflexivity. reflexivity. }
  destruct (S1 1%nat) as (t1 & E1); [lia|]. destruct (S1 2%nat) as (t2 & E2); [lia|].
  destruct (S1 3%nat) as (t3 & E3); [lia|]. destruct (S1 4%nat) as (t4 & E4); [lia|].
  destruct (S1 5%nat) as (t5 & E5); [lia|]. destruct (S1 6%nat) as (t6 & E6); [lia|].
  destruct (S1 7%nat) as (t7 & E7); [lia|].
  assert (B : forall p, (1 <= p <= 8)%nat -> (Z.of_nat (cnt_at hashes p) <= 2 ^ 53)%Z).
  { intros p Hp. pose proof (collide_count _ _ _ (card_cnt_at hashes indices T p Hp)). nia. }
  assert (A : forall p, (1 <= p <= 8)%nat -> (0 <= Z.of_nat tr <= Z.of_nat (cnt_at hashes p))%Z).
  { intros p Hp. pose proof (triv8_le hashes indices ez T p ltac:(lia)) as Q. fold tr in Q. lia. }
  assert (V : forall p, (1 <= p <= 8)%nat -> fsub (f_of_nat (cnt_at hashes p)) (f_of_nat tr) = f_of_Z (Z.of_nat (cnt_at hashes p) - Z.of_nat tr)).
  { intros p Hp. apply (of_Z_sub (Z.of_nat (cnt_at hashes p)) (Z.of_nat tr)); [apply A, Hp|apply B, Hp]. }
  assert (P : forall p, (1 <= p <= 8)%nat -> fle f_zero (f_of_Z (Z.of_nat (cnt_at hashes p) - Z.of_nat tr)) = true).
  { intros p Hp. pose proof (A p Hp). pose proof (B p Hp). destruct (of_Z_exact (Z.of_nat (cnt_at hashes p) - Z.of_nat tr) ltac:(lia)) as (N & E).
    rewrite fle_val; [|split; reflexivity|exact N]. rewrite E. change (fval f_zero) with 0. apply Rle_bool_true, IZR_le. lia. }
  unfold K. change (seq 1 8) with [1; 2; 3; 4; 5; 6; 7; 8]%nat. cbn [foreach].
  rewrite E1; cbn [bind app]. rewrite E2; cbn [bind app]. rewrite E3; cbn [bind app].
  rewrite E4; cbn [bind app]. rewrite E5; cbn [bind app]. rewrite E6; cbn [bind app].
  rewrite E7; cbn [bind app]. rewrite S8; cbn [bind app].
  unfold get. cbn [Nat.sub nth_error bind firstn foreach fst].
  rewrite !V, !P by lia. cbn [assert_ bind app map seq profile_row]. reflexivity.
Qed.
Print Assumptions c137_profile.
Example c137_profile_case :
  table_ok crowd_hashes crowd_indices /\ (Z.of_nat (length crowd_hashes) <= 2 ^ 26)%Z /\
  collision_profile_at64 crowd_hashes crowd_indices 1 100 = Ret (profile_row [1891; 1891; 1891; 1891; 1891; 1891; 1891; 1]%Z).
Proof. split; [exact crowd_ok|]. split; [vm_compute; discriminate|]. vm_compute. reflexivity. Qed.
