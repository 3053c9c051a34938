From Verif Require Import Base HashValue HashSpec.
Local Open Scope N_scope.

(** ** Bits *)
Lemma testbit_byte_at h k i :
  N.testbit (byte_at h k) i = (i <? 8) && N.testbit h (i + 8 * N.of_nat (7 - k)).
Proof.
  unfold byte_at.
  replace (256 ^ N.of_nat (7 - k)) with (2 ^ (8 * N.of_nat (7 - k)))
    by (rewrite N.pow_mul_r; reflexivity).
  rewrite <- N.shiftr_div_pow2.
  change 256 with (2 ^ 8).
  destruct (N.ltb_spec i 8) as [H|H]; cbn [andb].
  - rewrite N.mod_pow2_bits_low by exact H. rewrite N.shiftr_spec by lia. reflexivity.
  - rewrite N.mod_pow2_bits_high by exact H. reflexivity.
Qed.

Lemma testbit_high h n : h < 2 ^ n -> forall i, n <= i -> N.testbit h i = false.
Proof.
  intros H i Hi. destruct (N.eq_dec h 0) as [->|Hz]; [apply N.bits_0|].
  apply N.bits_above_log2. apply N.lt_le_trans with n; [|exact Hi].
  apply N.log2_lt_pow2; lia.
Qed.
Lemma lt_pow2_testbit h n : (forall i, n <= i -> N.testbit h i = false) -> h < 2 ^ n.
Proof.
  intros H. destruct (N.eq_dec h 0) as [->|Hz]; [apply N.neq_0_lt_0, N.pow_nonzero; lia|].
  destruct (N.lt_ge_cases h (2 ^ n)) as [L|L]; [exact L|exfalso].
  assert (n <= N.log2 h) as HL by (apply N.log2_le_pow2; lia).
  pose proof (N.bit_log2 h Hz) as B. rewrite (H _ HL) in B. discriminate.
Qed.

Lemma testbit_0xFF i : N.testbit 0xFF i = (i <? 8).
Proof.
  change 0xFF with (N.ones 8). destruct (N.ltb_spec i 8).
  - apply N.ones_spec_low; assumption.
  - apply N.ones_spec_high; assumption.
Qed.

Lemma set_byte_testbit h k b h' i :
  is_u64 h -> is_u8 b -> set_byte h k b = Ret h' ->
  N.testbit h' i =
    if (8 * N.of_nat (7 - k) <=? i) && (i <? 8 * N.of_nat (7 - k) + 8)
    then N.testbit b (i - 8 * N.of_nat (7 - k)) else N.testbit h i.
Proof.
  unfold set_byte, is_u64, is_u8. intros Hh Hb E.
  destruct (Nat.leb_spec k 7) as [Hk|Hk]; [|discriminate].
  apply Ret_inj in E. subst h'.
  replace (N.of_nat (1 * (7 - k) * 8)) with (8 * N.of_nat (7 - k)) by lia.
  set (s := 8 * N.of_nat (7 - k)).
  assert (Hs : s <= 56) by (unfold s; lia).
  rewrite N.lor_spec, N.land_spec.
  destruct (N.lt_ge_cases i 64) as [Hi|Hi].
  - rewrite N.lnot_spec_low by exact Hi.
    destruct (N.le_gt_cases s i) as [Hsi|Hsi].
    + rewrite !N.shiftl_spec_high' by exact Hsi. rewrite testbit_0xFF.
      destruct (N.leb_spec s i); [|lia]. cbn [andb].
      destruct (N.ltb_spec (i - s) 8), (N.ltb_spec i (s + 8)); try lia; cbn [negb].
      rewrite andb_true_r. rewrite (testbit_high b 8) by (try exact Hb; lia).
      apply orb_false_r.
    + rewrite !N.shiftl_spec_low by exact Hsi.
      destruct (N.leb_spec s i); [lia|]. cbn [andb negb].
      rewrite andb_true_r. apply orb_false_r.
  - rewrite (testbit_high h 64 Hh) by exact Hi. cbn [andb orb].
    rewrite N.shiftl_spec_high' by lia.
    rewrite (testbit_high b 8) by (try exact Hb; lia).
    destruct (N.leb_spec s i), (N.ltb_spec i (s + 8)); try lia; reflexivity.
Qed.

Lemma set_byte_ret h k b : (k < 8)%nat -> exists h', set_byte h k b = Ret h'.
Proof.
  intros H. unfold set_byte. destruct (Nat.leb_spec k 7); [|lia]. eauto.
Qed.

Lemma set_byte_spec h k b h' :
  is_u64 h -> is_u8 b -> (k < 8)%nat -> set_byte h k b = Ret h' ->
  is_u64 h' /\ byte_at h' k = b /\
  forall j, (j < 8)%nat -> j <> k -> byte_at h' j = byte_at h j.
Proof.
  intros Hh Hb Hk E. pose proof (fun i => set_byte_testbit h k b h' i Hh Hb E) as T.
  split; [|split].
  - apply lt_pow2_testbit. intros i Hi. rewrite T.
    destruct (N.leb_spec (8 * N.of_nat (7 - k)) i), (N.ltb_spec i (8 * N.of_nat (7 - k) + 8));
      cbn [andb]; try lia; apply (testbit_high h 64); auto.
  - apply N.bits_inj. intros i. rewrite testbit_byte_at, T.
    destruct (N.ltb_spec i 8); cbn [andb].
    + destruct (N.leb_spec (8 * N.of_nat (7 - k)) (i + 8 * N.of_nat (7 - k))),
        (N.ltb_spec (i + 8 * N.of_nat (7 - k)) (8 * N.of_nat (7 - k) + 8)); cbn [andb]; try lia.
      f_equal. lia.
    + symmetry. apply (testbit_high b 8); [exact Hb|lia].
  - intros j Hj Hjk. apply N.bits_inj. intros i. rewrite !testbit_byte_at, T.
    destruct (N.ltb_spec i 8); cbn [andb]; [|reflexivity].
    destruct (N.leb_spec (8 * N.of_nat (7 - k)) (i + 8 * N.of_nat (7 - j))),
      (N.ltb_spec (i + 8 * N.of_nat (7 - j)) (8 * N.of_nat (7 - k) + 8)); cbn [andb];
      try reflexivity. lia.
Qed.

(** ** Prefixes *)
Definition shift (p : nat) : N := 64 - 8 * N.of_nat p.

Lemma mask_spec p : (1 <= p <= 8)%nat ->
  nth_error MASKS p = Some (N.shiftl (N.ones (8 * N.of_nat p)) (shift p)).
Proof.
  intros H. do 9 (destruct p as [|p]; [try reflexivity; lia|]). lia.
Qed.

Lemma land_mask h p : (1 <= p <= 8)%nat -> is_u64 h ->
  N.land h (N.shiftl (N.ones (8 * N.of_nat p)) (shift p)) = N.shiftl (h / 2 ^ shift p) (shift p).
Proof.
  intros Hp Hh. unfold is_u64 in Hh. apply N.bits_inj. intros i.
  rewrite N.land_spec. rewrite <- N.shiftr_div_pow2.
  destruct (N.lt_ge_cases i (shift p)) as [Hi|Hi].
  - rewrite !N.shiftl_spec_low by exact Hi. apply andb_false_r.
  - rewrite !N.shiftl_spec_high' by exact Hi.
    rewrite N.shiftr_spec by lia.
    replace (i - shift p + shift p) with i by lia.
    destruct (N.lt_ge_cases (i - shift p) (8 * N.of_nat p)) as [L|L].
    + rewrite N.ones_spec_low by exact L. apply andb_true_r.
    + rewrite N.ones_spec_high by exact L. rewrite andb_false_r.
      symmetry. apply (testbit_high h 64); [exact Hh|]. unfold shift in *. lia.
Qed.

Definition same (p : nat) (a b : N) : bool := a / 2 ^ shift p =? b / 2 ^ shift p.

Lemma prefix_eq_same a b p : (1 <= p <= 8)%nat -> is_u64 a -> is_u64 b ->
  prefix_eq a b p = Ret (same p a b).
Proof.
  intros Hp Ha Hb. unfold prefix_eq, assert_, get.
  destruct (Nat.ltb_spec 0 p); [|lia].
  rewrite (mask_spec p Hp). cbn [bind]. rewrite !land_mask by assumption.
  f_equal. unfold same. rewrite !N.shiftl_mul_pow2.
  assert (0 < 2 ^ shift p) by (apply N.neq_0_lt_0, N.pow_nonzero; lia).
  destruct (N.eqb_spec (a / 2 ^ shift p) (b / 2 ^ shift p)) as [E|E];
    destruct (N.eqb_spec (a / 2 ^ shift p * 2 ^ shift p) (b / 2 ^ shift p * 2 ^ shift p)) as [F|F];
    try reflexivity; exfalso.
  - apply F. rewrite E. reflexivity.
  - apply E. apply N.mul_cancel_r in F; [exact F|lia].
Qed.

Lemma byte_at_step h p : (p < 8)%nat ->
  h / 2 ^ shift (S p) = 256 * (h / 2 ^ shift p) + byte_at h p.
Proof.
  intros Hp. unfold byte_at, shift.
  replace (256 ^ N.of_nat (7 - p)) with (2 ^ (64 - 8 * N.of_nat (S p)))
    by (change 256 with (2 ^ 8); rewrite <- N.pow_mul_r; f_equal; lia).
  replace (2 ^ (64 - 8 * N.of_nat p)) with (2 ^ (64 - 8 * N.of_nat (S p)) * 256).
  - assert (Hz : 2 ^ (64 - 8 * N.of_nat (S p)) <> 0) by (apply N.pow_nonzero; lia).
    rewrite <- N.div_div by (exact Hz || lia).
    apply N.div_mod. lia.
  - change 256 with (2 ^ 8). rewrite <- N.pow_add_r. f_equal. lia.
Qed.

Lemma byte_at_lt h k : byte_at h k < 256.
Proof. unfold byte_at. apply N.mod_lt. lia. Qed.

Lemma same_agree p a b : is_u64 a -> is_u64 b -> (p <= 8)%nat -> same p a b = true <-> agree p a b.
Proof.
  intros Ha Hb. unfold same, agree. rewrite N.eqb_eq.
  induction p as [|p IH]; intros Hp.
  - split; [intros _ k Hk; lia|intros _].
    unfold shift. cbn [N.of_nat]. change (64 - 8 * 0) with 64.
    rewrite !N.div_small by assumption. reflexivity.
  - specialize (IH ltac:(lia)). rewrite !byte_at_step by lia.
    pose proof (byte_at_lt a p). pose proof (byte_at_lt b p).
    split.
    + intros E k Hk.
      assert (a / 2 ^ shift p = b / 2 ^ shift p) as E1 by lia.
      destruct (Nat.eq_dec k p) as [->|Hkp]; [lia|].
      apply IH; [exact E1|lia].
    + intros E. assert (a / 2 ^ shift p = b / 2 ^ shift p) as -> by (apply IH; intros; apply E; lia).
      rewrite (E p) by lia. reflexivity.
Qed.

Lemma prefix_eq_spec a b p : (1 <= p <= 8)%nat -> is_u64 a -> is_u64 b ->
  exists r, prefix_eq a b p = Ret r /\ (r = true <-> agree p a b).
Proof.
  intros Hp Ha Hb. exists (same p a b). split; [apply prefix_eq_same; auto|].
  apply same_agree; auto; lia.
Qed.

Lemma agree_shorter p q a b : (p <= q)%nat -> agree q a b -> agree p a b.
Proof. unfold agree. intros H A k Hk. apply A. lia. Qed.

Lemma agree_full a b : is_u64 a -> is_u64 b -> agree 8 a b -> a = b.
Proof.
  intros Ha Hb H. apply same_agree in H; auto. unfold same, shift in H. apply N.eqb_eq in H.
  change (64 - 8 * N.of_nat 8) with 0 in H. rewrite N.pow_0_r, !N.div_1_r in H. exact H.
Qed.

Lemma same_between p a b c : a <= b -> b <= c -> same p a c = true -> same p a b = true /\ same p b c = true.
Proof.
  unfold same. rewrite !N.eqb_eq. intros H1 H2 E.
  assert (Hz : 2 ^ shift p <> 0) by (apply N.pow_nonzero; lia).
  pose proof (N.div_le_mono a b _ Hz H1). pose proof (N.div_le_mono b c _ Hz H2). lia.
Qed.
Lemma same_refl p a : same p a a = true.
Proof. unfold same. apply N.eqb_refl. Qed.
Lemma same_sym p a b : same p a b = same p b a.
Proof. unfold same. apply N.eqb_sym. Qed.
Lemma same_trans p a b c : same p a b = true -> same p b c = true -> same p a c = true.
Proof. unfold same. rewrite !N.eqb_eq. congruence. Qed.

Lemma prefix_contiguous {A} (l : list (N * A)) p i j k x y z :
  hash_sorted l -> (forall e, In e l -> is_u64 (fst e)) -> (1 <= p <= 8)%nat ->
  (i <= j <= k)%nat ->
  nth_error l i = Some x -> nth_error l j = Some y -> nth_error l k = Some z ->
  agree p (fst x) (fst z) -> agree p (fst x) (fst y).
Proof.
  intros Hs Hu Hp Hijk Hx Hy Hz H.
  assert (is_u64 (fst x) /\ is_u64 (fst y) /\ is_u64 (fst z)) as (Ux & Uy & Uz).
  { repeat split; apply Hu; eapply nth_error_In; eauto. }
  apply same_agree; auto; try lia.
  apply same_agree in H; auto; try lia.
  apply (same_between p (fst x) (fst y) (fst z)).
  - apply (Hs i j); auto; lia.
  - apply (Hs j k); auto; lia.
  - exact H.
Qed.
