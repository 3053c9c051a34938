(** Property theorems C135: the profile of the index does not depend on how the threads
    share its computation.  Specification: below.  Model: Calibrate.v. *)
From Coq Require Import Reals Lra Floats.SpecFloat.
From Flocq Require Import Core IEEE754.BinarySingleNaN.
From Verif Require Import Base F64 HashValue EnumSpec OverlapsSpec Enumerator Moves Profile ProfileSpec ProfileProofs P_Index Iterator FpOps FloatProofs FloatErr CoinProofs Calibrate.
Local Open Scope R_scope.

Lemma of_Z_exact c : (0 <= c <= 2 ^ 53)%Z -> number (f_of_Z c) /\ fval (f_of_Z c) = IZR c.
Proof.
  intros H. destruct (of_nat_exact (Z.to_nat c)) as (A & B); [lia|]. unfold f_of_nat in A, B. rewrite Z2Nat.id in A, B by lia.
  rewrite INR_IZR_INZ, Z2Nat.id in B by lia. split; assumption.
Qed.

Lemma same_number x y : number x -> number y -> fval x = fval y -> is_sign_negative x = is_sign_negative y -> x = y.
Proof.
  intros (X & Fx) (Y & Fy) E S. destruct (to_B x X) as (bx & <-). destruct (to_B y Y) as (by_ & <-). f_equal.
  rewrite !fval_B in E. rewrite !sign_B in S. rewrite !finite_B in *. apply B2R_Bsign_inj; assumption.
Qed.
Lemma of_Z_sign c : (0 <= c)%Z -> is_sign_negative (f_of_Z c) = false.
Proof. intros H. pose proof (f_of_nat_sign (Z.to_nat c)) as S. unfold f_of_nat in S. rewrite Z2Nat.id in S by exact H. exact S. Qed.
Lemma of_Z_add a b : (0 <= a)%Z -> (0 <= b)%Z -> (a + b <= 2 ^ 53)%Z -> fadd (f_of_Z a) (f_of_Z b) = f_of_Z (a + b).
Proof.
  intros A B L. destruct (of_Z_exact a ltac:(lia)) as (Na & Ea). destruct (of_Z_exact b ltac:(lia)) as (Nb & Eb). destruct (of_Z_exact (a + b) ltac:(lia)) as (Nc & Ec).
  assert (R : rnd (fval (f_of_Z a) + fval (f_of_Z b)) = IZR (a + b)).
  { rewrite Ea, Eb, <- plus_IZR. rewrite <- Ec. apply rnd_id, fmt_val, Nc. }
  destruct (fadd_val _ _ Na Nb) as (Nr & Er).
  { rewrite R, <- Ec. destruct (to_B _ (proj1 Nc)) as (eb & <-). rewrite fval_B. apply abs_B2R_lt_emax. }
  apply same_number; [exact Nr|exact Nc|rewrite Er, R, Ec; reflexivity|].
  rewrite (of_Z_sign (a + b)) by lia. apply fadd_sign; [|left]; apply of_Z_sign; assumption.
Qed.

(** ** Sums of rows *)
(** the count of column [q] in all repetitions *)
Definition total (rows : list (list Z)) (q : nat) : Z := fold_right (fun row acc => (nth q row 0 + acc)%Z) 0%Z rows.
Definition head (n : nat) : f64 := match n with O => S754_zero false | S _ => f_inf end.
Definition sums (rows : list (list Z)) : list Z := map (total rows) (seq 0 8).
Definition rows_ok (rows : list (list Z)) : Prop :=
  forall row, In row rows -> length row = 8%nat /\ forall c, In c row -> (0 <= c <= 2 ^ 50)%Z.

Lemma total_bound rows q : rows_ok rows -> (0 <= total rows q <= Z.of_nat (length rows) * 2 ^ 50)%Z.
Proof.
  intros H. induction rows as [|r rows IH]; [cbn; lia|]. cbn [total fold_right length]. specialize (IH (fun x I => H x (or_intror I))). fold (total rows q).
  destruct (H r (or_introl eq_refl)) as (L & B). assert (0 <= nth q r 0 <= 2 ^ 50)%Z; [|lia].
  destruct (nth_in_or_default q r 0%Z) as [I| ->]; [apply B, I|lia].
Qed.
Lemma total_app a b q : total (a ++ b) q = (total a q + total b q)%Z.
Proof. induction a as [|r a IH]; [reflexivity|]. cbn [app total fold_right]. fold (total (a ++ b) q) (total a q). rewrite IH. lia. Qed.

Lemma add_map (f g : nat -> Z) l : (forall q, In q l -> (0 <= f q)%Z /\ (0 <= g q)%Z /\ (f q + g q <= 2 ^ 53)%Z) ->
  add_row (map f_of_Z (map f l)) (map f_of_Z (map g l)) = map f_of_Z (map (fun q => (f q + g q)%Z) l).
Proof.
  induction l as [|q l IH]; intros H; [reflexivity|]. cbn [map add_row]. destruct (H q (or_introl eq_refl)) as (A & B & C). rewrite of_Z_add by assumption. f_equal.
  apply IH. intros q' I. apply H. right. exact I.
Qed.
Lemma head_add a b : fadd (head a) (head b) = head (a + b).
Proof. destruct a, b; reflexivity. Qed.
Lemma add_rows a b : rows_ok a -> rows_ok b -> (length a + length b <= 8)%nat ->
  add_row (head (length a) :: map f_of_Z (sums a)) (head (length b) :: map f_of_Z (sums b)) = head (length (a ++ b)) :: map f_of_Z (sums (a ++ b)).
Proof.
  intros A B L. cbn [add_row]. rewrite head_add, app_length. f_equal. unfold sums. rewrite add_map.
  - f_equal. apply map_ext. intros q. symmetry. apply total_app.
  - intros q _. pose proof (total_bound a q A). pose proof (total_bound b q B). lia.
Qed.
Lemma row_sums r : length r = 8%nat -> profile_row r = head (length [r]) :: map f_of_Z (sums [r]).
Proof.
  intros L. unfold profile_row. cbn [length head]. f_equal. f_equal. unfold sums.
  do 8 (destruct r as [|? r]; [discriminate L|]). destruct r; [|discriminate L]. cbn. rewrite !Z.add_0_r. reflexivity.
Qed.
Lemma fold_rows rows done : rows_ok done -> rows_ok rows -> (length done + length rows <= 8)%nat ->
  fold_left add_row (map profile_row rows) (head (length done) :: map f_of_Z (sums done)) = head (length (done ++ rows)) :: map f_of_Z (sums (done ++ rows)).
Proof.
  revert done. induction rows as [|r rows IH]; intros done D R L; cbn [map fold_left]; [rewrite app_nil_r; reflexivity|].
  destruct (R r (or_introl eq_refl)) as (Lr & _). assert (R1 : rows_ok [r]) by (intros x [<-|[]]; apply R; left; reflexivity).
  rewrite (row_sums r Lr), add_rows; [|exact D|exact R1|cbn in *; lia].
  rewrite IH; [rewrite <- app_assoc; reflexivity| | |rewrite app_length; cbn in *; lia].
  - intros x I. apply in_app_or in I as [I|I]; [apply D, I|apply R1, I].
  - intros x I. apply R. right. exact I.
Qed.
Lemma reduce_sums p rows : rows_ok rows -> (length rows <= 8)%nat -> plan_rows p = map profile_row rows ->
  reduce p = head (length rows) :: map f_of_Z (sums rows).
Proof.
  revert rows. induction p as [rs|l IHl r IHr]; intros rows R L E; cbn [plan_rows reduce] in *.
  - subst rs. change zero_row with (head (length (@nil (list Z))) :: map f_of_Z (sums [])). rewrite fold_rows; [reflexivity|intros x []|exact R|cbn; lia].
  - symmetry in E. apply map_eq_app in E as (a & b & -> & Ea & Eb). rewrite app_length in L.
    assert (Ra : rows_ok a) by (intros x I; apply R, in_or_app; auto). assert (Rb : rows_ok b) by (intros x I; apply R, in_or_app; auto).
    rewrite (IHl a Ra ltac:(lia) (eq_sym Ea)), (IHr b Rb ltac:(lia) (eq_sym Eb)). apply add_rows; assumption.
Qed.

(** [rows] are the counts of the first [reps] repetitions; the plan is any way in which the
    threads may share them.  The profile is the same for all plans, bit for bit: infinity for
    prefix 0, and for prefix [q] the average of the counts, correctly rounded; with four
    repetitions, which is what a search has, it is exactly the average. *)
Theorem c135_any_schedule :
  forall (rows : list (list Z)) (p : plan),
    (1 <= length rows <= 4)%nat ->
    (forall row, In row rows -> length row = 8%nat /\ forall c, In c row -> (0 <= c <= 2 ^ 50)%Z) ->
    plan_rows p = map profile_row rows ->
    let profile := collision_profile (length rows) p in
    length profile = 9%nat /\ nth_error profile 0 = Some f_inf /\
    (forall q, (1 <= q <= 8)%nat -> exists x, nth_error profile q = Some x /\ number x /\
       fval x = rnd (IZR (total rows (q - 1)) / INR (length rows)) /\
       (length rows <> 3%nat -> fval x = IZR (total rows (q - 1)) / INR (length rows))) /\
    (forall p', plan_rows p' = map profile_row rows -> collision_profile (length rows) p' = profile).
Proof.
  intros rows p L R E profile. unfold profile, collision_profile. rewrite (reduce_sums p rows R ltac:(lia) E).
  destruct (of_nat_exact (length rows)) as (Nn & En); [lia|].
  split; [rewrite map_length; reflexivity|]. split.
  { destruct rows as [|r rows]; [cbn in L; lia|]. cbn [length head map nth_error].
    assert (P : exists m e, f_of_nat (S (length rows)) = S754_finite false m e) by (apply F64Arith.f_of_nat_pos; cbn [length] in L; lia).
    destruct P as (m & e & ->). reflexivity. }
  split; [|intros p' E'; rewrite (reduce_sums p' rows R ltac:(lia) E'); reflexivity].
  intros q Hq. destruct q as [|q]; [lia|]. cbn [Nat.sub]. rewrite Nat.sub_0_r. cbn [map nth_error].
  pose proof (total_bound rows q R) as B. destruct (of_Z_exact (total rows q)) as (Nt & Et); [lia|].
  exists (fdiv (f_of_Z (total rows q)) (f_of_nat (length rows))).
  assert (P1 : 1 <= INR (length rows)) by (change 1 with (INR 1); apply le_INR; lia).
  split.
  { unfold sums. do 8 (destruct q as [|q]; [reflexivity|]). lia. }
  assert (Bt : 0 <= IZR (total rows q) / INR (length rows) <= IZR (2 ^ 53)).
  { assert (0 <= IZR (total rows q) <= IZR (2 ^ 53)) by (split; apply IZR_le; lia).
    split; [apply Rmult_le_pos; [lra|left; apply Rinv_0_lt_compat; lra]|]. apply Rle_trans with (IZR (total rows q) / 1); [|lra].
    apply Rmult_le_compat_l; [lra|]. apply Rinv_le_contravar; lra. }
  destruct (fdiv_val (f_of_Z (total rows q)) (f_of_nat (length rows)) Nt Nn) as (Nd & Ed); [lra| |].
  { rewrite Et, En. apply Rle_lt_trans with (IZR (2 ^ 53)); [|unfold top; rewrite <- (IZR_Zpower radix2) by (unfold emax; lia); apply IZR_lt; reflexivity].
    apply rnd_abs_le; [|rewrite Rabs_pos_eq by lra; lra].
    replace (IZR (2 ^ 53)) with (IZR (2 ^ 53) * bpow radix2 0) by (cbn [bpow]; ring). apply fmt_int; lia. }
  rewrite Et, En in Ed. split; [exact Nd|]. split; [exact Ed|]. intros N3. rewrite Ed. apply rnd_id.
  assert (C : length rows = 1%nat \/ length rows = 2%nat \/ length rows = 4%nat) by lia.
  destruct C as [C|[C|C]]; rewrite C.
  - replace (IZR (total rows q) / INR 1) with (IZR (total rows q) * bpow radix2 0) by (cbn; field). apply fmt_int; lia.
  - replace (IZR (total rows q) / INR 2) with (IZR (total rows q) * bpow radix2 (-1)) by (cbn; field). apply fmt_int; lia.
  - replace (IZR (total rows q) / INR 4) with (IZR (total rows q) * bpow radix2 (-2)) by (cbn; field). apply fmt_int; lia.
Qed.
Print Assumptions c135_any_schedule.

(** In terms of the counts of the first four repetitions: the search starts at the longest
    prefix with at least one collision per repetition on average (at prefix 1 if there is
    none); the calibration uses the longest prefix with more than 1000 on average, and aborts
    if there is none. *)
Theorem c135_prefixes :
  forall (rows : list (list Z)) (p : plan),
    length rows = 4%nat ->
    (forall row, In row rows -> length row = 8%nat /\ forall c, In c row -> (0 <= c <= 2 ^ 50)%Z) ->
    plan_rows p = map profile_row rows ->
    let profile := collision_profile 4 p in
    (exists q, first_meaningful_prefix profile = Ret q /\ (1 <= q <= 8)%nat /\
       (forall q', (q < q' <= 8)%nat -> (total rows (q' - 1) < 4)%Z) /\
       ((4 <= total rows (q - 1))%Z \/ q = 1%nat)) /\
    ((exists q, (1 <= q <= 8)%nat /\ (4000 < total rows (q - 1))%Z) ->
     exists q, calibration_prefix profile = Ret q /\ (1 <= q <= 8)%nat /\ (4000 < total rows (q - 1))%Z /\
       forall q', (q < q' <= 8)%nat -> (total rows (q' - 1) <= 4000)%Z) /\
    ((forall q, (1 <= q <= 8)%nat -> (total rows (q - 1) <= 4000)%Z) -> calibration_prefix profile = Panic).
Proof.
  intros rows p L R E profile. destruct (c135_any_schedule rows p ltac:(lia) R E) as (Len & Inf & Ent & _). rewrite L in Len, Inf, Ent. fold profile in Len, Inf, Ent.
  assert (One : forall q x, (1 <= q <= 8)%nat -> nth_error profile q = Some x -> fle f_one x = true <-> (4 <= total rows (q - 1))%Z).
  { intros q x Hq Ex. destruct (Ent q Hq) as (y & Ey & Ny & _ & Vy). rewrite Ey in Ex. injection Ex as ->. specialize (Vy ltac:(lia)).
    assert (N1 : number f_one) by (split; reflexivity). assert (V1 : fval f_one = 1) by (change f_one with (f_of_Z 1); apply of_Z_exact; lia).
    rewrite (fle_val _ _ N1 Ny), V1, Vy. replace (INR 4) with 4 by (cbn; ring). split; intros H.
    - apply le_IZR. unfold Rle_bool in H. destruct (Rcompare_spec 1 (IZR (total rows (q - 1)) / 4)); try discriminate H; lra.
    - apply Rle_bool_true. apply IZR_le in H. lra. }
  assert (Th : forall q x, (1 <= q <= 8)%nat -> nth_error profile q = Some x -> flt one_thousand x = true <-> (4000 < total rows (q - 1))%Z).
  { intros q x Hq Ex. destruct (Ent q Hq) as (y & Ey & Ny & _ & Vy). rewrite Ey in Ex. injection Ex as ->. specialize (Vy ltac:(lia)).
    assert (N1 : number one_thousand) by (split; reflexivity). assert (V1 : fval one_thousand = 1000) by (change one_thousand with (f_of_Z 1000); apply of_Z_exact; lia).
    rewrite (flt_val _ _ N1 Ny), V1, Vy. replace (INR 4) with 4 by (cbn; ring). split; intros H.
    - apply lt_IZR. unfold Rlt_bool in H. destruct (Rcompare_spec 1000 (IZR (total rows (q - 1)) / 4)); try discriminate H; lra.
    - apply Rlt_bool_true. apply IZR_lt in H. lra. }
  assert (At : forall q, (1 <= q <= 8)%nat -> exists x, nth_error profile q = Some x) by (intros q Hq; destruct (Ent q Hq) as (x & Ex & _); eauto).
  assert (Lt : forall q x, nth_error profile q = Some x -> (q <= 8)%nat) by (intros q x Ex; assert (q < length profile)%nat by (apply nth_error_Some; congruence); lia).
  split; [|split].
  - destruct (c14_starting_prefix profile Len Inf) as (q & Eq & Hq & Hit & Max). exists q. split; [exact Eq|]. split; [exact Hq|]. split.
    + intros q' Hq'. destruct (At q' ltac:(lia)) as (x & Ex). apply Z.nle_gt. intros C. apply (One q' x ltac:(lia) Ex) in C. rewrite (Max q' x ltac:(lia) Ex) in C. discriminate C.
    + destruct Hit as [(c & Ec & Hc)|(-> & _)]; [left; apply (One q c Hq Ec), Hc|right; reflexivity].
  - intros (q0 & Hq0 & T0). destruct (c70_calibration_partial profile Len Inf) as (A & _).
    destruct A as (q & Eq & Hq & (c & Ec & Hc) & Max).
    { destruct (At q0 Hq0) as (x & Ex). exists q0, x. split; [lia|]. split; [exact Ex|]. apply (Th q0 x Hq0 Ex), T0. }
    exists q. split; [exact Eq|]. split; [exact Hq|]. split; [apply (Th q c Hq Ec), Hc|].
    intros q' Hq'. destruct (At q' ltac:(lia)) as (x & Ex). apply Z.nlt_ge. intros C. apply (Th q' x ltac:(lia) Ex) in C. rewrite (Max q' x ltac:(lia) Ex) in C. discriminate C.
  - intros H. destruct (c70_calibration_partial profile Len Inf) as (_ & B). apply B. intros q c Hq Ec. pose proof (Lt q c Ec).
    destruct (flt one_thousand c) eqn:F; [|reflexivity]. apply (Th q c ltac:(lia) Ec) in F. specialize (H q ltac:(lia)). lia.
Qed.
Print Assumptions c135_prefixes.

(** four repetitions, shared by two threads; the sums are the same for the plan of one thread *)
Definition rows_ex : list (list Z) := [[1500; 900; 7; 5; 4; 3; 2; 1]; [2000; 800; 6; 4; 3; 2; 1; 0]; [1800; 950; 9; 8; 7; 6; 1; 1]; [2100; 990; 5; 5; 5; 1; 0; 1]]%Z.
Definition plan_ex : plan := Both (Part [nth 0 (map profile_row rows_ex) []]) (Both (Part [nth 1 (map profile_row rows_ex) []; nth 2 (map profile_row rows_ex) []]) (Part [nth 3 (map profile_row rows_ex) []])).
Example c135_case :
  (forall row, In row rows_ex -> length row = 8%nat /\ forall c, In c row -> (0 <= c <= 2 ^ 50)%Z) /\
  plan_rows plan_ex = map profile_row rows_ex /\ plan_rows (Part (map profile_row rows_ex)) = map profile_row rows_ex /\
  map (total rows_ex) (seq 0 8) = [7400; 3640; 27; 22; 19; 12; 4; 3]%Z /\
  first_meaningful_prefix (collision_profile 4 plan_ex) = Ret 7%nat /\ calibration_prefix (collision_profile 4 plan_ex) = Ret 1%nat /\
  collision_profile 4 plan_ex = collision_profile 4 (Part (map profile_row rows_ex)).
Proof.
  split; [|vm_compute; auto 8]. intros row H. cbn in H.
  destruct H as [<-|[<-|[<-|[<-|[]]]]]; (split; [reflexivity|]); intros c H; cbn in H; lia.
Qed.
