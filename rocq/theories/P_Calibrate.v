(** Property theorems C134: what the calibration of the index measures.  Specification:
    EnumSpec.v.  Model: Calibrate.v. *)
From Coq Require Import Floats.SpecFloat.
From Verif Require Import Base F64 HashValue HashSpec OverlapsSpec Enumerator EnumSpec EnumProofs.
From Verif Require Import Profile Graph TopK Moves Iterator FpOps FloatSeries FloatProofs FloatErr FloatThr Calibrate CoinProofs P_Enum P_Float.
From Coq Require Import Reals Lra.
Local Close Scope R_scope.

Lemma buffer_size : N.of_nat calibration_buffer = 65536%N.
Proof. apply N2Nat.id. Qed.
Lemma buffer_pos : 0 < calibration_buffer.
Proof. pose proof buffer_size as H. revert H. generalize calibration_buffer. lia. Qed.
Local Opaque calibration_buffer.
Lemma Forall2_same {A B} (R : A -> B -> Prop) l l' : Forall2 R l l' -> length l = length l'.
Proof. induction 1; cbn [length]; lia. Qed.
(** ** One batch *)
Lemma measure_batch_count distance batch c :
  (forall a b, In (a, b) batch -> exists d, distance (N.to_nat a) (N.to_nat b) f_inf = Ret (Some d)) ->
  measure_batch distance batch c = Ret (if (max_samples <? c)%N then (match batch with [] => c | _ => c + 1 end)%N
                                        else N.min (c + N.of_nat (length batch)) (max_samples + 1))%N.
Proof.
  revert c. induction batch as [|(a, b) t IH]; intros c H; cbn [measure_batch].
  - destruct (N.ltb_spec max_samples c); [reflexivity|]. f_equal. cbn [length]. lia.
  - destruct (H a b (or_introl eq_refl)) as (d & ->). cbn [bind]. destruct (N.ltb_spec max_samples (c + 1)) as [L|L].
    + destruct (N.ltb_spec max_samples c); [reflexivity|]. f_equal. cbn [length]. lia.
    + rewrite IH by (intros a' b' I; apply H; right; exact I).
      destruct (N.ltb_spec max_samples (c + 1)); [lia|]. destruct (N.ltb_spec max_samples c); [lia|]. f_equal. cbn [length]. lia.
Qed.

(** ** All batches *)
Definition after (c : N) (batch : list (N * N)) : N :=
  if (max_samples <? c)%N then match batch with [] => c | _ => (c + 1)%N end else N.min (c + N.of_nat (length batch)) (max_samples + 1).

Lemma measure_all_batches distance ez s fuel (caps : list nat) bs :
  (forall c, In c caps -> c = calibration_buffer) ->
  (forall a b, In (a, b) (concat bs) -> exists d, distance (N.to_nat a) (N.to_nat b) f_inf = Ret (Some d)) ->
  enum_batches fuel caps ez true s = Ret (bs, true) -> length caps <= fuel ->
  measure_all distance ez s fuel = Ret (fold_left after bs 0%N).
Proof.
  intros Hc D E L. unfold measure_all. generalize 0%N as c0. revert s bs D E.
  assert (G : forall k s bs c0, length caps <= k -> (forall a b, In (a, b) (concat bs) -> exists d, distance (N.to_nat a) (N.to_nat b) f_inf = Ret (Some d)) ->
     enum_batches fuel caps ez true s = Ret (bs, true) ->
     loop k (fun st : enumerator * N => let '(s, samples) := st in
       let! '(s, r) := enum_next fuel calibration_buffer ez true s in
       match r with None => Ret (inr samples) | Some batch => let! samples := measure_batch distance batch samples in Ret (inl (s, samples)) end) (s, c0)
     = Ret (fold_left after bs c0)).
  2:{ intros s bs D E c0. apply G; assumption. }
  clear L. revert Hc. induction caps as [|c caps IH]; intros Hc k s bs c0 L D E; cbn [enum_batches] in E; [discriminate E|].
  destruct k as [|k]; [cbn in L; lia|]. cbn [loop]. rewrite (Hc c (or_introl eq_refl)) in E.
  destruct (enum_next fuel calibration_buffer ez true s) as [(s', [b|])| |] eqn:En; cbn [bind] in *; try discriminate E.
  - destruct (enum_batches fuel caps ez true s') as [(bs', fin)| |] eqn:Eb; cbn [bind] in E; try discriminate E.
    injection E as <- ->. rewrite measure_batch_count by (intros x y I; apply D; cbn [concat]; apply in_or_app; auto).
    cbn [bind fold_left]. apply IH; [intros c' Hc'; apply Hc; right; exact Hc'|cbn in L; lia|intros x y I; apply D; cbn [concat]; apply in_or_app; auto|exact Eb].
  - injection E as <-. reflexivity.
Qed.

(** ** How many *)
Lemma after_beyond bs c : (max_samples < c)%N -> (forall b, In b bs -> b <> []) -> fold_left after bs c = (c + N.of_nat (length bs))%N.
Proof.
  revert c. induction bs as [|b bs IH]; intros c L H; cbn [fold_left length]; [lia|].
  unfold after at 2. destruct (N.ltb_spec max_samples c); [|lia]. pose proof (H b (or_introl eq_refl)) as Nb. destruct b; [congruence|].
  rewrite IH; [lia|lia|intros b' I; apply H; right; exact I].
Qed.
Definition filled (c : nat) (bs : list (list (N * N))) : Prop :=
  forall k b, nth_error bs k = Some b -> 1 <= length b <= c /\ (S k < length bs -> length b = c).
Lemma filled_tail c b bs : filled c (b :: bs) -> filled c bs.
Proof. intros H k b' E. destruct (H (S k) b' E) as (A & B). split; [exact A|]. intros L. apply B. cbn [length]. lia. Qed.
Lemma batch_number c bs : 0 < c -> filled c bs -> length bs = (length (concat bs) + (c - 1)) / c.
Proof.
  intros C. induction bs as [|b bs IH]; intros F; cbn [concat length]; [rewrite Nat.add_0_l, Nat.div_small by lia; reflexivity|].
  rewrite app_length. destruct (F 0 b eq_refl) as (A & B). specialize (IH (filled_tail _ _ _ F)). destruct bs as [|b' bs].
  - cbn [concat length]. rewrite Nat.add_0_r. apply Nat.div_unique with (length b - 1); lia.
  - rewrite (B ltac:(cbn [length]; lia)). rewrite IH.
    replace (c + length (concat (b' :: bs)) + (c - 1)) with (length (concat (b' :: bs)) + (c - 1) + 1 * c) by lia.
    rewrite Nat.div_add by lia. lia.
Qed.

(** the number of distances, for [total] pairs *)
Definition measured (total : N) : N :=
  if (total <=? 10000)%N then total else (10000 + (total + 65535) / 65536)%N.

Lemma after_all c bs : N.of_nat c = 65536%N -> filled c bs -> fold_left after bs 0%N = measured (N.of_nat (length (concat bs))).
Proof.
  intros Cb F.
  assert (Cp : 0 < c) by lia.
  assert (Nb : N.of_nat (length bs) = ((N.of_nat (length (concat bs)) + 65535) / 65536)%N).
  { rewrite (batch_number c bs Cp F) at 1. rewrite Nnat.Nat2N.inj_div, Cb. f_equal. lia. }
  unfold measured. rewrite <- Nb. clear Nb. destruct bs as [|b bs]; [reflexivity|]. cbn [fold_left]. unfold after at 2.
  change (max_samples <? 0)%N with false. cbv iota. rewrite N.add_0_l.
  destruct (F 0 b eq_refl) as (A & B). pose proof (filled_tail _ _ _ F) as Ft.
  destruct bs as [|b' bs].
  - cbn [fold_left concat length]. rewrite app_nil_r. unfold max_samples in *. destruct (N.leb_spec (N.of_nat (length b)) 10000); lia.
  - assert (E : N.of_nat (length b) = 65536%N) by (rewrite B by (cbn [length]; lia); exact Cb).
    rewrite E. change (N.min 65536 (max_samples + 1)) with 10001%N. rewrite after_beyond; [|reflexivity|].
    + cbn [concat]. rewrite app_length. match goal with |- context [(?t <=? 10000)%N] => destruct (N.leb_spec t 10000) end; [lia|]. cbn [length]. lia.
    + intros x I ->. apply In_nth_error in I as (k & I). destruct (Ft k [] I) as ((H & _) & _). cbn in H. lia.
Qed.

Lemma measure_mono distance ez s : fmono (measure_all distance ez s).
Proof. unfold measure_all. fmono_tac; auto using enum_next_mono. Qed.
Lemma calibrate_mono distance hs ix ez p : fmono (calibrate distance hs ix ez p).
Proof.
  unfold calibrate. apply (fmono_bind (fun f => enum_new f hs ix p None) (fun f s => measure_all distance ez s f)); auto using enum_new_mono, measure_mono.
Qed.

(** The distances are those of the float model, on windows that exist; the table is any
    sorted table, whose flat windows carry the two sentinels.  The pairs of the last bucket
    are not enumerated, and beyond ten thousand distances one more is computed for each
    further buffer of pairs. *)
Theorem c134_measured :
  forall (z : zeros) (s : fseries) (hashes indices : list N) (ez p : nat),
    table_ok hashes indices -> hashes <> [] -> 1 <= p <= 8 ->
    (forall x, nth_error indices x = Some u32_max -> nth_error hashes x = Some u64_max) ->
    (forall i, In i indices -> i <> u32_max -> exists m sd a, fwindow s (N.to_nat i) m sd a) ->
    exists positions : list (nat * nat),
      NoDup positions /\
      (forall x y, In (x, y) positions <-> collide hashes p x y /\ ~ in_last_bucket hashes p x /\ ~ trivial indices ez x y) /\
      returns (calibrate (fzeucl_threshold z s) hashes indices ez p) (measured (N.of_nat (length positions))).
Proof.
  intros z s hashes indices ez p T Hne Hp Hflat Hw.
  destruct (enumerate_ok hashes indices p None true ez T Hne Hp ltac:(discriminate)) as (pos & pairs & ND & Char & F2 & Run).
  exists pos. split; [exact ND|]. split.
  { intros x y. rewrite Char. split; [tauto|]. intros (A & B & C). repeat split; try assumption; try apply A. intros (_ & pp & E & _). discriminate E. }
  assert (G : forall cb, N.of_nat cb = 65536%N -> exists caps bs, (forall c, In c caps -> c = cb) /\ filled cb bs /\
    returns (enumerate hashes indices p None true ez caps) (bs, true) /\ pairs = concat bs /\ 0 < cb).
  { intros cb Cb. assert (Cp : 0 < cb) by lia. set (caps := repeat cb (S (length pairs))).
    assert (Hc : forall c, In c caps -> c = cb) by (intros c I; apply repeat_spec in I; exact I).
    destruct (Run caps) as (bs & fin & R & (rest & E & Fin) & Lb & B & Ex); [intros c I; rewrite (Hc c I); exact Cp|].
    assert (fin = true) as -> by (apply Ex; unfold caps; rewrite repeat_length; lia).
    rewrite (Fin eq_refl), app_nil_r in E. exists caps, bs. repeat apply conj; try assumption.
    intros k b Eb. assert (Lk : k < length caps) by (assert (k < length bs) by (apply nth_error_Some; congruence); lia).
    destruct (nth_error caps k) as [c|] eqn:Ec; [|apply nth_error_None in Ec; lia].
    pose proof (Hc c (nth_error_In _ _ Ec)) as ->. exact (B k b _ Eb Ec). }
  destruct (G _ buffer_size) as (caps & bs & Hc & Fl & R & E & Cp). clear G Run.
  assert (D : forall a b, In (a, b) (concat bs) -> exists d, fzeucl_threshold z s (N.to_nat a) (N.to_nat b) f_inf = Ret (Some d)).
  { intros a b I. pose proof (P_Enum.c11_flat_never_collide hashes indices p None true ez caps bs true T Hne Hp ltac:(discriminate)
      ltac:(intros c Ic; rewrite (Hc c Ic); exact Cp) Hflat R a b I) as (Na & Nb).
    rewrite <- E in I. assert (G : exists xy, report_of indices xy (a, b)).
    { clear - F2 I. induction F2 as [|xy ab l l' H F IH]; [destruct I|]. destruct I as [->|I]; [exists xy; exact H|apply IH, I]. }
    destruct G as ((x, y) & (ix & iy & Ix & Iy & _ & EQ)).
    assert (Wa : exists m sd w, fwindow s (N.to_nat a) m sd w) by (apply Hw; [destruct EQ as [EQ|EQ]; injection EQ as -> ->; [exact (nth_error_In _ _ Ix)|exact (nth_error_In _ _ Iy)]|exact Na]).
    assert (Wb : exists m sd w, fwindow s (N.to_nat b) m sd w) by (apply Hw; [destruct EQ as [EQ|EQ]; injection EQ as -> ->; [exact (nth_error_In _ _ Iy)|exact (nth_error_In _ _ Ix)]|exact Nb]).
    destruct Wa as (mi & si & wa & Wa). destruct Wb as (mj & sj & wb & Wb).
    rewrite (fzeucl_threshold_eq z s _ _ _ _ _ _ _ _ f_inf Wa Wb). change (fmul f_inf f_inf) with f_inf. rewrite faccumulate_inf. eexists. reflexivity. }
  rewrite (Forall2_same _ _ _ F2), E. rewrite <- (after_all _ bs buffer_size Fl).
  destruct R as (n0 & R). apply (fmono_returns _ (n0 + length caps)); [apply calibrate_mono|].
  specialize (R (n0 + length caps) (Nat.le_add_r _ _)). unfold enumerate in R. unfold calibrate.
  destruct (enum_new (n0 + length caps) hashes indices p None) as [st| |]; cbn [bind] in *; try discriminate R.
  apply (measure_all_batches _ ez st _ caps); [exact Hc|exact D|exact R|apply Nat.le_add_l].
Qed.
Print Assumptions c134_measured.

(** six windows of a small series: the pair of the first bucket and the three of the second
    are measured, that of the last bucket is not *)
Example c134_measured_case :
  let hashes := [7; 7; 9; 9; 9; 12; 12]%N in let indices := [0; 1; 2; 0; 1; 2; 1]%N in
  table_ok hashes indices /\ (forall i, In i indices -> exists m sd a, fwindow series_ex (N.to_nat i) m sd a) /\
  calibrate (fzeucl_threshold z_ex series_ex) hashes indices 1 8 20 = Ret 4%N /\ measured 4 = 4%N /\ measured 200000 = 10004%N.
Proof.
  split; [|split; [|vm_compute; auto]].
  - split; [reflexivity|]. split.
    + intros h Hh. unfold is_u64. cbn in Hh. intuition (subst; reflexivity).
    + intros i j a b L Hi Hj.
      do 7 (destruct i as [|i]; [do 7 (destruct j as [|j]; [cbn in *; injection Hi as <-; injection Hj as <-; lia|]); destruct j; discriminate|]).
      destruct i; discriminate.
  - intros i Hi. assert (E : (i = 0 \/ i = 1 \/ i = 2)%N) by (cbn in Hi; intuition).
    destruct E as [->|[->| ->]]; eexists; eexists; eexists; (split; [vm_compute; reflexivity|split; vm_compute; reflexivity]).
Qed.
