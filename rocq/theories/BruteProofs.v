From Coq Require Import Permutation.
From Verif Require Import Base F64 Overlaps OverlapsSpec OverlapsProofs Brute BruteSpec.

(** ** Loops *)
Lemma foreach_seq {S} (body : nat -> S -> res S) (I : nat -> S -> Prop) a n s :
  I a s -> (forall i s, a <= i < a + n -> I i s -> exists s', body i s = Ret s' /\ I (Datatypes.S i) s') ->
  exists s', foreach (seq a n) body s = Ret s' /\ I (a + n) s'.
Proof.
  revert a s. induction n as [|n IH]; intros a s H0 Hs; cbn [seq foreach].
  - exists s. rewrite Nat.add_0_r. auto.
  - destruct (Hs a s ltac:(lia) H0) as (s1 & E1 & I1). rewrite E1. cbn [bind].
    destruct (IH (Datatypes.S a) s1 I1) as (s2 & E2 & I2).
    + intros i s3 Li. apply Hs. lia.
    + exists s2. split; [exact E2|]. replace (a + Datatypes.S n) with (Datatypes.S a + n) by lia. exact I2.
Qed.
Lemma foreach_panic {A S} (body : A -> S -> res S) (I : S -> Prop) l s :
  I s ->
  (forall a s, In a l -> I s -> body a s = Panic \/ exists s', body a s = Ret s' /\ I s') ->
  (exists a, In a l /\ forall s, I s -> body a s = Panic) ->
  foreach l body s = Panic.
Proof.
  revert s. induction l as [|a l IH]; intros s HI Hb (x & Hx & Hp); [destruct Hx|]. cbn [foreach].
  destruct (Hb a s (or_introl eq_refl) HI) as [E|(s' & E & I')]; rewrite E; [reflexivity|]. cbn [bind].
  apply IH; [exact I'|intros; apply Hb; [right|]; assumption|].
  destruct Hx as [->|Hx]; [rewrite Hp in E by exact HI; discriminate|]. eauto.
Qed.
(** every run either panics or keeps the invariant *)
Lemma foreach_safe {A S} (body : A -> S -> res S) (I : S -> Prop) l s :
  I s ->
  (forall a s, In a l -> I s -> body a s = Panic \/ exists s', body a s = Ret s' /\ I s') ->
  foreach l body s = Panic \/ exists s', foreach l body s = Ret s' /\ I s'.
Proof.
  revert s. induction l as [|a l IH]; intros s HI Hb; cbn [foreach]; [right; eauto|].
  destruct (Hb a s (or_introl eq_refl) HI) as [E|(s' & E & I')]; rewrite E; [auto|]. cbn [bind].
  apply IH; [exact I'|]. intros; apply Hb; [right|]; assumption.
Qed.
(** inversion of a loop that returned *)
Lemma foreach_seq_inv {S} (body : nat -> S -> res S) (I : nat -> S -> Prop) a n s r :
  I a s -> (forall i s s', a <= i < a + n -> I i s -> body i s = Ret s' -> I (Datatypes.S i) s') ->
  foreach (seq a n) body s = Ret r -> I (a + n) r.
Proof.
  revert a s. induction n as [|n IH]; intros a s H0 Hs E; cbn [seq foreach] in E.
  - apply Ret_inj in E. subst. rewrite Nat.add_0_r. exact H0.
  - destruct (body a s) as [s1| |] eqn:E1; cbn [bind] in E; try discriminate.
    replace (a + Datatypes.S n) with (Datatypes.S a + n) by lia.
    apply (IH (Datatypes.S a) s1); [apply (Hs a s); auto; lia| |exact E].
    intros i s2 s3 Li. apply Hs. lia.
Qed.

(** ** Extents *)
Section Extents.
  Variable d : nat -> nat -> f64.
  Hypothesis dpos : nonneg d.

  Lemma dmax_ge_l a b : is_nan a = false -> is_nan b = false -> fle a (dmax a b) = true.
  Proof. intros Ha Hb. unfold dmax. destruct (flt b a) eqn:E; [apply fle_refl; exact Ha|f64_tac]. Qed.
  Lemma dmax_ge_r a b : is_nan a = false -> is_nan b = false -> fle b (dmax a b) = true.
  Proof. intros Ha Hb. unfold dmax. destruct (flt b a) eqn:E; [f64_tac|apply fle_refl; exact Hb]. Qed.
  Lemma dmax_nan a b : is_nan a = false -> is_nan b = false -> is_nan (dmax a b) = false.
  Proof. intros Ha Hb. unfold dmax. destruct (flt b a); assumption. Qed.

  Definition all_numbers (l : list nat) : Prop :=
    forall a b x y, a < b -> nth_error l a = Some x -> nth_error l b = Some y -> is_nan (d y x) = false.

  (** pairs seen after finishing [i - 1] and [j] of row [i] *)
  Definition seen (i j a b : nat) : Prop := a < b /\ (b < i \/ b = i /\ a < j).
  Definition max_seen (l : list nat) (i j : nat) (e : f64) : Prop :=
    is_nan e = false /\ fle f_zero e = true /\
    (forall a b x y, seen i j a b -> nth_error l a = Some x -> nth_error l b = Some y -> fle (d y x) e = true) /\
    (e = f_zero /\ (forall a b, seen i j a b -> False) \/
     exists a b x y, seen i j a b /\ nth_error l a = Some x /\ nth_error l b = Some y /\ e = d y x).

  Lemma row_ok l i e0 : all_numbers l -> 1 <= i < length l -> max_seen l i 0 e0 ->
    exists e, extent_row d l i e0 = Ret e /\ max_seen l i i e /\ fle e0 e = true.
  Proof.
    intros Hn Hi H0. unfold extent_row.
    destruct (foreach_seq (fun j e =>
              let! ii := get l i in
              let! jj := get l j in
              assert_ (negb (is_nan (d ii jj))) (Ret (dmax e (d ii jj)))) (fun j e => max_seen l i j e /\ fle e0 e = true) 0 i e0)
      as (e & E & Q).
    - split; [exact H0|]. apply fle_refl, H0.
    - intros j e Lj ((Hne & Hpos & Hub & Hat) & Hle).
      rewrite (get_ret l i 0), (get_ret l j 0) by lia. cbn [bind].
      assert (Ei : nth_error l i = Some (nth i l 0)) by (apply nth_error_nth'; lia).
      assert (Ej : nth_error l j = Some (nth j l 0)) by (apply nth_error_nth'; lia).
      assert (Hd : is_nan (d (nth i l 0) (nth j l 0)) = false) by (apply (Hn j i); auto; lia).
      rewrite Hd. cbn [negb assert_]. eexists. split; [reflexivity|].
      set (v := d (nth i l 0) (nth j l 0)) in *. assert (Hv : fle f_zero v = true) by (apply dpos, Hd).
      pose proof (dmax_ge_l e v Hne Hd) as G1. pose proof (dmax_ge_r e v Hne Hd) as G2.
      split; [|eapply fle_trans; eauto].
      split; [apply dmax_nan; assumption|]. split; [eapply fle_trans; eauto|]. split.
      + intros a b x y (Lab & [L|[-> L]]) Ea Eb.
        * eapply fle_trans; [apply (Hub a b x y)|exact G1]; auto. split; auto.
        * destruct (Nat.eq_dec a j) as [->|].
          -- rewrite Ej in Ea. rewrite Ei in Eb. injection Ea as <-. injection Eb as <-. exact G2.
          -- eapply fle_trans; [apply (Hub a i x y)|exact G1]; auto. split; [lia|]. right. lia.
      + right. unfold dmax. destruct (flt v e) eqn:F.
        * destruct Hat as [[-> _]|(a & b & x & y & (Lab & L) & Ea & Eb & ->)].
          -- exfalso. f64_tac.
          -- exists a, b, x, y. split; [|auto]. split; [lia|]. lia.
        * exists j, i, (nth j l 0), (nth i l 0). split; [|auto]. split; lia.
    - exists e. auto.
  Qed.

  Lemma max_seen_row l i e : 1 <= i -> max_seen l i i e -> max_seen l (S i) 0 e.
  Proof.
    intros Hi (A & B & C & D). split; [exact A|]. split; [exact B|]. split.
    - intros a b x y (L & H). apply C. split; lia.
    - destruct D as [[-> D]|(a & b & x & y & (L & H) & R)].
      + exfalso. apply (D 0 i). split; lia.
      + right. exists a, b, x, y. split; [split; lia|exact R].
  Qed.
  Lemma max_seen_pairwise l i e : i < length l -> max_seen l (S i) 0 e -> max_pairwise d (firstn (S i) l) e.
  Proof.
    intros Li (A & B & C & D). assert (Len : length (firstn (S i) l) = S i) by (rewrite firstn_length; lia).
    split; [|split].
    - rewrite Len. intros L. destruct D as [[-> _]|(a & b & x & y & (L1 & L2) & _)]; [reflexivity|lia].
    - intros a b x y L Ea Eb. assert (Lb : b < S i) by (rewrite <- Len; apply nth_error_Some; congruence).
      rewrite nth_error_firstn in Ea, Eb by lia. apply (C a b); auto. split; lia.
    - rewrite Len. intros L. destruct D as [[_ D]|(a & b & x & y & (L1 & L2) & Ea & Eb & R)].
      + exfalso. apply (D 0 1). split; lia.
      + exists a, b, x, y. rewrite !nth_error_firstn by lia. auto.
  Qed.

  Lemma max_pairwise_nan l e : all_numbers l -> max_pairwise d l e -> is_nan e = false.
  Proof.
    intros Hn (A & B & C). destruct (Nat.le_gt_cases (length l) 1) as [L|L].
    - rewrite A by exact L. reflexivity.
    - destruct C as (a & b & x & y & Lab & Ea & Eb & ->); [lia|]. eauto.
  Qed.

  Lemma compute_extents_ok l : all_numbers l ->
    exists ext, compute_extents d l = Ret ext /\ length ext = length l /\
      (forall i e, nth_error ext i = Some e -> max_pairwise d (firstn (S i) l) e) /\
      (forall i j e f, i <= j -> nth_error ext i = Some e -> nth_error ext j = Some f -> fle e f = true).
  Proof.
    intros Hn. destruct l as [|x0 l'].
    { exists []. split; [reflexivity|]. split; [reflexivity|]. split; intros i; intros; destruct i; discriminate. }
    set (l := x0 :: l') in *. unfold compute_extents.
    destruct (foreach_seq
      (fun i extents =>
       let! e0 := get extents (i - 1) in
       let! e := extent_row d l i e0 in
       put extents i e)
      (fun i ext => length ext = length l /\
         (forall j e, j < i -> nth_error ext j = Some e -> max_seen l (S j) 0 e) /\
         (forall j k e f, j <= k -> k < i -> nth_error ext j = Some e -> nth_error ext k = Some f -> fle e f = true))
      1 (length l - 1) (repeat f_zero (length l))) as (ext & E & I1 & I2 & I3).
    - split; [apply repeat_length|]. split.
      + intros j e L Ej. assert (j = 0) by lia. subst j. cbn in Ej. injection Ej as <-.
        split; [reflexivity|]. split; [reflexivity|]. split; [|left; split; [reflexivity|]].
        * intros a b x y (L1 & L2). lia.
        * intros a b (L1 & L2). lia.
      + intros j k e f L1 L2 Ej Ek. assert (j = 0) by lia. assert (k = 0) by lia. subst.
        rewrite Ej in Ek. injection Ek as <-. cbn in Ej. injection Ej as <-. reflexivity.
    - intros i ext Li (I1 & I2 & I3).
      assert (E0 : nth_error ext (i - 1) = Some (nth (i - 1) ext f_zero)) by (apply nth_error_nth'; lia).
      unfold get at 1. rewrite E0. cbn [bind]. set (e0 := nth (i - 1) ext f_zero) in *.
      pose proof (I2 (i - 1) e0 ltac:(lia) E0) as M0. replace (S (i - 1)) with i in M0 by lia.
      destruct (row_ok l i e0 Hn ltac:(lia) M0) as (e & Ee & Me & Le). rewrite Ee. cbn [bind].
      destruct (put_ok ext i e ltac:(lia)) as (ext' & Ep & Lp & Np). rewrite Ep.
      eexists. split; [reflexivity|]. split; [lia|].
      assert (Neq : nth_error ext' i = Some e) by (rewrite Np, Nat.eqb_refl; reflexivity).
      assert (Nneq : forall j, j <> i -> nth_error ext' j = nth_error ext j).
      { intros j Nj. rewrite Np. destruct (Nat.eqb_spec j i); [congruence|reflexivity]. }
      split.
      + intros j f Lj Ej. destruct (Nat.eq_dec j i) as [->|Nj].
        * rewrite Neq in Ej. injection Ej as <-. apply max_seen_row; [lia|exact Me].
        * rewrite Nneq in Ej by lia. apply I2; [lia|exact Ej].
      + intros j k f g Ljk Lk Ej Ek. destruct (Nat.eq_dec k i) as [->|Nk].
        * rewrite Neq in Ek. injection Ek as <-.
          destruct (Nat.eq_dec j i) as [->|Nj].
          -- rewrite Neq in Ej. injection Ej as <-. apply fle_refl, Me.
          -- rewrite Nneq in Ej by lia. eapply fle_trans; [|exact Le].
             apply (I3 j (i - 1)); auto; lia.
        * rewrite Nneq in Ek by lia. rewrite Nneq in Ej by lia.
          apply (I3 j k); auto. lia.
    - exists ext. split; [exact E|]. split; [exact I1|].
      assert (Lt : forall i e, nth_error ext i = Some e -> i < 1 + (length l - 1)).
      { intros i e Ei. assert (i < length ext) by (apply nth_error_Some; congruence). lia. }
      split.
      + intros i e Ei. apply max_seen_pairwise; [apply Lt in Ei; cbn in *; lia|]. apply I2; [eauto|exact Ei].
      + intros i j e f L Ei Ej. apply (I3 i j); eauto.
  Qed.

  Lemma compute_extents_panic l a b x y : a < b -> nth_error l a = Some x -> nth_error l b = Some y ->
    is_nan (d y x) = true -> compute_extents d l = Panic.
  Proof.
    intros Lab Ea Eb Hd. unfold compute_extents.
    assert (Lb : b < length l) by (apply nth_error_Some; congruence).
    apply foreach_panic with (I := fun ext => length ext = length l).
    - apply repeat_length.
    - intros i ext Hi HI. apply in_seq in Hi.
      rewrite (get_ret ext (i - 1) f_zero) by lia. cbn [bind].
      match goal with |- context [extent_row d l i ?e0] =>
        assert (S : extent_row d l i e0 = Panic \/ exists e, extent_row d l i e0 = Ret e /\ True);
        [apply (foreach_safe _ (fun _ => True)); [exact I|]|destruct S as [E|(e & E & _)]]
      end.
      + intros j e Hj _. apply in_seq in Hj. rewrite (get_ret l i 0), (get_ret l j 0) by lia. cbn [bind].
        unfold assert_; destruct (negb _); cbn; [right; eexists; split; [reflexivity|exact I]|left; reflexivity].
      + rewrite E. auto.
      + rewrite E. cbn [bind]. right. destruct (put_ok ext i e ltac:(lia)) as (ext' & Ep & Lp & _). rewrite Ep.
        eexists. split; [reflexivity|]. lia.
    - exists b. split; [apply in_seq; lia|]. intros ext HI.
      rewrite (get_ret ext (b - 1) f_zero) by lia. cbn [bind].
      unfold extent_row. rewrite (foreach_panic _ (fun _ => True)); [reflexivity|exact I| |].
      + intros j e Hj _. apply in_seq in Hj. rewrite (get_ret l b 0), (get_ret l j 0) by lia. cbn [bind].
        unfold assert_; destruct (negb _); cbn; [right; eexists; split; [reflexivity|exact I]|left; reflexivity].
      + exists a. split; [apply in_seq; lia|]. intros e _. unfold get. rewrite Ea, Eb. cbn [bind].
        rewrite Hd. reflexivity.
  Qed.

  Lemma all_numbers_dec l : all_numbers l \/ exists a b x y, a < b /\ nth_error l a = Some x /\ nth_error l b = Some y /\ is_nan (d y x) = true.
  Proof.
    set (bad := fun ab : nat * nat => is_nan (d (nth (snd ab) l 0) (nth (fst ab) l 0)) && (fst ab <? snd ab)).
    destruct (existsb bad (list_prod (seq 0 (length l)) (seq 0 (length l)))) eqn:E.
    - right. apply existsb_exists in E. destruct E as ((a, b) & Hin & Hb). apply in_prod_iff in Hin.
      destruct Hin as [Ha Hb']. apply in_seq in Ha. apply in_seq in Hb'. unfold bad in Hb. cbn [fst snd] in Hb.
      apply andb_true_iff in Hb. destruct Hb as [B1 B2]. apply Nat.ltb_lt in B2.
      exists a, b, (nth a l 0), (nth b l 0). split; [exact B2|]. rewrite !(nth_error_nth' l 0) by lia. auto.
    - left. intros a b x y L Ea Eb. destruct (is_nan (d y x)) eqn:N; [|reflexivity].
      exfalso. assert (C : existsb bad (list_prod (seq 0 (length l)) (seq 0 (length l))) = true); [|congruence].
      apply existsb_exists. exists (a, b). split.
      + assert (b < length l) by (apply nth_error_Some; congruence). apply in_prod; apply in_seq; lia.
      + unfold bad. cbn [fst snd]. rewrite (nth_error_nth l a 0 Ea), (nth_error_nth l b 0 Eb), N.
        apply Nat.ltb_lt in L. rewrite L. reflexivity.
  Qed.
End Extents.

(** ** Distance profile *)
Definition dp (ts : series) (from i : nat) : f64 :=
  if i =? from then f_zero else if s_flat ts i then f_nan else s_raw ts from i.

Lemma distance_profile_cases ts from :
  distance_profile ts from = Panic \/
  distance_profile ts from = Ret (map (dp ts from) (seq 0 (s_n ts))).
Proof.
  unfold distance_profile.
  assert (G : forall l acc, foreach l (fun i out =>
       if i =? from then Ret (out ++ [f_zero])
       else if s_flat ts i then Ret (out ++ [f_nan])
       else assert_ (negb (is_nan (s_raw ts from i))) (Ret (out ++ [s_raw ts from i]))) acc = Panic \/
     foreach l (fun i out =>
       if i =? from then Ret (out ++ [f_zero])
       else if s_flat ts i then Ret (out ++ [f_nan])
       else assert_ (negb (is_nan (s_raw ts from i))) (Ret (out ++ [s_raw ts from i]))) acc = Ret (acc ++ map (dp ts from) l)).
  { induction l as [|i l IH]; intros acc; cbn [foreach map].
    - right. rewrite app_nil_r. reflexivity.
    - assert (D : dp ts from i = if i =? from then f_zero else if s_flat ts i then f_nan else s_raw ts from i) by reflexivity.
      rewrite D. clear D. destruct (Nat.eqb_spec i from) as [->|N]; cbn [bind].
      + destruct (IH (acc ++ [f_zero])) as [E|E]; rewrite E; [auto|]. right. rewrite <- app_assoc. reflexivity.
      + destruct (s_flat ts i); cbn [bind].
        * destruct (IH (acc ++ [f_nan])) as [E|E]; rewrite E; [auto|]. right. rewrite <- app_assoc. reflexivity.
        * destruct (negb _); cbn [assert_ bind]; [|auto].
          destruct (IH (acc ++ [s_raw ts from i])) as [E|E]; rewrite E; [auto|]. right. rewrite <- app_assoc. reflexivity. }
  apply (G _ []).
Qed.
Lemma distance_profile_ok ts from :
  (forall i, i < s_n ts -> i <> from -> s_flat ts i = false -> is_nan (s_raw ts from i) = false) ->
  distance_profile ts from = Ret (map (dp ts from) (seq 0 (s_n ts))).
Proof.
  intros H. unfold distance_profile.
  assert (G : forall l acc, (forall i, In i l -> i < s_n ts) -> 
     foreach l (fun i out =>
       if i =? from then Ret (out ++ [f_zero])
       else if s_flat ts i then Ret (out ++ [f_nan])
       else assert_ (negb (is_nan (s_raw ts from i))) (Ret (out ++ [s_raw ts from i]))) acc = Ret (acc ++ map (dp ts from) l)).
  { induction l as [|i l IH]; intros acc Hl; cbn [foreach map].
    - rewrite app_nil_r. reflexivity.
    - assert (Hl' : forall i, In i l -> i < s_n ts) by (intros; apply Hl; right; assumption).
      assert (D : dp ts from i = if i =? from then f_zero else if s_flat ts i then f_nan else s_raw ts from i) by reflexivity.
      rewrite D. clear D. destruct (Nat.eqb_spec i from) as [->|N]; cbn [bind].
      + rewrite IH by exact Hl'. rewrite <- app_assoc. reflexivity.
      + destruct (s_flat ts i) eqn:F; cbn [bind].
        * rewrite IH by exact Hl'. rewrite <- app_assoc. reflexivity.
        * rewrite H by (auto; apply Hl; left; reflexivity). cbn [negb assert_ bind].
          rewrite IH by exact Hl'. rewrite <- app_assoc. reflexivity. }
  apply G. intros i Hi. apply in_seq in Hi. lia.
Qed.

(** ** Greedy neighbourhoods *)
Lemma existsb_overlaps_false jj l ez : existsb (fun hh => overlaps jj hh ez) l = false <->
  forall y, In y l -> ~ too_close ez jj y.
Proof.
  split.
  - intros E y Hy C. apply overlaps_spec in C.
    assert (T : existsb (fun hh => overlaps jj hh ez) l = true) by (apply existsb_exists; eauto). congruence.
  - intros H. destruct (existsb _ l) eqn:E; [|reflexivity]. apply existsb_exists in E.
    destruct E as (y & Hy & C). apply overlaps_spec in C. exfalso. eapply H; eauto.
Qed.

Lemma pick_prefix k ez l : forall ret, exists t, pick k ez ret l = ret ++ t.
Proof.
  induction l as [|j l IH]; intros ret; cbn [pick].
  - exists []. rewrite app_nil_r. reflexivity.
  - destruct (length ret <? k); [|exists []; rewrite app_nil_r; reflexivity].
    destruct (existsb _ _); [apply IH|]. destruct (IH (ret ++ [j])) as (t & ->).
    exists (j :: t). rewrite <- app_assoc. reflexivity.
Qed.
Lemma pick_length k ez l : forall ret, length ret <= Nat.max k 1 -> length (pick k ez ret l) <= Nat.max k 1.
Proof.
  induction l as [|j l IH]; intros ret L; cbn [pick]; [exact L|].
  destruct (Nat.ltb_spec (length ret) k); [|exact L].
  destruct (existsb _ _); [apply IH; exact L|]. apply IH. rewrite app_length. cbn. lia.
Qed.
Lemma pick_in k ez l : forall ret x, In x (pick k ez ret l) -> In x ret \/ In x l.
Proof.
  induction l as [|j l IH]; intros ret x H; cbn [pick] in H; [auto|].
  destruct (length ret <? k); [|auto].
  destruct (existsb _ _).
  - apply IH in H. cbn. tauto.
  - apply IH in H. destruct H as [H|H]; [|cbn; tauto]. apply in_app_or in H. cbn in *. tauto.
Qed.
Lemma nth_error_snoc_cases {A} (l : list A) x i y : nth_error (l ++ [x]) i = Some y ->
  i < length l /\ nth_error l i = Some y \/ i = length l /\ y = x.
Proof.
  intros E. destruct (Nat.lt_ge_cases i (length l)) as [L|L].
  - rewrite nth_error_app1 in E by exact L. auto.
  - rewrite nth_error_app2 in E by exact L. destruct (i - length l) eqn:D; [|destruct n; discriminate].
    cbn in E. injection E as <-. right. split; [lia|reflexivity].
Qed.
Lemma apart_snoc ez l x : pairwise_apart ez l -> (forall y, In y l -> ~ too_close ez x y) -> pairwise_apart ez (l ++ [x]).
Proof.
  intros P H a b u v L Ea Eb. apply nth_error_snoc_cases in Ea. apply nth_error_snoc_cases in Eb.
  destruct Eb as [[Lb Eb]|[-> ->]].
  - destruct Ea as [[La Ea]|[-> _]]; [exact (P a b u v L Ea Eb)|lia].
  - destruct Ea as [[La Ea]|[-> _]]; [|lia]. intros C. apply (H u); [eapply nth_error_In; eauto|].
    unfold too_close in *. lia.
Qed.
Lemma pick_apart k ez l : forall ret, pairwise_apart ez ret -> pairwise_apart ez (pick k ez ret l).
Proof.
  induction l as [|j l IH]; intros ret P; cbn [pick]; [exact P|].
  destruct (length ret <? k); [|exact P].
  destruct (existsb (fun hh => overlaps j hh ez) ret) eqn:E; [apply IH; exact P|].
  apply IH, apart_snoc; [exact P|]. apply existsb_overlaps_false, E.
Qed.

Lemma firstn_app_le {A} (l1 l2 : list A) n : n <= length l1 -> firstn n (l1 ++ l2) = firstn n l1.
Proof. intros L. rewrite firstn_app. replace (n - length l1) with 0 by lia. cbn. apply app_nil_r. Qed.

Lemma pick_greedy (d : nat -> f64) (cand : nat -> Prop) ez k from l : 0 < ez ->
  (forall z, In z l -> cand z) ->
  (forall i j a b, i < j -> nth_error l i = Some a -> nth_error l j = Some b -> fle (d a) (d b) = true) ->
  (forall z, cand z -> is_nan (d z) = false) ->
  forall ret,
  nth_error ret 0 = Some from ->
  (forall i x, nth_error ret (S i) = Some x -> nearest_free d cand ez (firstn (S i) ret) x) ->
  length ret <= Nat.max k 1 ->
  (forall z, cand z -> In z l \/ exists y, In y ret /\ too_close ez z y) ->
  greedy_neighbourhood d cand ez k from (pick k ez ret l).
Proof.
  intros Hez. induction l as [|j l IH]; intros Hc Hs Hn ret R0 R1 R2 R3; cbn [pick].
  - split; [exact R0|]. split; [exact R1|]. split; [exact R2|]. intros _ z Hz.
    destruct (R3 z Hz) as [[]|H]. exact H.
  - assert (Hc' : forall z, In z l -> cand z) by (intros; apply Hc; right; assumption).
    assert (Hs' : forall i j a b, i < j -> nth_error l i = Some a -> nth_error l j = Some b -> fle (d a) (d b) = true).
    { intros a b x y L Ea Eb. apply (Hs (S a) (S b)); auto. lia. }
    destruct (Nat.ltb_spec (length ret) k) as [L|L].
    2:{ split; [exact R0|]. split; [exact R1|]. split; [exact R2|]. intros L'. lia. }
    destruct (existsb (fun hh => overlaps j hh ez) ret) eqn:E.
    + apply IH; auto. intros z Hz. destruct (R3 z Hz) as [[<-|H]|H]; auto.
      apply existsb_exists in E. destruct E as (y & Hy & O). apply overlaps_spec in O. eauto.
    + assert (NF : forall y, In y ret -> ~ too_close ez j y) by (apply existsb_overlaps_false, E).
      apply IH; auto.
      * rewrite nth_error_app1; [exact R0|]. apply nth_error_Some. congruence.
      * intros i x Ex. apply nth_error_snoc_cases in Ex. destruct Ex as [[Li Ex]|[Li ->]].
        -- rewrite firstn_app_le by lia. apply R1, Ex.
        -- rewrite firstn_app_le, Li, firstn_all by lia. split; [apply Hc; left; reflexivity|]. split; [exact NF|].
           intros z Hz Fz. destruct (R3 z Hz) as [[<-|H]|(y & Hy & C)].
           ++ apply fle_refl, Hn, Hz.
           ++ apply In_nth_error in H. destruct H as (i' & Ei'). apply (Hs 0 (S i')); auto. lia.
           ++ exfalso. eapply Fz; eauto.
      * rewrite app_length. cbn. lia.
      * intros z Hz. destruct (R3 z Hz) as [[<-|H]|(y & Hy & C)]; auto.
        -- right. exists j. split; [apply in_or_app; right; left; reflexivity|]. unfold too_close. lia.
        -- right. exists y. split; [apply in_or_app; auto|exact C].
Qed.

(** ** Running minima *)
Notation entry := (f64 * list nat)%type.
Definition id_entry : entry := (f_inf, []).
Definition better (a b : entry) : entry := if flt (fst b) (fst a) then b else a.

Lemma nth_of_nth_error {A} (l1 l2 : list A) i d : nth_error l1 i = nth_error l2 i -> nth i l1 d = nth i l2 d.
Proof.
  intros Q. destruct (nth_error l1 i) as [v|] eqn:E3.
  - rewrite (nth_error_nth _ _ _ E3). symmetry in Q. rewrite (nth_error_nth _ _ _ Q). reflexivity.
  - rewrite !nth_overflow; [reflexivity| |]; apply nth_error_None; congruence.
Qed.
Lemma fold_minima_ok (k : nat) (m : minima) ext nb :
  length m = k -> length ext <= Nat.max k 1 ->
  exists m', fold_minima m ext nb = Ret m' /\ length m' = k /\
    forall i, nth i m' id_entry =
      if (1 <=? i) && (i <? length ext) then better (nth i m id_entry) (nth i ext f_zero, firstn (i + 1) nb)
      else nth i m id_entry.
Proof.
  intros Lm Le. unfold fold_minima.
  destruct (foreach_seq
    (fun i m =>
       let! e := get ext i in
       let! cur := get m i in
       if flt e (fst cur) then put m i (e, firstn (i + 1) nb) else Ret m)
    (fun j m' => length m' = k /\ forall i, nth i m' id_entry =
      if (1 <=? i) && (i <? j) then better (nth i m id_entry) (nth i ext f_zero, firstn (i + 1) nb)
      else nth i m id_entry) 1 (length ext - 1) m) as (m' & E & I1 & I2).
  - split; [exact Lm|]. intros i. destruct (Nat.leb_spec 1 i), (Nat.ltb_spec i 1); cbn [andb]; try reflexivity. lia.
  - intros j m' Lj (I1 & I2).
    rewrite (get_ret ext j f_zero) by lia. cbn [bind]. rewrite (get_ret m' j id_entry) by lia. cbn [bind].
    assert (Ej : nth j m' id_entry = nth j m id_entry).
    { rewrite I2. destruct (Nat.ltb_spec j j); [lia|]. rewrite andb_false_r. reflexivity. }
    rewrite Ej. destruct (flt (nth j ext f_zero) (fst (nth j m id_entry))) eqn:F.
    + destruct (put_ok m' j (nth j ext f_zero, firstn (j + 1) nb) ltac:(lia)) as (m2 & E2 & L2 & N2).
      exists m2. split; [exact E2|]. split; [lia|]. intros i.
      assert (Ni : nth i m2 id_entry = if i =? j then (nth j ext f_zero, firstn (j + 1) nb) else nth i m' id_entry).
      { pose proof (N2 i) as Q. destruct (Nat.eqb_spec i j) as [Eij|Nj].
        - apply nth_error_nth. exact Q.
        - apply nth_of_nth_error, Q. }
      rewrite Ni. destruct (Nat.eqb_spec i j) as [Eij|Nj]; [subst i|].
      * destruct (Nat.leb_spec 1 j), (Nat.ltb_spec j (S j)); try lia. cbn [andb]. unfold better. cbn [fst]. rewrite F. reflexivity.
      * rewrite I2. destruct (Nat.leb_spec 1 i), (Nat.ltb_spec i j), (Nat.ltb_spec i (S j)); try lia; reflexivity.
    + exists m'. split; [reflexivity|]. split; [exact I1|]. intros i. rewrite I2.
      destruct (Nat.eq_dec i j) as [Eij|Nj]; [subst i|].
      * destruct (Nat.leb_spec 1 j), (Nat.ltb_spec j j), (Nat.ltb_spec j (S j)); try lia. cbn [andb].
        unfold better. cbn [fst]. rewrite F. reflexivity.
      * destruct (Nat.leb_spec 1 i), (Nat.ltb_spec i j), (Nat.ltb_spec i (S j)); try lia; reflexivity.
  - exists m'. split; [exact E|]. split; [exact I1|]. intros i. rewrite I2.
    destruct (Nat.leb_spec 1 i), (Nat.ltb_spec i (1 + (length ext - 1))), (Nat.ltb_spec i (length ext)); try lia; reflexivity.
Qed.

Lemma reduce_minima_ok (k : nat) (m1 m2 : minima) :
  length m1 = k -> length m2 = k ->
  exists m', reduce_minima k m1 m2 = Ret m' /\ length m' = k /\
    forall i, nth i m' id_entry =
      if (1 <=? i) && (i <? k) then better (nth i m1 id_entry) (nth i m2 id_entry) else nth i m1 id_entry.
Proof.
  intros L1 L2. unfold reduce_minima.
  destruct (foreach_seq
    (fun i m1 =>
       let! a := get m2 i in
       let! b := get m1 i in
       if flt (fst a) (fst b) then put m1 i a else Ret m1)
    (fun j m' => length m' = k /\ forall i, nth i m' id_entry =
      if (1 <=? i) && (i <? j) then better (nth i m1 id_entry) (nth i m2 id_entry)
      else nth i m1 id_entry) 1 (k - 1) m1) as (m' & E & I1 & I2).
  - split; [exact L1|]. intros i. destruct (Nat.leb_spec 1 i), (Nat.ltb_spec i 1); cbn [andb]; try reflexivity. lia.
  - intros j m' Lj (I1 & I2).
    rewrite (get_ret m2 j id_entry) by lia. cbn [bind]. rewrite (get_ret m' j id_entry) by lia. cbn [bind].
    assert (Ej : nth j m' id_entry = nth j m1 id_entry).
    { rewrite I2. destruct (Nat.ltb_spec j j); [lia|]. rewrite andb_false_r. reflexivity. }
    rewrite Ej. destruct (flt (fst (nth j m2 id_entry)) (fst (nth j m1 id_entry))) eqn:F.
    + destruct (put_ok m' j (nth j m2 id_entry) ltac:(lia)) as (m3 & E2 & L3 & N2).
      exists m3. split; [exact E2|]. split; [lia|]. intros i.
      assert (Ni : nth i m3 id_entry = if i =? j then nth j m2 id_entry else nth i m' id_entry).
      { pose proof (N2 i) as Q. destruct (Nat.eqb_spec i j) as [Eij|Nj].
        - apply nth_error_nth. exact Q.
        - apply nth_of_nth_error, Q. }
      rewrite Ni. destruct (Nat.eqb_spec i j) as [Eij|Nj]; [subst i|].
      * destruct (Nat.leb_spec 1 j), (Nat.ltb_spec j (S j)); try lia. cbn [andb]. unfold better. rewrite F. reflexivity.
      * rewrite I2. destruct (Nat.leb_spec 1 i), (Nat.ltb_spec i j), (Nat.ltb_spec i (S j)); try lia; reflexivity.
    + exists m'. split; [reflexivity|]. split; [exact I1|]. intros i. rewrite I2.
      destruct (Nat.eq_dec i j) as [Eij|Nj]; [subst i|].
      * destruct (Nat.leb_spec 1 j), (Nat.ltb_spec j j), (Nat.ltb_spec j (S j)); try lia. cbn [andb].
        unfold better. rewrite F. reflexivity.
      * destruct (Nat.leb_spec 1 i), (Nat.ltb_spec i j), (Nat.ltb_spec i (S j)); try lia; reflexivity.
  - exists m'. split; [exact E|]. split; [exact I1|]. intros i. rewrite I2.
    destruct (Nat.leb_spec 1 i), (Nat.ltb_spec i (1 + (k - 1))), (Nat.ltb_spec i k); try lia; reflexivity.
Qed.

Lemma better_assoc a b c : is_nan (fst a) = false -> is_nan (fst b) = false -> is_nan (fst c) = false ->
  better (better a b) c = better a (better b c).
Proof.
  intros Ha Hb Hc. unfold better.
  destruct (flt (fst b) (fst a)) eqn:E1, (flt (fst c) (fst b)) eqn:E2; try rewrite E1; try rewrite E2; try reflexivity.
  - assert (flt (fst c) (fst a) = true) by f64_tac. rewrite H. reflexivity.
  - destruct (flt (fst c) (fst a)) eqn:E3; [|reflexivity]. exfalso. f64_tac.
Qed.

Section Run.
  Variables (ts : series) (order : nat -> option (list nat)) (k ez : nat).
  Hypothesis dpos : nonneg (s_zeucl ts).
  Notation kx := (k_extents_bf ts order k ez).
  Definition ord (from : nat) : list nat := match order from with Some o => o | None => [] end.
  Definition res_of (from : nat) : list f64 * list nat :=
    match kx from with Ret x => x | _ => ([], []) end.
  Notation ext := (fun from => fst (res_of from)).
  Notation nb := (fun from => snd (res_of from)).

  Lemma kx_cases from : kx from = Panic \/
    (kx from = Ret (res_of from) /\
     exists d, distance_profile ts from = Ret d /\ order from = Some (ord from) /\
       nb from = pick k ez [from] (skipn 1 (ord from)) /\
       compute_extents (s_zeucl ts) (nb from) = Ret (ext from) /\
       all_numbers (s_zeucl ts) (nb from)).
  Proof.
    unfold res_of, k_extents_bf.
    destruct (distance_profile_cases ts from) as [E|E]; rewrite E; cbn [bind]; [auto|].
    set (dl := map _ _).
    unfold ord, sort_indices. destruct (order from) as [o|]; cbn [bind]; [|auto].
    destruct (all_numbers_dec (s_zeucl ts) (pick k ez [from] (skipn 1 o))) as [Hn|(a & b & x & y & L & Ea & Eb & Hd)].
    - destruct (compute_extents_ok _ dpos _ Hn) as (e & Ee & _). rewrite Ee. cbn [bind]. right. split; [reflexivity|].
      exists dl. cbn [fst snd]. auto.
    - rewrite (compute_extents_panic _ _ a b x y L Ea Eb Hd). cbn [bind]. auto.
  Qed.

  Definition ok (from : nat) : Prop := kx from = Ret (res_of from).
  Lemma ok_facts from : ok from ->
    nb from = pick k ez [from] (skipn 1 (ord from)) /\
    length (ext from) = length (nb from) /\ length (nb from) <= Nat.max k 1 /\
    (forall i e, nth_error (ext from) i = Some e -> max_pairwise (s_zeucl ts) (firstn (S i) (nb from)) e /\ is_nan e = false /\ fle f_zero e = true) /\
    (forall i j e f, i <= j -> nth_error (ext from) i = Some e -> nth_error (ext from) j = Some f -> fle e f = true).
  Proof.
    intros H. destruct (kx_cases from) as [E|(_ & d & _ & _ & En & Ec & Hn)]; [unfold ok in H; congruence|].
    split; [exact En|]. destruct (compute_extents_ok _ dpos _ Hn) as (e & Ee & Le & Me & Mono).
    rewrite Ec in Ee. apply Ret_inj in Ee. subst e. split; [exact Le|]. split.
    - rewrite En. apply pick_length. cbn. lia.
    - split; [|exact Mono]. intros i e Ei. pose proof (Me i e Ei) as M.
      assert (Hn' : all_numbers (s_zeucl ts) (firstn (S i) (nb from))).
      { intros a b x y L Ea Eb. assert (b < S i).
        { assert (b < length (firstn (S i) (nb from))) by (apply nth_error_Some; congruence). rewrite firstn_length in *. lia. }
        rewrite nth_error_firstn in Ea, Eb by lia. exact (Hn a b x y L Ea Eb). }
      split; [exact M|]. assert (Ne : is_nan e = false) by (eapply max_pairwise_nan; eauto). split; [exact Ne|].
      destruct M as (M1 & M2 & M3). destruct (Nat.le_gt_cases (length (firstn (S i) (nb from))) 1) as [L|L].
      + rewrite M1 by exact L. reflexivity.
      + destruct M3 as (a & b & x & y & Lab & Ea & Eb & ->); [lia|]. apply dpos, Ne.
  Qed.

  Definition step (i : nat) (cur : entry) (from : nat) : entry :=
    if i <? length (ext from) then better cur (nth i (ext from) f_zero, firstn (i + 1) (nb from)) else cur.
  Definition best (i : nat) (l : list nat) : entry := fold_left (step i) l id_entry.

  Lemma ext_nth_facts from i : ok from -> i < length (ext from) ->
    is_nan (nth i (ext from) f_zero) = false /\ fle f_zero (nth i (ext from) f_zero) = true /\
    max_pairwise (s_zeucl ts) (firstn (S i) (nb from)) (nth i (ext from) f_zero).
  Proof.
    intros Ho L. destruct (ok_facts from Ho) as (_ & _ & _ & M & _).
    destruct (M i (nth i (ext from) f_zero)) as (A & B & C); [apply nth_error_nth'; exact L|]. auto.
  Qed.
  Lemma step_nan i cur from : ok from -> is_nan (fst cur) = false -> is_nan (fst (step i cur from)) = false.
  Proof.
    intros Ho Hc. unfold step. destruct (Nat.ltb_spec i (length (ext from))) as [L|L]; [|exact Hc].
    unfold better. cbn [fst]. destruct (flt _ _); [|exact Hc]. cbn [fst]. apply ext_nth_facts; auto.
  Qed.
  Lemma fold_nan i l : (forall from, In from l -> ok from) -> forall cur, is_nan (fst cur) = false ->
    is_nan (fst (fold_left (step i) l cur)) = false.
  Proof.
    induction l as [|x l IH]; intros Ho cur Hc; cbn [fold_left]; [exact Hc|].
    apply IH; [intros; apply Ho; right; assumption|]. apply step_nan; [apply Ho; left; reflexivity|exact Hc].
  Qed.
  Definition proper (e : entry) : Prop := e = id_entry \/ flt (fst e) f_inf = true.
  Lemma better_id e : proper e -> better id_entry e = e.
  Proof. intros [->|H]; unfold better; cbn [fst id_entry]; [rewrite flt_irrefl; reflexivity|rewrite H; reflexivity]. Qed.
  Lemma fold_split i l : (forall from, In from l -> ok from) ->
    proper (best i l) /\ forall cur, is_nan (fst cur) = false -> fold_left (step i) l cur = better cur (best i l).
  Proof.
    unfold best. induction l as [|x l IH]; intros Ho.
    - cbn [fold_left]. split; [left; reflexivity|]. intros cur Hc. unfold better. cbn [fst id_entry].
      destruct (flt f_inf (fst cur)) eqn:E; [|reflexivity]. exfalso.
      destruct cur as [[]]; cbn in *; try discriminate; destruct s; discriminate.
    - assert (Ho' : forall from, In from l -> ok from) by (intros; apply Ho; right; assumption).
      assert (Hx : ok x) by (apply Ho; left; reflexivity).
      destruct (IH Ho') as [P F]. cbn [fold_left].
      assert (N0 : is_nan (fst (step i id_entry x)) = false) by (apply step_nan; [exact Hx|reflexivity]).
      assert (Nb : is_nan (fst (fold_left (step i) l id_entry)) = false) by (apply fold_nan; [exact Ho'|reflexivity]).
      assert (P0 : proper (step i id_entry x)).
      { unfold step. destruct (i <? length (ext x)); [|left; reflexivity]. unfold better. cbn [fst id_entry].
        destruct (flt (nth i (ext x) f_zero) f_inf) eqn:E; [right; exact E|left; reflexivity]. }
      rewrite (F _ N0). split.
      + unfold better. destruct (flt (fst (fold_left (step i) l id_entry)) (fst (step i id_entry x))) eqn:E; [|exact P0].
        destruct P as [P|P]; [|right; exact P]. rewrite P in E |- *. left. reflexivity.
      + intros cur Hc. rewrite (F (step i cur x)) by (apply step_nan; assumption).
        assert (S1 : step i cur x = better cur (step i id_entry x)).
        { unfold step. destruct (Nat.ltb_spec i (length (ext x))) as [L|L].
          - assert (Q : proper (nth i (ext x) f_zero, firstn (i + 1) (nb x)) \/ nth i (ext x) f_zero = f_inf).
            { destruct (ext_nth_facts x i Hx L) as (A & B & _). unfold proper. cbn [fst].
              destruct (nth i (ext x) f_zero) as [s|s| |s m e]; cbn in A; try discriminate.
              - left. right. destruct s; reflexivity.
              - destruct s; [cbn in B; discriminate|right; reflexivity].
              - left. right. destruct s; reflexivity. }
            destruct Q as [Q|Q].
            + rewrite (better_id _ Q). reflexivity.
            + rewrite Q. unfold better. cbn [fst id_entry]. change (flt f_inf f_inf) with false.
              cbn iota. cbn [fst id_entry].
              destruct (flt f_inf (fst cur)) eqn:E; [|reflexivity]. exfalso.
              destruct cur as [[]]; cbn in *; try discriminate; destruct s; discriminate.
          - unfold better. cbn [fst id_entry]. destruct (flt f_inf (fst cur)) eqn:E; [|reflexivity]. exfalso.
            destruct cur as [[]]; cbn in *; try discriminate; destruct s; discriminate. }
        rewrite S1. apply better_assoc; assumption.
  Qed.
  Lemma best_app i l1 l2 : (forall from, In from (l1 ++ l2) -> ok from) ->
    best i (l1 ++ l2) = better (best i l1) (best i l2).
  Proof.
    intros Ho. unfold best at 1. rewrite fold_left_app.
    apply (fold_split i l2); [intros; apply Ho, in_or_app; auto|].
    apply fold_nan; [intros; apply Ho, in_or_app; auto|reflexivity].
  Qed.
  Lemma best_high i l : 1 <= i -> k <= i -> (forall from, In from l -> ok from) -> best i l = id_entry.
  Proof.
    intros H1 Hk. unfold best. induction l as [|x l IH]; intros Ho; [reflexivity|]. cbn [fold_left].
    assert (Hx : ok x) by (apply Ho; left; reflexivity).
    destruct (ok_facts x Hx) as (_ & Le & Ln & _). unfold step at 2.
    destruct (Nat.ltb_spec i (length (ext x))) as [L|L]; [cbn in *; lia|].
    apply IH. intros; apply Ho; right; assumption.
  Qed.

  Definition state_ok (l : list nat) (m : minima) : Prop :=
    length m = k /\ forall i, nth i m id_entry = if 1 <=? i then best i l else id_entry.

  Lemma id_minima_nth i : nth i (identity_minima k) id_entry = id_entry.
  Proof. unfold identity_minima, id_entry. destruct (Nat.lt_ge_cases i k) as [L|L].
    - apply nth_repeat.
    - apply nth_overflow. rewrite repeat_length. exact L.
  Qed.

  Lemma run_split_ok t : (forall from, In from (leaves t) -> ok from) ->
    exists m, run_split ts order k ez t = Ret m /\ state_ok (leaves t) m.
  Proof.
    induction t as [l|a IHa b IHb]; intros Ho; cbn [run_split leaves] in *.
    - assert (G : forall post pre m, (forall from, In from (pre ++ post) -> ok from) -> state_ok pre m ->
         exists m', foreach post
          (fun i m =>
             let! '(extents, indices) := kx i in
             fold_minima m extents indices) m = Ret m' /\ state_ok (pre ++ post) m').
      { induction post as [|x post IH]; intros pre m Hok (Lm & Nm); cbn [foreach].
        - exists m. rewrite app_nil_r. split; [reflexivity|]. split; auto.
        - assert (Hx : ok x) by (apply Hok, in_or_app; right; left; reflexivity).
          rewrite Hx. cbn [bind]. destruct (ok_facts x Hx) as (_ & Le & Ln & _).
          destruct (res_of x) as [e ns] eqn:Er. cbn [fst snd] in Le, Ln.
          destruct (fold_minima_ok k m e ns Lm ltac:(lia)) as (m2 & E2 & L2 & N2). rewrite E2. cbn [bind].
          destruct (IH (pre ++ [x]) m2) as (m3 & E3 & S3).
          + intros from Hf. apply Hok. rewrite <- app_assoc in Hf. exact Hf.
          + split; [exact L2|]. intros i. rewrite N2, Nm. destruct (Nat.leb_spec 1 i) as [L1|L1]; [|reflexivity].
            cbn [andb]. unfold best. rewrite fold_left_app. cbn [fold_left]. set (cur := fold_left (step i) pre id_entry). unfold step. rewrite Er. reflexivity.
          + exists m3. split; [exact E3|]. rewrite <- app_assoc in S3. exact S3. }
      destruct (G l [] (identity_minima k)) as (m & E & Lm & Nm).
      + exact Ho.
      + split; [apply repeat_length|]. intros i. rewrite id_minima_nth. destruct (1 <=? i); reflexivity.
      + rewrite E. cbn [bind].
        destruct (reduce_minima_ok k (identity_minima k) m (repeat_length _ _) Lm) as (m' & E' & L' & N').
        exists m'. split; [exact E'|]. split; [exact L'|]. intros i. rewrite N', id_minima_nth, Nm. cbn [app].
        destruct (Nat.leb_spec 1 i) as [L1|L1]; cbn [andb]; [|reflexivity].
        destruct (Nat.ltb_spec i k) as [Lk|Lk].
        * apply better_id, fold_split, Ho.
        * symmetry. apply best_high; auto.
    - destruct IHa as (m1 & E1 & L1 & N1); [intros; apply Ho, in_or_app; auto|].
      destruct IHb as (m2 & E2 & L2 & N2); [intros; apply Ho, in_or_app; auto|].
      rewrite E1, E2. cbn [bind].
      destruct (reduce_minima_ok k m1 m2 L1 L2) as (m' & E' & L' & N').
      exists m'. split; [exact E'|]. split; [exact L'|]. intros i. rewrite N', N1, N2.
      destruct (Nat.leb_spec 1 i) as [H1|H1]; cbn [andb]; [|reflexivity].
      destruct (Nat.ltb_spec i k) as [Lk|Lk].
      + symmetry. apply best_app, Ho.
      + rewrite !best_high; auto. intros; apply Ho, in_or_app; auto.
  Qed.

  Lemma run_split_safe t : run_split ts order k ez t = Panic \/ exists m, run_split ts order k ez t = Ret m /\ length m = k.
  Proof.
    induction t as [l|a IHa b IHb]; cbn [run_split].
    - match goal with |- context [foreach l ?body ?m0] =>
        destruct (foreach_safe body (fun m => length m = k) l m0) as [E|(m & E & Lm)] end.
      + apply repeat_length.
      + intros x m _ Lm. destruct (kx_cases x) as [E|[Hx _]]; [rewrite E; auto|]. right. rewrite Hx. cbn [bind].
        destruct (ok_facts x Hx) as (_ & Le & Ln & _). destruct (res_of x) as [e ns] eqn:Er. cbn [fst snd] in Le, Ln.
        destruct (fold_minima_ok k m e ns Lm ltac:(lia)) as (m2 & E2 & L2 & _). eauto.
      + rewrite E. auto.
      + rewrite E. cbn [bind]. right.
        destruct (reduce_minima_ok k (identity_minima k) m (repeat_length _ _) Lm) as (m' & E' & L' & _). eauto.
    - destruct IHa as [E1|(m1 & E1 & L1)]; rewrite E1; cbn [bind]; [auto|].
      destruct IHb as [E2|(m2 & E2 & L2)]; rewrite E2; cbn [bind]; [auto|].
      right. destruct (reduce_minima_ok k m1 m2 L1 L2) as (m' & E' & L' & _). eauto.
  Qed.
  Lemma run_split_panic t : (exists from, In from (leaves t) /\ kx from = Panic) -> run_split ts order k ez t = Panic.
  Proof.
    induction t as [l|a IHa b IHb]; cbn [run_split leaves]; intros (from & Hf & Ef).
    - rewrite (foreach_panic _ (fun m => length m = k)); [reflexivity|apply repeat_length| |].
      + intros x m _ Lm. destruct (kx_cases x) as [E|[Hx _]]; [rewrite E; auto|]. right. rewrite Hx. cbn [bind].
        destruct (ok_facts x Hx) as (_ & Le & Ln & _). destruct (res_of x) as [e ns] eqn:Er. cbn [fst snd] in Le, Ln.
        destruct (fold_minima_ok k m e ns Lm ltac:(lia)) as (m2 & E2 & L2 & _). eauto.
      + exists from. split; [exact Hf|]. intros m _. rewrite Ef. reflexivity.
    - apply in_app_or in Hf. destruct Hf as [Hf|Hf].
      + rewrite IHa by eauto. reflexivity.
      + destruct (run_split_safe a) as [E|(m & E & _)]; rewrite E; cbn [bind]; [reflexivity|].
        rewrite IHb by eauto. reflexivity.
  Qed.
  Lemma all_ok_dec l : (forall from, In from l -> ok from) \/ exists from, In from l /\ kx from = Panic.
  Proof.
    induction l as [|x l IH]; [left; intros ? []|].
    destruct (kx_cases x) as [E|[E _]]; [right; exists x; split; [left; reflexivity|exact E]|].
    destruct IH as [IH|(y & Hy & Ey)]; [left|right; exists y; split; [right|]; assumption].
    intros from [<-|H]; [exact E|auto].
  Qed.

  Lemma best_spec i l : (forall from, In from l -> ok from) ->
    (forall from, In from l -> i < length (ext from) -> fle (fst (best i l)) (nth i (ext from) f_zero) = true) /\
    (best i l = id_entry \/ exists from, In from l /\ i < length (ext from) /\
        best i l = (nth i (ext from) f_zero, firstn (i + 1) (nb from)) /\ flt (nth i (ext from) f_zero) f_inf = true).
  Proof.
    induction l as [|x l IH] using rev_ind; intros Ho.
    - split; [intros ? []|left; reflexivity].
    - assert (Ho' : forall from, In from l -> ok from) by (intros; apply Ho, in_or_app; auto).
      assert (Hx : ok x) by (apply Ho, in_or_app; right; left; reflexivity).
      destruct (IH Ho') as [A B]. clear IH.
      assert (Nb : is_nan (fst (best i l)) = false) by (apply fold_nan; [exact Ho'|reflexivity]).
      assert (Es : best i (l ++ [x]) = step i (best i l) x) by (unfold best; rewrite fold_left_app; reflexivity).
      rewrite Es. unfold step. destruct (Nat.ltb_spec i (length (ext x))) as [L|L].
      + destruct (ext_nth_facts x i Hx L) as (N1 & N2 & _). unfold better. cbn [fst].
        destruct (flt (nth i (ext x) f_zero) (fst (best i l))) eqn:F; cbn [fst].
        * split.
          -- intros from Hf Lf. apply in_app_or in Hf. destruct Hf as [Hf|[<-|[]]]; [|apply fle_refl, N1].
             pose proof (A from Hf Lf). f64_tac.
          -- right. exists x. split; [apply in_or_app; right; left; reflexivity|]. split; [exact L|]. split; [reflexivity|].
             destruct B as [B|(y & _ & _ & B & C)]; rewrite B in F; cbn [fst id_entry] in F; [exact F|]. f64_tac.
        * split.
          -- intros from Hf Lf. apply in_app_or in Hf. destruct Hf as [Hf|[<-|[]]]; [auto|]. f64_tac.
          -- destruct B as [B|(y & Hy & R)]; [left; exact B|right]. exists y. split; [apply in_or_app; auto|exact R].
      + split.
        * intros from Hf Lf. apply in_app_or in Hf. destruct Hf as [Hf|[<-|[]]]; [auto|lia].
        * destruct B as [B|(y & Hy & R)]; [left; exact B|right]. exists y. split; [apply in_or_app; auto|exact R].
  Qed.

  Lemma brute_inv t r : brute_force_motiflets ts order k ez t = Ret r ->
    (forall from, In from (leaves t) -> ok from) /\
    r = filter (fun p : entry => is_finite (fst p)) (map (fun i => best i (leaves t)) (seq 1 (k - 1))).
  Proof.
    unfold brute_force_motiflets. intros E.
    destruct (all_ok_dec (leaves t)) as [Ho|Hp]; [|rewrite (run_split_panic t Hp) in E; discriminate].
    split; [exact Ho|]. destruct (run_split_ok t Ho) as (m & Em & Lm & Nm). rewrite Em in E. cbn [bind] in E.
    apply Ret_inj in E. subst r. destruct k as [|k'] eqn:Ek.
    - destruct m; [reflexivity|discriminate].
    - destruct m as [|e m]; [discriminate|]. pose proof (Nm 0) as N0. cbn in N0. subst e. change (filter (fun p : entry => is_finite (fst p)) (id_entry :: m)) with (filter (fun p : entry => is_finite (fst p)) m).
      f_equal. cbn in Lm. injection Lm as Lm.
      apply nth_error_ext. intros i. destruct (Nat.lt_ge_cases i k') as [L|L].
      + rewrite (nth_error_nth' m id_entry) by lia. rewrite nth_error_map.
        rewrite (nth_error_nth' (seq 1 (S k' - 1)) 0) by (rewrite seq_length; lia). rewrite seq_nth by lia. cbn [option_map].
        pose proof (Nm (S i)) as Ni. cbn [nth Nat.leb] in Ni. rewrite Ni. reflexivity.
      + rewrite (proj2 (nth_error_None _ _)) by lia. symmetry. apply nth_error_None. rewrite map_length, seq_length. lia.
  Qed.
End Run.

Lemma distance_profile_numbers ts from d : distance_profile ts from = Ret d ->
  forall z, z < s_n ts -> s_flat ts z = false -> is_nan (dp ts from z) = false.
Proof.
  intros E z Lz Fz. unfold distance_profile in E.
  pose (I := fun (a : nat) (_ : list f64) => forall z, z < a -> s_flat ts z = false -> is_nan (dp ts from z) = false).
  refine (foreach_seq_inv _ I 0 (s_n ts) [] d _ _ E z Lz Fz).
  - intros y Ly. lia.
  - intros i out out' Li IH Eb y Ly Fy. destruct (Nat.eq_dec y i) as [->|]; [|apply IH; [lia|exact Fy]].
    unfold dp. destruct (i =? from); [reflexivity|]. rewrite Fy in *.
    destruct (is_nan (s_raw ts from i)); [discriminate|reflexivity].
Qed.
