(** C78-C81: the quantisation width and the estimate it is chosen with. *)
From Coq Require Import Reals Lra.
From Verif Require Import Base RSpec RealProofs HashSpec HashValue HashProofs SortSpec OverlapsSpec EnumSpec Enumerator EnumProofs EstimateProofs
  Series SeriesProofs FFT FFTProofs Hashing HashingSpec HashingProofs WidthProofs P_Series P_FFT P_Enum SamplingSpec P_Sampling P_Hashing.
Local Open Scope R_scope.

Lemma NoDup_app_l {A} (l m : list A) : NoDup (l ++ m) -> NoDup l.
Proof. induction l as [|x l IH]; intros H; [constructor|]. cbn in H. inversion H; subst. constructor; [rewrite in_app_iff in *; tauto|auto]. Qed.
Lemma NoDup_app_r {A} (l m : list A) : NoDup (l ++ m) -> NoDup m.
Proof. induction l as [|x l IH]; intros H; [exact H|]. cbn in H. inversion H; subst. auto. Qed.
(** * C78: the first width *)
(** [indexed_windows]: the windows that are not left out, without repetitions. *)
Definition indexed_windows (ts : list R) (w n : nat) (l : list nat) : Prop :=
  NoDup l /\ forall i, In i l <-> (i < n)%nat /\ ~ left_out ts w i.
(** Without any such window it aborts.  Otherwise let there be [m] of them: the width is
    not negative, and at least [99 m / 100 - m / 100 + 1] of their projections are at most
    128 widths away from 0. *)
Theorem c78_width :
  forall (ts : list R) (w : nat) (precise : bool) (s : series) (fuel : nat) (f : fftdata) (v : list R)
         (arrange : list (option R) -> list (option R)) (windows : list nat),
    (1 <= w)%nat -> series_new ts w precise = Ret s -> fft_new fuel s = Ret f ->
    length v = w -> sorts_numbers arrange -> indexed_windows ts w (num_subsequences s) windows ->
    let m := length windows in
    (m = 0%nat -> compute_width arrange s f v = Panic) /\
    ((1 <= m)%nat -> exists width fitting,
       compute_width arrange s f v = Ret width /\ 0 <= width /\
       NoDup fitting /\ incl fitting windows /\ (99 * m / 100 - m / 100 + 1 <= length fitting)%nat /\
       (forall i, In i fitting -> Rabs (inner v (znorm (window ts w i))) <= 128 * width) /\
       (* it is not wider than needed: some projection is exactly that far *)
       exists i, In i windows /\ Rabs (inner v (znorm (window ts w i))) = 128 * width).
Proof.
  intros ts w precise s fuel f v arrange windows Lw E Ef Ev So (ND & Hw) m. destruct (new_fft_ok _ _ _ _ _ _ Lw E Ef) as (M & F).
  destruct (dotps_ok s ts w f v arrange M F Ev So) as (dotps & order & r & E1 & E2 & Po & Sd & Ho).
  set (n := num_subsequences s) in *.
  assert (Lo : length order = n) by (rewrite <- (Permutation_length Po); apply seq_length).
  assert (NDo : NoDup order) by (apply (Permutation_NoDup Po), seq_NoDup).
  assert (Hin : forall i, In i order <-> (i < n)%nat).
  { intros i. split; intros H; [apply (Permutation_in _ (Permutation_sym Po)), in_seq in H; lia|apply (Permutation_in _ Po), in_seq; lia]. }
  assert (Lr : (length r <= n)%nat).
  { assert (G : length (map Some r) = length r) by apply map_length. rewrite <- E2 in G. unfold pop_infinite in G. rewrite <- G, rev_length.
    assert (D : forall l, (length (drop_infinite l) <= length l)%nat) by (induction l as [|[x|] l IH]; cbn [drop_infinite length]; lia).
    pose proof (D (rev (arrange dotps))) as D1. rewrite rev_length in D1. destruct (So dotps) as (P & _). rewrite <- (Permutation_length P) in D1.
    destruct (zwrite_ok s ts w f M F v (repeat (Some 0) n) (fun i x o => Ret x) Ev (repeat_length _ _)) as (d2 & E3 & L3 & _); [intros i o _; eexists; reflexivity|].
    unfold n in *. rewrite E1 in E3. apply Ret_inj in E3. subst d2. rewrite repeat_length in L3. lia. }
  assert (Lm : m = length r).
  { assert (P : Permutation windows (firstn (length r) order)).
    { apply NoDup_Permutation; [exact ND| |].
      - rewrite <- (firstn_skipn (length r) order) in NDo. apply NoDup_app_l in NDo. exact NDo.
      - intros i. rewrite Hw. split.
        + intros (Li & Ni). apply Hin in Li. apply In_nth_error in Li. destruct Li as (x & Ex). destruct (Ho x i Ex) as (H1 & H2).
          destruct (Nat.lt_ge_cases x (length r)) as [Lx|Lx]; [|specialize (H2 Lx); contradiction]. apply (nth_error_In _ x). rewrite nth_error_firstn by exact Lx. exact Ex.
        + intros Hi. apply In_nth_error in Hi. destruct Hi as (x & Ex). assert (Lx : (x < length (firstn (length r) order))%nat) by (apply nth_error_Some; congruence).
          rewrite firstn_length in Lx. rewrite nth_error_firstn in Ex by lia. destruct (Ho x i Ex) as (H1 & _). split; [apply Hin, (nth_error_In _ x), Ex|apply H1; lia]. }
    unfold m. rewrite (Permutation_length P), firstn_length. lia. }
  unfold compute_width. fold n. rewrite E1. cbn [bind]. rewrite E2, map_length, <- Lm.
  assert (Sr : forall a b, (a <= b)%nat -> (b < m)%nat -> nth a r 0 <= nth b r 0).
  { intros a b L1 L2. apply (Sd a b (Some (nth a r 0)) (Some (nth b r 0))); [exact L1| |]; rewrite nth_error_map, (nth_error_nth' r 0) by lia; reflexivity. }
  split.
  - intros Hm. rewrite Hm in *. destruct r; [reflexivity|discriminate Lm].
  - intros Hm. set (a := (m / 100)%nat). set (b := (99 * m / 100)%nat).
    assert (Lb : (b < m)%nat) by (unfold b; apply Nat.div_lt_upper_bound; lia).
    assert (La : (a <= b)%nat).
    { unfold a, b. pose proof (Nat.div_mod m 100 ltac:(lia)) as D. pose proof (Nat.mod_upper_bound m 100 ltac:(lia)). apply Nat.div_le_lower_bound; [lia|]. 
      destruct (Nat.eq_dec (m / 100) 0) as [Z|Z]; lia. }
    assert (Ga : get (map Some r) a = Ret (Some (nth a r 0))) by (apply get_some; rewrite nth_error_map, (nth_error_nth' r 0) by lia; reflexivity).
    assert (Gb : get (map Some r) b = Ret (Some (nth b r 0))) by (apply get_some; rewrite nth_error_map, (nth_error_nth' r 0) by lia; reflexivity).
    rewrite Ga. cbn [bind]. rewrite Gb. cbn [bind]. set (width := Rmax (Rabs (nth a r 0)) (Rabs (nth b r 0)) / 128).
    exists width, (firstn (b - a + 1) (skipn a order)). split; [reflexivity|].
    pose proof (Rmax_l (Rabs (nth a r 0)) (Rabs (nth b r 0))) as Ml. pose proof (Rmax_r (Rabs (nth a r 0)) (Rabs (nth b r 0))) as Mr.
    pose proof (Rabs_pos (nth a r 0)). assert (Ew : 128 * width = Rmax (Rabs (nth a r 0)) (Rabs (nth b r 0))) by (unfold width; field).
    split; [unfold width; lra|].
    assert (NDf : NoDup (firstn (b - a + 1) (skipn a order))).
    { rewrite <- (firstn_skipn a order) in NDo. apply NoDup_app_r in NDo. rewrite <- (firstn_skipn (b - a + 1) (skipn a order)) in NDo. apply NoDup_app_l in NDo. exact NDo. }
    assert (Hf : forall i, In i (firstn (b - a + 1) (skipn a order)) -> exists x, (a <= x <= b)%nat /\ nth_error order x = Some i).
    { intros i Hi. apply In_nth_error in Hi. destruct Hi as (x & Ex). assert (Lx : (x < length (firstn (b - a + 1) (skipn a order)))%nat) by (apply nth_error_Some; congruence).
      rewrite firstn_length in Lx. rewrite nth_error_firstn in Ex by lia. exists (a + x)%nat. split; [lia|]. rewrite <- Ex. clear. revert order. induction a as [|a IH]; intros order; [reflexivity|].
      destruct order as [|o order]; [destruct x; reflexivity|]. cbn [skipn plus nth_error]. apply IH. }
    split; [exact NDf|]. split; [|split; [|split]].
    + intros i Hi. destruct (Hf i Hi) as (x & Lx & Ex). apply Hw. split; [apply Hin, (nth_error_In _ x), Ex|]. apply (Ho x i Ex). lia.
    + rewrite firstn_length, skipn_length. lia.
    + intros i Hi. destruct (Hf i Hi) as (x & Lx & Ex). destruct (proj1 (Ho x i Ex) ltac:(lia)) as (_ & ->). rewrite Ew.
      pose proof (Sr a x ltac:(lia) ltac:(lia)) as S1. pose proof (Sr x b ltac:(lia) ltac:(lia)) as S2.
      destruct (Rle_dec 0 (nth x r 0)) as [P|P].
      * rewrite Rabs_pos_eq by exact P. apply Rle_trans with (Rabs (nth b r 0)); [|exact Mr]. apply Rle_trans with (nth b r 0); [exact S2|apply Rle_abs].
      * rewrite Rabs_left by lra. apply Rle_trans with (Rabs (nth a r 0)); [|exact Ml]. rewrite Rabs_left by lra. lra.
    + assert (Hx : forall x, (x < m)%nat -> exists i, In i windows /\ inner v (znorm (window ts w i)) = nth x r 0).
      { intros x Lx. destruct (nth_error order x) as [i|] eqn:Ex; [|apply nth_error_None in Ex; lia]. exists i. destruct (proj1 (Ho x i Ex) ltac:(lia)) as (N1 & N2).
        split; [apply Hw; split; [apply Hin, (nth_error_In _ x), Ex|exact N1]|exact N2]. }
      rewrite Ew. unfold Rmax. destruct (Rle_dec _ _).
      * destruct (Hx b Lb) as (i & H1 & H2). exists i. rewrite H2. auto.
      * destruct (Hx a ltac:(lia)) as (i & H1 & H2). exists i. rewrite H2. auto.
Qed.
Print Assumptions c78_width.
Definition number_leb (x y : option R) : bool :=
  match x, y with Some x, Some y => if Rle_dec x y then true else false | _, None => true | None, Some _ => false end.
Definition by_number (l : list (option R)) : list (option R) := isort number_leb l.
Lemma by_number_sorts : sorts_numbers by_number.
Proof.
  intros l. split; [apply isort_perm|]. intros i j x y L Ex Ey.
  assert (R1 : forall x, number_le x x) by (intros [a|]; cbn; [lra|exact I]).
  assert (R2 : forall x y, number_leb x y = true -> number_le x y) by (intros [a|] [b|]; cbn; try discriminate; try auto; destruct (Rle_dec a b); [auto|discriminate]).
  assert (T1 : forall x y, number_leb x y = false -> number_leb y x = true).
  { intros [a|] [b|]; cbn; try discriminate; try auto. destruct (Rle_dec a b); [discriminate|]. destruct (Rle_dec b a); [auto|lra]. }
  assert (T2 : forall x y z, number_leb x y = true -> number_leb y z = true -> number_leb x z = true).
  { intros [a|] [b|] [c|]; cbn; try discriminate; try auto. destruct (Rle_dec a b); [|discriminate]. destruct (Rle_dec b c); [|discriminate]. destruct (Rle_dec a c); [auto|lra]. }
  destruct (Nat.eq_dec i j) as [->|N]; [rewrite Ex in Ey; injection Ey as ->; apply R1|]. apply R2, (chain_nth number_leb T1 T2 _ (isort_chain number_leb T1 T2 l) i j); try assumption. lia.
Qed.
Example c78_case : exists s fuel f, series_new wave 2 false = Ret s /\ fft_new fuel s = Ret f /\ length [1; 0] = 2%nat /\ sorts_numbers by_number /\
  indexed_windows wave 2 (num_subsequences s) [0; 1]%nat.
Proof.
  destruct c76_case as (s & fuel & f & E & Ef & N & _ & _ & N0 & N1). exists s, fuel, f. rewrite N. split; [exact E|]. split; [exact Ef|]. split; [reflexivity|]. split; [apply by_number_sorts|].
  split; [repeat constructor; cbn; lia|]. intros i. cbn [In]. split; [intros [<-|[<-|[]]]; auto|]. intros (L & _). lia.
Qed.

(** * C81: the estimate of the number of collisions *)
(** [crowd hashes p]: more than [sqrt n] entries of the table, outside of the group of its
    largest value, share a prefix. *)
Definition crowd (hashes : list N) (p : nat) : Prop :=
  exists group : list nat, NoDup group /\ (length hashes < length group * length group)%nat /\
    (forall x y, In x group -> In y group -> exists hx hy, nth_error hashes x = Some hx /\ nth_error hashes y = Some hy /\ agree p hx hy) /\
    (forall x, In x group -> ~ in_last_bucket hashes p x).
(** the estimate, on a table without history *)
Definition estimate (hashes indices : list N) (p ez fuel : nat) : res nat :=
  let! e := enum_new fuel hashes indices p None in estimate_num_collisions fuel ez e.

Lemma least (P : nat -> bool) x : P x = true -> exists s, (s <= x)%nat /\ P s = true /\ forall y, (y < s)%nat -> P y = false.
Proof.
  intros Px. assert (G : forall k, (forall y, (y < k)%nat -> P y = false) \/ exists s, (s < k)%nat /\ P s = true /\ forall y, (y < s)%nat -> P y = false).
  { induction k as [|k [IH|(s & L & H)]]; [left; intros; lia| |right; exists s; split; [lia|exact H]].
    destruct (P k) eqn:E; [right; exists k; auto|left]. intros y L. destruct (Nat.eq_dec y k) as [->|N]; [exact E|apply IH; lia]. }
  destruct (G (S x)) as [H|(s & L & H)]; [rewrite H in Px by lia; discriminate|exists s; split; [lia|exact H]].
Qed.
Lemma crowd_crowded hashes indices p : table_ok hashes indices -> (1 <= p <= 8)%nat -> crowd hashes p <-> crowded hashes p.
Proof.
  intros T Hp. pose proof T as (_ & HU & _). set (n := length hashes).
  assert (Same : forall x y, (x < n)%nat -> (y < n)%nat ->
     (same p (nth x hashes 0%N) (nth y hashes 0%N) = true <-> exists hx hy, nth_error hashes x = Some hx /\ nth_error hashes y = Some hy /\ agree p hx hy)).
  { intros x y Lx Ly. rewrite (nth_error_nth' hashes 0%N Lx), (nth_error_nth' hashes 0%N Ly).
    rewrite same_agree; [|apply HU, nth_In; exact Lx|apply HU, nth_In; exact Ly|lia]. split; [intros H; eauto|intros (hx & hy & E1 & E2 & A); injection E1 as <-; injection E2 as <-; exact A]. }
  split.
  - intros (group & ND & Lg & Ha & Hl). fold n in Lg.
    destruct group as [|x0 group']; [cbn in Lg; lia|]. set (group := x0 :: group') in *.
    assert (Hb : forall x, In x group -> (x < n)%nat).
    { intros x Hx. destruct (Ha x x Hx Hx) as (hx & _ & E1 & _). apply nth_error_Some. congruence. }
    assert (Hx0 : In x0 group) by (left; reflexivity). pose proof (Hb x0 Hx0) as L0.
    destruct (least (fun y => same p (nth x0 hashes 0%N) (nth y hashes 0%N)) x0 (same_refl _ _)) as (s & Ls & Ss & Ms). cbv beta in Ss, Ms.
    destruct (least (fun y => negb (same p (nth x0 hashes 0%N) (nth y hashes 0%N)) && (s <=? y)%nat) (n - 1)) as (e & Le & Se & Me).
    { apply andb_true_iff. split; [|lia]. destruct (same p (nth x0 hashes 0%N) (nth (n - 1) hashes 0%N)) eqn:E; [exfalso|reflexivity].
      apply Same in E; [|lia|lia]. apply (Hl x0 Hx0). exact E. }
    apply andb_true_iff in Se. destruct Se as (Se & Lse). apply Nat.leb_le in Lse. apply negb_true_iff in Se.
    assert (s <> e) by (intros ->; rewrite Ss in Se; discriminate).
    assert (In_s : forall x, (s <= x)%nat -> (x < e)%nat -> same p (nth x0 hashes 0%N) (nth x hashes 0%N) = true).
    { intros x L1 L2. specialize (Me x L2). cbv beta in Me. apply andb_false_iff in Me. destruct Me as [Me|Me]; [apply negb_false_iff in Me; exact Me|apply Nat.leb_gt in Me; lia]. }
    exists s, e. fold n. assert (B : bucket hashes p s e).
    { split; [fold n; lia|]. split.
      - intros x L1 L2. apply (same_trans p _ (nth x0 hashes 0%N)); [rewrite same_sym; exact Ss|apply In_s; assumption].
      - intros _. destruct (same p (nth s hashes 0%N) (nth e hashes 0%N)) eqn:E; [|reflexivity]. rewrite (same_trans p _ _ _ Ss E) in Se. discriminate. }
    split; [exact B|]. split; [lia|].
    assert (Li : (length group <= length (seq s (e - s)))%nat).
    { apply NoDup_incl_length; [exact ND|]. intros y Hy. apply in_seq. pose proof (Hb y Hy) as Ly.
      assert (E : same p (nth x0 hashes 0%N) (nth y hashes 0%N) = true) by (apply Same; [exact L0|exact Ly|exact (Ha x0 y Hx0 Hy)]).
      destruct (Nat.lt_ge_cases y s) as [L1|L1]; [rewrite Ms in E by exact L1; discriminate|].
      destruct (Nat.lt_ge_cases y e) as [L2|L2]; [lia|exfalso].
      assert (E2 : same p (nth s hashes 0%N) (nth y hashes 0%N) = true) by (apply (same_trans p _ (nth x0 hashes 0%N)); [rewrite same_sym; exact Ss|exact E]).
      destruct (same_mid hashes indices p None T Hp none_prev s e y ltac:(lia) Ly E2) as (E3 & _). rewrite (same_trans p _ _ _ Ss E3) in Se. discriminate. }
    rewrite seq_length in Li. apply Nat.lt_le_trans with (length group * length group)%nat; [exact Lg|apply Nat.mul_le_mono; exact Li].
  - intros (s & e & B & Le & Lg). exists (seq s (e - s)). rewrite seq_length. split; [apply seq_NoDup|]. split; [exact Lg|]. pose proof B as (B1 & B2 & _). split.
    + intros x y Hx Hy. apply in_seq in Hx, Hy. apply Same; [fold n in B1; lia|fold n in B1; lia|]. apply (same_trans p _ (nth s hashes 0%N)); [rewrite same_sym|]; apply B2; lia.
    + intros x Hx Hl. apply in_seq in Hx. assert (E : same p (nth x hashes 0%N) (nth (n - 1) hashes 0%N) = true) by (apply Same; [unfold n; lia|unfold n; lia|exact Hl]).
      unfold n in E. rewrite (not_last hashes indices p None T Hp none_prev s e x B Le ltac:(lia)) in E. discriminate.
Qed.

(** The estimate always comes out, and is at least the number of collisions that are not
    trivial, outside of the group of the largest value.  It is exactly that number unless
    there is a crowd, and then it is positive. *)
Theorem c81_estimate :
  forall (hashes indices : list N) (p ez : nat), table_ok hashes indices -> hashes <> [] -> (1 <= p <= 8)%nat ->
    exists (c : nat) (collisions : list (nat * nat)),
      returns (estimate hashes indices p ez) c /\
      NoDup collisions /\
      (forall x y, In (x, y) collisions <-> collide hashes p x y /\ ~ in_last_bucket hashes p x /\ ~ trivial indices ez x y) /\
      (length collisions <= c)%nat /\
      (~ crowd hashes p -> c = length collisions) /\
      (crowd hashes p -> (0 < c)%nat).
Proof.
  intros hashes indices p ez T Hne Hp. destruct (estimate_runs hashes indices p ez T Hp Hne) as (c & Hc & L & X).
  exists c, (positions hashes indices p None false ez).
  assert (Rt : returns (estimate hashes indices p ez) c) by (exists (S (length hashes)); intros g Lg; apply Hc; lia).
  rewrite (rows_positions hashes indices p None false ez), map_length in L, X. rewrite (crowd_crowded hashes indices p T Hp).
  split; [exact Rt|]. split; [eapply positions_ok; try eassumption; exact none_prev|]. split; [|split; [exact L|split; [exact X|]]].
  - intros x y. rewrite in_positions by (try assumption; exact none_prev). split; [tauto|]. intros (H1 & H2 & H3). split; [exact H1|]. split; [exact H2|]. split; [|exact H3]. intros (D & _). discriminate D.
  - intros Hcr. exact (estimate_crowded hashes indices p ez T Hp c Hne Hcr Rt).
Qed.
Print Assumptions c81_estimate.
Definition crowded_table : list N * list N := ([1; 1; 1; 2; 2; 3; 256; 257]%N, [10; 20; 30; 40; 41; 50; 60; 70]%N).
Example c81_case : table_ok (fst crowded_table) (snd crowded_table) /\ crowd (fst crowded_table) 8 /\
  estimate (fst crowded_table) (snd crowded_table) 8 5 20 = Ret 9%nat /\
  table_ok [1; 1; 2; 2; 2]%N [10; 20; 30; 40; 50]%N /\ estimate [1; 1; 2; 2; 2]%N [10; 20; 30; 40; 50]%N 8 5 20 = Ret 1%nat /\ ~ crowd [1; 1; 2; 2; 2]%N 8.
Proof.
  assert (T1 : table_ok (fst crowded_table) (snd crowded_table)).
  { split; [reflexivity|]. split.
    - intros h Hh. unfold is_u64. cbn in Hh. intuition (subst; reflexivity).
    - intros i j a b L Hi Hj. unfold crowded_table in *. cbn [fst] in *.
      do 8 (destruct i as [|i]; [do 8 (destruct j as [|j]; [cbn in *; injection Hi as <-; injection Hj as <-; lia|]); destruct j; discriminate|]).
      destruct i; discriminate. }
  assert (T2 : table_ok [1; 1; 2; 2; 2]%N [10; 20; 30; 40; 50]%N).
  { split; [reflexivity|]. split.
    - intros h Hh. unfold is_u64. cbn in Hh. intuition (subst; reflexivity).
    - intros i j a b L Hi Hj.
      do 5 (destruct i as [|i]; [do 5 (destruct j as [|j]; [cbn in *; injection Hi as <-; injection Hj as <-; lia|]); destruct j; discriminate|]).
      destruct i; discriminate. }
  split; [exact T1|]. split; [|split; [vm_compute; reflexivity|split; [exact T2|split; [vm_compute; reflexivity|]]]].
  - exists [0; 1; 2]%nat. split; [repeat constructor; cbn; lia|]. split; [cbn; lia|]. split.
    + intros x y Hx Hy. exists 1%N, 1%N. cbn in Hx, Hy. destruct Hx as [<-|[<-|[<-|[]]]]; destruct Hy as [<-|[<-|[<-|[]]]]; repeat split; intros k Hk; reflexivity.
    + intros x Hx (hx & hl & E1 & E2 & A). cbn in Hx. assert (hl = 257%N) by (cbn in E2; congruence). assert (hx = 1%N) by (destruct Hx as [<-|[<-|[<-|[]]]]; cbn in E1; congruence).
      subst. apply agree_full in A; [discriminate| |]; unfold is_u64; lia.
  - intros (group & ND & Lg & Ha & Hl). cbn [length] in Lg.
    assert (I : incl group [0; 1]%nat).
    { intros x Hx. destruct (Ha x x Hx Hx) as (hx & _ & E1 & _). specialize (Hl x Hx).
      destruct x as [|[|x]]; [left; reflexivity|right; left; reflexivity|exfalso]. apply Hl.
      assert (hx = 2%N) by (destruct x as [|[|[|[|x]]]]; cbn in E1; congruence). exists hx, 2%N. split; [exact E1|]. split; [reflexivity|]. subst. intros k Hk. reflexivity. }
    apply NoDup_incl_length in I; [|exact ND]. cbn [length] in I. assert (length group * length group <= 2 * 2)%nat by (apply Nat.mul_le_mono; exact I). lia.
Qed.

(** * C79: widening *)
(** the numbers and the vectors the hash functions are made of *)
Definition numbers_ok (us : list R) : Prop := length us = 8%nat /\ forall u, In u us -> 0 <= u < 1.
Definition vectors_ok (vectors : list (list R)) (w : nat) : Prop := length vectors = 8%nat /\ forall v, In v vectors -> length v = w.
(** the estimate for the longest prefix when the hash functions have a given width *)
Definition estimate_for (arrange : R -> list (N * N) -> list (N * N)) (s : series) (f : fftdata) (ez : nat)
    (us : list R) (vectors : list (list R)) (width : R) (fuel : nat) : res nat :=
  let! hs := hasher_new us vectors width in
  let! '(hashes, indices) := repetition_table (arrange width) hs s f 8 in
  estimate hashes indices 8 ez fuel.
(** The width that comes out is the first one, among the given one and its doublings, for
    which the estimate is positive.  A width that is not positive aborts. *)
Theorem c79_first :
  forall (ts : list R) (w : nat) (precise : bool) (s : series) (fuel : nat) (f : fftdata) (ez : nat)
         (us : list R) (vectors : list (list R)) (arrange : R -> list (N * N) -> list (N * N)) (width result : R),
    (1 <= w)%nat -> series_new ts w precise = Ret s -> fft_new fuel s = Ret f -> (1 <= num_subsequences s)%nat ->
    numbers_ok us -> vectors_ok vectors w -> (forall width, sorts (arrange width)) -> 0 < width ->
    (returns (find_width arrange s f ez us vectors width) result <->
     exists j, result = width * 2 ^ j /\
       (exists c, (0 < c)%nat /\ returns (estimate_for arrange s f ez us vectors result) c) /\
       forall i, (i < j)%nat -> returns (estimate_for arrange s f ez us vectors (width * 2 ^ i)) 0%nat).
Proof.
  intros ts w precise s fuel f ez us vectors arrange width result Lw E Ef Hn Lu Lv So P. destruct (new_fft_ok _ _ _ _ _ _ Lw E Ef) as (M & F).
  pose proof (estimate_at_ok s ts w f ez us vectors arrange M F Lv Lu So Hn) as Hok. set (n := num_subsequences s) in *.
  assert (Pj : forall j, 0 < width * 2 ^ j) by (intros j; apply Rmult_lt_0_compat; [exact P|apply pow_lt; lra]).
  assert (Rat : forall x c, 0 < x -> returns (estimate_for arrange s f ez us vectors x) c <-> forall g, (n < g)%nat -> estimate_at s f ez us vectors arrange x g = Ret c).
  { intros x c Px. destruct (Hok x Px) as (c' & H1 & _). split.
    - intros (g0 & Hg) g Lg. rewrite H1 by exact Lg. specialize (Hg (g0 + S n)%nat ltac:(lia)). change (estimate_at s f ez us vectors arrange x (g0 + S n) = Ret c) in Hg.
      rewrite H1 in Hg by lia. exact Hg.
    - intros H. exists (S n). intros g Lg. apply H. lia. }
  split.
  - intros (g0 & Hg). specialize (Hg (g0 + S n)%nat ltac:(lia)). set (g := (g0 + S n)%nat) in *.
    rewrite find_width_loop in Hg.
    assert (G : forall m width, 0 < width -> loop m (body s f ez us vectors arrange g) width = Ret result ->
      exists j, result = width * 2 ^ j /\ (exists c, (0 < c)%nat /\ returns (estimate_for arrange s f ez us vectors result) c) /\
       forall i, (i < j)%nat -> returns (estimate_for arrange s f ez us vectors (width * 2 ^ i)) 0%nat).
    { induction m as [|m IH]; intros x Px Hl; [discriminate Hl|]. cbn [loop] in Hl. destruct (Hok x Px) as (c & H1 & H2). rewrite H2 in Hl by (unfold g; lia).
      destruct (0 <? c)%nat eqn:Ec.
      - apply Ret_inj in Hl. subst result. exists 0%nat. rewrite pow_O, Rmult_1_r. split; [reflexivity|]. split; [|intros; lia].
        exists c. apply Nat.ltb_lt in Ec. split; [exact Ec|]. apply Rat; [exact Px|exact H1].
      - assert (c = 0%nat) by (apply Nat.ltb_ge in Ec; lia). subst c.
        destruct (IH (x * 2) ltac:(lra) Hl) as (j & E1 & E2 & E3). exists (S j). split; [rewrite E1; cbn [pow]; ring|]. split; [exact E2|].
        intros [|i] Li; [rewrite pow_O, Rmult_1_r; apply Rat; [exact Px|exact H1]|]. replace (x * 2 ^ S i) with (x * 2 * 2 ^ i) by (cbn [pow]; ring). apply E3. lia. }
    exact (G _ _ P Hg).
  - intros (j & -> & (c & Pc & Hc) & Hz). apply (find_returns s ts w f ez us vectors arrange M F Lv Lu So Hn j width c P Pc).
    + intros i Li. apply Rat; [apply Pj|apply Hz, Li].
    + apply Rat; [apply Pj|exact Hc].
Qed.
Print Assumptions c79_first.
Theorem c79_width_positive :
  forall arrange s f ez us vectors width, width <= 0 -> panics (find_width arrange s f ez us vectors width).
Proof.
  intros arrange s f ez us vectors width L. exists 1%nat. intros n Ln. unfold find_width. destruct n as [|n]; [lia|]. cbn [loop].
  unfold hasher_new, assert_. destruct (Rlt_dec 0 width); [lra|]. reflexivity.
Qed.
Print Assumptions c79_width_positive.
(** The full property is that the search for the width ends.  It does when some window is
    left out of the index and two others are not trivial matches. *)
Theorem c79_terminates_partial :
  forall (ts : list R) (w : nat) (precise : bool) (s : series) (fuel : nat) (f : fftdata) (ez : nat)
         (us : list R) (vectors : list (list R)) (arrange : R -> list (N * N) -> list (N * N)) (width : R) (i j z : nat),
    (1 <= w)%nat -> series_new ts w precise = Ret s -> fft_new fuel s = Ret f -> (N.of_nat (num_subsequences s) <= 2 ^ 32)%N ->
    numbers_ok us -> vectors_ok vectors w -> (forall width, sorts (arrange width)) -> 0 < width ->
    (i < num_subsequences s)%nat -> (j < num_subsequences s)%nat -> (z < num_subsequences s)%nat ->
    i <> j -> ~ left_out ts w i -> ~ left_out ts w j -> ~ too_close ez i j -> left_out ts w z ->
    exists result, returns (find_width arrange s f ez us vectors width) result.
Proof.
  intros ts w precise s fuel f ez us vectors arrange width i j z Lw E Ef L32 Lu Lv So P Li Lj Lz D Ni Nj Nt Hz. destruct (new_fft_ok _ _ _ _ _ _ Lw E Ef) as (M & F).
  assert (Hn : (1 <= num_subsequences s)%nat) by lia.
  destruct (large_width s ts w f ez us vectors arrange M F Lv Lu So Hn i j z D Li Lj Lz L32 Ni Nj Hz Nt) as (B & PB & HB).
  destruct (doubling width B P) as (k & Hk). destruct (HB _ Hk) as (c & Pc & Hc).
  destruct (find_first s ts w f ez us vectors arrange M F Lv Lu So Hn width k c P Pc Hc) as (j' & c' & _ & Pc' & Hc' & Hb).
  eexists. exact (find_returns s ts w f ez us vectors arrange M F Lv Lu So Hn j' width c' P Pc' Hb Hc').
Qed.
Print Assumptions c79_terminates_partial.
(** In general it does not: for a straight line no width is large enough, whatever the
    random numbers, although there are windows that are not trivial matches. *)
Definition ramp : list R := [0; 1; 2; 3; 4].
Lemma ramp_window i : (i < 4)%nat -> window ramp 2 i = [INR i; INR i + 1].
Proof. intros L. unfold window, ramp. do 4 (destruct i as [|i]; [cbn [firstn skipn INR]; repeat (f_equal; try ring)|]). lia. Qed.
Theorem c79_terminates_refuted :
  exists (ts : list R) (w ez : nat) (s : series) (fuel : nat) (f : fftdata),
    series_new ts w false = Ret s /\ fft_new fuel s = Ret f /\
    (exists i j, (i < num_subsequences s)%nat /\ (j < num_subsequences s)%nat /\ ~ left_out ts w i /\ ~ left_out ts w j /\ ~ too_close ez i j) /\
    forall us vectors arrange width, numbers_ok us -> vectors_ok vectors w -> (forall width, sorts (arrange width)) -> 0 < width ->
      diverges (find_width arrange s f ez us vectors width).
Proof.
  assert (E : exists s, series_new ramp 2 false = Ret s /\ num_subsequences s = 3%nat) by (eexists; split; [apply series_new_ok; cbn; lia|reflexivity]).
  destruct E as (s & E & N). destruct (fft_of ramp s ltac:(cbn; lia) ltac:(cbn; lia) E) as (fuel & f & Ef).
  assert (Hs : forall i, (i < 4)%nat -> sd_of (window ramp 2 i) = / 2).
  { intros i L. rewrite ramp_window by exact L. rewrite sd_pair. replace (INR i - (INR i + 1)) with (-1) by ring. rewrite Rabs_left by lra. lra. }
  assert (Nl : forall i, (i < num_subsequences s)%nat -> ~ left_out ramp 2 i) by (intros i L; unfold left_out; rewrite Hs by lia; lra).
  exists ramp, 2%nat, 1%nat, s, fuel, f. split; [exact E|]. split; [exact Ef|]. split.
  { exists 0%nat, 2%nat. split; [lia|]. split; [lia|]. split; [apply Nl; lia|]. split; [apply Nl; lia|]. unfold too_close. lia. }
  intros us vectors arrange width Lu Lv So P. destruct (new_fft_ok ramp 2 false s fuel f ltac:(lia) E Ef) as (M & F). assert (Hn : (1 <= num_subsequences s)%nat) by lia.
  assert (Ez : forall i, (i < 4)%nat -> znorm (window ramp 2 i) = [-1; 1]).
  { intros i L. unfold znorm. rewrite Hs by exact L. rewrite ramp_window by exact L. unfold mean_of. cbn [length map]. rewrite !total_cons, total_nil. cbn [INR]. repeat (f_equal; try field). }
  apply (find_diverges s ramp 2 f 1 us vectors arrange M F Lv Lu So Hn width P). intros width' P'.
  apply (one_bucket s ramp 2 f 1 us vectors arrange M F Lv Lu So Hn width' P' Nl). intros i j Li Lj. rewrite !Ez by lia. reflexivity.
Qed.
Print Assumptions c79_terminates_refuted.
Example c79_case : exists s fuel f, series_new corner 2 false = Ret s /\ fft_new fuel s = Ret f /\ num_subsequences s = 4%nat /\
  numbers_ok (repeat 0 8) /\ vectors_ok (repeat [1; 0] 8) 2 /\ (forall width : R, sorts ((fun _ => by_hash) width)) /\
  ~ left_out corner 2 0 /\ ~ left_out corner 2 2 /\ ~ too_close 1 0 2 /\ left_out corner 2 3.
Proof.
  assert (E : exists s, series_new corner 2 false = Ret s /\ num_subsequences s = 4%nat) by (eexists; split; [apply series_new_ok; cbn; lia|reflexivity]).
  destruct E as (s & E & N). destruct (fft_of corner s ltac:(cbn; lia) ltac:(cbn; lia) E) as (fuel & f & Ef). exists s, fuel, f.
  split; [exact E|]. split; [exact Ef|]. split; [exact N|].
  split; [split; [reflexivity|intros u Hu; apply repeat_spec in Hu; lra]|]. split; [split; [reflexivity|intros v Hv; apply repeat_spec in Hv; subst; reflexivity]|].
  split; [intros _; apply by_hash_sorts|].
  destruct corner_flat as (F0 & F1 & F2 & F3). unfold flat, left_out in *.
  split; [destruct (Rle_dec _ _); [discriminate|lra]|]. split; [destruct (Rle_dec (sd_of (window corner 2 2)) _); [discriminate|lra]|]. split; [unfold too_close; lia|].
  unfold window, corner. cbn [firstn skipn]. rewrite sd_pair. replace (1 - 1) with 0 by ring. rewrite Rabs_R0. lra.
Qed.

(** * C80: what is left out of the index and what is reported as flat *)
(** The full property: a window has the largest hash value in the index exactly when the
    series reports it as flat.  It holds unless the deviation is the threshold itself. *)
Definition reserved (row : N * N) : Prop := row = (u64_max, u32_max).
Theorem c80_flat_partial :
  forall (ts : list R) (w : nat) (precise : bool) (s : series) (fuel : nat) (f : fftdata) (hs : hasher) (max_k i : nat),
    (1 <= w)%nat -> series_new ts w precise = Ret s -> fft_new fuel s = Ret f -> hasher_ok hs w -> (1 <= max_k <= 8)%nat ->
    (i < num_subsequences s)%nat -> (N.of_nat (num_subsequences s) < 2 ^ 32)%N ->
    sd_of (window ts w i) <> / 10000 ->
    exists rows row b, hash hs s f (repeat (0, 0)%N (num_subsequences s)) max_k = Ret rows /\ nth_error rows i = Some row /\
      is_flat s i = Ret b /\ (b = true <-> reserved row).
Proof.
  intros ts w precise s fuel f hs max_k i Lw E Ef H Lk Li L32 Ns.
  destruct (c76_hash ts w precise s fuel f hs (repeat (0, 0)%N (num_subsequences s)) max_k Lw E Ef H Lk (repeat_length _ _)) as (rows & E1 & _ & Hr).
  destruct (Hr i Li) as ([h id] & E2 & R1 & R2). destruct (new_fft_ok _ _ _ _ _ _ Lw E Ef) as (M & _).
  exists rows, (h, id), (if Rle_dec (sd_of (window ts w i)) flat_sd_threshold then true else false). split; [exact E1|]. split; [exact E2|].
  split; [unfold is_flat; rewrite (made_sd s ts w M) by exact Li; reflexivity|]. unfold flat_sd_threshold, reserved, left_out in *.
  destruct (Rle_dec _ _) as [L|L].
  - split; [|reflexivity]. intros _. destruct (R1 ltac:(lra)) as (-> & ->). reflexivity.
  - split; [discriminate|]. intros Hid. injection Hid as -> ->. destruct (R2 ltac:(lra)) as (_ & Hid & _). rewrite N.mod_small in Hid by lia. unfold u32_max in Hid. lia.
Qed.
Print Assumptions c80_flat_partial.
(** With a deviation equal to the threshold the window is reported as flat but indexed. *)
Definition edge : list R := [0; / 5000; 0; / 5000].
Theorem c80_flat_refuted :
  exists (ts : list R) (w : nat) (s : series) (fuel : nat) (f : fftdata) (i : nat),
    series_new ts w false = Ret s /\ fft_new fuel s = Ret f /\ (i < num_subsequences s)%nat /\ is_flat s i = Ret true /\
    forall hs, hasher_ok hs w -> exists rows row, hash hs s f (repeat (0, 0)%N (num_subsequences s)) 8 = Ret rows /\ nth_error rows i = Some row /\ ~ reserved row.
Proof.
  assert (E : exists s, series_new edge 2 false = Ret s /\ num_subsequences s = 2%nat) by (eexists; split; [apply series_new_ok; cbn; lia|reflexivity]).
  destruct E as (s & E & N). destruct (fft_of edge s ltac:(cbn; lia) ltac:(cbn; lia) E) as (fuel & f & Ef). destruct (new_fft_ok edge 2 false s fuel f ltac:(lia) E Ef) as (M & _).
  assert (Hs : sd_of (window edge 2 0) = / 10000).
  { unfold window, edge. cbn [firstn skipn]. rewrite sd_pair. rewrite Rabs_left by lra. lra. }
  exists edge, 2%nat, s, fuel, f, 0%nat. split; [exact E|]. split; [exact Ef|]. split; [lia|].
  split; [unfold is_flat; rewrite (made_sd s edge 2 M) by lia; cbn [bind]; rewrite Hs; unfold flat_sd_threshold; destruct (Rle_dec _ _); [reflexivity|lra]|].
  intros hs H. destruct (c76_hash edge 2 false s fuel f hs (repeat (0, 0)%N (num_subsequences s)) 8 ltac:(lia) E Ef H ltac:(lia) (repeat_length _ _)) as (rows & E1 & _ & Hr).
  destruct (Hr 0%nat ltac:(lia)) as ([h id] & E2 & _ & R2). exists rows, (h, id). split; [exact E1|]. split; [exact E2|].
  intros Hid. injection Hid as -> ->. destruct (R2 ltac:(unfold left_out; rewrite Hs; lra)) as (_ & Hid & _). discriminate Hid.
Qed.
Print Assumptions c80_flat_refuted.
Example c80_case : exists s fuel f, series_new corner 2 false = Ret s /\ fft_new fuel s = Ret f /\ num_subsequences s = 4%nat /\
  sd_of (window corner 2 0) <> / 10000 /\ sd_of (window corner 2 3) <> / 10000 /\ hasher_ok (simple_hasher 1) 2.
Proof.
  destruct c79_case as (s & fuel & f & E & Ef & N & _). exists s, fuel, f. split; [exact E|]. split; [exact Ef|]. split; [exact N|].
  unfold window, corner. cbn [firstn skipn]. rewrite !sd_pair. replace (1 - 1) with 0 by ring. rewrite Rabs_R0, Rabs_left by lra. split; [lra|]. split; [lra|apply simple_ok; lra].
Qed.
