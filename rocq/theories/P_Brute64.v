(** C124: the brute-force searches in floating point. *)
From Coq Require Import Permutation Sorting.Sorted Reals Lra Lia Floats.SpecFloat.
From Flocq Require Import Core BinarySingleNaN.
From Verif Require Import Base F64 RSpec RealProofs SeriesProofs Overlaps OverlapsSpec OverlapsProofs FFT FFTProofs Iterator Brute BruteSpec BruteProofs MotifBfProofs P_Brute
  FpOps FloatSeries FloatSpec FloatProofs FloatRoll FloatBound FloatDist FloatDist2 FloatThr FloatErr FloatMean P_Float P_Float2 P_Acc P_Acc2 FloatHash ProjSpec P_Proj AccSpec P_Acc3 P_Prof FloatBrute BruteAccSpec.
Local Open Scope R_scope.

(** ** The profile of the search is the profile computed *)
Lemma mapM_inv {A B} (g : A -> res B) l r : mapM g l = Ret r -> Forall2 (fun a b => g a = Ret b) l r.
Proof.
  revert r. induction l as [|a l IH]; intros r; cbn [mapM]; intros H; [apply Ret_inj in H; subst r; constructor|].
  destruct (g a) as [b| |] eqn:Ea; try discriminate H. cbn [bind] in H. destruct (mapM g l) as [t| |]; try discriminate H. cbn [bind] in H.
  apply Ret_inj in H. subst r. constructor; [exact Ea|apply IH; reflexivity].
Qed.
Lemma Forall2_nth {A B} (P : A -> B -> Prop) l r : Forall2 P l r -> length r = length l /\ forall i a, nth_error l i = Some a -> exists b, nth_error r i = Some b /\ P a b.
Proof.
  induction 1 as [|a b l r H F (IH1 & IH2)]; [split; [reflexivity|intros [|i]; discriminate]|].
  split; [cbn; lia|]. intros [|i] x; cbn [nth_error]; [intros [= <-]; eauto|apply IH2].
Qed.
Lemma zipped {A B} (l : list A) (r : list B) i a b : nth_error l i = Some a -> nth_error r i = Some b -> nth_error (combine l r) i = Some (a, b).
Proof. revert l r. induction i as [|i IH]; intros [|x l] [|y r]; cbn [nth_error combine]; try discriminate; [intros [= <-] [= <-]; reflexivity|apply IH]. Qed.
Lemma take_more {A} (l : list A) q x : nth_error l q = Some x -> firstn (S q) l = firstn q l ++ [x].
Proof. revert l. induction q as [|q IH]; intros [|a l]; try discriminate; [intros [= ->]; reflexivity|]. cbn [nth_error]. intros H. cbn [firstn app]. f_equal. apply IH, H. Qed.
Lemma profile_same z s sdp from p : fdistance_profile z s sdp from = Ret p -> distance_profile (brute_series z s sdp) from = Ret p.
Proof.
  intros H. unfold fdistance_profile in H. destruct (fznormalized s from) as [buf| |] eqn:Eb; try discriminate H. cbn [bind] in H.
  unfold fprojections, assert_ in H. destruct (length buf =? fs_w s)%nat; [|discriminate H].
  destruct (mapM _ (seq 0 (fnum_subsequences s))) as [out| |] eqn:Eo in H; try discriminate H. cbn [bind] in H.
  apply mapM_inv, Forall2_nth in Eo. destruct Eo as (Lo & Ho). rewrite seq_length in Lo. apply mapM_inv, Forall2_nth in H. destruct H as (Lp & Hp).
  rewrite combine_length, seq_length, Lo, Nat.min_id in Lp.
  assert (At : forall i, (i < fnum_subsequences s)%nat -> exists d, nth_error p i = Some d /\ d = dp (brute_series z s sdp) from i /\ (i <> from -> s_flat (brute_series z s sdp) i = false -> is_nan (s_raw (brute_series z s sdp) from i) = false)).
  { intros i Li. assert (Hs : nth_error (seq 0 (fnum_subsequences s)) i = Some i) by (rewrite (nth_error_nth' _ 0%nat), seq_nth by (rewrite ?seq_length; lia); reflexivity).
    destruct (Ho i i Hs) as (x & Ex & Fx).
    destruct (Hp i (i, x)) as (d & Ed & G).
    { apply zipped; assumption. }
    exists d. split; [exact Ed|]. unfold dp. cbn [brute_series s_n s_flat s_raw]. unfold brute_raw. rewrite Eb. cbn [bind]. rewrite Fx. cbn [bind].
    cbv beta iota in G. destruct (Nat.eqb_spec i from) as [->|Ni]; [apply Ret_inj in G; subst d; split; [reflexivity|intros C; contradiction]|].
    destruct (fis_flat s i) as [[|]| |]; try discriminate G; cbn [bind] in G; [apply Ret_inj in G; subst d; split; [reflexivity|discriminate]|].
    destruct (is_nan _); cbn in G; [discriminate G|]. apply Ret_inj in G. subst d. split; [reflexivity|intros _ _; reflexivity]. }
  rewrite distance_profile_ok by (intros i Li Ni Fi; destruct (At i Li) as (d & _ & _ & N); apply N; assumption).
  f_equal. apply nth_error_ext. intros i. cbn [brute_series s_n]. destruct (Nat.lt_ge_cases i (fnum_subsequences s)) as [Li|Li].
  - destruct (At i Li) as (d & -> & -> & _). rewrite nth_error_map, (nth_error_nth' _ 0%nat), seq_nth by (rewrite ?seq_length; lia). reflexivity.
  - rewrite !(proj2 (nth_error_None _ _)); [reflexivity|lia|rewrite map_length, seq_length; lia].
Qed.

Section Search.
  Variables (z : zeros) (ts : list f64) (w : nat) (precise : bool) (s : fseries) (sdp : list f64 -> nat -> f64) (e : Z) (eps err gap : R).
  Hypothesis Mo : moderate ts.
  Hypothesis U : usable ts w.
  Hypothesis E : fseries_new z ts w precise = Ret s.
  Hypothesis He : 0 < eps <= / 64.
  Hypothesis Ac : accurate s (length ts - w) e eps.
  Hypothesis Fl : forall i, (i < length ts - w)%nat -> lively s i.
  Hypothesis Er : err <= 2 ^ 500.
  Hypothesis Hd : dots_within ts w s sdp eps err gap.
  Notation n := (length ts - w)%nat.
  Notation D := (exact_distance ts w).
  Notation C := (10 * INR w * eps).
  Notation bs := (brute_series z s sdp).

  Lemma bs_n : s_n bs = n.
  Proof. apply (made z ts w precise s Mo U E). Qed.
  Lemma bs_flat i : (i < n)%nat -> s_flat bs i = false.
  Proof. intros Li. cbn [brute_series s_flat]. rewrite (Fl i Li). reflexivity. Qed.
  Lemma bs_zeucl i j : (i < n)%nat -> (j < n)%nat -> distance_value (s_zeucl bs i j) /\ Rabs (fval (s_zeucl bs i j) ^ 2 - D i j ^ 2) <= C.
  Proof.
    intros Li Lj. cbn [brute_series s_zeucl].
    destruct (c100_distance z ts w precise s i j e eps Mo U E Li Lj (Fl i Li) (Fl j Lj) He (Ac i Li (Fl i Li)) (Ac j Lj (Fl j Lj))) as (d & Ed & V & Cl). rewrite Ed. auto.
  Qed.
  Lemma bs_pos : nonneg (s_zeucl bs).
  Proof. intros i j. cbn [brute_series s_zeucl]. destruct (fzeucl z s i j) as [d| |] eqn:Ed; [intros _; apply (fzeucl_sign _ _ _ _ _ Ed)|discriminate..]. Qed.
  Lemma bs_raw_pos : nonneg (s_raw bs).
  Proof.
    intros i j. cbn [brute_series s_raw]. unfold brute_raw. destruct (fznormalized s i) as [b| |]; cbn [bind]; try discriminate.
    destruct (fznormalized_value _ _ _ _); cbn [bind]; try discriminate. apply sqrt_sign.
  Qed.
  Lemma bs_profile from : (from < n)%nat -> exists profile, distance_profile bs from = Ret profile /\ length profile = n /\
    forall i, (i < n)%nat -> exists d, nth_error profile i = Some d /\ (i = from -> d = f_zero) /\
      (i <> from -> distance_value d /\ Rabs (fval d ^ 2 - D from i ^ 2) <= gap).
  Proof.
    intros Lf. destruct (at_window z ts w precise s from from e eps Mo U E Lf Lf from Lf (Fl from Lf) (Ac from Lf (Fl from Lf))) as (m & sd & (Em & Es & Eb) & _).
    assert (En : exists normal, fznormalized s from = Ret normal) by (unfold fznormalized; rewrite Em, Es, Eb; cbn [bind]; eauto). destruct En as (normal & En).
    destruct (c120_profile_partial z ts w precise s sdp from normal e eps err Mo U E Lf (Fl from Lf) He Ac En Er) as (p & Ep & Lp & Hp).
    { intros i Li Ni _. destruct (Hd from i normal Lf Li Ni En) as (A & B & G). split; [exact A|lra]. }
    exists p. split; [apply profile_same, Ep|]. split; [exact Lp|]. intros i Li. destruct (Hp i Li) as (d & Ed & H0 & _ & H1). exists d. split; [exact Ed|]. split; [exact H0|].
    intros Ni. destruct (H1 Ni (Fl i Li)) as (V & Cl). split; [exact V|]. destruct (Hd from i normal Lf Li Ni En) as (_ & B & _). lra.
  Qed.
  Lemma bs_raw from i : (from < n)%nat -> (i < n)%nat -> i <> from ->
    distance_value (s_raw bs from i) /\ Rabs (fval (s_raw bs from i) ^ 2 - D from i ^ 2) <= gap.
  Proof.
    intros Lf Li Ni. destruct (bs_profile from Lf) as (p & Ep & _ & Hp). destruct (Hp i Li) as (d & Ed & _ & H1).
    destruct (distance_profile_cases bs from) as [Ec|Ec]; [rewrite Ep in Ec; discriminate Ec|]. rewrite Ep in Ec. apply Ret_inj in Ec. subst p.
    rewrite nth_error_map, (nth_error_nth' _ 0%nat), seq_nth in Ed by (rewrite ?seq_length, ?bs_n; lia). cbn [option_map Nat.add] in Ed. injection Ed as Ed.
    unfold dp in Ed. destruct (Nat.eqb_spec i from); [contradiction|]. rewrite (bs_flat i Li) in Ed. rewrite Ed. apply H1, Ni.
  Qed.
  Lemma gap_far from i : (from < n)%nat -> (i < n)%nat -> i <> from -> gap < D from i ^ 2.
  Proof.
    intros Lf Li Ni. destruct (at_window z ts w precise s from from e eps Mo U E Lf Lf from Lf (Fl from Lf) (Ac from Lf (Fl from Lf))) as (m & sd & (Em & Es & Eb) & _).
    assert (En : exists normal, fznormalized s from = Ret normal) by (unfold fznormalized; rewrite Em, Es, Eb; cbn [bind]; eauto). destruct En as (normal & En).
    apply (Hd from i normal Lf Li Ni En).
  Qed.
  Lemma raw_far from i : (from < n)%nat -> (i < n)%nat -> i <> from -> flt f_zero (s_raw bs from i) = true.
  Proof.
    intros Lf Li Ni. destruct (bs_raw from i Lf Li Ni) as ((V & P) & Cl). pose proof (gap_far from i Lf Li Ni) as G.
    assert (Z : number f_zero) by (split; reflexivity). rewrite (flt_val _ _ Z V). apply Rlt_bool_true. change (fval f_zero) with 0.
    destruct P as [P|P]; [exact P|]. exfalso. rewrite <- P in Cl. apply abs_between in Cl. lra.
  Qed.
  Lemma sq_inv x y : 0 <= y -> x ^ 2 <= y ^ 2 -> x <= y.
  Proof. intros Hy H. destruct (Rle_dec x y) as [L|L]; [exact L|]. exfalso. assert (y ^ 2 < x ^ 2) by (cbn [pow]; nra). lra. Qed.
  Lemma close_order from i j : (from < n)%nat -> (i < n)%nat -> (j < n)%nat -> i <> from -> j <> from ->
    fle (s_raw bs from i) (s_raw bs from j) = true -> D from i ^ 2 <= D from j ^ 2 + 2 * gap.
  Proof.
    intros Lf Li Lj Ni Nj H. destruct (bs_raw from i Lf Li Ni) as (V & Cl), (bs_raw from j Lf Lj Nj) as (V' & Cl').
    apply fle_R in H; [|apply V|apply V']. pose proof (sq_le _ _ (proj2 V) H). apply abs_between in Cl, Cl'. lra.
  Qed.

  Lemma bs_returns order k ez t : (forall from d, (from < n)%nat -> distance_profile bs from = Ret d -> sort_outcome d (order from)) -> leaves t = seq 0 n ->
    exists motiflets, brute_force_motiflets bs order k ez t = Ret motiflets.
  Proof.
    intros Ho Hl.
    apply c22_no_flat_partial; rewrite ?bs_n; auto using bs_pos, bs_flat.
    intros x y Lx Ly. split; [intros Nxy; apply number_not_nan, (bs_raw x y Lx Ly); congruence|apply number_not_nan, (bs_zeucl x y Lx Ly)].
  Qed.

  (** extents, computed and exact *)
  Lemma bs_extent l x : (2 <= length l)%nat -> (forall i, In i l -> (i < n)%nat) -> max_pairwise (s_zeucl bs) l x ->
    distance_value x /\ forall r, widest D l r -> Rabs (fval x ^ 2 - r ^ 2) <= C.
  Proof.
    intros L2 Hl (_ & M & A). destruct (A L2) as (a & b & i & j & Lab & Hi & Hj & ->).
    assert (At : forall q k, nth_error l q = Some k -> (k < n)%nat) by (intros q k Hk; apply Hl, (nth_error_In _ _ Hk)).
    pose proof (At _ _ Hi) as Li. pose proof (At _ _ Hj) as Lj. destruct (bs_zeucl j i Lj Li) as (V & Cl). split; [exact V|].
    intros r (Mr & (a' & b' & i' & j' & Lab' & Hi' & Hj' & Er')).
    pose proof (At _ _ Hi') as Li'. pose proof (At _ _ Hj') as Lj'. destruct (bs_zeucl j' i' Lj' Li') as (V' & Cl').
    pose proof (Mr a b i j Lab Hi Hj) as R1. pose proof (M a' b' i' j' Lab' Hi' Hj') as R2. apply fle_R in R2; [|apply V'|apply V].
    rewrite (exact_sym ts w j i) in Cl by lia. rewrite (exact_sym ts w j' i'), <- Er' in Cl' by lia.
    pose proof (sq_le _ _ (exact_nonneg ts w i j) R1) as S1. pose proof (sq_le _ _ (proj2 V') R2) as S2.
    apply abs_between in Cl, Cl'. apply Rabs_le. lra.
  Qed.
  Lemma bs_max l : (2 <= length l)%nat -> (forall i, In i l -> (i < n)%nat) -> exists x, max_pairwise (s_zeucl bs) l x.
  Proof.
    intros L2 Hl. destruct (c18_extents (s_zeucl bs) l bs_pos) as (H & _). destruct H as (ext & _ & Le & Hm & _).
    { intros a b x y _ Hx Hy. apply number_not_nan, (bs_zeucl y x); apply Hl; eapply nth_error_In; eauto. }
    destruct (nth_error ext (length l - 1)) as [x|] eqn:Ex; [|apply nth_error_None in Ex; lia]. exists x. specialize (Hm _ _ Ex).
    replace (S (length l - 1)) with (length l) in Hm by lia. rewrite firstn_all in Hm. exact Hm.
  Qed.

  (** two ways of choosing the same neighbourhood *)
  Lemma same_greedy ez k m from N l : (0 < ez)%nat -> (from < n)%nat -> (m <= k)%nat ->
    greedy_neighbourhood (distance_from bs from) (fun i => (i < n)%nat) ez k from N ->
    greedy_exact (D from) (fun i => (i < n)%nat) ez m from l ->
    separated (fun i => D from i ^ 2) (fun i => (i < n)%nat) ez from (2 * gap) ->
    (m <= length N)%nat /\ firstn m N = l.
  Proof.
    intros Hez Lf Hm (N0 & N1 & N2 & N3) (G0 & G1 & G2) Sep.
    assert (Far : forall x c, In from c -> (forall y, In y c -> ~ too_close ez x y) -> ~ too_close ez from x /\ x <> from).
    { intros x c Hc F. split; [intros T; apply (F from Hc); unfold too_close in *; lia|intros ->; apply (F from Hc); unfold too_close; lia]. }
    assert (Hf : forall q, In from (firstn (S q) l)) by (intros q; destruct l as [|h l']; [discriminate G0|cbn in G0; injection G0 as ->; left; reflexivity]).
    assert (P : forall q, (q <= m)%nat -> (q <= length N)%nat /\ firstn q N = firstn q l).
    { induction q as [|q IH]; intros Hq; [split; [lia|reflexivity]|]. destruct (IH ltac:(lia)) as (Lq & Eq).
      destruct q as [|q]; [destruct N as [|a N], l as [|b l']; cbn in *; try discriminate; try lia; split; [lia|congruence]|].
      destruct (nth_error l (S q)) as [x|] eqn:Ex; [|apply nth_error_None in Ex; lia]. destruct (G2 q x Ex) as (Lx & Fx & Mx).
      destruct (nth_error N (S q)) as [y|] eqn:Ey.
      2: { exfalso. apply nth_error_None in Ey. assert (length N = S q) by lia. destruct (N3 ltac:(lia) x Lx) as (v & Hv & T).
           apply (Fx v); [|exact T]. rewrite <- Eq, firstn_all2 by lia. exact Hv. }
      assert (Hlt : (S q < length N)%nat) by (apply nth_error_Some; congruence). split; [lia|].
      destruct (N1 q y Ey) as (Ly & Fy & My). rewrite Eq in Fy, My.
      destruct (Far x _ (Hf q) Fx) as (Tx & Nx), (Far y _ (Hf q) Fy) as (Ty & Ny).
      assert (Q : x = y).
      { destruct (Nat.eq_dec x y) as [Q|Q]; [exact Q|]. exfalso. specialize (Mx y Ly Fy). specialize (My x Lx Fx). unfold distance_from in My.
        apply Nat.eqb_neq in Nx as Nx', Ny as Ny'. rewrite Nx', Ny' in My. pose proof (close_order from y x Lf Ly Lx Ny Nx My) as Cl.
        pose proof (sq_le _ _ (exact_nonneg ts w from x) Mx) as S1. specialize (Sep x y Lx Ly Tx Ty Q). revert Sep. cbv beta. unfold Rabs. destruct (Rcase_abs _); lra. }
      subst y. clear -Eq Ex Ey Hlt. rewrite (take_more _ _ _ Ex), (take_more _ _ _ Ey), Eq. reflexivity. }
    destruct (P m ltac:(lia)) as (A & B). split; [exact A|]. rewrite B. apply firstn_all2. lia.
  Qed.
End Search.

(** * C124 *)
(** The exact search for motiflets returns, and what it returns is what it claims to be: the
    extents are those of the definition, up to the rounding. *)
Theorem c124_motiflets_partial :
  forall (z : zeros) (ts : list f64) (w : nat) (precise : bool) (s : fseries) (sdp : list f64 -> nat -> f64) (e : Z) (eps err gap : R)
         (order : nat -> option (list nat)) (k ez : nat) (t : split),
    moderate ts -> usable ts w -> fseries_new z ts w precise = Ret s ->
    0 < eps <= / 64 -> accurate s (length ts - w) e eps -> (forall i, (i < length ts - w)%nat -> lively s i) ->
    err <= 2 ^ 500 -> dots_within ts w s sdp eps err gap ->
    let bs := brute_series z s sdp in
    (forall from d, (from < length ts - w)%nat -> distance_profile bs from = Ret d -> sort_outcome d (order from)) ->
    leaves t = seq 0 (length ts - w) ->
    exists motiflets, brute_force_motiflets bs order k ez t = Ret motiflets /\
      forall extent positions, In (extent, positions) motiflets ->
        (2 <= length positions <= k)%nat /\ Forall (fun i => (i < length ts - w)%nat) positions /\ pairwise_apart ez positions /\
        distance_value extent /\
        exists exact, widest (exact_distance ts w) positions exact /\ Rabs (fval extent ^ 2 - exact ^ 2) <= 10 * INR w * eps.
Proof.
  intros z ts w precise s sdp e eps err gap order k ez t Mo U E He Ac Fl Er Hd bs Ho Hl.
  destruct (bs_returns z ts w precise s sdp e eps err gap Mo U E He Ac Fl Er Hd order k ez t Ho Hl) as (ms & Em). exists ms. split; [exact Em|].
  pose proof (bs_n z ts w precise s sdp Mo U E) as En. fold bs in En.
  intros x l Hin. destruct (c19_motiflets_valid bs order k ez t ms) as (V & _); rewrite ?En; [apply bs_pos|exact Ho|exact Hl|exact Em|].
  destruct (V x l Hin) as (L & R & A & _ & M). rewrite En in R. split; [exact L|]. split; [exact R|]. split; [exact A|].
  rewrite Forall_forall in R. destruct (bs_extent z ts w precise s sdp e eps Mo U E He Ac Fl l x ltac:(lia) R M) as (D & Cl). split; [exact D|].
  destruct (widest_exists (exact_distance ts w) l ltac:(lia)) as (ex & W). exists ex. split; [exact W|]. apply Cl, W.
Qed.
Print Assumptions c124_motiflets_partial.

(** The pair returned is a closest one, up to the rounding. *)
Theorem c124_pair_partial :
  forall (z : zeros) (ts : list f64) (w : nat) (precise : bool) (s : fseries) (sdp : list f64 -> nat -> f64) (e : Z) (eps err gap : R)
         (order : nat -> option (list nat)) (k ez : nat) (t : split) (motiflets : list (f64 * list nat)),
    moderate ts -> usable ts w -> fseries_new z ts w precise = Ret s ->
    0 < eps <= / 64 -> accurate s (length ts - w) e eps -> (forall i, (i < length ts - w)%nat -> lively s i) ->
    err <= 2 ^ 500 -> dots_within ts w s sdp eps err gap ->
    let bs := brute_series z s sdp in
    (forall from d, (from < length ts - w)%nat -> distance_profile bs from = Ret d -> sort_outcome d (order from)) ->
    leaves t = seq 0 (length ts - w) -> (0 < ez)%nat -> (2 <= k)%nat ->
    brute_force_motiflets bs order k ez t = Ret motiflets ->
    forall a b, (a < length ts - w)%nat -> (b < length ts - w)%nat -> ~ too_close ez a b ->
    exists extent i j, In (extent, [i; j]) motiflets /\
      forall a b, (a < length ts - w)%nat -> (b < length ts - w)%nat -> ~ too_close ez a b ->
        fval extent ^ 2 <= exact_distance ts w a b ^ 2 + 2 * gap + 10 * INR w * eps /\
        exact_distance ts w i j ^ 2 <= exact_distance ts w a b ^ 2 + 2 * gap + 20 * INR w * eps.
Proof.
  intros z ts w precise s sdp e eps err gap order k ez t ms Mo U E He Ac Fl Er Hd bs Ho Hl Hez Hk Em a0 b0 La0 Lb0 T0.
  pose proof (bs_n z ts w precise s sdp Mo U E) as En. fold bs in En.
  destruct (c20_no_repeats_partial bs order k ez t ms) as (nb & G & B); rewrite ?En; try assumption.
  { apply bs_pos. }
  { apply bs_raw_pos. }
  { intros i Li. apply (bs_flat z ts w s sdp Fl i Li). }
  { intros i j Li Lj T. apply (raw_far z ts w precise s sdp e eps err gap Mo U E He Ac Fl Er Hd); auto. intros ->. apply T. unfold too_close. lia. }
  rewrite En in G, B. destruct (B 2%nat ltac:(lia)) as (Ex & Best). clear B.
  assert (Two : forall a b, (a < length ts - w)%nat -> (b < length ts - w)%nat -> ~ too_close ez a b ->
    exists c, firstn 2 (nb a) = [a; c] /\ (2 <= length (nb a))%nat /\ (c < length ts - w)%nat /\ exact_distance ts w a c ^ 2 <= exact_distance ts w a b ^ 2 + 2 * gap).
  { intros a b La Lb T. destruct (G a La) as (N0 & N1 & N2 & N3). destruct (nb a) as [|h l] eqn:El; [discriminate N0|]. cbn in N0. injection N0 as ->.
    destruct l as [|c l].
    - exfalso. destruct (N3 ltac:(cbn; lia) b Lb) as (y & [<-|[]] & Ty). apply T. unfold too_close in *. lia.
    - exists c. split; [reflexivity|]. split; [cbn; lia|]. destruct (N1 0%nat c eq_refl) as (Lc & Fc & Mc). split; [exact Lc|].
      assert (Nc : c <> a) by (intros ->; apply (Fc a (or_introl eq_refl)); unfold too_close; lia).
      assert (Nb : b <> a) by (intros ->; apply T; unfold too_close; lia).
      specialize (Mc b Lb). unfold distance_from in Mc. apply Nat.eqb_neq in Nc as Nc', Nb as Nb'. rewrite Nc', Nb' in Mc.
      apply (close_order z ts w precise s sdp e eps err gap Mo U E He Ac Fl Er Hd a c b La Lc Lb Nc Nb). apply Mc. intros y [<-|[]]. unfold too_close in *. lia. }
  assert (Some2 : exists x l, In (x, l) ms /\ length l = 2%nat).
  { apply Ex. destruct (Two a0 b0 La0 Lb0 T0) as (c & Ec & Lc & Hc & _). 
    assert (Hin : forall i, In i [a0; c] -> (i < length ts - w)%nat) by (intros i [<-|[<-|[]]]; assumption).
    destruct (bs_max z ts w precise s sdp e eps Mo U E He Ac Fl [a0; c] ltac:(cbn; lia) Hin) as (x & Mx).
    exists a0, x. split; [exact La0|]. split; [exact Lc|]. rewrite Ec. split; [exact Mx|].
    apply (bs_extent z ts w precise s sdp e eps Mo U E He Ac Fl [a0; c] x ltac:(cbn; lia) Hin Mx). }
  destruct Some2 as (x & l & Hin & L2). destruct (Best x l Hin L2) as (_ & Bst). destruct l as [|i [|j [|? ?]]]; try discriminate L2.
  exists x, i, j. split; [exact Hin|]. intros a b La Lb T. destruct (Two a b La Lb T) as (c & Ec & Lc & Hc & Cl).
  assert (Hin' : forall i, In i [a; c] -> (i < length ts - w)%nat) by (intros q [<-|[<-|[]]]; assumption).
  destruct (bs_max z ts w precise s sdp e eps Mo U E He Ac Fl [a; c] ltac:(cbn; lia) Hin') as (x' & Mx).
  specialize (Bst a x' La Lc). rewrite Ec in Bst. specialize (Bst Mx).
  assert (Pair : forall p q, widest (exact_distance ts w) [p; q] (exact_distance ts w p q)).
  { intros p q. split; [|exists 0%nat, 1%nat, p, q; repeat split; lia].
    intros [|u] [|[|v]] x0 y Luv Hx Hy; cbn in Hx, Hy; try lia; try discriminate; [injection Hx as <-; injection Hy as <-; lra|destruct v; discriminate|destruct u, v; discriminate]. }
  destruct (bs_extent z ts w precise s sdp e eps Mo U E He Ac Fl [a; c] x' ltac:(cbn; lia) Hin' Mx) as (V' & C'). specialize (C' _ (Pair a c)).
  destruct (c19_motiflets_valid bs order k ez t ms) as (V & _); rewrite ?En; [apply bs_pos|exact Ho|exact Hl|exact Em|].
  destruct (V x [i; j] Hin) as (_ & R & _ & _ & M). rewrite En, Forall_forall in R.
  destruct (bs_extent z ts w precise s sdp e eps Mo U E He Ac Fl [i; j] x ltac:(cbn; lia) R M) as (Vx & Cx). specialize (Cx _ (Pair i j)).
  apply fle_R in Bst; [|apply Vx|apply V']. pose proof (sq_le _ _ (proj2 Vx) Bst) as S. apply abs_between in C', Cx. lra.
Qed.
Print Assumptions c124_pair_partial.

(** Larger supports: [l] is the neighbourhood of window [from] by exact distances, and no two
    windows are at nearly the same distance of [from]. *)
Theorem c124_group_partial :
  forall (z : zeros) (ts : list f64) (w : nat) (precise : bool) (s : fseries) (sdp : list f64 -> nat -> f64) (e : Z) (eps err gap : R)
         (order : nat -> option (list nat)) (k ez : nat) (t : split) (motiflets : list (f64 * list nat)),
    moderate ts -> usable ts w -> fseries_new z ts w precise = Ret s ->
    0 < eps <= / 64 -> accurate s (length ts - w) e eps -> (forall i, (i < length ts - w)%nat -> lively s i) ->
    err <= 2 ^ 500 -> dots_within ts w s sdp eps err gap ->
    let bs := brute_series z s sdp in
    (forall from d, (from < length ts - w)%nat -> distance_profile bs from = Ret d -> sort_outcome d (order from)) ->
    leaves t = seq 0 (length ts - w) -> (0 < ez)%nat ->
    brute_force_motiflets bs order k ez t = Ret motiflets ->
    forall (support from : nat) (l : list nat) (best : R),
      (2 <= support <= k)%nat -> (from < length ts - w)%nat ->
      separated (fun i => exact_distance ts w from i ^ 2) (fun i => (i < length ts - w)%nat) ez from (2 * gap) ->
      greedy_exact (exact_distance ts w from) (fun i => (i < length ts - w)%nat) ez support from l ->
      widest (exact_distance ts w) l best ->
      exists extent positions exact, In (extent, positions) motiflets /\ length positions = support /\ widest (exact_distance ts w) positions exact /\
        fval extent ^ 2 <= best ^ 2 + 10 * INR w * eps /\ exact ^ 2 <= best ^ 2 + 20 * INR w * eps.
Proof.
  intros z ts w precise s sdp e eps err gap order k ez t ms Mo U E He Ac Fl Er Hd bs Ho Hl Hez Em m from l best Hm Lf Sep Gl Wl.
  pose proof (bs_n z ts w precise s sdp Mo U E) as En. fold bs in En.
  destruct (c20_no_repeats_partial bs order k ez t ms) as (nb & G & B); rewrite ?En; try assumption.
  { apply bs_pos. }
  { apply bs_raw_pos. }
  { intros i Li. apply (bs_flat z ts w s sdp Fl i Li). }
  { intros i j Li Lj T. apply (raw_far z ts w precise s sdp e eps err gap Mo U E He Ac Fl Er Hd); auto. intros ->. apply T. unfold too_close. lia. }
  rewrite En in G, B. destruct (B m Hm) as (Ex & Best).
  destruct (same_greedy z ts w precise s sdp e eps err gap Mo U E He Ac Fl Er Hd ez k m from (nb from) l Hez Lf ltac:(lia) (G from Lf) Gl Sep) as (Lm & El).
  destruct Gl as (G0 & G1 & G2).
  assert (Hin : forall i, In i l -> (i < length ts - w)%nat).
  { intros i Hi. apply In_nth_error in Hi. destruct Hi as ([|q] & Hq); [congruence|apply (G2 q i Hq)]. }
  destruct (bs_max z ts w precise s sdp e eps Mo U E He Ac Fl l ltac:(lia) Hin) as (x' & Mx).
  destruct (bs_extent z ts w precise s sdp e eps Mo U E He Ac Fl l x' ltac:(lia) Hin Mx) as (V' & C'). specialize (C' _ Wl).
  assert (Has : exists x l, In (x, l) ms /\ length l = m).
  { apply Ex. exists from, x'. split; [exact Lf|]. split; [exact Lm|]. rewrite El. split; [exact Mx|]. apply V'. }
  destruct Has as (x & ps & Hx & Lp). destruct (Best x ps Hx Lp) as (_ & Bst). specialize (Bst from x' Lf Lm). rewrite El in Bst. specialize (Bst Mx).
  destruct (c19_motiflets_valid bs order k ez t ms) as (V & _); rewrite ?En; [apply bs_pos|exact Ho|exact Hl|exact Em|].
  destruct (V x ps Hx) as (_ & R & _ & _ & M). rewrite En, Forall_forall in R.
  destruct (bs_extent z ts w precise s sdp e eps Mo U E He Ac Fl ps x ltac:(lia) R M) as (Vx & Cx).
  destruct (widest_exists (exact_distance ts w) ps ltac:(lia)) as (ex & W). specialize (Cx _ W).
  exists x, ps, ex. split; [exact Hx|]. split; [exact Lp|]. split; [exact W|].
  apply fle_R in Bst; [|apply Vx|apply V']. pose proof (sq_le _ _ (proj2 Vx) Bst) as S. apply abs_between in C', Cx. lra.
Qed.
Print Assumptions c124_group_partial.

(** The exact search for motifs: the first pair is a closest one, up to the rounding. *)
Theorem c124_motif_partial :
  forall (z : zeros) (ts : list f64) (w : nat) (precise : bool) (s : fseries) (sdp : list f64 -> nat -> f64) (e : Z) (eps err gap : R) (ez : nat),
    moderate ts -> usable ts w -> fseries_new z ts w precise = Ret s ->
    0 < eps <= / 64 -> accurate s (length ts - w) e eps -> (forall i, (i < length ts - w)%nat -> lively s i) ->
    err <= 2 ^ 500 -> dots_within ts w s sdp eps err gap -> (0 < ez)%nat ->
    exists pairs, nn_motifs (brute_series z s sdp) ez = Ret pairs /\
      forall (sorted : list motif) (k a b : nat),
        Permutation sorted pairs -> StronglySorted (fun x y => motif_le x y = true) sorted -> (1 <= k)%nat ->
        (a < length ts - w)%nat -> (b < length ts - w)%nat -> ~ too_close ez a b ->
        exists first, nth_error (brute_force_motifs sorted k ez) 0 = Some first /\
          (m_a first <= m_b first < length ts - w)%nat /\ ~ too_close ez (m_a first) (m_b first) /\
          distance_value (m_dist first) /\
          Rabs (fval (m_dist first) ^ 2 - exact_distance ts w (m_a first) (m_b first) ^ 2) <= gap /\
          fval (m_dist first) ^ 2 <= exact_distance ts w a b ^ 2 + gap /\
          exact_distance ts w (m_a first) (m_b first) ^ 2 <= exact_distance ts w a b ^ 2 + 2 * gap.
Proof.
  intros z ts w precise s sdp e eps err gap ez Mo U E He Ac Fl Er Hd Hez.
  pose proof (bs_n z ts w precise s sdp Mo U E) as En. set (bs := brute_series z s sdp) in *.
  assert (Hp : exists pairs, nn_motifs bs ez = Ret pairs).
  { unfold nn_motifs. rewrite En. assert (G : forall l acc, (forall i, In i l -> (i < length ts - w)%nat) -> exists r,
      foreach l (fun i acc => let! '(d, j) := nearest_neighbor_bf bs ez i in Ret (acc ++ [Motif (Nat.min i j) (Nat.max i j) d])) acc = Ret r).
    { induction l as [|i l IH]; intros acc Hl; [eexists; reflexivity|]. cbn [foreach].
      destruct (bs_profile z ts w precise s sdp e eps err gap Mo U E He Ac Fl Er Hd i (Hl i (or_introl eq_refl))) as (p & Ep & _). fold bs in Ep.
      unfold nearest_neighbor_bf at 1. rewrite Ep. cbn [bind].
      assert (F : forall (c : list (nat * f64)) (s0 : f64 * nat), exists r, foreach c (fun jd (s : f64 * nat) => let '(j, d) := jd in let '(nearest, nearest_idx) := s in
         if negb (overlaps j i ez) && flt d nearest then Ret (d, j) else Ret (nearest, nearest_idx)) s0 = Ret r).
      { induction c as [|(j & d) c IHc]; intros (u & v); [eexists; reflexivity|]. cbn [foreach]. destruct (_ && _); cbn [bind]; apply IHc. }
      destruct (F (combine (seq 0 (length p)) p) (f_inf, 0%nat)) as ((d & j) & Ef). rewrite Ef. cbn [bind]. apply IH. intros q Hq. apply Hl. right. exact Hq. }
    apply G. intros i Hi. apply in_seq in Hi. lia. }
  destruct Hp as (pairs & Ep). exists pairs. split; [exact Ep|]. intros sorted k a b P S Hk La Lb T.
  assert (Nab : b <> a) by (intros ->; apply T; unfold too_close; lia).
  destruct (c24_first_is_closest bs k ez pairs sorted _ Hez Ep P S eq_refl) as (_ & _ & _ & H).
  destruct (bs_raw z ts w precise s sdp e eps err gap Mo U E He Ac Fl Er Hd a b La Lb Nab) as (V & Cl). fold bs in V, Cl.
  assert (Fin : flt (s_raw bs a b) f_inf = true) by (destruct V as ((_ & Fi) & _); destruct (s_raw bs a b) as [[|]|[|]| |[|] m' e']; cbn in Fi |- *; try discriminate; reflexivity).
  destruct (H a b Hk) as (first & Hf & Le & Lb' & T' & Hm); rewrite ?En; auto.
  { apply (bs_flat z ts w s sdp Fl b Lb). }
  destruct (nn_flt_inf bs ez pairs Ep first) as (i & j & Li & Lj & Tij & Ea & Eb & _).
  { apply (Permutation_in _ P). pose proof (nth_error_In _ _ Hf) as Hin. apply pick_motifs_in in Hin. destruct Hin as [[]|Hin]. exact Hin. }
  { exact (fle_flt_trans _ _ _ Le Fin). }
  rewrite En in Li, Lj, Lb'. exists first. split; [exact Hf|]. split; [lia|]. split; [exact T'|].
  assert (La' : (m_a first < length ts - w)%nat) by lia.
  assert (Nf : m_b first <> m_a first) by (intros Q; apply T'; rewrite Q; unfold too_close; lia).
  assert (Q : distance_value (m_dist first) /\ Rabs (fval (m_dist first) ^ 2 - exact_distance ts w (m_a first) (m_b first) ^ 2) <= gap).
  { destruct Hm as [-> | ->]; [apply (bs_raw z ts w precise s sdp e eps err gap Mo U E He Ac Fl Er Hd); assumption|].
    rewrite (exact_sym ts w (m_a first) (m_b first)) by lia. apply (bs_raw z ts w precise s sdp e eps err gap Mo U E He Ac Fl Er Hd); auto. }
  destruct Q as (V1 & C1). split; [exact V1|]. split; [exact C1|].
  apply fle_R in Le; [|apply V1|apply V]. pose proof (sq_le _ _ (proj2 V1) Le) as Sq. apply abs_between in C1, Cl. lra.
Qed.
Print Assumptions c124_motif_partial.

(** The values 1 0 0 1 3 0, windows of length 3, dot products computed directly.  The
    squared distances are 9, about 10.5 and about 0.33. *)
Definition data_br : list f64 := nums [1; 0; 0; 1; 3; 0]%nat.
Definition series_br : fseries := match fseries_new z_ex data_br 3 true with Ret s => s | _ => FSeries [] 0 [] [] end.
Definition dot_br (v : list f64) (i : nat) : f64 := match fsubsequence series_br i with Ret b => fdot z_ex v b | _ => f_nan end.
Definition order_br (from : nat) : option (list nat) := match from with 0 => Some [0; 1; 2]%nat | 1 => Some [1; 2; 0]%nat | _ => Some [2; 1; 0]%nat end.
Definition extent_br : f64 := S754_finite false 7309015335671555 (-51).

Lemma br_window i : (i < 3)%nat -> exact_window data_br 3 i = nth i [[1; 0; 0]; [0; 0; 1]; [0; 1; 3]] [].
Proof.
  intros Li. unfold exact_window, data_br, nums. rewrite skipn_map, firstn_map. fold (nums (firstn 3 (skipn i [1; 0; 0; 1; 3; 0]%nat))).
  do 3 (destruct i as [|i]; [rewrite exact_nums, (map_ext _ _ INR_IZR_INZ) by (intros n Hn; cbn in Hn; lia); reflexivity|]). lia.
Qed.
Lemma br_mean i : (i < 3)%nat -> mean_of (exact_window data_br 3 i) = nth i [/ 3; / 3; 4 / 3] 0.
Proof. intros Li. rewrite (br_window i Li). do 3 (destruct i as [|i]; [unfold mean_of, total; cbn [nth fold_right length INR]; lra|]). lia. Qed.
Lemma br_sd i : (i < 3)%nat -> sd_of (exact_window data_br 3 i) = nth i [sqrt (2 / 9); sqrt (2 / 9); sqrt (14 / 9)] 0.
Proof.
  intros Li. unfold sd_of. rewrite (br_mean i Li), (br_window i Li).
  do 3 (destruct i as [|i]; [unfold mean_of, total; cbn [nth map fold_right length INR]; f_equal; lra|]). lia.
Qed.
Lemma br_distances : exact_distance data_br 3 0 1 ^ 2 = 9 /\ 10 <= exact_distance data_br 3 0 2 ^ 2 <= 11 /\ / 4 <= exact_distance data_br 3 1 2 ^ 2 <= 1.
Proof.
  assert (Q : / sqrt (2 / 9) * / sqrt (2 / 9) = 9 / 2) by (rewrite <- Rinv_mult, sqrt_sqrt by lra; field).
  assert (P : / sqrt (14 / 9) * / sqrt (14 / 9) = 9 / 14) by (rewrite <- Rinv_mult, sqrt_sqrt by lra; field).
  assert (B : 168 / 100 <= / sqrt (2 / 9) * / sqrt (14 / 9) <= 172 / 100).
  { rewrite <- Rinv_mult, <- sqrt_mult by lra. assert (S : 582 / 1000 <= sqrt (2 / 9 * (14 / 9)) <= 595 / 1000).
    { split; [rewrite <- (sqrt_square (582 / 1000)) by lra|rewrite <- (sqrt_square (595 / 1000)) by lra]; apply sqrt_le_1_alt; lra. }
    split; [replace (168 / 100) with (/ (100 / 168)) by lra; apply Rinv_le_contravar; lra|replace (172 / 100) with (/ (100 / 172)) by lra; apply Rinv_le_contravar; lra]. }
  assert (Sq : forall a b, (a < 3)%nat -> (b < 3)%nat -> exact_distance data_br 3 a b ^ 2 =
     total (map (fun xy => (fst xy - snd xy) * (fst xy - snd xy)) (combine (znorm (exact_window data_br 3 a)) (znorm (exact_window data_br 3 b))))).
  { intros a b La Lb. unfold exact_distance, zdistance, euclid. cbn [pow]. rewrite Rmult_1_r, sqrt_sqrt; [reflexivity|].
    generalize (combine (znorm (exact_window data_br 3 a)) (znorm (exact_window data_br 3 b))). intros l. unfold total. induction l as [|x l IH]; cbn [map fold_right]; [lra|].
    pose proof (Rle_0_sqr (fst x - snd x)) as H. unfold Rsqr in H. lra. }
  rewrite !Sq by lia. unfold znorm. rewrite ?br_mean, ?br_sd, ?br_window by lia. unfold total, Rdiv. cbn [nth map combine fold_right fst snd].
  unfold Rdiv in Q, P, B. set (q := / sqrt (2 * / 9)) in *. set (p := / sqrt (14 * / 9)) in *. clearbody q p.
  set (g := q * p) in *.
  split; [|split].
  - match goal with |- ?d = _ => replace d with (2 * (q * q)) by ring end. lra.
  - match goal with |- _ <= ?d <= _ => replace d with (6 / 9 * (q * q) + 42 / 9 * (p * p) + 24 / 9 * g) by (unfold g; field) end. lra.
  - match goal with |- _ <= ?d <= _ => replace d with (6 / 9 * (q * q) + 42 / 9 * (p * p) - 30 / 9 * g) by (unfold g; field) end. lra.
Qed.
Example c124_case :
  moderate data_br /\ usable data_br 3 /\ fseries_new z_ex data_br 3 true = Ret series_br /\ (length data_br - 3)%nat = 3%nat /\
  accurate series_br 3 2 (/ 2 ^ 40) /\ (forall i, (i < 3)%nat -> lively series_br i) /\
  dots_within data_br 3 series_br dot_br (/ 2 ^ 40) (/ 2 ^ 40) (/ 2 ^ 20) /\
  (forall from d, (from < 3)%nat -> distance_profile (brute_series z_ex series_br dot_br) from = Ret d -> sort_outcome d (order_br from)) /\
  separated (fun i => exact_distance data_br 3 0 i ^ 2) (fun i => (i < 3)%nat) 1 0 (2 * / 2 ^ 20) /\
  greedy_exact (exact_distance data_br 3 0) (fun i => (i < 3)%nat) 1 3 0 [0; 1; 2]%nat /\
  brute_force_motiflets (brute_series z_ex series_br dot_br) order_br 3 1 (Node (Leaf [0%nat]) (Leaf [1; 2]%nat)) =
    Ret [(s_zeucl (brute_series z_ex series_br dot_br) 1 2, [1; 2]); (extent_br, [0; 1; 2])]%nat /\
  exists pairs d1 d2, nn_motifs (brute_series z_ex series_br dot_br) 1 = Ret pairs /\ pairs = [Motif 0 1 d1; Motif 1 2 d2; Motif 1 2 d2] /\
    brute_force_motifs [Motif 1 2 d2; Motif 1 2 d2; Motif 0 1 d1] 2 1 = [Motif 1 2 d2].
Proof.
  assert (Us : usable data_br 3) by (unfold usable; vm_compute; split; [lia|discriminate]).
  assert (Mo : moderate data_br) by (apply nums_moderate; intros n Hn; cbn in Hn; lia).
  assert (En : fseries_new z_ex data_br 3 true = Ret series_br) by (vm_compute; reflexivity).
  assert (Am : at_most 2 data_br) by (apply (nums_at_most 2); [intros n Hn; cbn in Hn; lia|lia]).
  assert (P51 : bp (-51) = / 2251799813685248) by reflexivity.
  assert (P40 : / 2 ^ 40 = / 1099511627776) by (rewrite (pow_IZR 2 40); reflexivity).
  assert (P20 : / 2 ^ 20 = / 1048576) by (rewrite (pow_IZR 2 20); reflexivity).
  assert (S4 : forall i, (i < 3)%nat -> / 4 <= sd_of (exact_window data_br 3 i)).
  { intros i Li. rewrite (br_sd i Li). do 3 (destruct i as [|i]; [cbn [nth]; rewrite <- (sqrt_square (/ 4)) by lra; apply sqrt_le_1_alt; lra|]). lia. }
  destruct br_distances as (D01 & D02 & D12).
  assert (Sy : forall a b, (a < 3)%nat -> (b < 3)%nat -> exact_distance data_br 3 a b = exact_distance data_br 3 b a) by (intros a b La Lb; apply exact_sym; cbn; lia).
  split; [exact Mo|]. split; [exact Us|]. split; [exact En|]. split; [reflexivity|]. split.
  { intros i Li _. apply (c100_precise z_ex data_br 3); [exact Mo|exact Us|exact En|cbn; lia|lia|intros x Hx; apply Am; eapply win_incl; exact Hx|].
    specialize (S4 i Li). rewrite !power_bp, P51, P40. change (bp 2) with 4. cbn [INR]. lra. }
  split; [intros i Li; do 3 (destruct i as [|i]; [vm_compute; reflexivity|]); lia|].
  split.
  { intros from i normal Lf Li Ni Hn. change (length data_br - 3)%nat with 3%nat in *.
    assert (Dw : dot_within data_br 3 normal i (/ 2 ^ 40) (dot_br normal i)).
    { unfold dot_within. rewrite (br_window i Li).
      assert (Val : forall sg m e, fval (S754_finite sg m e) = IZR (cond_Zopp sg (Zpos m)) * bp e) by reflexivity.
      assert (B52 : bp (-52) = / 4503599627370496) by reflexivity. assert (B53 : bp (-53) = / 9007199254740992) by reflexivity. assert (B54 : bp (-54) = / 18014398509481984) by reflexivity.
      do 3 (destruct from as [|from]; [do 3 (destruct i as [|i]; [try lia; 
        (vm_compute in Hn; apply Ret_inj in Hn; subst normal; match goal with |- context [dot_br ?v ?j] => let x := eval vm_compute in (dot_br v j) in replace (dot_br v j) with x by (vm_compute; reflexivity) end;
         split; [split; vm_compute; reflexivity|]; unfold inner, total; cbn [nth map combine fold_right fst snd]; rewrite ?Val, ?B52, ?B53, ?B54, ?P51, P40; cbn [cond_Zopp Z.opp]; apply Rabs_le; lra)|]); lia|]); lia. }
    split; [exact Dw|]. specialize (S4 i Li).
    assert (Inv : / sd_of (exact_window data_br 3 i) <= 4) by (rewrite <- (Rinv_inv 4); apply Rinv_le_contravar; lra).
    assert (Inv0 : 0 < / sd_of (exact_window data_br 3 i)) by (apply Rinv_0_lt_compat; lra).
    split; [unfold Rdiv; cbn [INR]; rewrite P40, P20; nra|]. rewrite P20.
    do 3 (destruct from as [|from]; [do 3 (destruct i as [|i]; [try lia; first [lra|rewrite Sy by lia; lra]|]); lia|]); lia. }
  split; [intros from d Lf Hd; revert Hd; do 3 (destruct from as [|from]; [intros Hd; vm_compute in Hd; apply Ret_inj in Hd; subst d; apply sort_outcome_check; vm_compute; reflexivity|]); lia|].
  split.
  { intros x y Lx Ly Tx Ty N. unfold too_close in *. rewrite P20. destruct x as [|[|[|x]]], y as [|[|[|y]]]; try lia; try (exfalso; apply Tx; cbn; lia); try (exfalso; apply Ty; cbn; lia);
    unfold Rabs; destruct (Rcase_abs _); lra. }
  split.
  { split; [reflexivity|]. split; [reflexivity|]. intros [|[|[|q]]] x Hx; cbn [nth_error] in Hx; try discriminate Hx; injection Hx as <-; (split; [lia|]); (split; [intros y Hy; cbn in Hy; unfold too_close; lia|]);
    intros v Lv Fv; assert (Nv : v <> 0%nat) by (intros ->; apply (Fv 0%nat); [left; reflexivity|unfold too_close; lia]).
    - destruct v as [|[|[|v]]]; try lia; [lra|]. apply sq_inv; [apply exact_nonneg|lra].
    - assert (v <> 1%nat) by (intros ->; apply (Fv 1%nat); [right; left; reflexivity|unfold too_close; lia]). destruct v as [|[|[|v]]]; try lia. lra. }
  split; [vm_compute; reflexivity|].
  eexists _, _, _. split; [vm_compute; reflexivity|]. split; [reflexivity|vm_compute; reflexivity].
Qed.
