(** C101, C102: how good the answers of a search over floating point numbers are. *)
From Coq Require Import Reals Lra Lia Floats.SpecFloat.
From Flocq Require Import Core BinarySingleNaN.
From Verif Require Import Base F64 RSpec RealProofs SeriesProofs HashValue OverlapsSpec Moves BruteSpec TopK Iterator IteratorSpec IteratorSteps P_Iterator GuaranteeSpec P_Guarantee
  FpOps FloatSeries FloatSpec FloatProofs FloatRoll FloatBound FloatDist FloatDist2 FloatThr FloatErr FloatMean FloatSd FloatVar FloatSum FloatTerm FloatPair P_Float P_Float2 P_Acc P_Acc2 AccSpec.
Local Open Scope R_scope.

Lemma exact_sym ts w i j : (i + w <= length ts)%nat -> (j + w <= length ts)%nat -> exact_distance ts w i j = exact_distance ts w j i.
Proof.
  intros Hi Hj. unfold exact_distance, zdistance. apply euclid_sym. unfold znorm, exact_window. rewrite !map_length, !firstn_length, !skipn_length. lia.
Qed.
Lemma exact_nonneg ts w i j : 0 <= exact_distance ts w i j.
Proof. apply euclid_nonneg. Qed.
Lemma sq_le x y : 0 <= x -> x <= y -> x ^ 2 <= y ^ 2.
Proof. intros. apply pow_incr. lra. Qed.

(** a list of at least two windows has an exact extent *)
Lemma row_max (D : nat -> R) (l : list nat) : l <> [] -> exists y, In y l /\ forall x, In x l -> D x <= D y.
Proof.
  induction l as [|a l IH]; [congruence|]. intros _. destruct l as [|b l]; [exists a; split; [left; reflexivity|intros x [<-|[]]; lra]|].
  destruct IH as (y & Hy & My); [discriminate|]. destruct (Rle_dec (D a) (D y)).
  - exists y. split; [right; exact Hy|]. intros x [<-|Hx]; auto.
  - exists a. split; [left; reflexivity|]. intros x [<-|Hx]; [lra|]. specialize (My x Hx). lra.
Qed.
Lemma widest_exists D l : (2 <= length l)%nat -> exists e, widest D l e.
Proof.
  induction l as [|a l IH]; [cbn; lia|]. intros L. destruct l as [|b l]; [cbn in L; lia|].
  destruct (row_max (D a) (b :: l)) as (y & Hy & My); [discriminate|]. apply In_nth_error in Hy. destruct Hy as (qy & Hqy).
  destruct (Nat.eq_dec (length l) 0) as [Z|N].
  - destruct l; [|discriminate]. exists (D a b). split.
    + intros [|i] [|[|j]] u v Lij Hu Hv; cbn in Hu, Hv; try lia; try discriminate; [injection Hu as <-; injection Hv as <-; lra|destruct j; discriminate|destruct i, j; discriminate].
    + exists 0%nat, 1%nat, a, b. repeat split. lia.
  - destruct IH as (e & M & (i & j & x & z & Lij & Hx & Hz & Ee)); [cbn in *; lia|].
    destruct (Rle_dec e (D a y)).
    + exists (D a y). split; [|exists 0%nat, (S qy), a, y; repeat split; [lia|exact Hqy]].
      intros [|p] [|q] u v Lpq Hu Hv; try lia; cbn [nth_error] in Hu, Hv.
      * injection Hu as <-. apply My. eapply nth_error_In; eauto.
      * apply Rle_trans with e; [|lra]. apply (M p q u v); [lia|exact Hu|exact Hv].
    + exists e. split; [|exists (S i), (S j), x, z; repeat split; [lia|exact Hx|exact Hz|exact Ee]].
      intros [|p] [|q] u v Lpq Hu Hv; try lia; cbn [nth_error] in Hu, Hv.
      * injection Hu as <-. apply Rle_trans with (D a y); [|lra]. apply My. eapply nth_error_In; eauto.
      * apply (M p q u v); [lia|exact Hu|exact Hv].
Qed.

Section Search.
  Variables (z : zeros) (ts : list f64) (w : nat) (precise : bool) (s : fseries) (p : problem) (e : Z) (eps : R).
  Hypothesis Mo : moderate ts.
  Hypothesis U : usable ts w.
  Hypothesis E : fseries_new z ts w precise = Ret s.
  Hypothesis So : search_over z ts w s p.
  Hypothesis He : 0 < eps <= / 64.
  Hypothesis Ac : accurate s (length ts - w) e eps.
  Notation D := (exact_distance ts w).
  Notation n := (length ts - w)%nat.
  Notation B := (10 * sqrt (INR w) * eps).
  Notation C := (10 * INR w * eps).

  Lemma B_pos : 0 <= B. Proof. pose proof (sqrt_pos (INR w)). apply Rmult_le_pos; lra. Qed.
  Lemma C_pos : 0 <= C. Proof. pose proof (pos_INR w). apply Rmult_le_pos; lra. Qed.
  Lemma in_series i : (i < n)%nat -> (i + w <= length ts)%nat. Proof. lia. Qed.
  Lemma D_sym i j : (i < n)%nat -> (j < n)%nat -> D i j = D j i.
  Proof. intros. apply exact_sym; lia. Qed.
  Lemma idx i : indexed p i -> (i < n)%nat /\ lively s i.
  Proof. intros Hi. split; [rewrite <- (so_n _ _ _ _ _ So); apply Hi|apply (so_lively _ _ _ _ _ So), Hi]. Qed.

  Lemma Z_close i j : (i < n)%nat -> (j < n)%nat -> lively s i -> lively s j ->
    distance_value (p_zeucl p i j) /\ Rabs (fval (p_zeucl p i j) ^ 2 - D i j ^ 2) <= C.
  Proof.
    intros Li Lj Fi Fj. rewrite (so_zeucl _ _ _ _ _ So).
    destruct (c100_distance z ts w precise s i j e eps Mo U E Li Lj Fi Fj He (Ac i Li Fi) (Ac j Lj Fj)) as (d & Ed & V & Cl). rewrite Ed. auto.
  Qed.

  (** the distance of the routine with a threshold *)
  Definition T (i j : nat) : f64 := match fzeucl_threshold z s (Nat.min i j) (Nat.max i j) f_inf with Ret (Some d) => d | _ => f_nan end.
  Lemma T_close i j : (i < n)%nat -> (j < n)%nat -> lively s i -> lively s j -> distance_value (T i j) /\ Rabs (fval (T i j) - D i j) <= B.
  Proof.
    intros Li Lj Fi Fj. unfold T.
    assert (Q : exists a b, Nat.min i j = a /\ Nat.max i j = b /\ (a < n)%nat /\ (b < n)%nat /\ lively s a /\ lively s b /\ D i j = D a b).
    { destruct (Nat.le_ge_cases i j); [exists i, j|exists j, i]; repeat split; auto; try lia. apply D_sym; assumption. }
    destruct Q as (a & b & -> & -> & La & Lb & Fa & Fb & ->).
    destruct (c100_threshold z ts w precise s a b e eps Mo U E La Lb Fa Fb He (Ac a La Fa) (Ac b Lb Fb)) as ((d & Ed & V & Cl) & _). rewrite Ed. auto.
  Qed.
  Lemma T_lt i j : (i < j)%nat -> T i j = match fzeucl_threshold z s i j f_inf with Ret (Some d) => d | _ => f_nan end.
  Proof. intros L. unfold T. rewrite Nat.min_l, Nat.max_r by lia. reflexivity. Qed.

  Lemma floats_coherent d0 : is_f64 d0 -> coherent p d0 T.
  Proof.
    intros F0. destruct (fields z ts w precise s Mo U E) as (_ & _ & Ok). split.
    - intros i j. unfold T. rewrite Nat.min_comm, Nat.max_comm. reflexivity.
    - intros i j. rewrite !(so_zeucl _ _ _ _ _ So), c92_symmetric. reflexivity.
    - intros i j t d Lij Ii Ij H. destruct (idx i Ii) as (Li & Fi), (idx j Ij) as (Lj & Fj). rewrite (so_threshold _ _ _ _ _ So) in H.
      rewrite T_lt by assumption. destruct (c95_distances z ts w precise s i j Mo U E Li Lj Fi Fj) as (_ & (d1 & E1 & V1) & _). rewrite E1.
      destruct (c93_threshold z s i j d1 Ok E1 (number_not_nan _ (proj1 V1))) as (x & _ & _ & _ & A). rewrite A in H. destruct (flt _ _); congruence.
    - intros i j t Lij Ii Ij Nt Us H. destruct (idx i Ii) as (Li & Fi), (idx j Ij) as (Lj & Fj). rewrite (so_threshold _ _ _ _ _ So) in H.
      rewrite T_lt by assumption. destruct (c95_distances z ts w precise s i j Mo U E Li Lj Fi Fj) as (_ & (d1 & E1 & V1) & Any). rewrite E1.
      destruct (Any t) as (o & Eo). rewrite Eo in H. subst o.
      apply (c93_rejected z s i j t d1 Ok E1 (number_not_nan _ (proj1 V1))); [|exact Nt|exact Eo].
      destruct Us as [->|[->|(x & y & Ix & Iy & _ & ->)]]; [reflexivity|exact F0|].
      destruct (idx x Ix) as (Lx & Fx), (idx y Iy) as (Ly & Fy). apply (Z_close x y Lx Ly Fx Fy).
    - intros i j Ii Ij _. destruct (idx i Ii) as (Li & Fi), (idx j Ij) as (Lj & Fj). apply number_not_nan, (T_close i j Li Lj Fi Fj).
  Qed.

  Lemma fle_R x y : number x -> number y -> fle x y = true -> fval x <= fval y.
  Proof. intros Nx Ny H. rewrite (fle_val _ _ Nx Ny) in H. unfold Rle_bool in H. destruct (Rcompare_spec (fval x) (fval y)); try discriminate H; lra. Qed.
  Lemma R_fle x y : number x -> number y -> fval x <= fval y -> fle x y = true.
  Proof. intros Nx Ny H. rewrite (fle_val _ _ Nx Ny). apply Rle_bool_true, H. Qed.

  (** the extent of a list of windows, computed and exact *)
  Lemma extent_close l x : (2 <= length l)%nat -> (forall i, In i l -> (i < n)%nat /\ lively s i) -> max_pairwise (p_zeucl p) l x ->
    distance_value x /\ forall r, widest D l r -> Rabs (fval x ^ 2 - r ^ 2) <= C.
  Proof.
    intros L2 Hl (_ & M & A). destruct (A L2) as (a & b & i & j & Lab & Hi & Hj & ->).
    assert (At : forall q k, nth_error l q = Some k -> (k < n)%nat /\ lively s k) by (intros q k Hk; apply Hl, (nth_error_In _ _ Hk)).
    destruct (At _ _ Hi) as (Li & Fi), (At _ _ Hj) as (Lj & Fj). destruct (Z_close j i Lj Li Fj Fi) as (V & Cl). split; [exact V|].
    intros r (Mr & (a' & b' & i' & j' & Lab' & Hi' & Hj' & Er)).
    destruct (At _ _ Hi') as (Li' & Fi'), (At _ _ Hj') as (Lj' & Fj'). destruct (Z_close j' i' Lj' Li' Fj' Fi') as (V' & Cl').
    pose proof (Mr a b i j Lab Hi Hj) as R1. pose proof (M a' b' i' j' Lab' Hi' Hj') as R2. apply fle_R in R2; [|apply V'|apply V].
    rewrite (D_sym j i) in Cl by assumption. rewrite (D_sym j' i'), <- Er in Cl' by assumption.
    pose proof (sq_le _ _ (exact_nonneg ts w i j) R1) as S1. pose proof (sq_le _ _ (proj2 V') R2) as S2.
    apply abs_between in Cl, Cl'. apply Rabs_le. lra.
  Qed.

  Section Run.
    Variables (gap : R) (a b : nat) (d : f64) (cbs : list (nat -> bool)) (fuel : nat) (st : iter) (answers : list answer) (m : motiflet).
    Hypothesis Sd : sound p.
    Hypothesis Sk : seed_ok p a b d.
    Hypothesis Fa : lively s a.
    Hypothesis Fb : lively s b.
    Hypothesis Ed : seed_within ts w gap a b d.
    Hypothesis Es : session p a b d cbs fuel = Ret (st, answers).
    Hypothesis Hm : In (Item m) answers.

    Lemma seed_near : (a < n)%nat /\ (b < n)%nat. Proof. rewrite <- (so_n _ _ _ _ _ So). split; apply Sk. Qed.
    Lemma seed_f64 : is_f64 d. Proof. apply Ed. Qed.
    Lemma returned_extent : (2 <= length (ml_indices m))%nat /\ (forall i, In i (ml_indices m) -> (i < n)%nat /\ lively s i) /\
      (max_pairwise (p_zeucl p) (ml_indices m) (ml_extent m) \/ m = Motiflet [a; b] d).
    Proof.
      destruct (c35_returned_motiflets_are_valid p a b d cbs fuel st answers m Sd Sk Es Hm) as (V1 & _ & _ & [(V2 & V4)|V4]).
      - split; [apply V1|]. split; [intros i Hi; apply idx, V2, Hi|left; exact V4].
      - destruct seed_near as (La & Lb). split; [rewrite V4; cbn; lia|]. split; [|right; exact V4]. rewrite V4. intros i [<-|[<-|[]]]; auto.
    Qed.
    Lemma widest_pair x y r : widest D [x; y] r -> r = D x y.
    Proof.
      intros (_ & q1 & q2 & i & j & L & Hi & Hj & ->). destruct q1 as [|q1]; [|destruct q2 as [|[|q2]]; [lia|lia|destruct q2; discriminate Hj]].
      destruct q2 as [|[|q2]]; [lia| |destruct q2; discriminate Hj]. injection Hi as <-. injection Hj as <-. reflexivity.
    Qed.
    Lemma returned_any : distance_value (ml_extent m) /\ forall r, widest D (ml_indices m) r ->
      Rabs (fval (ml_extent m) ^ 2 - r ^ 2) <= C \/ m = Motiflet [a; b] d /\ Rabs (fval (ml_extent m) ^ 2 - r ^ 2) <= gap.
    Proof.
      destruct returned_extent as (L2 & Hl & [M|M]).
      - destruct (extent_close _ _ L2 Hl M) as (V & Cl). split; [exact V|]. intros r Hr. left. apply Cl, Hr.
      - destruct Ed as (V & G). rewrite M. cbn [ml_indices ml_extent]. split; [exact V|]. intros r Hr. right. split; [reflexivity|]. rewrite (widest_pair a b r Hr). exact G.
    Qed.
    Lemma returned_close : distance_value (ml_extent m) /\ exists r, widest D (ml_indices m) r /\
      (Rabs (fval (ml_extent m) ^ 2 - r ^ 2) <= C \/ m = Motiflet [a; b] d /\ Rabs (fval (ml_extent m) ^ 2 - r ^ 2) <= gap).
    Proof.
      destruct returned_any as (V & Cl). split; [exact V|]. destruct returned_extent as (L2 & _ & _).
      destruct (widest_exists D (ml_indices m) L2) as (r & Hr). exists r. auto.
    Qed.

    Hypothesis Hc : forall c i j, p_coin p c i j = true.
    Hypothesis H1 : p_top_k p = 1%nat.
    Notation ext := (fval (ml_extent m)).

    Lemma below_both x y bound : (x < n)%nat -> (y < n)%nat -> lively s x -> lively s y -> D x y <= bound -> fval (T x y) <= bound ->
      fle (ml_extent m) (p_zeucl p x y) = true \/ fle (ml_extent m) (T x y) = true -> ext ^ 2 <= bound ^ 2 + C.
    Proof.
      intros Lx Ly Fx Fy Lb Lt Hf. destruct returned_close as (V & _). pose proof (exact_nonneg ts w x y) as Px. pose proof B_pos as PB. pose proof C_pos as PC.
      destruct Hf as [Hf|Hf].
      - destruct (Z_close x y Lx Ly Fx Fy) as (Vz & Cz). apply fle_R in Hf; [|apply V|apply Vz]. pose proof (sq_le _ _ (proj2 V) Hf) as S1. apply abs_between in Cz.
        pose proof (sq_le (D x y) bound Px ltac:(lra)). lra.
      - destruct (T_close x y Lx Ly Fx Fy) as (Vz & Cz). apply fle_R in Hf; [|apply V|apply Vz]. pose proof (sq_le ext bound (proj2 V) ltac:(lra)). lra.
    Qed.
    Lemma run_pair : length (ml_indices m) = 2%nat -> exists s1 reps,
      ((exists s2, turn_of p a b d s1 s2 /\ In m (it_return s2) /\ flt (failure_after p s1 (ml_extent m)) (p_delta p) = true /\ reps = (c_rep (it_conf s1) + 1)%nat) \/
       (stop_of p a b d s1 /\ reps = c_rep (it_conf s1))) /\
      forall u v, searched p s1 reps u v -> ext ^ 2 <= (D u v + 2 * B) ^ 2 + C.
    Proof.
      intros L2. pose proof (floats_coherent d seed_f64) as Co.
      destruct (emitted_when p a b d T Sd Sk Co Hc H1 cbs fuel st answers m Es Hm) as (s1 & reps & W & Be). exists s1, reps. split; [exact W|].
      intros u v Hs. destruct (pair_best p d T s1 reps m Sd Co Be L2 u v Hs) as (x & y & Ix & Iy & Nc & L & F).
      destruct Be as (top & ops & out & t & rest & _ & _ & _ & Kn & _). destruct (Kn u v Hs) as (Iu & Iv & _).
      destruct (idx _ Ix) as (Lx & Fx), (idx _ Iy) as (Ly & Fy), (idx _ Iu) as (Lu & Fu), (idx _ Iv) as (Lv & Fv).
      destruct (T_close x y Lx Ly Fx Fy) as (V1 & C1), (T_close u v Lu Lv Fu Fv) as (V2 & C2).
      apply fle_R in L; [|apply V1|apply V2]. apply abs_between in C1, C2. pose proof B_pos as PB. apply (below_both x y); auto; lra.
    Qed.
    Lemma run_group : exists s1 reps,
      ((exists s2, turn_of p a b d s1 s2 /\ In m (it_return s2) /\ flt (failure_after p s1 (ml_extent m)) (p_delta p) = true /\ reps = (c_rep (it_conf s1) + 1)%nat) \/
       (stop_of p a b d s1 /\ reps = c_rep (it_conf s1))) /\
      forall i l r, indexed p i -> separated (D i) (indexed p) (p_ez p) i (2 * B) -> greedy_exact (D i) (indexed p) (p_ez p) (length (ml_indices m)) i l ->
        (forall q x, nth_error l (S q) = Some x -> searched p s1 reps i x) -> widest D l r -> ext ^ 2 <= (r + B) ^ 2 + C.
    Proof.
      pose proof (floats_coherent d seed_f64) as Co.
      destruct (emitted_when p a b d T Sd Sk Co Hc H1 cbs fuel st answers m Es Hm) as (s1 & reps & W & Be). exists s1, reps. split; [exact W|].
      intros i l r Ii Sep (G0 & Gl & Gn) Hs Wd. destruct (idx i Ii) as (Li & Fi). destruct returned_extent as (L2 & _ & _). destruct returned_close as (V & _).
      pose proof B_pos as PB. pose proof C_pos as PC.
      assert (Tc : forall x, indexed p x -> number (T i x) /\ D i x - B <= fval (T i x) <= D i x + B).
      { intros x Ix. destruct (idx x Ix) as (Lx & Fx). destruct (T_close i x Li Lx Fi Fx) as (Vx & Cx). apply abs_between in Cx. split; [apply Vx|lra]. }
      assert (Mem : forall q x, nth_error l q = Some x -> indexed p x) by (intros [|q] x Hx; [congruence|apply (Gn q x Hx)]).
      assert (Nt : no_ties_by p T i).
      { intros x y Ix Iy Nx Ny Fq. destruct (Nat.eq_dec x y) as [|Ne]; [assumption|exfalso]. specialize (Sep x y Ix Iy Nx Ny Ne).
        destruct (Tc x Ix) as (Ax & Bx), (Tc y Iy) as (Ay & By). rewrite (feq_val _ _ Ax Ay) in Fq. destruct (Req_bool_spec (fval (T i x)) (fval (T i y))) as [Q|Q]; [|discriminate Fq].
        unfold Rabs in Sep. destruct (Rcase_abs _); lra. }
      assert (G : greedy_neighbourhood (T i) (indexed p) (p_ez p) (length (ml_indices m)) i l).
      { split; [exact G0|]. split; [|split; [lia|lia]]. intros q x Hx. destruct (Gn q x Hx) as (Ix & Ax & Mx). split; [exact Ix|]. split; [exact Ax|].
        intros y Iy Ay. specialize (Mx y Iy Ay). destruct (Tc x Ix) as (Nx & Bx), (Tc y Iy) as (Ny & By). apply R_fle; auto.
        destruct (Nat.eq_dec x y) as [->|Ne]; [lra|].
        assert (H0 : In i (firstn (S q) l)) by (destruct l as [|i0 l0]; [discriminate|]; injection G0 as ->; left; reflexivity).
        assert (Sy : forall u v, ~ too_close (p_ez p) u v -> ~ too_close (p_ez p) v u) by (unfold too_close; intros; lia).
        specialize (Sep x y Ix Iy (Sy _ _ (Ax i H0)) (Sy _ _ (Ay i H0)) Ne). unfold Rabs in Sep. destruct (Rcase_abs _); lra. }
      assert (Ex : exists x, max_pairwise (p_zeucl p) l x).
      { destruct (widest_exists (fun i j => fval (p_zeucl p j i)) l) as (rz & Mz & (a0 & b0 & x & y & Lab & Hx & Hy & Ez)); [lia|].
        assert (Zn : forall q1 q2 x y, nth_error l q1 = Some x -> nth_error l q2 = Some y -> number (p_zeucl p y x)).
        { intros q1 q2 x1 y1 Hx1 Hy1. destruct (idx _ (Mem _ _ Hx1)), (idx _ (Mem _ _ Hy1)). apply (Z_close y1 x1); assumption. }
        exists (p_zeucl p y x). split; [lia|]. split; [|intros _; exists a0, b0, x, y; auto].
        intros q1 q2 x1 y1 Lq Hx1 Hy1. apply R_fle; [eauto|eauto|]. rewrite <- Ez. exact (Mz q1 q2 x1 y1 Lq Hx1 Hy1). }
      destruct Ex as (x & Mx). destruct (extent_close l x) as (Vx & Cx); [lia|intros k Hk; apply In_nth_error in Hk; destruct Hk as (q & Hk); apply idx, (Mem q k Hk)|exact Mx|].
      specialize (Cx r Wd). apply abs_between in Cx. destruct Wd as (Wm & Wa).
      assert (Pr : 0 <= r) by (destruct Wa as (? & ? & ? & ? & _ & _ & _ & ->); apply exact_nonneg).
      destruct (motiflet_best p T s1 reps m Be i l x Nt G Gl Hs Mx) as [F|(q & y & Hy & F)].
      - apply fle_R in F; [|apply V|apply Vx]. pose proof (sq_le _ _ (proj2 V) F). pose proof (sq_le r (r + B) Pr ltac:(lra)). lra.
      - destruct (idx y (Mem _ _ Hy)) as (Ly & Fy). pose proof (Wm 0%nat (S q) i y ltac:(lia) G0 Hy). destruct (Tc y (Mem _ _ Hy)) as (_ & Ty). apply (below_both i y); auto; lra.
    Qed.
  End Run.
End Search.

(** ** C101: extents *)
(** The extent reported for a motiflet is a number, and its square is within [10 w eps] of
    that of the largest exact distance between its windows, [eps] being the relative error
    of the means and standard deviations on record.  If it is the sampled pair, it may
    have the error of the sampling instead. *)
Theorem c101_extent :
  forall (z : zeros) (ts : list f64) (w : nat) (precise : bool) (s : fseries) (p : problem) (e : Z) (eps gap : R)
         (a b : nat) (d : f64) (cbs : list (nat -> bool)) (fuel : nat) (st : iter) (answers : list answer) (m : motiflet),
    moderate ts -> usable ts w -> fseries_new z ts w precise = Ret s -> search_over z ts w s p ->
    0 < eps <= / 64 -> accurate s (length ts - w) e eps ->
    sound p -> seed_ok p a b d -> lively s a -> lively s b -> seed_within ts w gap a b d ->
    session p a b d cbs fuel = Ret (st, answers) -> In (Item m) answers ->
    distance_value (ml_extent m) /\
    exists exact, widest (exact_distance ts w) (ml_indices m) exact /\
      (Rabs (fval (ml_extent m) ^ 2 - exact ^ 2) <= 10 * INR w * eps \/
       m = Motiflet [a; b] d /\ Rabs (fval (ml_extent m) ^ 2 - exact ^ 2) <= gap).
Proof. intros. eapply returned_close; eauto. Qed.
Print Assumptions c101_extent.

(** ** C102: the answers are nearly the best of what was searched *)
(** [exact] is the exact distance of the pair returned.  It is at most that of any pair
    searched, up to rounding. *)
Theorem c102_pair :
  forall (z : zeros) (ts : list f64) (w : nat) (precise : bool) (s : fseries) (p : problem) (e : Z) (eps gap : R)
         (a b : nat) (d : f64) (cbs : list (nat -> bool)) (fuel : nat) (st : iter) (answers : list answer) (m : motiflet) (exact : R),
    moderate ts -> usable ts w -> fseries_new z ts w precise = Ret s -> search_over z ts w s p ->
    0 < eps <= / 64 -> accurate s (length ts - w) e eps ->
    sound p -> seed_ok p a b d -> lively s a -> lively s b -> seed_within ts w gap a b d ->
    (forall c i j, p_coin p c i j = true) -> p_top_k p = 1%nat ->
    session p a b d cbs fuel = Ret (st, answers) -> In (Item m) answers ->
    length (ml_indices m) = 2%nat -> widest (exact_distance ts w) (ml_indices m) exact ->
    exists s1 reps,
      ((exists s2, turn_of p a b d s1 s2 /\ In m (it_return s2) /\ flt (failure_after p s1 (ml_extent m)) (p_delta p) = true /\
          reps = (c_rep (it_conf s1) + 1)%nat) \/
       (stop_of p a b d s1 /\ reps = c_rep (it_conf s1))) /\
      forall u v, searched p s1 reps u v ->
        fval (ml_extent m) ^ 2 <= (exact_distance ts w u v + 20 * sqrt (INR w) * eps) ^ 2 + 10 * INR w * eps /\
        exact ^ 2 <= (exact_distance ts w u v + 20 * sqrt (INR w) * eps) ^ 2 + 10 * INR w * eps + Rmax (10 * INR w * eps) gap.
Proof.
  intros z ts w precise s p e eps gap a b d cbs fuel st answers m exact Mo U E So He Ac Sd Sk Fa Fb Ed Hc H1 Es Hm L2 Wd.
  destruct (run_pair z ts w precise s p e eps Mo U E So He Ac gap a b d cbs fuel st answers m Sd Sk Fa Fb Ed Es Hm Hc H1 L2) as (s1 & reps & W & R).
  exists s1, reps. split; [exact W|]. intros u v Hs. specialize (R u v Hs). replace (2 * (10 * sqrt (INR w) * eps)) with (20 * sqrt (INR w) * eps) in R by ring.
  split; [exact R|]. destruct (returned_any z ts w precise s p e eps Mo U E So He Ac gap a b d cbs fuel st answers m Sd Sk Fa Fb Ed Es Hm) as (_ & Cl).
  pose proof (Rmax_l (10 * INR w * eps) gap). pose proof (Rmax_r (10 * INR w * eps) gap). destruct (Cl exact Wd) as [Q|(_ & Q)]; apply abs_between in Q; lra.
Qed.
Print Assumptions c102_pair.

(** The same for larger supports: [l] is the neighbourhood of window [i] by exact distances,
    all of its members having been searched with [i], and no two windows are at nearly the
    same distance of [i]. *)
Theorem c102_group :
  forall (z : zeros) (ts : list f64) (w : nat) (precise : bool) (s : fseries) (p : problem) (e : Z) (eps gap : R)
         (a b : nat) (d : f64) (cbs : list (nat -> bool)) (fuel : nat) (st : iter) (answers : list answer) (m : motiflet) (exact : R),
    moderate ts -> usable ts w -> fseries_new z ts w precise = Ret s -> search_over z ts w s p ->
    0 < eps <= / 64 -> accurate s (length ts - w) e eps ->
    sound p -> seed_ok p a b d -> lively s a -> lively s b -> seed_within ts w gap a b d ->
    (forall c i j, p_coin p c i j = true) -> p_top_k p = 1%nat ->
    session p a b d cbs fuel = Ret (st, answers) -> In (Item m) answers ->
    widest (exact_distance ts w) (ml_indices m) exact ->
    exists s1 reps,
      ((exists s2, turn_of p a b d s1 s2 /\ In m (it_return s2) /\ flt (failure_after p s1 (ml_extent m)) (p_delta p) = true /\
          reps = (c_rep (it_conf s1) + 1)%nat) \/
       (stop_of p a b d s1 /\ reps = c_rep (it_conf s1))) /\
      forall (i : nat) (l : list nat) (best : R),
        indexed p i ->
        separated (exact_distance ts w i) (indexed p) (p_ez p) i (20 * sqrt (INR w) * eps) ->
        greedy_exact (exact_distance ts w i) (indexed p) (p_ez p) (length (ml_indices m)) i l ->
        (forall q x, nth_error l (S q) = Some x -> searched p s1 reps i x) ->
        widest (exact_distance ts w) l best ->
        fval (ml_extent m) ^ 2 <= (best + 10 * sqrt (INR w) * eps) ^ 2 + 10 * INR w * eps /\
        exact ^ 2 <= (best + 10 * sqrt (INR w) * eps) ^ 2 + 10 * INR w * eps + Rmax (10 * INR w * eps) gap.
Proof.
  intros z ts w precise s p e eps gap a b d cbs fuel st answers m exact Mo U E So He Ac Sd Sk Fa Fb Ed Hc H1 Es Hm Wd.
  destruct (run_group z ts w precise s p e eps Mo U E So He Ac gap a b d cbs fuel st answers m Sd Sk Fa Fb Ed Es Hm Hc H1) as (s1 & reps & W & R).
  exists s1, reps. split; [exact W|]. intros i l best Ii Sep G Hs Wl. replace (20 * sqrt (INR w) * eps) with (2 * (10 * sqrt (INR w) * eps)) in Sep by ring.
  specialize (R i l best Ii Sep G Hs Wl).
  split; [exact R|]. destruct (returned_any z ts w precise s p e eps Mo U E So He Ac gap a b d cbs fuel st answers m Sd Sk Fa Fb Ed Es Hm) as (_ & Cl).
  pose proof (Rmax_l (10 * INR w * eps) gap). pose proof (Rmax_r (10 * INR w * eps) gap). destruct (Cl exact Wd) as [Q|(_ & Q)]; apply abs_between in Q; lra.
Qed.
Print Assumptions c102_group.

(** ** The search of C95 *)
(** Windows of 4 over 17 integers below 32: every window is accurate to [2^-36]. *)
Definition search_ints : list nat := [1; 5; 2; 8; 2; 9; 4; 17; 2; 10; 4; 16; 7; 1; 9; 3; 0]%nat.
Lemma search_ints_data : search_data = nums search_ints. Proof. reflexivity. Qed.
Lemma search_window i : exact_window search_data 4 i = map INR (firstn 4 (skipn i search_ints)).
Proof.
  unfold exact_window. rewrite search_ints_data. unfold nums at 1. rewrite skipn_map, firstn_map. fold (nums (firstn 4 (skipn i search_ints))). apply exact_nums.
  intros n Hn. assert (H : In n search_ints) by (rewrite <- (firstn_skipn i search_ints); apply in_or_app; right; rewrite <- (firstn_skipn 4 (skipn i search_ints)); apply in_or_app; left; exact Hn).
  cbn in H. lia.
Qed.
Lemma search_usable : usable search_data 4.
Proof. unfold usable, search_data, nums. rewrite map_length. cbn [length]. lia. Qed.
Lemma search_moderate : moderate search_data.
Proof. apply nums_moderate. intros n Hn. cbn in Hn. lia. Qed.
Lemma search_new : fseries_new z_ex search_data 4 true = Ret search_series.
Proof. vm_compute. reflexivity. Qed.
Lemma search_accurate : accurate search_series 13 5 (/ 2 ^ 36).
Proof.
  intros i Hi _. apply (c100_precise z_ex search_data 4); [apply search_moderate|apply search_usable|apply search_new|exact Hi|lia| |].
  - intros x Hx. apply (nums_at_most 5 search_ints); [intros n Hn; cbn in Hn; lia|lia|]. rewrite <- search_ints_data. eapply win_incl; exact Hx.
  - assert (P51 : bp (-51) = / 2251799813685248) by reflexivity. assert (P36 : / 2 ^ 36 = / 68719476736) by (rewrite (pow_IZR 2 36); reflexivity).
    assert (S : 1 <= sd_of (exact_window search_data 4 i)).
    { rewrite search_window. rewrite <- sqrt_1. unfold sd_of. apply sqrt_le_1_alt.
      do 13 (destruct i as [|i]; [unfold mean_of, total; cbn [search_ints firstn skipn map fold_right length INR]; lra|]). lia. }
    rewrite !power_bp, P51, P36. change (bp 5) with 32. cbn [INR]. lra.
Qed.
Lemma search_is_over : search_over z_ex search_data 4 search_series search_ex.
Proof.
  split; [reflexivity|intros; reflexivity|intros; reflexivity|].
  intros i (_ & r & k & _ & H). cbn [p_table search_ex snd] in H.
  destruct H as [H|[H|[H|[H|[]]]]]; [replace i with 0%nat by lia|replace i with 4%nat by lia|replace i with 8%nat by lia|replace i with 12%nat by lia]; vm_compute; reflexivity.
Qed.
Definition search_seed : f64 := p_zeucl search_ex 4 12.
Lemma search_third_turn : exists s1 s2, turn_of search_ex 4 12 search_seed s1 s2 /\
  it_return s2 = [Motiflet [0; 8]%nat f_zero; Motiflet [0; 8; 4]%nat (S754_finite false 8129125563436117 (-55))] /\ c_rep (it_conf s1) = 2%nat /\ c_prefix (it_conf s1) = 6%nat /\
  nth_error (it_tables s1) 2 = Some (toy_hashes, [0; 4; 8; 12]%N).
Proof.
  assert (E : exists s0 sa sb sc, iter_new search_ex 4 12 search_seed = Ret s0 /\ loop_body search_ex s0 true 30 = Ret (inl sa) /\
     loop_body search_ex sa true 30 = Ret (inl sb) /\ loop_body search_ex sb true 30 = Ret (inl sc) /\
     it_return sc = [Motiflet [0; 8]%nat f_zero; Motiflet [0; 8; 4]%nat (S754_finite false 8129125563436117 (-55))] /\ c_rep (it_conf sb) = 2%nat /\ c_prefix (it_conf sb) = 6%nat /\
     nth_error (it_tables sb) 2 = Some (toy_hashes, [0; 4; 8; 12]%N)).
  { eexists. eexists. eexists. eexists. split; [vm_compute; reflexivity|]. split; [vm_compute; reflexivity|].
    split; [vm_compute; reflexivity|]. split; [vm_compute; reflexivity|]. repeat split. }
  destruct E as (s0 & sa & sb & sc & E0 & Ea & Eb & Ec & R). exists sb, sc. split; [|exact R].
  exists [sa; s0], 30%nat. split; [|exact Ec].
  apply trace_step; [|exists true, 30%nat; left; exact Ec]. apply trace_step; [|exists true, 30%nat; left; exact Eb].
  apply trace_step; [apply trace_new; exact E0|exists true, 30%nat; left; exact Ea].
Qed.
Lemma search_indexed i : indexed search_ex i <-> i = 0%nat \/ i = 4%nat \/ i = 8%nat \/ i = 12%nat.
Proof.
  split.
  - intros (_ & r & k & _ & H). cbn [p_table search_ex snd] in H. cbn in H. lia.
  - intros H. split; [cbn; lia|]. exists 0%nat, 1%nat. split; [unfold K; lia|]. cbn [p_table search_ex snd]. cbn. destruct H as [->|[->|[->| ->]]]; auto.
Qed.
(** The exact distances from the first window. *)
Lemma search_distance j t lo hi : indexed search_ex j -> fzeucl_threshold z_ex search_series 0 j f_inf = Ret (Some t) -> lo <= fval t <= hi ->
  lo - / 100 <= exact_distance search_data 4 0 j <= hi + / 100.
Proof.
  intros Hj Et Hl. pose proof (proj2 (search_indexed 0) ltac:(tauto)) as H0.
  destruct (idx z_ex search_data 4 search_series search_ex search_is_over 0 H0) as (L0 & F0). destruct (idx z_ex search_data 4 search_series search_ex search_is_over j Hj) as (Lj & Fj).
  assert (He : 0 < / 2 ^ 36 <= / 64) by (split; [apply Rinv_0_lt_compat, pow_lt; lra|apply Rinv_le; [lra|rewrite (pow_IZR 2 36); change (2 ^ Z.of_nat 36)%Z with 68719476736%Z; lra]]).
  destruct (c100_threshold z_ex search_data 4 true search_series 0 j 5 (/ 2 ^ 36) search_moderate search_usable search_new L0 Lj F0 Fj He (search_accurate 0%nat L0 F0) (search_accurate j Lj Fj)) as ((t' & Et' & _ & C) & _).
  rewrite Et in Et'. injection Et' as <-. fold (exact_distance search_data 4 0 j) in C. apply abs_between in C.
  assert (Sq : sqrt (INR 4) <= 2) by (replace (INR 4) with (2 * 2) by (cbn; lra); rewrite sqrt_square; lra).
  assert (P36 : / 2 ^ 36 = / 68719476736) by (rewrite (pow_IZR 2 36); reflexivity). rewrite P36 in C. pose proof (sqrt_pos (INR 4)). lra.
Qed.
Lemma search_seed_within : seed_within search_data 4 (40 * / 2 ^ 36) 4 12 search_seed.
Proof.
  assert (He : 0 < / 2 ^ 36 <= / 64) by (split; [apply Rinv_0_lt_compat, pow_lt; lra|apply Rinv_le; [lra|rewrite (pow_IZR 2 36); change (2 ^ Z.of_nat 36)%Z with 68719476736%Z; lra]]).
  destruct (Z_close z_ex search_data 4 true search_series search_ex 5 (/ 2 ^ 36) search_moderate search_usable search_new search_is_over He search_accurate 4 12) as (V & Cl);
    [vm_compute; lia|vm_compute; lia|vm_compute; reflexivity|vm_compute; reflexivity|].
  split; [exact V|]. change (p_zeucl search_ex 4 12) with search_seed in Cl. replace (40 * / 2 ^ 36) with (10 * INR 4 * / 2 ^ 36) by (cbn [INR]; ring). exact Cl.
Qed.
Example c101_case : moderate search_data /\ usable search_data 4 /\ fseries_new z_ex search_data 4 true = Ret search_series /\
  search_over z_ex search_data 4 search_series search_ex /\ accurate search_series (length search_data - 4) 5 (/ 2 ^ 36) /\
  sound search_ex /\ seed_ok search_ex 4 12 search_seed /\ lively search_series 4 /\ lively search_series 12 /\ seed_within search_data 4 (40 * / 2 ^ 36) 4 12 search_seed /\
  exists s answers, session search_ex 4 12 search_seed toy_calls 30 = Ret (s, answers) /\
    In (Item (Motiflet [0; 8; 4]%nat (S754_finite false 8129125563436117 (-55)))) answers /\ In (Item (Motiflet [0; 8]%nat f_zero)) answers.
Proof.
  split; [apply search_moderate|]. split; [apply search_usable|]. split; [apply search_new|]. split; [apply search_is_over|]. split; [apply search_accurate|].
  split; [apply c95_search_case|]. split; [unfold seed_ok, too_close; cbn [p_n p_ez search_ex]; repeat split; try lia; vm_compute; reflexivity|].
  split; [vm_compute; reflexivity|]. split; [vm_compute; reflexivity|]. split; [apply search_seed_within|].
  pose proof c95_search_run as R. fold search_seed in R. destruct (session search_ex 4 12 search_seed toy_calls 30) as [[s l]| |]; try discriminate R. exists s, l. subst l.
  split; [reflexivity|]. cbn. tauto.
Qed.

(** When the search returns, all pairs of the windows 0, 4 and 8 have been searched, and the
    neighbourhood of window 0 is 0, 8, 4. *)
Example c102_case : (forall c i j, p_coin search_ex c i j = true) /\ p_top_k search_ex = 1%nat /\
  exists s1 s2, turn_of search_ex 4 12 search_seed s1 s2 /\ In (Motiflet [0; 8]%nat f_zero) (it_return s2) /\
    In (Motiflet [0; 8; 4]%nat (S754_finite false 8129125563436117 (-55))) (it_return s2) /\
    searched search_ex s1 (c_rep (it_conf s1) + 1) 0 4 /\ searched search_ex s1 (c_rep (it_conf s1) + 1) 0 8 /\ searched search_ex s1 (c_rep (it_conf s1) + 1) 4 8 /\
    indexed search_ex 0 /\ separated (exact_distance search_data 4 0) (indexed search_ex) 2 0 (20 * sqrt (INR 4) * / 2 ^ 36) /\
    greedy_exact (exact_distance search_data 4 0) (indexed search_ex) 2 3 0 [0; 8; 4]%nat.
Proof.
  split; [reflexivity|]. split; [reflexivity|].
  destruct search_third_turn as (s1 & s2 & T & Er & Ec & Ep & Et). exists s1, s2. split; [exact T|]. rewrite Er, Ec. split; [left; reflexivity|]. split; [right; left; reflexivity|].
  assert (M : forall x y u v, (x < y < 3)%nat -> u = (4 * x)%nat -> v = (4 * y)%nat -> searched search_ex s1 (2 + 1) u v).
  { intros x y u v L -> ->. left. exists 2%nat. split; [lia|]. rewrite Ep. cbn [p_ez search_ex]. apply (toy_meets _ _ _ _ _ x y); auto; lia. }
  split; [apply (M 0%nat 1%nat); lia|]. split; [apply (M 0%nat 2%nat); lia|]. split; [apply (M 1%nat 2%nat); lia|].
  assert (I : forall i, i = 0%nat \/ i = 4%nat \/ i = 8%nat \/ i = 12%nat -> indexed search_ex i) by (intros; apply search_indexed; assumption).
  split; [apply I; tauto|].
  assert (D4 : 2 / 10 <= exact_distance search_data 4 0 4 <= 3 / 10).
  { destruct (search_distance 4 (S754_finite false 8129125563436146 (-55)) (21 / 100) (29 / 100) (I 4%nat ltac:(tauto))) as (A & B); [vm_compute; reflexivity| |lra].
    unfold fval. cbn [SF2R SpecFloat.cond_Zopp]. unfold F2R. cbn [Fnum Fexp]. change (bp (-55)) with (/ 36028797018963968). lra. }
  assert (D8 : 0 <= exact_distance search_data 4 0 8 <= 1 / 10).
  { split; [apply exact_nonneg|]. destruct (search_distance 8 f_zero 0 0 (I 8%nat ltac:(tauto))) as (A & B); [vm_compute; reflexivity|cbn; lra|lra]. }
  assert (D12 : 3 <= exact_distance search_data 4 0 12 <= 4).
  { destruct (search_distance 12 (S754_finite false 8426800180552399 (-51)) (31 / 10) (39 / 10) (I 12%nat ltac:(tauto))) as (A & B); [vm_compute; reflexivity| |lra].
    unfold fval. cbn [SF2R SpecFloat.cond_Zopp]. unfold F2R. cbn [Fnum Fexp]. change (bp (-51)) with (/ 2251799813685248). lra. }
  split.
  - assert (G : 20 * sqrt (INR 4) * / 2 ^ 36 < / 100).
    { assert (Sq : sqrt (INR 4) <= 2) by (replace (INR 4) with (2 * 2) by (cbn; lra); rewrite sqrt_square; lra). rewrite (pow_IZR 2 36). pose proof (sqrt_pos (INR 4)). change (2 ^ Z.of_nat 36)%Z with 68719476736%Z. lra. }
    intros x y Hx Hy Nx Ny Ne. apply search_indexed in Hx, Hy. unfold too_close in Nx, Ny.
    destruct Hx as [->|[->|[->| ->]]]; destruct Hy as [->|[->|[->| ->]]]; try lia; unfold Rabs; destruct (Rcase_abs _); lra.
  - split; [reflexivity|]. split; [reflexivity|]. intros [|[|q]] x Hx; cbn in Hx; [| |destruct q; discriminate]; injection Hx as <-.
    + split; [apply I; tauto|]. split; [intros y [<-|[]]; unfold too_close; lia|]. intros y Hy Fy. apply search_indexed in Hy. destruct Hy as [->|[->|[->| ->]]]; try lra.
      exfalso. apply (Fy 0%nat); [left; reflexivity|unfold too_close; lia].
    + split; [apply I; tauto|]. split; [intros y [<-|[<-|[]]]; unfold too_close; lia|]. intros y Hy Fy. apply search_indexed in Hy. destruct Hy as [->|[->|[->| ->]]]; try lra.
      * exfalso. apply (Fy 0%nat); [left; reflexivity|unfold too_close; lia].
      * exfalso. apply (Fy 8%nat); [right; left; reflexivity|unfold too_close; lia].
Qed.
