(** C128: the seed pair in floating point. *)
From Coq Require Import Reals Lra Lia Floats.SpecFloat.
From Flocq Require Import Core BinarySingleNaN.
From Verif Require Import Base Overlaps OverlapsSpec OverlapsProofs F64 RSpec RealProofs SeriesProofs FFT FFTProofs SamplingSpec Sampling SamplingProofs TopK Iterator IteratorSpec IteratorSteps P_Iterator GuaranteeSpec P_Guarantee FpOps FloatSeries FloatSpec FloatProofs FloatRoll FloatBound FloatDist FloatDist2 FloatThr FloatErr FloatMean FloatSd FloatVar FloatSum FloatTerm FloatPair FloatProj FloatProf
  P_Float P_Float2 P_Acc P_Acc2 AccSpec P_Acc3 P_Acc4 P_Acc5 FloatHash ProjSpec P_Proj P_Prof P_Brute64 P_Hashing BruteSpec FloatRun P_Run64 FloatSample.
Local Open Scope R_scope.

(** ** The first minimum *)
Lemma fmin_spec l m : (forall x, In x l -> is_nan (snd x) = true \/ number (snd x)) -> fmin_by_total l = Some m ->
  In m l /\ forall x, In x l -> is_nan (snd x) = false -> is_nan (snd m) = false /\ fval (snd m) <= fval (snd x).
Proof.
  destruct l as [|a l]; [discriminate|]. intros Hn E. cbn [fmin_by_total] in E. injection E as <-.
  assert (G : forall (l : list (nat * f64)) (a : nat * f64), (forall x, In x (a :: l) -> is_nan (snd x) = true \/ number (snd x)) ->
    let m := fold_left (fun m x => if ftotal_lt (snd x) (snd m) then x else m) l a in
    In m (a :: l) /\ forall x, In x (a :: l) -> is_nan (snd x) = false -> is_nan (snd m) = false /\ fval (snd m) <= fval (snd x)).
  { clear. induction l as [|b l IH]; intros a Hn; cbn [fold_left].
    - split; [left; reflexivity|]. intros x [<-|[]] H. split; [exact H|lra].
    - assert (St : let c := if ftotal_lt (snd b) (snd a) then b else a in (c = a \/ c = b) /\
        forall x, x = a \/ x = b -> is_nan (snd x) = false -> is_nan (snd c) = false /\ fval (snd c) <= fval (snd x)).
      { pose proof (Hn a ltac:(left; reflexivity)) as Na. pose proof (Hn b ltac:(right; left; reflexivity)) as Nb. cbv zeta. unfold ftotal_lt.
        destruct (is_nan (snd b)) eqn:Eb; [split; [auto|]; intros x [->| ->] H; [split; [exact H|lra]|congruence]|].
        destruct (is_nan (snd a)) eqn:Ea; [split; [auto|]; intros x [->| ->] H; [congruence|split; [exact H|lra]]|].
        destruct Na as [Na|Na]; [congruence|]. destruct Nb as [Nb|Nb]; [congruence|].
        assert (Hz : match snd b with S754_zero true => match snd a with S754_zero false => true | _ => flt (snd b) (snd a) end | _ => flt (snd b) (snd a) end = true -> fval (snd b) <= fval (snd a)).
        { assert (Hf : flt (snd b) (snd a) = true -> fval (snd b) <= fval (snd a)).
          { rewrite flt_val by assumption. unfold Rlt_bool. destruct (Rcompare_spec (fval (snd b)) (fval (snd a))); intros; try discriminate; lra. }
          destruct (snd b) as [[|]|[|]| |sb mb eb] eqn:Xb; try exact Hf. destruct (snd a) as [[|]|[|]| |sa ma ea]; try exact Hf. intros _. unfold fval. cbn. lra. }
        assert (Hz' : match snd b with S754_zero true => match snd a with S754_zero false => true | _ => flt (snd b) (snd a) end | _ => flt (snd b) (snd a) end = false -> fval (snd a) <= fval (snd b)).
        { assert (Hf : flt (snd b) (snd a) = false -> fval (snd a) <= fval (snd b)).
          { rewrite flt_val by assumption. unfold Rlt_bool. destruct (Rcompare_spec (fval (snd b)) (fval (snd a))); intros; try discriminate; lra. }
          destruct (snd b) as [[|]|[|]| |sb mb eb]; try exact Hf. destruct (snd a) as [[|]|[|]| |sa ma ea]; try exact Hf. intros; discriminate. }
        destruct (match snd b with S754_zero true => match snd a with S754_zero false => true | _ => flt (snd b) (snd a) end | _ => flt (snd b) (snd a) end).
        - split; [auto|]. intros x [->| ->] _; (split; [assumption|]); [apply Hz; reflexivity|lra].
        - split; [auto|]. intros x [->| ->] _; (split; [assumption|]); [lra|apply Hz'; reflexivity]. }
      cbv zeta in St. set (c := if ftotal_lt (snd b) (snd a) then b else a) in *. destruct St as (Sc & St).
      destruct (IH c) as (H1 & H2). { intros x [<-|Hx]; apply Hn; [destruct Sc as [->| ->]; cbn; auto|right; right; exact Hx]. }
      split. { destruct H1 as [H1|H1]; [rewrite <- H1; destruct Sc as [->| ->]; cbn; auto|right; right; exact H1]. }
      intros x Hx Nx. assert (Cs : (x = a \/ x = b) \/ In x l) by (destruct Hx as [<-|[<-|Hx]]; auto). destruct Cs as [Hc|Hc].
      + destruct (St x Hc Nx) as (Nc & Lc). destruct (H2 c ltac:(left; reflexivity) Nc) as (Nm & Lm). split; [exact Nm|lra].
      + apply H2; [right; exact Hc|exact Nx]. }
  apply (G l a Hn).
Qed.

(** ** The profile, when it is computed *)
(** the windows that are not flat *)
Definition alive (s : fseries) (i : nat) : bool := match fis_flat s i with Ret b => negb b | _ => false end.
Lemma alive_lively s i : alive s i = true <-> lively s i.
Proof. unfold alive, lively. destruct (fis_flat s i) as [[|]| |]; split; intros H; try discriminate H; reflexivity. Qed.
(** [gap] bounds the error of all squared distances in the profiles: [err] is that of the dot products *)
Definition profile_gap (s : fseries) (ts : list f64) (w : nat) (eps err gap : R) : Prop :=
  forall i, (i < length ts - w)%nat -> lively s i -> 5 * (err / sd_of (exact_window ts w i)) + 20 * (INR w * eps) <= gap.
(** all dot products with normalised windows are within [err] *)
Definition dots_within (s : fseries) (ts : list f64) (w : nat) (sdp : list f64 -> nat -> f64) (err : R) : Prop :=
  forall from normal i, (from < length ts - w)%nat -> lively s from -> fznormalized s from = Ret normal ->
    (i < length ts - w)%nat -> i <> from -> lively s i -> dot_within ts w normal i err (sdp normal i).

Section Seed.
  Variables (z : zeros) (ts : list f64) (w : nat) (precise : bool) (s : fseries) (sdp : list f64 -> nat -> f64) (e : Z) (eps err gap : R).
  Hypothesis Mo : moderate ts.
  Hypothesis U : usable ts w.
  Hypothesis E : fseries_new z ts w precise = Ret s.
  Hypothesis He : 0 < eps <= / 64.
  Hypothesis Ac : accurate s (length ts - w) e eps.
  Hypothesis Err : err <= 2 ^ 500.
  Hypothesis Hd : dots_within s ts w sdp err.
  Hypothesis Hg : profile_gap s ts w eps err gap.
  Notation n := (length ts - w)%nat.

  Lemma flat_cases i : (i < n)%nat -> (fis_flat s i = Ret false /\ lively s i /\ alive s i = true) \/ (fis_flat s i = Ret true /\ ~ lively s i /\ alive s i = false).
  Proof.
    intros Li. destruct (made z ts w precise s Mo U E) as (_ & _ & _ & Hm). destruct (Hm i Li) as (m & sd & _ & Esd & _).
    unfold alive, lively, fis_flat, fsd, get. rewrite Esd. cbn [bind]. destruct (fle sd fflat_threshold); [right|left]; (split; [reflexivity|]); split; try reflexivity; discriminate.
  Qed.
  Lemma profile_entries from profile : (from < n)%nat -> lively s from -> fdistance_profile z s sdp from = Ret profile ->
    length profile = n /\ forall i, (i < n)%nat -> exists d, nth_error profile i = Some d /\
      (i = from -> d = f_zero) /\ (i <> from -> ~ lively s i -> d = f_nan) /\ (i <> from -> lively s i -> seed_within ts w gap from i d).
  Proof.
    intros Lf Ff Ep.
    destruct (made z ts w precise s Mo U E) as (Ed & Ew & Es & Hm).
    destruct (at_window z ts w precise s from from e eps Mo U E Lf Lf from Lf Ff (Ac from Lf Ff)) as (ma & sa & Wa & Ln & Ba & Ma & Sa & Na & Cm & Cs & Ha & Ra).
    unfold fdistance_profile in Ep. destruct (fznormalized s from) as [normal| |] eqn:En; try discriminate Ep. cbn [bind] in Ep.
    assert (Enorm : normal = buf (win ts w from) ma sa).
    { destruct Wa as (Em & Esd & Esub). unfold fznormalized in En. rewrite Em, Esd, Esub in En. cbn [bind] in En. apply Ret_inj in En. symmetry. exact En. }
    assert (Lnorm : length normal = w) by (rewrite Enorm; unfold buf; rewrite map_length; exact Ln).
    assert (E500 : err <= bp 500) by (eapply Rle_trans; [exact Err|]; rewrite pow_powerRZ, power_bp; apply bpow_le, Z.leb_le; vm_compute; reflexivity).
    destruct (projections_return z ts w precise s sdp Mo U E normal Lnorm) as (values & Ev & Lv & Hv).
    rewrite Ev in Ep. cbn [bind] in Ep. rewrite Es, Ew in Ep. apply mapM_inv in Ep. pose proof (Forall2_length _ _ _ Ep) as Lp.
    rewrite combine_length, seq_length, Lv, Nat.min_id in Lp. split; [auto|].
    intros i Li. destruct (Hv i Li) as (y & Ey & Fy).
    assert (Ei : nth_error (combine (seq 0 n) values) i = Some (i, y)).
    { assert (G : forall k m (l : list f64) a b, nth_error l k = Some a -> (k < m)%nat -> nth_error (combine (seq b m) l) k = Some ((b + k)%nat, a)).
      { clear. induction k as [|k IH]; intros m l a b Hk Lk; (destruct m as [|m]; [lia|]); (destruct l as [|x l]; [discriminate|]); cbn in *.
        - injection Hk as <-. rewrite Nat.add_0_r. reflexivity.
        - rewrite (IH m l a (S b) Hk ltac:(lia)). f_equal. f_equal. lia. }
      rewrite (G i n values y 0%nat Ey Li). reflexivity. }
    assert (G2 : forall (A B : Type) (P : A -> B -> Prop) l r, Forall2 P l r -> forall k a, nth_error l k = Some a -> exists b, nth_error r k = Some b /\ P a b).
    { clear. induction 1 as [|x b l r HP H IH]; intros k a Hk; destruct k as [|k]; try discriminate Hk; cbn in *; [injection Hk as <-; eauto|auto]. }
    destruct (G2 _ _ _ _ _ Ep i _ Ei) as (d & Hdd & Gd). exists d. split; [exact Hdd|]. cbv beta iota in Gd.
    destruct (Nat.eqb_spec i from) as [->|Ni].
    { apply Ret_inj in Gd. subst d. split; [reflexivity|]. split; intros C; contradiction. }
    split; [intros C; contradiction|]. destruct (flat_cases i Li) as [(Fl & Fi & _)|(Fl & Fi & _)]; rewrite Fl in Gd; cbn [bind] in Gd.
    2:{ apply Ret_inj in Gd. subst d. split; [reflexivity|]. intros _ C. contradiction. }
    split; [intros _ C; contradiction|]. intros _ _.
    fold (profile_distance w y) in Gd. unfold assert_ in Gd. destruct (negb (is_nan (profile_distance w y))) eqn:Nn; [|discriminate Gd]. apply Ret_inj in Gd. subst d. apply negb_true_iff in Nn.
    destruct (Hd from normal i Lf Ff En Li Ni Fi) as (Nx & Ex). specialize (Hg i Li Fi).
    destruct (at_window z ts w precise s from i e eps Mo U E Lf Li i Li Fi (Ac i Li Fi)) as (mb & sb & Wb & Lnb & Bb & Mb & Sb & Nb & Cmb & Csb & Hb & Rb).
    assert (Yp : y = proj z normal mb sb (sdp normal i)).
    { destruct Wb as (Em & Esd & _). unfold fznormalized_value in Fy. rewrite Esd, Em in Fy. cbn [bind] in Fy.
      assert (F : flt sb fflat_threshold = false).
      { rewrite flt_val by (apply Sb || apply threshold_number). apply Rlt_bool_false.
        unfold not_flat in Nb. rewrite fle_val in Nb by (apply Sb || apply threshold_number). destruct (Rle_bool_spec (fval sb) (fval fflat_threshold)); [discriminate|lra]. }
      rewrite F in Fy. unfold assert_ in Fy. destruct (flt f_zero sb); [|discriminate Fy]. apply Ret_inj in Fy. symmetry. exact Fy. }
    rewrite Yp in Nn |- *. rewrite Enorm in *. destruct U as ((Lw & L) & Hw). unfold seed_within, exact_distance in *. cbn [pow] in *. rewrite !Rmult_1_r in *.
    pose proof (prof_distance z w (win ts w from) (win ts w i) ma sa mb sb (sdp (buf (win ts w from) ma sa) i) (bp e) eps err
      Ln Lnb Lw Hw Ba Bb Ma Mb Sa Sb Na Nb He Cm Cmb Cs Csb Ha Hb Ra Rb Nx Ex E500 (or_intror Nn)) as (N1 & P1 & C1).
    split; [split; assumption|]. eapply Rle_trans; [exact C1|exact Hg].
  Qed.

  Variables (samples zone : nat) (draw : nat -> nat).
  Hypothesis Hz : (1 <= zone)%nat.
  Hypothesis Hdr : forall t, (draw t < n)%nat.
  Definition partner_of (i j : nat) : Prop := (j < n)%nat /\ ~ too_close zone i j /\ lively s j.
  Lemma in_indexed (l : list f64) k d : In (k, d) (combine (seq 0 (length l)) l) <-> nth_error l k = Some d.
  Proof.
    assert (G : forall (l : list f64) b k d, In (k, d) (combine (seq b (length l)) l) <-> (b <= k)%nat /\ nth_error l (k - b) = Some d).
    { clear. induction l as [|x l IH]; intros b k d; cbn [length seq combine].
      - split; [intros []|]. intros (_ & H). destruct (k - b)%nat; discriminate H.
      - split.
        + intros [H|H]; [injection H as <- <-; split; [lia|]; rewrite Nat.sub_diag; reflexivity|]. apply IH in H. destruct H as (L & H). split; [lia|]. replace (k - b)%nat with (S (k - S b)) by lia. exact H.
        + intros (L & H). destruct (Nat.eq_dec k b) as [->|Nk]; [rewrite Nat.sub_diag in H; injection H as <-; left; reflexivity|]. right. apply IH. split; [lia|].
          replace (k - b)%nat with (S (k - S b)) in H by lia. exact H. }
    rewrite G. rewrite Nat.sub_0_r. split; [tauto|]. intros H. split; [lia|exact H].
  Qed.
  Lemma square_mono x y : 0 <= x -> x <= y -> x ^ 2 <= y ^ 2.
  Proof. intros P L. cbn [pow]. rewrite !Rmult_1_r. apply Rmult_le_compat; lra. Qed.
  Lemma nearest64 i profile j nn : (i < n)%nat -> lively s i -> fdistance_profile z s sdp i = Ret profile ->
    fmin_by_total (filter (fun jd => negb (overlaps (fst jd) i zone)) (combine (seq 0 (length profile)) profile)) = Some (j, nn) ->
    (j < n)%nat /\ ~ too_close zone i j /\
    ((nn = f_nan /\ forall j', ~ partner_of i j') \/
     (lively s j /\ seed_within ts w gap i j nn /\ forall j', partner_of i j' -> fval nn ^ 2 <= exact_distance ts w i j' ^ 2 + gap)).
  Proof.
    intros Li Fi Ep Em. destruct (profile_entries i profile Li Fi Ep) as (Lp & Hp).
    assert (Hin : forall k d, In (k, d) (filter (fun jd => negb (overlaps (fst jd) i zone)) (combine (seq 0 (length profile)) profile)) <-> nth_error profile k = Some d /\ ~ too_close zone i k).
    { intros k d. rewrite filter_In, in_indexed. cbn [fst]. rewrite negb_true_iff, overlaps_spec_false. unfold too_close. tauto. }
    assert (Ent : forall k d, nth_error profile k = Some d -> ~ too_close zone i k -> (k < n)%nat /\ k <> i /\ ((~ lively s k /\ d = f_nan) \/ (lively s k /\ seed_within ts w gap i k d))).
    { intros k d Hk Nk. assert (Lk : (k < n)%nat) by (rewrite <- Lp; apply nth_error_Some; congruence). assert (Nki : k <> i) by (intros ->; apply Nk; unfold too_close; lia).
      split; [exact Lk|]. split; [exact Nki|]. destruct (Hp k Lk) as (d' & Hd' & _ & D1 & D2). rewrite Hk in Hd'. injection Hd' as <-.
      destruct (flat_cases k Lk) as [(_ & F & _)|(_ & F & _)]; [right; auto|left; auto]. }
    destruct (fmin_spec _ _ ltac:(intros (k & d) Hx; apply Hin in Hx; destruct Hx as (Hx & Nx); destruct (Ent k d Hx Nx) as (_ & _ & [(_ & ->)|(_ & D)]); [left; reflexivity|right; apply D]) Em) as (Hj & Hmin).
    apply Hin in Hj. destruct Hj as (Hj & Nj). destruct (Ent j nn Hj Nj) as (Lj & Nji & Cs). split; [exact Lj|]. split; [exact Nj|].
    assert (Best : forall j', partner_of i j' -> exists d', seed_within ts w gap i j' d' /\ is_nan nn = false /\ fval nn <= fval d').
    { intros j' (L' & N' & F'). destruct (Hp j' L') as (d' & Hd' & _). destruct (Ent j' d' Hd' N') as (_ & _ & [(C & _)|(_ & D)]); [contradiction|].
      exists d'. split; [exact D|]. apply (Hmin (j', d')); [apply Hin; split; assumption|]. cbn [snd]. apply number_not_nan, D. }
    destruct Cs as [(Fj & ->)|(Fj & D)].
    - left. split; [reflexivity|]. intros j' Hj'. destruct (Best j' Hj') as (_ & _ & C & _). discriminate C.
    - right. split; [exact Fj|]. split; [exact D|]. intros j' Hj'. destruct (Best j' Hj') as (d' & (_ & G') & _ & Le). destruct D as ((_ & Pn) & _).
      pose proof (square_mono _ _ Pn Le) as Sq. apply abs_between in G'. lra.
  Qed.

  Definition seed_found (used : list nat) (minimum : f64) (a b : nat) : Prop :=
    (minimum = f_inf /\ a = 0%nat /\ b = 0%nat /\ forall i j, In i used -> ~ partner_of i j) \/
    (sampled s ts w zone gap a b minimum /\ (a < b)%nat /\ (In a used \/ In b used) /\
     forall i j, In i used -> partner_of i j -> fval minimum ^ 2 <= exact_distance ts w i j ^ 2 + gap).
  Lemma below_inf x : number x -> flt x f_inf = true.
  Proof. intros (_ & F). destruct x as [[|]|[|]| |[|] m q]; try discriminate F; reflexivity. Qed.
  Lemma too_close_comm a b : too_close zone a b <-> too_close zone b a.
  Proof. unfold too_close. tauto. Qed.
  Lemma seed_step used minimum a b i j nn : (i < n)%nat -> lively s i -> seed_found used minimum a b ->
    (j < n)%nat -> ~ too_close zone i j ->
    ((nn = f_nan /\ forall j', ~ partner_of i j') \/
     (lively s j /\ seed_within ts w gap i j nn /\ forall j', partner_of i j' -> fval nn ^ 2 <= exact_distance ts w i j' ^ 2 + gap)) ->
    if flt nn minimum then seed_found (used ++ [i]) nn (Nat.min i j) (Nat.max i j) else seed_found (used ++ [i]) minimum a b.
  Proof.
    intros Li Fi Sf Lj Nij Hnn. assert (Nji : i <> j) by (intros ->; apply Nij; unfold too_close; lia).
    destruct U as ((Lw & L) & Hw).
    destruct Hnn as [(-> & No)|(Fj & D & Best)].
    - assert (Fn : flt f_nan minimum = false) by (destruct minimum; reflexivity). rewrite Fn. destruct Sf as [(-> & -> & -> & Nu)|(Sm & Lab & Hin & Hb)]; [left|right].
      + split; [reflexivity|]. split; [reflexivity|]. split; [reflexivity|]. intros i0 j0 H. apply in_app_iff in H. destruct H as [H|[<-|[]]]; [apply Nu, H|apply No].
      + split; [exact Sm|]. split; [exact Lab|]. split; [rewrite !in_app_iff; tauto|]. intros i0 j0 H Hp. apply in_app_iff in H. destruct H as [H|[<-|[]]]; [apply Hb; assumption|destruct (No j0 Hp)].
    - assert (New : (forall i0 j0, In i0 used -> partner_of i0 j0 -> fval nn ^ 2 <= exact_distance ts w i0 j0 ^ 2 + gap) -> seed_found (used ++ [i]) nn (Nat.min i j) (Nat.max i j)).
      { intros Old. right. assert (All : forall i0 j0, In i0 (used ++ [i]) -> partner_of i0 j0 -> fval nn ^ 2 <= exact_distance ts w i0 j0 ^ 2 + gap).
        { intros i0 j0 H Hp. apply in_app_iff in H. destruct H as [H|[<-|[]]]; [apply Old; assumption|apply Best; exact Hp]. }
        destruct (Nat.lt_ge_cases i j) as [Q|Q].
        - rewrite Nat.min_l, Nat.max_r by lia. split; [repeat (split; [assumption|]); exact D|]. split; [exact Q|]. split; [left; apply in_app_iff; right; left; reflexivity|exact All].
        - rewrite Nat.min_r, Nat.max_l by lia. split.
          + split; [exact Lj|]. split; [exact Li|]. split; [rewrite too_close_comm; exact Nij|]. split; [exact Fj|]. split; [exact Fi|]. destruct D as (D1 & D2). split; [exact D1|]. rewrite (exact_sym ts w j i) by lia. exact D2.
          + split; [lia|]. split; [right; apply in_app_iff; right; left; reflexivity|exact All]. }
      destruct Sf as [(-> & -> & -> & Nu)|(Sm & Lab & Hin & Hb)].
      + rewrite (below_inf nn) by apply D. apply New. intros i0 j0 H Hp. destruct (Nu i0 j0 H Hp).
      + destruct Sm as (S1 & S2 & S3 & S4 & S5 & S6). rewrite flt_val by (apply D || apply S6). unfold Rlt_bool. pose proof (proj2 (proj1 D)) as Pn. pose proof (proj2 (proj1 S6)) as Pm.
        destruct (Rcompare_spec (fval nn) (fval minimum)) as [Q|Q|Q].
        * apply New. intros i0 j0 H Hp. pose proof (square_mono _ _ Pn (Rlt_le _ _ Q)). specialize (Hb i0 j0 H Hp). lra.
        * right. split; [repeat (split; [assumption|]); assumption|]. split; [exact Lab|]. split; [rewrite !in_app_iff; tauto|]. intros i0 j0 H Hp. apply in_app_iff in H. destruct H as [H|[<-|[]]]; [apply Hb; assumption|]. rewrite <- Q. apply Best, Hp.
        * right. split; [repeat (split; [assumption|]); assumption|]. split; [exact Lab|]. split; [rewrite !in_app_iff; tauto|]. intros i0 j0 H Hp. apply in_app_iff in H. destruct H as [H|[<-|[]]]; [apply Hb; assumption|].
          specialize (Best j0 Hp). pose proof (square_mono _ _ Pm (Rlt_le _ _ Q)). lra.
  Qed.
  Definition hits (T : nat) : list nat := filter (alive s) (draws draw T).
  Lemma seed_sound fuel minimum average a b : fnearest_neighbor_distance_stats samples z s sdp zone draw fuel = Ret (minimum, average, (a, b)) ->
    exists T, length (hits T) = samples /\ seed_found (hits T) minimum a b.
  Proof.
    unfold fnearest_neighbor_distance_stats, assert_. destruct (0 <? fnum_subsequences s)%nat; [|discriminate]. intros Er.
    match type of Er with loop _ ?f _ = _ => set (body := f) in Er end.
    refine (loop_inv body (fun '(t, k, (sum, m, (x, y))) => k = length (hits t) /\ (k <= samples)%nat /\ seed_found (hits t) m x y)
      (fun '(m, av, (x, y)) => exists T, length (hits T) = samples /\ seed_found (hits T) m x y) _ fuel _ _ _ Er).
    - intros ((t & k) & ((sum & m) & (x & y))) (Ek & Lk & Sf) r Eb. unfold body in Eb.
      destruct (Nat.ltb_spec k samples) as [Q|Q].
      + pose proof (filter_draws_S (alive s) draw t) as ES. fold (hits (S t)) (hits t) in ES.
        destruct (flat_cases (draw t) (Hdr t)) as [(Fl & Fi & Fa)|(Fl & Fi & Fa)]; rewrite Fl in Eb; cbn [bind] in Eb; rewrite Fa in ES.
        * destruct (fdistance_profile z s sdp (draw t)) as [profile| |] eqn:Ep; try discriminate Eb. cbn [bind] in Eb.
          destruct (fmin_by_total _) as [(j & nn)|] eqn:Em; [|discriminate Eb].
          destruct (nearest64 (draw t) profile j nn (Hdr t) Fi Ep Em) as (Lj & Nj & Cs).
          pose proof (seed_step (hits t) m x y (draw t) j nn (Hdr t) Fi Sf Lj Nj Cs) as St. rewrite <- ES in St.
          assert (Sk : S k = length (hits (S t))) by (rewrite ES, app_length; cbn [length]; lia).
          destruct (flt nn m); apply Ret_inj in Eb; subst r; cbv beta iota; (split; [exact Sk|]); (split; [lia|exact St]).
        * apply Ret_inj in Eb. subst r. cbv beta iota. rewrite ES, app_nil_r. auto.
      + apply Ret_inj in Eb. subst r. cbv beta iota. exists t. split; [lia|exact Sf].
    - split; [reflexivity|]. split; [lia|]. left. split; [reflexivity|]. split; [reflexivity|]. split; [reflexivity|]. intros i j [].
  Qed.
  Hypothesis Hn : (2 * zone <= n)%nat.
  Hypothesis Hf : forall t i, lively s (draw t) -> (i < n)%nat -> i <> draw t -> lively s i -> gap < exact_distance ts w (draw t) i ^ 2.
  Lemma profile_returns i : (i < n)%nat -> lively s i -> (exists t, i = draw t) -> exists profile, fdistance_profile z s sdp i = Ret profile /\ length profile = n.
  Proof.
    intros Li Fi (t & ->). destruct (at_window z ts w precise s (draw t) (draw t) e eps Mo U E Li Li (draw t) Li Fi (Ac _ Li Fi)) as (ma & sa & Wa & _).
    assert (En : exists normal, fznormalized s (draw t) = Ret normal).
    { destruct Wa as (Em & Esd & Esub). unfold fznormalized. rewrite Em, Esd, Esub. cbn [bind]. eexists. reflexivity. }
    destruct En as (normal & En).
    destruct (c120_profile_partial z ts w precise s sdp (draw t) normal e eps err Mo U E Li Fi He Ac En Err) as (profile & Ep & Lp & _); [|eauto].
    intros i' Li' Ni' Fi'. split; [apply (Hd (draw t)); assumption|]. eapply Rle_lt_trans; [apply (Hg i' Li' Fi')|]. apply Hf; assumption.
  Qed.
  Lemma seed_returns T : length (hits T) = samples -> exists r, returns (fnearest_neighbor_distance_stats samples z s sdp zone draw) r.
  Proof.
    intros ET. unfold fnearest_neighbor_distance_stats, assert_. destruct (made z ts w precise s Mo U E) as (_ & _ & En & _).
    replace (0 <? fnum_subsequences s)%nat with true by (symmetry; apply Nat.ltb_lt; rewrite En; specialize (Hdr 0%nat); lia).
    match goal with |- context [fun fuel => loop fuel ?f _] => set (body := f) end.
    destruct (sample_returns samples draw (alive s) body (fun _ _ => True) (fun '(sum, m, xy) => (m, fdiv sum (f_of_nat samples), xy)) (f_zero, f_inf, (0, 0)%nat)) with (T := T) as (x & Hr & _).
    - intros t k ((sum & m) & xy) Lk. unfold body. replace (k <? samples)%nat with false by (symmetry; apply Nat.ltb_ge; lia). reflexivity.
    - intros t k ((sum & m) & xy) Lk Fa. unfold body. replace (k <? samples)%nat with true by (symmetry; apply Nat.ltb_lt; lia).
      destruct (flat_cases (draw t) (Hdr t)) as [(Fl & Fi & Fa')|(Fl & Fi & Fa')]; [congruence|]. rewrite Fl. reflexivity.
    - intros t k ((sum & m) & xy) l Lk Fa _. unfold body. replace (k <? samples)%nat with true by (symmetry; apply Nat.ltb_lt; lia).
      destruct (flat_cases (draw t) (Hdr t)) as [(Fl & Fi & Fa')|(Fl & Fi & Fa')]; [|congruence]. rewrite Fl. cbn [bind].
      destruct (profile_returns (draw t) (Hdr t) Fi ltac:(eauto)) as (profile & -> & Lp). cbn [bind].
      destruct (fmin_by_total _) as [(j & nn)|] eqn:Em; [destruct (flt nn m); eexists; split; try reflexivity; exact I|].
      exfalso. assert (Hp : exists k d, nth_error profile k = Some d /\ ~ too_close zone k (draw t)).
      { specialize (Hdr t). destruct (Nat.lt_ge_cases (draw t + zone) n) as [Q|Q].
        - destruct (nth_error profile (draw t + zone)) as [d|] eqn:En'; [|apply nth_error_None in En'; lia]. exists (draw t + zone)%nat, d. split; [exact En'|unfold too_close; lia].
        - destruct (nth_error profile (draw t - zone)) as [d|] eqn:En'; [|apply nth_error_None in En'; lia]. exists (draw t - zone)%nat, d. split; [exact En'|unfold too_close; lia]. }
      destruct Hp as (k' & d & Hk & Nk). assert (Hin : In (k', d) (filter (fun jd => negb (overlaps (fst jd) (draw t) zone)) (combine (seq 0 (length profile)) profile))).
      { apply filter_In. rewrite in_indexed. split; [exact Hk|]. cbn [fst]. apply negb_true_iff, overlaps_spec_false. exact Nk. }
      destruct (filter _ (combine (seq 0 (length profile)) profile)); [destruct Hin|discriminate Em].
    - exact I.
    - exact ET.
    - eexists. exact Hr.
  Qed.
End Seed.

(** * C128: the seed pair *)
(** Whatever is drawn, when the sampling returns, it has used as many windows that are not
    flat as wanted.  Either none of them has a partner, a window that is not flat and does not
    overlap it, and there is no pair; or the pair found does not overlap, none of its windows
    is flat, one of them was drawn, the number returned is their distance up to [gap], and
    no drawn window has a partner nearer than that, up to [gap]. *)
Theorem c128_seed :
  forall (z : zeros) (ts : list f64) (w : nat) (precise : bool) (s : fseries) (sdp : list f64 -> nat -> f64) (e : Z) (eps err gap : R)
         (samples zone : nat) (draw : nat -> nat) (fuel : nat) (minimum average : f64) (a b : nat),
    moderate ts -> usable ts w -> fseries_new z ts w precise = Ret s -> 0 < eps <= / 64 -> accurate s (length ts - w) e eps ->
    err <= 2 ^ 500 -> dots_within s ts w sdp err -> profile_gap s ts w eps err gap ->
    (1 <= zone)%nat -> (forall t, (draw t < length ts - w)%nat) ->
    fnearest_neighbor_distance_stats samples z s sdp zone draw fuel = Ret (minimum, average, (a, b)) ->
    exists used T, used = filter (alive s) (draws draw T) /\ length used = samples /\
      ((minimum = f_inf /\ a = 0%nat /\ b = 0%nat /\
        forall i j, In i used -> (j < length ts - w)%nat -> lively s j -> too_close zone i j) \/
       (sampled s ts w zone gap a b minimum /\ (a < b)%nat /\ (In a used \/ In b used) /\
        forall i j, In i used -> (j < length ts - w)%nat -> lively s j -> ~ too_close zone i j ->
          fval minimum ^ 2 <= exact_distance ts w i j ^ 2 + gap)).
Proof.
  intros z ts w precise s sdp e eps err gap samples zone draw fuel minimum average a b Mo U E He Ac Err Hd Hg Hz Hdr Er.
  destruct (seed_sound z ts w precise s sdp e eps err gap Mo U E He Ac Err Hd Hg samples zone draw Hz Hdr fuel minimum average a b Er) as (T & LT & Sf).
  exists (hits s draw T), T. split; [reflexivity|]. split; [exact LT|]. destruct Sf as [(A & B & C & D)|(A & B & C & D)]; [left|right].
  - split; [exact A|]. split; [exact B|]. split; [exact C|]. intros i j Hi Lj Fj. destruct (overlaps i j zone) eqn:Eo; [apply overlaps_spec, Eo|]. apply overlaps_spec_false in Eo.
    destruct (D i j Hi). split; [exact Lj|]. split; [exact Eo|exact Fj].
  - split; [exact A|]. split; [exact B|]. split; [exact C|]. intros i j Hi Lj Fj Nij. apply (D i j Hi). split; [exact Lj|]. split; [exact Nij|exact Fj].
Qed.
Print Assumptions c128_seed.
(** It returns once enough windows that are not flat have been drawn.  Missing: windows that
    are at a distance below the rounding error from another; see below. *)
Theorem c128_returns_partial :
  forall (z : zeros) (ts : list f64) (w : nat) (precise : bool) (s : fseries) (sdp : list f64 -> nat -> f64) (e : Z) (eps err gap : R)
         (samples zone : nat) (draw : nat -> nat) (T : nat),
    moderate ts -> usable ts w -> fseries_new z ts w precise = Ret s -> 0 < eps <= / 64 -> accurate s (length ts - w) e eps ->
    err <= 2 ^ 500 -> dots_within s ts w sdp err -> profile_gap s ts w eps err gap ->
    (1 <= zone)%nat -> (2 * zone <= length ts - w)%nat -> (forall t, (draw t < length ts - w)%nat) ->
    (forall t i, lively s (draw t) -> (i < length ts - w)%nat -> i <> draw t -> lively s i -> gap < exact_distance ts w (draw t) i ^ 2) ->
    length (filter (alive s) (draws draw T)) = samples ->
    exists r, returns (fnearest_neighbor_distance_stats samples z s sdp zone draw) r.
Proof.
  intros z ts w precise s sdp e eps err gap samples zone draw T Mo U E He Ac Err Hd Hg Hz Hn Hdr Hf LT.
  apply (seed_returns z ts w precise s sdp e eps err gap Mo U E He Ac Err Hd Hg samples zone draw Hz Hdr Hn Hf T LT).
Qed.
Print Assumptions c128_returns_partial.
(** If a window that is drawn is repeated, it may abort, even if all dot products are exact
    (see [c120_aborts_refuted]). *)
Theorem c128_returns_refuted :
  exists (z : zeros) (ts : list f64) (w : nat) (s : fseries) (sdp : list f64 -> nat -> f64) (e : Z) (eps : R) (zone : nat) (draw : nat -> nat),
    moderate ts /\ usable ts w /\ fseries_new z ts w true = Ret s /\ 0 < eps <= / 64 /\ accurate s (length ts - w) e eps /\
    (forall i, (i < length ts - w)%nat -> lively s i) /\ dots_within s ts w sdp 0 /\
    (1 <= zone)%nat /\ (2 * zone <= length ts - w)%nat /\ (forall t, (draw t < length ts - w)%nat) /\
    forall samples, (1 <= samples)%nat -> panics (fnearest_neighbor_distance_stats samples z s sdp zone draw).
Proof.
  destruct c120_aborts_refuted as (z & ts & w & s & sdp & from & e & eps & Mo & U & E & Lf & Fl & He & Ac & Hd & Ep).
  assert (Le : 0 < eps <= / 64).
  { split; [lra|]. apply Rle_trans with (/ 2 ^ 40); [lra|]. apply Rinv_le; [lra|]. rewrite (pow_IZR 2 40). change (2 ^ Z.of_nat 40)%Z with 1099511627776%Z. lra. }
  destruct (Nat.lt_ge_cases 1 (length ts - w)) as [L2|L2].
  2:{ exfalso. assert (from = 0%nat) by lia. subst from. destruct (at_window z ts w true s 0 0 e eps Mo U E Lf Lf 0%nat Lf (Fl _ Lf) (Ac _ Lf (Fl _ Lf))) as (ma & sa & (Em & Esd & Esub) & Ln & _).
      assert (En : fznormalized s 0 = Ret (buf (win ts w 0) ma sa)) by (unfold fznormalized; rewrite Em, Esd, Esub; reflexivity).
      destruct (c120_profile_partial z ts w true s sdp 0 _ e eps 0 Mo U E Lf (Fl _ Lf) Le Ac En) as (pr & Ep' & _); [apply pow_le; lra|intros i Li Ni; lia|]. congruence. }
  exists z, ts, w, s, sdp, e, eps, 1%nat, (fun _ => from).
  split; [exact Mo|]. split; [exact U|]. split; [exact E|]. split; [exact Le|]. split; [exact Ac|]. split; [exact Fl|].
  split.
  { intros f normal i Lf' Ff En Li Ni Fi.
    destruct (at_window z ts w true s f f e eps Mo U E Lf' Lf' f Lf' Ff (Ac _ Lf' Ff)) as (ma & sa & (Em & Esd & Esub) & Ln & Ba & Ma & Sa & Na & Cm & Cs & Ha & Ra).
    unfold fznormalized in En. rewrite Em, Esd, Esub in En. cbn [bind] in En. apply Ret_inj in En. fold (buf (win ts w f) ma sa) in En. subst normal. destruct U as ((Lw & L) & Hw).
    apply Hd; [unfold buf; rewrite map_length; exact Ln| |exact Li].
    intros x Hx. apply (buf_bnd w (win ts w f) (win ts w f) ma sa (bp e) eps Ln Ln Lw Ba Ba Ma Sa Na Le Cm Cs Ha Ha Ra x Hx). }
  split; [lia|]. split; [lia|]. split; [intros _; exact Lf|].
  intros samples Ls. destruct (made z ts w true s Mo U E) as (_ & _ & En & _).
  exists 1%nat. intros m Lm. destruct m as [|m]; [lia|]. unfold fnearest_neighbor_distance_stats, assert_. rewrite En.
  replace (0 <? length ts - w)%nat with true by (symmetry; apply Nat.ltb_lt; lia). cbn [loop]. replace (0 <? samples)%nat with true by (symmetry; apply Nat.ltb_lt; lia).
  rewrite (Fl _ Lf : fis_flat s from = Ret false). cbn [bind]. rewrite Ep. reflexivity.
Qed.
Print Assumptions c128_returns_refuted.

(** * C128: the search that starts from it *)
(** The extents of C127, with the pair that the sampling finds: what is returned has the
    error of the distance routine, or is that pair and has the error of the profile. *)
Theorem c128_answers :
  forall (z : zeros) (ts : list f64) (w : nat) (precise : bool) (s : fseries) (sdp : list f64 -> nat -> f64) (fexp : f64 -> f64)
         (arrange : nat -> nat -> list (N * N) -> list (N * N)) (hs : nat -> fhasher) (rest : problem) (e : Z) (eps err gap : R)
         (samples : nat) (draw : nat -> nat) (fuel0 : nat) (average : f64)
         (a b : nat) (d : f64) (cbs : list (nat -> bool)) (fuel : nat) (st : iter) (answers : list answer) (m : motiflet),
    whole_search z ts w precise s arrange hs rest -> 0 < eps <= / 64 -> accurate s (length ts - w) e eps ->
    err <= 2 ^ 500 -> dots_within s ts w sdp err -> profile_gap s ts w eps err gap -> (forall t, (draw t < length ts - w)%nat) ->
    fnearest_neighbor_distance_stats samples z s sdp (p_ez rest) draw fuel0 = Ret (d, average, (a, b)) -> d <> f_inf ->
    session (fsearch z s sdp fexp arrange hs rest) a b d cbs fuel = Ret (st, answers) -> In (Item m) answers ->
    (2 <= length (ml_indices m) <= p_max_k rest)%nat /\
    (forall v, In v (ml_indices m) -> (v < length ts - w)%nat /\ lively s v) /\
    pairwise_apart (p_ez rest) (ml_indices m) /\
    distance_value (ml_extent m) /\
    exists exact, widest (exact_distance ts w) (ml_indices m) exact /\
      (Rabs (fval (ml_extent m) ^ 2 - exact ^ 2) <= 10 * INR w * eps \/
       m = Motiflet [a; b] d /\ Rabs (fval (ml_extent m) ^ 2 - exact ^ 2) <= gap).
Proof.
  intros z ts w precise s sdp fexp arrange hs rest e eps err gap samples draw fuel0 average a b d cbs fuel st answers m Ws He Ac Err Hd Hg Hdr Er Nd Es Hm.
  destruct (c128_seed z ts w precise s sdp e eps err gap samples (p_ez rest) draw fuel0 d average a b (ws_moderate _ _ _ _ _ _ _ _ Ws) (ws_usable _ _ _ _ _ _ _ _ Ws) (ws_series _ _ _ _ _ _ _ _ Ws) He Ac Err Hd Hg) as (used & T & _ & _ & [(C & _)|(Sm & _)]).
  - apply (ws_configured _ _ _ _ _ _ _ _ Ws).
  - exact Hdr.
  - exact Er.
  - contradiction.
  - eapply c127_answers; eauto.
Qed.
Print Assumptions c128_answers.

(** ** Zigzag: the sampling finds the repeat; its profiles are exact. *)
Lemma zigzag_exact i : (i < 4)%nat -> exact_window zigzag_data 2 i = if Nat.even i then [0; 1] else [1; 0].
Proof. intros Li. rewrite <- window_exact, zigzag_exact_data. unfold window. do 4 (destruct i as [|i]; [reflexivity|]). lia. Qed.
Lemma zigzag_sd i : (i < 4)%nat -> sd_of (exact_window zigzag_data 2 i) = / 2.
Proof.
  intros Li. rewrite (zigzag_exact i Li). unfold sd_of. rewrite <- (sqrt_square (/ 2)) by lra. f_equal. destruct (Nat.even i); unfold mean_of, total; cbn [map fold_right length INR]; lra.
Qed.
Lemma zigzag_dots : dots_within zigzag_series zigzag_data 2 zigzag_dot 0.
Proof.
  intros from normal i Lf _ En Li _ _. change (length zigzag_data - 2)%nat with 4%nat in Lf, Li. unfold dot_within. rewrite (zigzag_exact i Li).
  assert (Hm : exists m1 : f64, number m1 /\ fval m1 = -1 /\ (normal = [m1; f_of_nat 1] \/ normal = [f_of_nat 1; m1]) /\
    zigzag_dot normal i = if Nat.even i then nth 1 normal f_zero else nth 0 normal f_zero).
  { exists (S754_finite true 4503599627370496 (-52)). split; [split; reflexivity|]. split; [unfold fval, SF2R, F2R; cbn [SpecFloat.cond_Zopp Fnum Fexp]; change (bp (-52)) with (/ 4503599627370496); cbn [Z.opp]; lra|].
    do 4 (destruct from as [|from]; [vm_compute in En; injection En as <-; (split; [tauto|]); do 4 (destruct i as [|i]; [vm_compute; reflexivity|]); lia|]). lia. }
  destruct Hm as (m1 & N1 & V1 & Hn & ->). destruct (of_nat_exact 1 ltac:(lia)) as (N2 & V2). rewrite INR_IZR_INZ in V2. cbn in V2.
  destruct Hn as [-> | ->]; destruct (Nat.even i); cbn [nth]; (split; [assumption|]); unfold inner, total; cbn [map combine fold_right fst snd];
    rewrite ?V1, ?V2; match goal with |- Rabs ?d <= 0 => replace d with 0 by lra end; rewrite Rabs_R0; lra.
Qed.
Lemma zigzag_gap : profile_gap zigzag_series zigzag_data 2 (/ 2 ^ 36) 0 (40 * / 2 ^ 36).
Proof. intros i Li _. change (length zigzag_data - 2)%nat with 4%nat in Li. rewrite (zigzag_sd i Li). cbn [INR]. unfold Rdiv. rewrite Rmult_0_l. lra. Qed.
Definition by_turns (n t : nat) : nat := (t mod n)%nat.
Example c128_seed_case : exists average, moderate zigzag_data /\ usable zigzag_data 2 /\ fseries_new z_ex zigzag_data 2 true = Ret zigzag_series /\ 0 < / 2 ^ 36 <= / 64 /\
  accurate zigzag_series (length zigzag_data - 2) 0 (/ 2 ^ 36) /\ 0 <= 2 ^ 500 /\ dots_within zigzag_series zigzag_data 2 zigzag_dot 0 /\
  profile_gap zigzag_series zigzag_data 2 (/ 2 ^ 36) 0 (40 * / 2 ^ 36) /\ (forall t, (by_turns 4 t < length zigzag_data - 2)%nat) /\
  fnearest_neighbor_distance_stats 7 z_ex zigzag_series zigzag_dot 2 (by_turns 4) 20 = Ret (f_zero, average, (0, 2)%nat).
Proof.
  eexists. split; [apply zigzag_moderate|]. split; [apply zigzag_usable|]. split; [apply zigzag_new|]. split; [apply eps_ok|]. split; [apply zigzag_accurate|]. split; [apply pow_le; lra|].
  split; [apply zigzag_dots|]. split; [apply zigzag_gap|]. split; [intros t; apply Nat.mod_upper_bound; discriminate|]. vm_compute. reflexivity.
Qed.
Example c128_answers_case : exists average st answers,
  whole_search z_ex zigzag_data 2 true zigzag_series (fun _ _ => by_hash) zigzag_hs zigzag_search /\
  fnearest_neighbor_distance_stats 7 z_ex zigzag_series zigzag_dot (p_ez zigzag_search) (by_turns 4) 20 = Ret (f_zero, average, (0, 2)%nat) /\ f_zero <> f_inf /\
  session (zigzag_whole (fun _ => f_zero)) 0 2 f_zero [always] 30 = Ret (st, answers) /\ In (Item (Motiflet [0; 2]%nat f_zero)) answers.
Proof.
  eexists. eexists. eexists. split; [apply zigzag_is_whole|]. split; [vm_compute; reflexivity|]. split; [discriminate|]. split; [vm_compute; reflexivity|left; reflexivity].
Qed.
(** The values 1 0 0 1 0 0 of C120, whose three windows are far from each other. *)
Lemma spikes_exact i : (i < 3)%nat -> exact_window data_pf 3 i = nth i [[1; 0; 0]; [0; 0; 1]; [0; 1; 0]] [].
Proof.
  intros Li. unfold exact_window, data_pf, nums. rewrite skipn_map, firstn_map. fold (nums (firstn 3 (skipn i [1; 0; 0; 1; 0; 0]%nat))).
  do 3 (destruct i as [|i]; [rewrite exact_nums, (map_ext _ _ INR_IZR_INZ) by (intros n Hn; cbn in Hn; lia); reflexivity|]). lia.
Qed.
Lemma spikes_sd i : (i < 3)%nat -> sd_of (exact_window data_pf 3 i) = sqrt (2 / 9).
Proof.
  intros Li. unfold sd_of. f_equal. rewrite (spikes_exact i Li). do 3 (destruct i as [|i]; [unfold mean_of, total; cbn [nth map fold_right length INR]; lra|]). lia.
Qed.
Lemma spikes_distance i j : (i < 3)%nat -> (j < 3)%nat -> i <> j -> exact_distance data_pf 3 i j ^ 2 = 9.
Proof.
  intros Li Lj Nij. assert (S9 : 0 < sqrt (2 / 9)) by (apply sqrt_lt_R0; lra).
  assert (Is : / sqrt (2 / 9) * / sqrt (2 / 9) = 9 / 2) by (rewrite <- Rinv_mult, sqrt_sqrt by lra; field).
  assert (Mn : forall i, (i < 3)%nat -> mean_of (exact_window data_pf 3 i) = / 3).
  { intros k Lk. rewrite (spikes_exact k Lk). do 3 (destruct k as [|k]; [unfold mean_of, total; cbn [nth fold_right length INR]; lra|]). lia. }
  unfold exact_distance, zdistance, euclid. cbn [pow]. rewrite Rmult_1_r, sqrt_sqrt; unfold znorm; rewrite !Mn, !spikes_sd, !spikes_exact by assumption; set (q := sqrt (2 / 9)) in *; clearbody q;
    do 3 (destruct i as [|i]; [do 3 (destruct j as [|j]; [try lia; unfold total, Rdiv; cbn [nth map combine fold_right fst snd];
      match goal with |- _ <= ?d => replace d with (2 * (/ q * / q)) by ring | |- ?d = _ => replace d with (2 * (/ q * / q)) by ring end; lra|]); lia|]); lia.
Qed.
Example c128_returns_case : moderate data_pf /\ usable data_pf 3 /\ fseries_new z_ex data_pf 3 true = Ret series_pf /\
  accurate series_pf (length data_pf - 3) 0 (/ 2 ^ 40) /\ dots_within series_pf data_pf 3 dot_cp 0 /\ profile_gap series_pf data_pf 3 (/ 2 ^ 40) 0 1 /\
  (2 * 1 <= length data_pf - 3)%nat /\ (forall t, (by_turns 3 t < length data_pf - 3)%nat) /\
  (forall t i, lively series_pf (by_turns 3 t) -> (i < length data_pf - 3)%nat -> i <> by_turns 3 t -> lively series_pf i -> 1 < exact_distance data_pf 3 (by_turns 3 t) i ^ 2) /\
  length (filter (alive series_pf) (draws (by_turns 3) 10)) = 10%nat.
Proof.
  assert (Ld : forall t, (by_turns 3 t < 3)%nat) by (intros t; apply Nat.mod_upper_bound; discriminate).
  assert (Mo : moderate data_pf) by (apply nums_moderate; intros n Hn; cbn in Hn; lia).
  assert (Us : usable data_pf 3) by (unfold usable; vm_compute; split; [lia|discriminate]).
  assert (En : fseries_new z_ex data_pf 3 true = Ret series_pf) by (vm_compute; reflexivity).
  assert (S4 : / 4 <= sqrt (2 / 9)) by (rewrite <- (sqrt_square (/ 4)) by lra; apply sqrt_le_1_alt; lra).
  assert (P40 : / 2 ^ 40 = / 1099511627776) by (rewrite (pow_IZR 2 40); reflexivity).
  split; [exact Mo|]. split; [exact Us|]. split; [exact En|]. change (length data_pf - 3)%nat with 3%nat. split.
  { intros i Li _. apply (c100_precise z_ex data_pf 3); [exact Mo|exact Us|exact En|cbn; lia|lia|intros x Hx; eapply (nums_at_most 0); [|lia|eapply win_incl; exact Hx]; intros n Hn; cbn in Hn; lia|].
    rewrite (spikes_sd i Li), !power_bp. change (bp (-51)) with (/ 2251799813685248). rewrite P40. change (bp 0) with 1. cbn [INR]. lra. }
  split.
  { intros from normal i Lf _ Ez Li _ _. change (length data_pf - 3)%nat with 3%nat in Lf, Li.
    assert (Nn : (forall t, In t normal -> number t) /\ length normal = 3%nat).
    { do 3 (destruct from as [|from]; [vm_compute in Ez; apply Ret_inj in Ez; subst normal; split; [|reflexivity]; intros t [<-|[<-|[<-|[]]]]; split; vm_compute; reflexivity|]). lia. }
    destruct Nn as (Nu & Ln). destruct normal as [|x [|y [|q [|? ?]]]]; try discriminate Ln. clear Ez. unfold dot_within. rewrite (spikes_exact i Li).
    do 3 (destruct i as [|i]; [split; [apply Nu; cbn; tauto|]; unfold inner, total; cbn [nth dot_cp map combine fold_right fst snd]; match goal with |- Rabs ?d <= 0 => replace d with 0 by ring end; rewrite Rabs_R0; lra|]). lia. }
  split. { intros i Li _. change (length data_pf - 3)%nat with 3%nat in Li. rewrite (spikes_sd i Li), P40. cbn [INR]. unfold Rdiv. rewrite Rmult_0_l. lra. }
  split; [lia|]. split; [exact Ld|]. split; [|vm_compute; reflexivity].
  intros t i _ Li Ni _. rewrite spikes_distance; [lra|apply Ld|exact Li|auto].
Qed.
