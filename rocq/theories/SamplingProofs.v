(** Facts about the sampling loops. *)
From Coq Require Import Reals Lra.
From Verif Require Import Base Overlaps OverlapsSpec OverlapsProofs RSpec RealProofs Series SeriesProofs FFT FFTProofs Sampling SamplingSpec.
Local Open Scope R_scope.

Lemma apart_overlaps i j zone : overlaps i j zone = negb (apart zone i j).
Proof.
  destruct (overlaps i j zone) eqn:E; symmetry; [apply negb_true_iff|apply negb_false_iff].
  - apply overlaps_spec in E. unfold too_close in E. unfold apart. lia.
  - apply overlaps_spec_false in E. unfold too_close in E. unfold apart. lia.
Qed.
Lemma draws_S {A} (draw : nat -> A) t : draws draw (S t) = draws draw t ++ [draw t].
Proof. unfold draws. rewrite seq_S, map_app. reflexivity. Qed.
Lemma filter_draws_S {A} (good : A -> bool) draw t :
  filter good (draws draw (S t)) = filter good (draws draw t) ++ (if good (draw t) then [draw t] else []).
Proof. rewrite draws_S, filter_app. reflexivity. Qed.
Lemma filter_draws_prefix {A} (good : A -> bool) draw t T : (t <= T)%nat -> exists more, filter good (draws draw T) = filter good (draws draw t) ++ more.
Proof.
  induction 1 as [|T L (more & IH)]; [exists []; rewrite app_nil_r; reflexivity|].
  rewrite filter_draws_S, IH, <- app_assoc. eexists. reflexivity.
Qed.

Section Sample.
  Context {A X Out : Type} (samples : nat) (draw : nat -> A) (good : A -> bool) (body : nat * nat * X -> res ((nat * nat * X) + Out))
    (I : list A -> X -> Prop) (fin : X -> Out) (x0 : X).
  Hypothesis Hstop : forall t k x, (samples <= k)%nat -> body (t, k, x) = Ret (inr (fin x)).
  Hypothesis Hskip : forall t k x, (k < samples)%nat -> good (draw t) = false -> body (t, k, x) = Ret (inl (S t, k, x)).
  Hypothesis Htake : forall t k x l, (k < samples)%nat -> good (draw t) = true -> I l x ->
    exists x', body (t, k, x) = Ret (inl (S t, S k, x')) /\ I (l ++ [draw t]) x'.
  Hypothesis H0 : I [] x0.
  Let hits T := filter good (draws draw T).
  Lemma sample_returns T : length (hits T) = samples ->
    exists x, returns (fun fuel => loop fuel body (O, O, x0)) (fin x) /\ I (hits T) x.
  Proof.
    intros ET.
    destruct (loop_measure body
      (fun '(t, k, x) => (t <= T)%nat /\ k = length (hits t) /\ I (hits t) x)
      (fun r => exists x, r = fin x /\ I (hits T) x)
      (fun '(t, k, x) => (T - t)%nat)) with (s := (O, O, x0)) (fuel := S T) as (r & Er & x & -> & Hx).
    - intros ((t & k) & x) (Lt & Ek & HI). destruct (filter_draws_prefix good draw t T Lt) as (more & Em). fold (hits T) (hits t) in Em.
      assert (Ll : length (hits T) = (length (hits t) + length more)%nat) by (rewrite Em, app_length; reflexivity).
      destruct (Nat.lt_ge_cases k samples) as [Lk|Lk].
      + left. assert (t <> T) by (intros ->; lia).
        pose proof (filter_draws_S good draw t) as ES. fold (hits (S t)) (hits t) in ES.
        destruct (good (draw t)) eqn:G.
        * destruct (Htake t k x (hits t) Lk G HI) as (x' & Eb & HI'). exists (S t, S k, x'). split; [exact Eb|].
          rewrite ES. split; [|lia]. split; [lia|]. rewrite app_length. cbn [length]. split; [lia|exact HI'].
        * exists (S t, k, x). split; [apply Hskip; assumption|]. rewrite ES, app_nil_r. split; [|lia]. split; [lia|]. split; assumption.
      + right. exists (fin x). split; [apply Hstop; exact Lk|]. exists x. split; [reflexivity|].
        destruct more as [|m more]; [|cbn in Ll; lia]. rewrite Em, app_nil_r. exact HI.
    - split; [lia|]. split; [reflexivity|exact H0].
    - lia.
    - exists x. split; [|exact Hx]. exists (S T). intros m L. rewrite (loop_mono _ (S T)); [exact Er|exact L|rewrite Er; discriminate].
  Qed.
  Lemma sample_diverges : (forall T, (length (hits T) < samples)%nat) -> diverges (fun fuel => loop fuel body (O, O, x0)).
  Proof.
    intros H fuel. apply (loop_diverges body (fun '(t, k, x) => k = length (hits t) /\ I (hits t) x)); [|split; [reflexivity|exact H0]].
    intros ((t & k) & x) (Ek & HI). pose proof (H t) as Lk. rewrite <- Ek in Lk.
    pose proof (filter_draws_S good draw t) as ES. fold (hits (S t)) (hits t) in ES.
    destruct (good (draw t)) eqn:G.
    - destruct (Htake t k x (hits t) Lk G HI) as (x' & Eb & HI'). exists (S t, S k, x'). split; [exact Eb|].
      rewrite ES, app_length. cbn [length]. split; [lia|exact HI'].
    - exists (S t, k, x). split; [apply Hskip; assumption|]. rewrite ES, app_nil_r. split; assumption.
  Qed.
End Sample.

Section Series.
  Variables (s : series) (ts : list R) (w : nat).
  Hypothesis M : made s ts w.
  Lemma is_flat_made i : (i < num_subsequences s)%nat -> is_flat s i = Ret (flat ts w i).
  Proof. intros L. unfold is_flat. rewrite (made_sd _ _ _ M i L). reflexivity. Qed.
  Lemma flat_false i : flat ts w i = false -> 0 < sd_of (window ts w i).
  Proof. unfold flat. destruct (Rle_dec _ _); [discriminate|lra]. Qed.

  Section Average.
    Variables (samples zone : nat) (draw : nat -> nat * nat).
    Hypothesis Hn : (0 < num_subsequences s)%nat.
    Hypothesis Hd : forall t, (fst (draw t) < num_subsequences s)%nat /\ (snd (draw t) < num_subsequences s)%nat.
    Let distances (l : list (nat * nat)) := total (map (fun ij => zdistance (window ts w (fst ij)) (window ts w (snd ij))) l).
    Lemma average_cases :
      (forall T, length (usable_pairs ts w zone draw T) = samples ->
         returns (average_pairwise_distance samples s zone draw) (distances (usable_pairs ts w zone draw T) / INR samples)) /\
      ((forall T, (length (usable_pairs ts w zone draw T) < samples)%nat) -> diverges (average_pairwise_distance samples s zone draw)).
    Proof.
      unfold average_pairwise_distance, assert_. replace (0 <? num_subsequences s)%nat with true by lia.
      match goal with |- context [fun fuel => loop fuel ?b _] => set (body := b) end.
      assert (Hstop : forall t k x, (samples <= k)%nat -> body (t, k, x) = Ret (inr (x / INR samples))).
      { intros t k x L. unfold body. replace (k <? samples)%nat with false by lia. reflexivity. }
      assert (Hskip : forall t k x, (k < samples)%nat -> usable_pair ts w zone (draw t) = false -> body (t, k, x) = Ret (inl (S t, k, x))).
      { intros t k x L G. unfold body. replace (k <? samples)%nat with true by lia. destruct (Hd t) as (L1 & L2). unfold usable_pair in G.
        destruct (draw t) as (i & j). cbn [fst snd] in *. rewrite (is_flat_made i L1). cbn [bind]. destruct (flat ts w i); [reflexivity|].
        rewrite (is_flat_made j L2). cbn [bind]. destruct (flat ts w j); [reflexivity|]. rewrite apart_overlaps.
        cbn [negb andb] in G. rewrite G. reflexivity. }
      assert (Htake : forall t k x l, (k < samples)%nat -> usable_pair ts w zone (draw t) = true -> x = distances l ->
        exists x', body (t, k, x) = Ret (inl (S t, S k, x')) /\ x' = distances (l ++ [draw t])).
      { intros t k x l L G ->. unfold body. replace (k <? samples)%nat with true by lia. destruct (Hd t) as (L1 & L2). unfold usable_pair in G.
        destruct (draw t) as (i & j). cbn [fst snd] in *. apply andb_true_iff in G. destruct G as (G & G3). apply andb_true_iff in G. destruct G as (G1 & G2).
        apply negb_true_iff in G1, G2. rewrite (is_flat_made i L1), (is_flat_made j L2). cbn [bind]. rewrite G1, G2, apart_overlaps, G3. cbn [negb].
        rewrite (zeucl_ok s ts w i j M L1 L2 (flat_false _ G1) (flat_false _ G2)). cbn [bind]. eexists. split; [reflexivity|].
        unfold distances. rewrite map_app, total_app. cbn [map fst snd]. rewrite total_cons, total_nil. lra. }
      assert (E0 : 0 = distances []) by reflexivity.
      split.
      - intros T ET. destruct (sample_returns samples draw _ body (fun l x => x = distances l) (fun x => x / INR samples) 0 Hstop Hskip Htake E0 T ET) as (x & Hr & ->). exact Hr.
      - intros H. exact (sample_diverges samples draw _ body (fun l x => x = distances l) (fun x => x / INR samples) 0 Hstop Hskip Htake E0 H).
    Qed.
  End Average.
End Series.

(** * The first minimum *)
Definition total_le (a b : option R) : Prop := total_lt b a = false.
Lemma total_le_refl a : total_le a a.
Proof. unfold total_le. destruct a as [x|]; [|reflexivity]. cbn. destruct (Rlt_dec x x); [lra|reflexivity]. Qed.
Lemma total_le_trans a b c : total_le a b -> total_le b c -> total_le a c.
Proof.
  unfold total_le. destruct a as [x|], b as [y|], c as [z|]; cbn; try discriminate; try reflexivity.
  destruct (Rlt_dec y x), (Rlt_dec z y), (Rlt_dec z x); try discriminate; try reflexivity; lra.
Qed.
Lemma total_lt_le a b : total_lt a b = true -> total_le a b.
Proof. unfold total_le. destruct a as [x|], b as [y|]; cbn; try discriminate; try reflexivity. destruct (Rlt_dec x y), (Rlt_dec y x); try discriminate; try reflexivity; lra. Qed.
Lemma min_by_total_spec l : l <> [] -> exists m, min_by_total l = Some m /\ In m l /\ forall x, In x l -> total_le (snd m) (snd x).
Proof.
  destruct l as [|a l]; [congruence|]. intros _. cbn [min_by_total]. eexists. split; [reflexivity|].
  assert (G : forall (l : list (nat * option R)) (a : nat * option R), let m := fold_left (fun m x => if total_lt (snd x) (snd m) then x else m) l a in
    (m = a \/ In m l) /\ total_le (snd m) (snd a) /\ forall x, In x l -> total_le (snd m) (snd x)).
  { clear. induction l as [|b l IH]; intros a; cbn [fold_left]; [split; [left; reflexivity|]; split; [apply total_le_refl|intros x []]|].
    destruct (total_lt (snd b) (snd a)) eqn:E.
    - destruct (IH b) as (H1 & H2 & H3). split; [destruct H1 as [->|H1]; right; [left; reflexivity|right; exact H1]|].
      split; [apply total_le_trans with (snd b); [exact H2|apply total_lt_le; exact E]|]. intros x [<-|Hx]; auto.
    - destruct (IH a) as (H1 & H2 & H3). split; [destruct H1 as [->|H1]; [left; reflexivity|right; right; exact H1]|].
      split; [exact H2|]. intros x [<-|Hx]; [apply total_le_trans with (snd a); assumption|auto]. }
  destruct (G l a) as (H1 & H2 & H3). split; [destruct H1 as [->|H1]; [left; reflexivity|right; exact H1]|].
  intros x [<-|Hx]; auto.
Qed.

Section Nearest.
  Variables (s : series) (ts : list R) (w : nat) (f : fftdata).
  Hypothesis M : made s ts w.
  Hypothesis F : fft_ok s f.
  Variables (samples zone : nat) (draw : nat -> nat).
  Hypothesis Hz : (1 <= zone)%nat.
  Hypothesis Hn : (2 * zone <= num_subsequences s)%nat.
  Hypothesis Hd : forall t, (draw t < num_subsequences s)%nat.
  Let n := num_subsequences s.
  Let dist i j := zdistance (window ts w i) (window ts w j).
  Let candidate i j := (j < n)%nat /\ apart zone i j = true /\ flat ts w j = false.

  Lemma partner i : (i < n)%nat -> exists j, (j < n)%nat /\ apart zone i j = true.
  Proof.
    intros Hi. destruct (Nat.le_gt_cases (i + zone) (n - 1)) as [L|L].
    - exists (i + zone)%nat. unfold apart. lia.
    - exists (i - zone)%nat. unfold apart. unfold n in *. lia.
  Qed.
  (** one sampled position *)
  Lemma nearest i dists : (i < n)%nat -> flat ts w i = false -> length dists = n ->
    exists profile j nn, distance_profile s f i dists = Ret profile /\ length profile = n /\
      min_by_total (filter (fun jd => negb (overlaps (fst jd) i zone)) (combine (seq 0 (length profile)) profile)) = Some (j, nn) /\
      (j < n)%nat /\ apart zone i j = true /\
      match nn with
      | None => forall j', ~ candidate i j'
      | Some d => flat ts w j = false /\ d = dist i j /\ forall j', candidate i j' -> d <= dist i j'
      end.
  Proof.
    intros Hi Fi Ld. set (g := fun k => if (k =? i)%nat then Some 0 else if Rle_dec (sd_of (window ts w k)) flat_sd_threshold then None else Some (dist i k)).
    exists (map g (seq 0 n)).
    assert (Lp : length (map g (seq 0 n)) = n) by (rewrite map_length, seq_length; reflexivity).
    assert (Hg : forall k, apart zone i k = true -> g k = if flat ts w k then None else Some (dist i k)).
    { intros k A. unfold g, flat. replace (k =? i)%nat with false by (unfold apart in A; lia). change flat_sd_threshold with (/ 10000). destruct (Rle_dec _ _); reflexivity. }
    assert (Hin : forall k o, In (k, o) (filter (fun jd => negb (overlaps (fst jd) i zone)) (combine (seq 0 (length (map g (seq 0 n)))) (map g (seq 0 n)))) <->
      (k < n)%nat /\ apart zone i k = true /\ o = g k).
    { intros k o. rewrite filter_In, Lp. cbn [fst]. rewrite apart_overlaps, negb_involutive.
      assert (Ec : forall m, combine (seq 0 m) (map g (seq 0 m)) = map (fun k => (k, g k)) (seq 0 m)).
      { intros m. generalize 0%nat. induction m; intros a; cbn; [reflexivity|]. rewrite IHm. reflexivity. }
      rewrite Ec, in_map_iff. replace (apart zone k i) with (apart zone i k) by (unfold apart; apply orb_comm). split.
      - intros ((k' & E & Hk) & A). injection E as -> <-. apply in_seq in Hk. split; [lia|]. auto.
      - intros (L & A & ->). split; [|exact A]. exists k. split; [reflexivity|apply in_seq; lia]. }
    destruct (min_by_total_spec (filter (fun jd => negb (overlaps (fst jd) i zone)) (combine (seq 0 (length (map g (seq 0 n)))) (map g (seq 0 n))))) as ((j & nn) & E & Hj & Hmin).
    { destruct (partner i Hi) as (k & Lk & A). intros E. pose proof (proj2 (Hin k (g k)) (conj Lk (conj A eq_refl))) as H. rewrite E in H. exact H. }
    exists j, nn. split; [rewrite (profile_ok s ts w f M F i dists Hi) by (rewrite ?(is_flat_made s ts w M i Hi), ?Fi; auto); reflexivity|].
    split; [exact Lp|]. split; [exact E|]. apply Hin in Hj. destruct Hj as (Lj & Aj & ->). split; [exact Lj|]. split; [exact Aj|].
    assert (Hc : forall j', candidate i j' -> total_le (g j) (Some (dist i j'))).
    { intros j' (L' & A' & F'). specialize (Hmin (j', g j')). cbn [snd] in Hmin. rewrite (Hg j' A'), F' in Hmin. apply Hmin.
      apply Hin. split; [exact L'|]. split; [exact A'|]. rewrite (Hg j' A'), F'. reflexivity. }
    rewrite (Hg j Aj) in *. destruct (flat ts w j) eqn:Fj.
    - intros j' Hj'. specialize (Hc j' Hj'). discriminate Hc.
    - split; [reflexivity|]. split; [reflexivity|]. intros j' Hj'. specialize (Hc j' Hj'). unfold total_le in Hc. cbn in Hc. destruct (Rlt_dec _ _); [discriminate Hc|lra].
  Qed.

  Definition seed_ok (used : list nat) (minimum : option R) (pair : nat * nat) : Prop :=
    match minimum with
    | None => pair = (0, 0)%nat /\ forall i j, In i used -> ~ candidate i j
    | Some d =>
        (fst pair + zone <= snd pair)%nat /\ (snd pair < n)%nat /\
        flat ts w (fst pair) = false /\ flat ts w (snd pair) = false /\
        (In (fst pair) used \/ In (snd pair) used) /\
        d = dist (fst pair) (snd pair) /\
        forall i j, In i used -> candidate i j -> d <= dist i j
    end.
  Lemma nearest_cases :
    (forall T, length (usable_positions ts w draw T) = samples ->
       exists minimum average pair, returns (nearest_neighbor_distance_stats samples s f zone draw) (minimum, average, pair) /\
         seed_ok (usable_positions ts w draw T) minimum pair) /\
    ((forall T, (length (usable_positions ts w draw T) < samples)%nat) -> diverges (nearest_neighbor_distance_stats samples s f zone draw)).
  Proof.
    unfold nearest_neighbor_distance_stats, assert_. fold n in Hn. replace (0 <? num_subsequences s)%nat with true by (fold n; lia).
    match goal with |- context [fun fuel => loop fuel ?b _] => set (body := b) end.
    set (I := fun (l : list nat) (x : list (option R) * option R * option R * (nat * nat)) =>
      let '(dists, sum, minimum, ab) := x in length dists = n /\ (forall i, In i l -> (i < n)%nat /\ flat ts w i = false) /\ seed_ok l minimum ab).
    assert (Hstop : forall t k x, (samples <= k)%nat -> body (t, k, x) =
       Ret (inr (let '(dists, sum, minimum, ab) := x in (minimum, option_map (fun x => x / INR samples) sum, ab)))).
    { intros t k (((dists & sum) & minimum) & ab) L. unfold body. replace (k <? samples)%nat with false by lia. reflexivity. }
    assert (Hskip : forall t k x, (k < samples)%nat -> negb (flat ts w (draw t)) = false -> body (t, k, x) = Ret (inl (S t, k, x))).
    { intros t k (((dists & sum) & minimum) & ab) L G. unfold body. replace (k <? samples)%nat with true by lia.
      rewrite (is_flat_made s ts w M _ (Hd t)). cbn [bind]. apply negb_false_iff in G. rewrite G. reflexivity. }
    assert (Htake : forall t k x l, (k < samples)%nat -> negb (flat ts w (draw t)) = true -> I l x ->
      exists x', body (t, k, x) = Ret (inl (S t, S k, x')) /\ I (l ++ [draw t]) x').
    { intros t k (((dists & sum) & minimum) & (a & b)) l L G (Ld & Hl & Hs). unfold body. replace (k <? samples)%nat with true by lia.
      rewrite (is_flat_made s ts w M _ (Hd t)). cbn [bind]. apply negb_true_iff in G. rewrite G. set (i := draw t) in *.
      pose proof (Hd t) as Hi. fold i n in Hi.
      destruct (nearest i dists Hi G Ld) as (profile & j & nn & -> & Lp & E & Lj & Aj & Hnn). cbn [bind]. rewrite E.
      assert (Hl' : forall i0, In i0 (l ++ [i]) -> (i0 < n)%nat /\ flat ts w i0 = false).
      { intros i0 H. apply in_app_iff in H. destruct H as [H|[<-|[]]]; auto. }
      assert (Aij : ((i + zone <= j) \/ (j + zone <= i))%nat) by (unfold apart in Aj; lia).
      destruct nn as [d|].
      - destruct Hnn as (Fj & -> & Hmin). destruct (below (Some (dist i j)) minimum) eqn:B.
        + eexists. split; [reflexivity|]. split; [exact Lp|]. split; [exact Hl'|]. unfold seed_ok. cbn [fst snd].
          assert (Hs' : forall i0 j0, In i0 l -> candidate i0 j0 -> dist i j <= dist i0 j0).
          { intros i0 j0 Hi0 Hc. destruct minimum as [m|]; cbn [below seed_ok] in *.
            - destruct Hs as (_ & _ & _ & _ & _ & _ & Hs). specialize (Hs i0 j0 Hi0 Hc). destruct (Rlt_dec _ _); [lra|discriminate B].
            - destruct (proj2 Hs i0 j0 Hi0 Hc). }
          assert (Hall : forall i0 j0, In i0 (l ++ [i]) -> candidate i0 j0 -> dist i j <= dist i0 j0).
          { intros i0 j0 H Hc. apply in_app_iff in H. destruct H as [H|[<-|[]]]; auto. }
          destruct Aij as [A|A].
          * rewrite Nat.min_l, Nat.max_r by lia. split; [exact A|]. split; [exact Lj|]. split; [exact G|]. split; [exact Fj|].
            split; [left; apply in_app_iff; right; left; reflexivity|]. split; [reflexivity|exact Hall].
          * rewrite Nat.min_r, Nat.max_l by lia. split; [exact A|]. split; [exact Hi|]. split; [exact Fj|]. split; [exact G|].
            split; [right; apply in_app_iff; right; left; reflexivity|]. split; [|exact Hall]. unfold dist, zdistance. apply euclid_sym. rewrite !znorm_length, !(made_len _ _ _ M) by assumption. reflexivity.
        + eexists. split; [reflexivity|]. split; [exact Lp|]. split; [exact Hl'|]. destruct minimum as [m|]; [|discriminate B]. cbn [below seed_ok fst snd] in *.
          destruct Hs as (S1 & S2 & S3 & S4 & S5 & S6 & S7). repeat split; try assumption.
          * destruct S5 as [S5|S5]; [left|right]; apply in_app_iff; left; exact S5.
          * intros i0 j0 H Hc. apply in_app_iff in H. destruct H as [H|[<-|[]]]; [apply S7; assumption|].
            apply Rle_trans with (dist i j); [destruct (Rlt_dec _ _); [discriminate B|lra]|apply Hmin; exact Hc].
      - eexists. split; [reflexivity|]. split; [exact Lp|]. split; [exact Hl'|]. destruct minimum as [m|]; cbn [seed_ok fst snd] in *.
        + destruct Hs as (S1 & S2 & S3 & S4 & S5 & S6 & S7). repeat split; try assumption.
          * destruct S5 as [S5|S5]; [left|right]; apply in_app_iff; left; exact S5.
          * intros i0 j0 H Hc. apply in_app_iff in H. destruct H as [H|[<-|[]]]; [apply S7; assumption|]. destruct (Hnn j0 Hc).
        + split; [exact (proj1 Hs)|]. intros i0 j0 H. apply in_app_iff in H. destruct H as [H|[<-|[]]]; [apply (proj2 Hs); exact H|apply Hnn]. }
    assert (E0 : I [] (repeat (Some 0) (num_subsequences s), Some 0, None, (O, O))).
    { split; [apply repeat_length|]. split; [intros i []|]. split; [reflexivity|intros i j []]. }
    split.
    - intros T ET. destruct (sample_returns samples draw _ body I _ _ Hstop Hskip Htake E0 T ET) as ((((dists & sum) & minimum) & ab) & Hr & _ & _ & Hs).
      eexists _, _, _. split; [exact Hr|exact Hs].
    - intros H. exact (sample_diverges samples draw _ body I _ _ Hstop Hskip Htake E0 H).
  Qed.
End Nearest.

(** * Independent draws *)
Lemma count_flat_map {A B} (P : B -> bool) (g : A -> list B) l :
  INR (length (filter P (flat_map g l))) = total (map (fun a => INR (length (filter P (g a)))) l).
Proof.
  induction l as [|a l IH]; [reflexivity|]. cbn [flat_map map]. rewrite filter_app, app_length, plus_INR, IH, total_cons. reflexivity.
Qed.
Lemma filter_map_length {A B} (P : B -> bool) (g : A -> B) l : length (filter P (map g l)) = length (filter (fun a => P (g a)) l).
Proof. induction l as [|a l IH]; [reflexivity|]. cbn. destruct (P (g a)); cbn; rewrite IH; reflexivity. Qed.
Lemma filter_ext_length {A} (P Q : A -> bool) l : (forall a, P a = Q a) -> length (filter P l) = length (filter Q l).
Proof. intros H. rewrite (filter_ext P Q H). reflexivity. Qed.
Lemma sequences_length {A} (l : list A) T : INR (length (sequences l T)) = INR (length l) ^ T.
Proof.
  induction T as [|T IH]; [cbn; lra|]. cbn [sequences pow]. rewrite <- IH. clear IH. generalize (sequences l T). intros q.
  induction l as [|a l IH]; [cbn; lra|]. cbn [flat_map length]. rewrite app_length, plus_INR, map_length, IH, S_INR. lra.
Qed.

Section Chance.
  Context {A : Type} (good : A -> bool) (l : list A).
  Hypothesis Hg : exists a, In a l /\ good a = true.
  Let few k (x : list A) := (length (filter good x) <? k)%nat.
  Let N := INR (length l).
  Let G := INR (length (filter good l)).
  Lemma N_pos : 0 < N.
  Proof. destruct Hg as (a & H & _). unfold N. destruct l; [destruct H|]. apply lt_0_INR. cbn; lia. Qed.
  Lemma G_bounds : 0 < G <= N.
  Proof.
    destruct Hg as (a & H & E). unfold G, N. split.
    - apply lt_0_INR. assert (Hf : In a (filter good l)) by (apply filter_In; auto). destruct (filter good l); [destruct Hf|cbn; lia].
    - apply le_INR. clear. induction l as [|x q IH]; cbn; [lia|]. destruct (good x); cbn; lia.
  Qed.
  Lemma chance_few_0 T : chance l T (few 0) = 0.
  Proof.
    unfold chance, few. replace (length (filter _ (sequences l T))) with O; [cbn; unfold Rdiv; lra|].
    induction (sequences l T) as [|x q IH]; [reflexivity|]. cbn [filter]. exact IH.
  Qed.
  Lemma chance_few_S T k : chance l (S T) (few (S k)) = G / N * chance l T (few k) + (1 - G / N) * chance l T (few (S k)).
  Proof.
    pose proof N_pos as HN. unfold chance. rewrite !sequences_length. fold N. cbn [sequences pow].
    rewrite count_flat_map. set (ss := sequences l T). clearbody ss.
    set (c := INR (length (filter (few k) ss))). set (d := INR (length (filter (few (S k)) ss))).
    assert (E : total (map (fun a => INR (length (filter (few (S k)) (map (cons a) ss)))) l) = G * c + (N - G) * d).
    { unfold G, N. clear HN G N Hg. generalize l. intros q. induction q as [|a q IH]; [cbn; lra|]. cbn [map filter]. rewrite total_cons, IH, filter_map_length.
      destruct (good a) eqn:Ea.
      - rewrite (filter_ext_length _ (few k)); [|intros x; unfold few; cbn [filter]; rewrite Ea; cbn [length]; reflexivity].
        fold c. cbn [length]. rewrite !S_INR. lra.
      - rewrite (filter_ext_length _ (few (S k))); [|intros x; unfold few; cbn [filter]; rewrite Ea; reflexivity].
        fold d. cbn [length]. rewrite !S_INR. lra. }
    rewrite E. assert (0 < N ^ T) by (apply pow_lt; exact HN). field. split; lra.
  Qed.
  Lemma chance_bounds T P : 0 <= chance l T P <= 1.
  Proof.
    unfold chance. assert (0 < INR (length (sequences l T))) by (rewrite sequences_length; apply pow_lt, N_pos). split.
    - apply Rmult_le_pos; [apply pos_INR|left; apply Rinv_0_lt_compat; assumption].
    - apply Rmult_le_reg_r with (INR (length (sequences l T))); [assumption|]. unfold Rdiv. rewrite Rmult_assoc, Rinv_l, Rmult_1_r, Rmult_1_l by lra.
      apply le_INR. clear. induction (sequences l T) as [|x q IH]; cbn; [lia|]. destruct (P x); cbn; lia.
  Qed.
  Lemma few_vanishes k : forall eps, 0 < eps -> exists T0, forall T, (T0 <= T)%nat -> chance l T (few k) <= eps.
  Proof.
    pose proof N_pos as HN. pose proof G_bounds as HG.
    assert (Hp : 0 < G / N <= 1).
    { split; [apply Rdiv_lt_0_compat; lra|]. apply Rmult_le_reg_r with N; [lra|]. unfold Rdiv. rewrite Rmult_assoc, Rinv_l by lra. lra. }
    set (p := G / N) in *. induction k as [|k IH]; intros eps He; [exists O; intros T _; rewrite chance_few_0; lra|].
    destruct (IH (eps / 2) ltac:(lra)) as (T1 & H1).
    destruct (pow_lt_1_zero (1 - p) ltac:(apply Rabs_def1; lra) (eps / 2) ltac:(lra)) as (m0 & Hm).
    exists (T1 + m0)%nat. intros T L.
    assert (Hx : forall m, chance l (T1 + m) (few (S k)) <= eps / 2 + (1 - p) ^ m).
    { induction m as [|m IHm]; [cbn [pow]; pose proof (chance_bounds (T1 + 0) (few (S k))); lra|].
      rewrite Nat.add_succ_r, chance_few_S. fold p. cbn [pow].
      specialize (H1 (T1 + m)%nat ltac:(lia)).
      assert (p * chance l (T1 + m) (few k) <= p * (eps / 2)) by (apply Rmult_le_compat_l; lra).
      assert ((1 - p) * chance l (T1 + m) (few (S k)) <= (1 - p) * (eps / 2 + (1 - p) ^ m)) by (apply Rmult_le_compat_l; lra). nra. }
    specialize (Hx (T - T1)%nat). replace (T1 + (T - T1))%nat with T in Hx by lia. specialize (Hm (T - T1)%nat ltac:(lia)).
    apply Rabs_def2 in Hm. lra.
  Qed.
End Chance.
Lemma chance_ext {A} (l : list A) T P Q : (forall x, P x = Q x) -> chance l T P = chance l T Q.
Proof. intros H. unfold chance. rewrite (filter_ext_length P Q _ H). reflexivity. Qed.

(** enough hits in the first [T] draws: some number of draws has exactly that many *)
Lemma exact_hits {A} (good : A -> bool) draw k T : (k <= length (filter good (draws draw T)))%nat ->
  exists T', length (filter good (draws draw T')) = k.
Proof.
  induction T as [|T IH]; intros L; [exists O; cbn in *; lia|]. rewrite filter_draws_S, app_length in L.
  destruct (Nat.le_gt_cases k (length (filter good (draws draw T)))) as [H|H]; [auto|].
  exists (S T). rewrite filter_draws_S, app_length. destruct (good (draw T)); cbn [length] in *; lia.
Qed.
