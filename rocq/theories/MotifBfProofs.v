(** Brute-force motif search. *)
From Coq Require Import Permutation Sorting.Sorted.
From Verif Require Import Base F64 Overlaps OverlapsSpec OverlapsProofs Brute BruteSpec BruteProofs.

Lemma motif_overlaps_full a1 b1 a2 b2 ez :
  motif_overlaps a1 b1 a2 b2 ez = true <->
  too_close ez a1 b1 \/ too_close ez a2 b2 \/ sets_conflict ez [a1; b1] [a2; b2].
Proof.
  destruct (overlaps a1 b1 ez) eqn:O1.
  - apply overlaps_spec in O1. split; [auto|intros _].
    revert O1. unfold motif_overlaps, too_close in *. unfold sort_nat. cbn [fold_right insert_nat].
    destruct (Nat.leb_spec a2 b2); cbn [insert_nat].
    + destruct (Nat.leb_spec b1 a2); cbn [insert_nat].
      * destruct (Nat.leb_spec a1 b1); cbn [insert_nat]; [lia|].
        destruct (Nat.leb_spec a1 a2); cbn [insert_nat]; [lia|].
        destruct (Nat.leb_spec a1 b2); cbn [insert_nat]; lia.
      * destruct (Nat.leb_spec b1 b2); cbn [insert_nat].
        -- destruct (Nat.leb_spec a1 a2); cbn [insert_nat]; [lia|].
           destruct (Nat.leb_spec a1 b1); cbn [insert_nat]; [lia|].
           destruct (Nat.leb_spec a1 b2); cbn [insert_nat]; lia.
        -- destruct (Nat.leb_spec a1 a2); cbn [insert_nat]; [lia|].
           destruct (Nat.leb_spec a1 b2); cbn [insert_nat]; [lia|].
           destruct (Nat.leb_spec a1 b1); cbn [insert_nat]; lia.
    + destruct (Nat.leb_spec b1 b2); cbn [insert_nat].
      * destruct (Nat.leb_spec a1 b1); cbn [insert_nat]; [lia|].
        destruct (Nat.leb_spec a1 b2); cbn [insert_nat]; [lia|].
        destruct (Nat.leb_spec a1 a2); cbn [insert_nat]; lia.
      * destruct (Nat.leb_spec b1 a2); cbn [insert_nat].
        -- destruct (Nat.leb_spec a1 b2); cbn [insert_nat]; [lia|].
           destruct (Nat.leb_spec a1 b1); cbn [insert_nat]; [lia|].
           destruct (Nat.leb_spec a1 a2); cbn [insert_nat]; lia.
        -- destruct (Nat.leb_spec a1 b2); cbn [insert_nat]; [lia|].
           destruct (Nat.leb_spec a1 a2); cbn [insert_nat]; [lia|].
           destruct (Nat.leb_spec a1 b1); cbn [insert_nat]; lia.
  - assert (N1 : ~ too_close ez a1 b1) by (rewrite <- overlaps_spec; congruence).
    destruct (overlaps a2 b2 ez) eqn:O2.
    + apply overlaps_spec in O2. split; [auto|intros _].
      clear O1 N1. revert O2. unfold motif_overlaps, too_close in *. unfold sort_nat. cbn [fold_right insert_nat].
      destruct (Nat.leb_spec a2 b2); cbn [insert_nat].
      * destruct (Nat.leb_spec b1 a2); cbn [insert_nat].
        -- destruct (Nat.leb_spec a1 b1); cbn [insert_nat]; [lia|].
           destruct (Nat.leb_spec a1 a2); cbn [insert_nat]; [lia|].
           destruct (Nat.leb_spec a1 b2); cbn [insert_nat]; lia.
        -- destruct (Nat.leb_spec b1 b2); cbn [insert_nat].
           ++ destruct (Nat.leb_spec a1 a2); cbn [insert_nat]; [lia|].
              destruct (Nat.leb_spec a1 b1); cbn [insert_nat]; [lia|].
              destruct (Nat.leb_spec a1 b2); cbn [insert_nat]; lia.
           ++ destruct (Nat.leb_spec a1 a2); cbn [insert_nat]; [lia|].
              destruct (Nat.leb_spec a1 b2); cbn [insert_nat]; [lia|].
              destruct (Nat.leb_spec a1 b1); cbn [insert_nat]; lia.
      * destruct (Nat.leb_spec b1 b2); cbn [insert_nat].
        -- destruct (Nat.leb_spec a1 b1); cbn [insert_nat]; [lia|].
           destruct (Nat.leb_spec a1 b2); cbn [insert_nat]; [lia|].
           destruct (Nat.leb_spec a1 a2); cbn [insert_nat]; lia.
        -- destruct (Nat.leb_spec b1 a2); cbn [insert_nat].
           ++ destruct (Nat.leb_spec a1 b2); cbn [insert_nat]; [lia|].
              destruct (Nat.leb_spec a1 b1); cbn [insert_nat]; [lia|].
              destruct (Nat.leb_spec a1 a2); cbn [insert_nat]; lia.
           ++ destruct (Nat.leb_spec a1 b2); cbn [insert_nat]; [lia|].
              destruct (Nat.leb_spec a1 a2); cbn [insert_nat]; [lia|].
              destruct (Nat.leb_spec a1 b1); cbn [insert_nat]; lia.
    + assert (N2 : ~ too_close ez a2 b2) by (rewrite <- overlaps_spec; congruence).
      rewrite motif_overlaps_spec by assumption. tauto.
Qed.

(** ** Nearest neighbours *)
Definition is_nn (ts : series) (ez from : nat) (dj : f64 * nat) : Prop :=
  (dj = (f_inf, 0) /\ forall j, j < s_n ts -> ~ too_close ez j from -> flt (dp ts from j) f_inf = false) \/
  (snd dj < s_n ts /\ ~ too_close ez (snd dj) from /\ fst dj = dp ts from (snd dj) /\ flt (fst dj) f_inf = true /\
   forall j, j < s_n ts -> ~ too_close ez j from -> flt (dp ts from j) (fst dj) = false).

Lemma nearest_neighbor_ok ts ez from d :
  distance_profile ts from = Ret d ->
  exists dj, nearest_neighbor_bf ts ez from = Ret dj /\ is_nn ts ez from dj.
Proof.
  intros E. unfold nearest_neighbor_bf. rewrite E. cbn [bind].
  destruct (distance_profile_cases ts from) as [E'|E']; [congruence|].
  rewrite E in E'. apply Ret_inj in E'. subst d. rewrite map_length, seq_length.
  set (body := fun jd (s : f64 * nat) =>
       let '(j, d) := jd in
       let '(nearest, nearest_idx) := s in
       if negb (overlaps j from ez) && flt d nearest then Ret (d, j) else Ret (nearest, nearest_idx)).
  assert (G : forall m a s,
     (s = (f_inf, 0) /\ (forall j, j < a -> ~ too_close ez j from -> flt (dp ts from j) f_inf = false)) \/
     (snd s < a /\ ~ too_close ez (snd s) from /\ fst s = dp ts from (snd s) /\ flt (fst s) f_inf = true /\
      forall j, j < a -> ~ too_close ez j from -> flt (dp ts from j) (fst s) = false) ->
     exists s', foreach (combine (seq a m) (map (dp ts from) (seq a m))) body s = Ret s' /\
     ((s' = (f_inf, 0) /\ (forall j, j < a + m -> ~ too_close ez j from -> flt (dp ts from j) f_inf = false)) \/
     (snd s' < a + m /\ ~ too_close ez (snd s') from /\ fst s' = dp ts from (snd s') /\ flt (fst s') f_inf = true /\
      forall j, j < a + m -> ~ too_close ez j from -> flt (dp ts from j) (fst s') = false))).
  { induction m as [|m IH]; intros a s HI; cbn [seq map combine foreach].
    - exists s. split; [reflexivity|]. rewrite Nat.add_0_r. exact HI.
    - destruct s as [v idx]. cbn [fst snd] in HI.
      assert (Bd : exists s1, body (a, dp ts from a) (v, idx) = Ret s1 /\
        ((s1 = (f_inf, 0) /\ (forall j, j < S a -> ~ too_close ez j from -> flt (dp ts from j) f_inf = false)) \/
        (snd s1 < S a /\ ~ too_close ez (snd s1) from /\ fst s1 = dp ts from (snd s1) /\ flt (fst s1) f_inf = true /\
         forall j, j < S a -> ~ too_close ez j from -> flt (dp ts from j) (fst s1) = false))).
      { unfold body. destruct (negb (overlaps a from ez)) eqn:O; cbn [andb].
        - assert (NT : ~ too_close ez a from).
          { rewrite <- overlaps_spec. destruct (overlaps a from ez); cbn in O; congruence. }
          destruct (flt (dp ts from a) v) eqn:F.
          + eexists. split; [reflexivity|]. right. cbn [fst snd]. split; [lia|]. split; [exact NT|]. split; [reflexivity|].
            assert (Fi : flt (dp ts from a) f_inf = true).
            { destruct HI as [[Ev _]|(_ & _ & _ & Hv & _)]; [injection Ev as -> _; exact F|]. f64_tac. }
            split; [exact Fi|]. intros j Lj Tj. destruct (Nat.eq_dec j a) as [->|]; [apply flt_irrefl|].
            destruct (flt (dp ts from j) (dp ts from a)) eqn:F2; [|reflexivity]. exfalso.
            destruct HI as [[Ev H]|(_ & _ & _ & _ & H)].
            * specialize (H j ltac:(lia) Tj). assert (flt (dp ts from j) f_inf = true) by f64_tac. congruence.
            * specialize (H j ltac:(lia) Tj). assert (flt (dp ts from j) v = true) by f64_tac. congruence.
          + eexists. split; [reflexivity|]. destruct HI as [[Ev H]|(H1 & H2 & H3 & H4 & H)].
            * left. split; [exact Ev|]. injection Ev as -> _. intros j Lj Tj.
              destruct (Nat.eq_dec j a) as [->|]; [exact F|]. apply H; [lia|exact Tj].
            * right. cbn [fst snd]. split; [lia|]. split; [exact H2|]. split; [exact H3|]. split; [exact H4|].
              intros j Lj Tj. destruct (Nat.eq_dec j a) as [->|]; [exact F|]. apply H; [lia|exact Tj].
        - assert (T : too_close ez a from).
          { rewrite <- overlaps_spec. destruct (overlaps a from ez); cbn in O; congruence. }
          eexists. split; [reflexivity|]. destruct HI as [[Ev H]|(H1 & H2 & H3 & H4 & H)].
          + left. split; [exact Ev|]. intros j Lj Tj. destruct (Nat.eq_dec j a) as [->|]; [contradiction|]. apply H; [lia|exact Tj].
          + right. cbn [fst snd]. split; [lia|]. split; [exact H2|]. split; [exact H3|]. split; [exact H4|].
            intros j Lj Tj. destruct (Nat.eq_dec j a) as [->|]; [contradiction|]. apply H; [lia|exact Tj]. }
      destruct Bd as (s1 & E1 & H1). rewrite E1. cbn [bind].
      destruct (IH (S a) s1 H1) as (s2 & E2 & H2). exists s2. split; [exact E2|].
      replace (a + S m) with (S a + m) by lia. exact H2. }
  destruct (G (s_n ts) 0 (f_inf, 0)) as (s' & E' & H').
  - left. split; [reflexivity|]. intros; lia.
  - exists s'. split; [exact E'|]. exact H'.
Qed.

Lemma nn_motifs_inv ts ez nns : nn_motifs ts ez = Ret nns ->
  length nns = s_n ts /\
  forall i m, nth_error nns i = Some m ->
    exists d j, is_nn ts ez i (d, j) /\ m = Motif (Nat.min i j) (Nat.max i j) d.
Proof.
  intros E. unfold nn_motifs in E.
  apply (foreach_seq_inv _ (fun a acc => length acc = a /\
     forall i m, nth_error acc i = Some m -> exists d j, is_nn ts ez i (d, j) /\ m = Motif (Nat.min i j) (Nat.max i j) d)) in E.
  - exact E.
  - split; [reflexivity|]. intros [|i] m Em; discriminate.
  - intros i acc acc' Li (L & H) Eb.
    destruct (distance_profile ts i) as [d| |] eqn:Ed.
    2,3: unfold nearest_neighbor_bf in Eb; rewrite Ed in Eb; discriminate.
    destruct (nearest_neighbor_ok ts ez i d Ed) as ((v, j) & En & Hn). rewrite En in Eb. cbn [bind] in Eb.
    apply Ret_inj in Eb. subst acc'. split; [rewrite app_length; cbn; lia|].
    intros i' m Em. apply nth_error_snoc_cases in Em. destruct Em as [[_ Em]|[-> ->]]; [auto|]. rewrite L. eauto.
Qed.

(** ** Selection *)
Definition conflict (ez : nat) (x y : motif) : Prop := sets_conflict ez [m_a x; m_b x] [m_a y; m_b y].
Notation mov ez x y := (motif_overlaps (m_a x) (m_b x) (m_a y) (m_b y) ez).

Section Pick.
  Variables (k ez : nat).
  Lemma pick_motifs_prefix l : forall ret, exists t, pick_motifs k ez ret l = ret ++ t.
  Proof.
    induction l as [|j l IH]; intros ret; cbn [pick_motifs].
    - exists []. rewrite app_nil_r. reflexivity.
    - destruct (length ret <? k); [|exists []; rewrite app_nil_r; reflexivity].
      destruct (existsb _ _); [apply IH|]. destruct (IH (ret ++ [j])) as (t & ->).
      exists (j :: t). rewrite <- app_assoc. reflexivity.
  Qed.
  Lemma pick_motifs_length l : forall ret, length ret <= k -> length (pick_motifs k ez ret l) <= k.
  Proof.
    induction l as [|j l IH]; intros ret L; cbn [pick_motifs]; [exact L|].
    destruct (Nat.ltb_spec (length ret) k); [|exact L].
    destruct (existsb _ _); [apply IH; exact L|]. apply IH. rewrite app_length. cbn. lia.
  Qed.
  Lemma pick_motifs_in l : forall ret x, In x (pick_motifs k ez ret l) -> In x ret \/ In x l.
  Proof.
    induction l as [|j l IH]; intros ret x H; cbn [pick_motifs] in H; [auto|].
    destruct (length ret <? k); [|auto].
    destruct (existsb _ _).
    - apply IH in H. cbn. tauto.
    - apply IH in H. destruct H as [H|H]; [|cbn; tauto]. apply in_app_or in H. cbn in *. tauto.
  Qed.
  Lemma pick_motifs_apart l : forall ret,
    (forall a b x y, a < b -> nth_error ret a = Some x -> nth_error ret b = Some y -> mov ez y x = false) ->
    forall a b x y, a < b -> nth_error (pick_motifs k ez ret l) a = Some x ->
      nth_error (pick_motifs k ez ret l) b = Some y -> mov ez y x = false.
  Proof.
    induction l as [|j l IH]; intros ret P; cbn [pick_motifs]; [exact P|].
    destruct (length ret <? k); [|exact P].
    destruct (existsb (fun r => mov ez j r) ret) eqn:E; [apply IH; exact P|].
    apply IH. intros a b x y L Ea Eb. apply nth_error_snoc_cases in Ea. apply nth_error_snoc_cases in Eb.
    destruct Eb as [[Lb Eb]|[-> ->]].
    - destruct Ea as [[La Ea]|[-> _]]; [exact (P a b x y L Ea Eb)|lia].
    - destruct Ea as [[La Ea]|[-> _]]; [|lia].
      destruct (mov ez j x) eqn:M; [|reflexivity]. 
      assert (T : existsb (fun r => mov ez j r) ret = true).
      { apply existsb_exists. exists x. split; [eapply nth_error_In; eauto|exact M]. }
      congruence.
  Qed.
  Lemma pick_motifs_sorted (R : motif -> motif -> Prop) l : forall ret,
    StronglySorted R (ret ++ l) -> StronglySorted R (pick_motifs k ez ret l).
  Proof.
    assert (Sub : forall ret j t, StronglySorted R (ret ++ j :: t) -> StronglySorted R (ret ++ t)).
    { induction ret as [|a ret IH]; intros j t S; cbn in *.
      - apply StronglySorted_inv in S. apply S.
      - apply StronglySorted_inv in S. destruct S as [S F]. constructor; [eapply IH; exact S|].
        rewrite Forall_forall in *. intros x Hx. apply F. apply in_app_or in Hx. apply in_or_app. cbn. tauto. }
    assert (Pre : forall ret t, StronglySorted R (ret ++ t) -> StronglySorted R ret).
    { induction ret as [|a ret IH]; intros t S; cbn in *; [constructor|].
      apply StronglySorted_inv in S. destruct S as [S F]. constructor; [eapply IH; exact S|].
      rewrite Forall_forall in *. intros x Hx. apply F, in_or_app. auto. }
    induction l as [|j l IH]; intros ret S; cbn [pick_motifs]; [rewrite app_nil_r in S; exact S|].
    destruct (length ret <? k); [|eapply Pre; exact S].
    destruct (existsb _ _).
    - apply IH. eapply Sub; exact S.
    - apply IH. rewrite <- app_assoc. exact S.
  Qed.
  Lemma pick_motifs_greedy (R : motif -> motif -> Prop) l : forall ret,
    StronglySorted R (ret ++ l) ->
    forall m, In m l -> In m (pick_motifs k ez ret l) \/
      (exists r, In r (pick_motifs k ez ret l) /\ R r m /\ mov ez m r = true) \/
      (length (pick_motifs k ez ret l) >= k /\ forall r, In r (pick_motifs k ez ret l) -> R r m).
  Proof.
    assert (Ord : forall ret j t, StronglySorted R (ret ++ j :: t) -> forall r m, In r ret -> m = j \/ In m t -> R r m).
    { induction ret as [|a ret IH]; intros j t S r m Hr Hm; [destruct Hr|]. cbn in S.
      apply StronglySorted_inv in S. destruct S as [S F]. rewrite Forall_forall in F. destruct Hr as [<-|Hr].
      - apply F, in_or_app. right. destruct Hm as [->|Hm]; [left; reflexivity|right; exact Hm].
      - eapply IH; eauto. }
    induction l as [|j l IH]; intros ret S m Hm; [destruct Hm|]. cbn [pick_motifs].
    assert (S' : StronglySorted R (ret ++ l)).
    { clear - S. induction ret as [|a ret IH]; cbn in *.
      - apply StronglySorted_inv in S. apply S.
      - apply StronglySorted_inv in S. destruct S as [S F]. constructor; [auto|].
        rewrite Forall_forall in *. intros x Hx. apply F. apply in_app_or in Hx. apply in_or_app. cbn. tauto. }
    destruct (Nat.ltb_spec (length ret) k) as [L|L].
    - destruct (existsb (fun r => mov ez j r) ret) eqn:E.
      + destruct Hm as [<-|Hm]; [|apply IH; assumption].
        apply existsb_exists in E. destruct E as (r & Hr & M). right. left. exists r.
        destruct (pick_motifs_prefix l ret) as (t & Et). split; [rewrite Et; apply in_or_app; auto|].
        split; [|exact M]. eapply Ord; eauto.
      + destruct Hm as [<-|Hm].
        * left. destruct (pick_motifs_prefix l (ret ++ [j])) as (t & Et). rewrite Et.
          apply in_or_app. left. apply in_or_app. right. left. reflexivity.
        * apply IH; [rewrite <- app_assoc; exact S|exact Hm].
    - right. right. split; [exact L|]. intros r Hr. destruct Hm as [<-|Hm]; eapply Ord; eauto.
  Qed.
End Pick.
