(** Facts on the candidate queue. *)
From Verif Require Import Base F64 Overlaps OverlapsSpec OverlapsProofs TopK TopKSpec.

Lemma cmp_cases a b : is_nan a = false -> is_nan b = false ->
  (partial_cmp a b = Some Lt /\ flt a b = true) \/ (partial_cmp a b = Some Eq /\ feq a b = true) \/
  (partial_cmp a b = Some Gt /\ flt b a = true).
Proof.
  intros Ha Hb. pose proof (SFcompare_key a b Ha Hb) as H.
  unfold partial_cmp. destruct (SpecFloat.SFcompare a b) as [[]|] eqn:E.
  - right. left. split; [reflexivity|]. unfold feq. rewrite E. reflexivity.
  - left. split; [reflexivity|]. unfold flt. rewrite E. reflexivity.
  - right. right. split; [reflexivity|]. rewrite flt_key by assumption. exact H.
  - contradiction.
Qed.

Lemma numbers_cons m l : numbers (m :: l) -> is_nan (ml_extent m) = false /\ numbers l.
Proof. intros H. split; [apply H; left; reflexivity|intros x Hx; apply H; right; exact Hx]. Qed.

Lemma bt_insert_ok m l : is_nan (ml_extent m) = false -> numbers l -> by_extent l ->
  exists l', bt_insert m l = Ret l' /\ by_extent l' /\
    ((Permutation l' (m :: l) /\ forall x, In x l -> feq (ml_extent m) (ml_extent x) = false) \/
     (l' = l /\ exists x, In x l /\ feq (ml_extent m) (ml_extent x) = true)).
Proof.
  intros Nm. induction l as [|x l IH]; intros Nl S.
  - exists [m]. split; [reflexivity|]. split; [repeat constructor|]. left. split; [reflexivity|]. intros ? [].
  - apply numbers_cons in Nl. destruct Nl as [Nx Nl]. apply StronglySorted_inv in S. destruct S as [S F].
    rewrite Forall_forall in F. cbn [bt_insert].
    destruct (cmp_cases (ml_extent m) (ml_extent x) Nm Nx) as [[E C]|[[E C]|[E C]]]; rewrite E.
    + exists (m :: x :: l). split; [reflexivity|]. split.
      * constructor; [constructor; [exact S|apply Forall_forall, F]|]. constructor; [exact C|].
        apply Forall_forall. intros y Hy. specialize (F y Hy). exact (flt_trans _ _ _ C F).
      * left. split; [reflexivity|]. intros y [<-|Hy]; [f64_tac|]. specialize (F y Hy). specialize (Nl y Hy). f64_tac.
    + exists (x :: l). split; [reflexivity|]. split; [constructor; [exact S|apply Forall_forall, F]|].
      right. split; [reflexivity|]. exists x. split; [left; reflexivity|exact C].
    + destruct (IH Nl S) as (l' & E' & S' & H). rewrite E'. cbn [bind]. exists (x :: l'). split; [reflexivity|].
      assert (F' : Forall (fun y => flt (ml_extent x) (ml_extent y) = true) l').
      { apply Forall_forall. intros y Hy. destruct H as [[P _]|[-> _]]; [|apply F, Hy].
        apply (Permutation_in _ P) in Hy. destruct Hy as [<-|Hy]; [exact C|apply F, Hy]. }
      split; [constructor; assumption|]. destruct H as [[P Q]|[-> (y & Hy & Q)]].
      * left. split.
        -- rewrite P. apply perm_swap.
        -- intros y [<-|Hy]; [f64_tac|apply Q, Hy].
      * right. split; [reflexivity|]. exists y. split; [right; exact Hy|exact Q].
Qed.
Lemma bt_insert_in m l l' : is_nan (ml_extent m) = false -> numbers l -> by_extent l -> bt_insert m l = Ret l' ->
  forall x, In x l' -> x = m \/ In x l.
Proof.
  intros Nm Nl S E x Hx. destruct (bt_insert_ok m l Nm Nl S) as (l2 & E2 & _ & H). rewrite E in E2. apply Ret_inj in E2. subst l2.
  destruct H as [[P _]|[-> _]]; [|auto]. apply (Permutation_in _ P) in Hx. destruct Hx as [<-|Hx]; auto.
Qed.
Lemma bt_insert_length m l l' : is_nan (ml_extent m) = false -> numbers l -> by_extent l -> bt_insert m l = Ret l' ->
  length l <= length l' <= S (length l).
Proof.
  intros Nm Nl S E. destruct (bt_insert_ok m l Nm Nl S) as (l2 & E2 & _ & H). rewrite E in E2. apply Ret_inj in E2. subst l2.
  destruct H as [[P _]|[-> _]]; [|lia]. apply Permutation_length in P. cbn in P. lia.
Qed.
(** an element beyond the last one goes at the end *)
Lemma bt_insert_last m l : (forall x, In x l -> flt (ml_extent x) (ml_extent m) = true) -> bt_insert m l = Ret (l ++ [m]).
Proof.
  induction l as [|x l IH]; intros H; [reflexivity|]. cbn [bt_insert].
  assert (C := H x (or_introl eq_refl)). destruct (flt_nan _ _ C) as [N1 N2].
  destruct (cmp_cases (ml_extent m) (ml_extent x) N2 N1) as [[E C']|[[E C']|[E C']]]; [f64_tac|f64_tac|].
  rewrite E, IH by (intros y Hy; apply H; right; exact Hy). reflexivity.
Qed.

(** ** Pruning, as a list function *)
Fixpoint prune (k ez threshold : nat) (l clean : list motiflet) : list motiflet :=
  match l with
  | [] => clean
  | m :: t =>
      let clean' := if overlap_count (ml_indices m) (map ml_indices clean) ez <? k then clean ++ [m] else clean in
      if threshold <=? length clean' then clean' else prune k ez threshold t clean'
  end.
Lemma sorted_app_snoc l m t : by_extent (l ++ m :: t) -> by_extent ((l ++ [m]) ++ t).
Proof. rewrite <- app_assoc. auto. Qed.
Lemma sorted_drop l m t : by_extent (l ++ m :: t) -> by_extent (l ++ t).
Proof.
  induction l as [|a l IH]; cbn; intros S; apply StronglySorted_inv in S; destruct S as [S F]; [exact S|].
  constructor; [apply IH, S|]. rewrite Forall_forall in *. intros x Hx. apply F.
  apply in_app_or in Hx. apply in_or_app. cbn. tauto.
Qed.
Lemma sorted_pre l t : by_extent (l ++ t) -> by_extent l.
Proof.
  induction l as [|a l IH]; cbn; intros S; [constructor|]. apply StronglySorted_inv in S. destruct S as [S F].
  constructor; [apply IH, S|]. rewrite Forall_forall in *. intros x Hx. apply F, in_or_app. auto.
Qed.
Lemma sorted_before l m t : by_extent (l ++ m :: t) -> forall x, In x l -> flt (ml_extent x) (ml_extent m) = true.
Proof.
  induction l as [|a l IH]; cbn; intros S x Hx; [destruct Hx|]. apply StronglySorted_inv in S. destruct S as [S F].
  destruct Hx as [<-|Hx]; [|apply IH; assumption]. rewrite Forall_forall in F. apply F, in_or_app. right. left. reflexivity.
Qed.
Lemma cleanup_loop_prune k ez th l : forall clean, by_extent (clean ++ l) ->
  cleanup_loop k ez th l clean = Ret (prune k ez th l clean).
Proof.
  induction l as [|m l IH]; intros clean S; cbn [cleanup_loop prune]; [reflexivity|].
  destruct (overlap_count (ml_indices m) (map ml_indices clean) ez <? k).
  - rewrite (bt_insert_last m clean) by (eapply sorted_before; eauto). cbn [bind].
    destruct (th <=? length (clean ++ [m])); [reflexivity|]. apply IH, sorted_app_snoc, S.
  - cbn [bind]. destruct (th <=? length clean); [reflexivity|]. apply IH. eapply sorted_drop; eauto.
Qed.
Lemma prune_sorted k ez th l : forall clean, by_extent (clean ++ l) -> by_extent (prune k ez th l clean).
Proof.
  induction l as [|m l IH]; intros clean S; cbn [prune]; [rewrite app_nil_r in S; exact S|].
  destruct (overlap_count (ml_indices m) (map ml_indices clean) ez <? k).
  - destruct (th <=? length (clean ++ [m])); [eapply sorted_pre, sorted_app_snoc; eauto|]. apply IH, sorted_app_snoc, S.
  - destruct (th <=? length clean); [eapply sorted_pre; eauto|]. apply IH. eapply sorted_drop; eauto.
Qed.
Lemma prune_in k ez th l : forall clean x, In x (prune k ez th l clean) -> In x clean \/ In x l.
Proof.
  induction l as [|m l IH]; intros clean x H; cbn [prune] in H; [auto|].
  destruct (overlap_count (ml_indices m) (map ml_indices clean) ez <? k).
  - destruct (th <=? length (clean ++ [m])).
    + apply in_app_or in H. cbn in *. tauto.
    + apply IH in H. destruct H as [H|H]; [apply in_app_or in H|]; cbn in *; tauto.
  - destruct (th <=? length clean); [auto|]. apply IH in H. cbn. tauto.
Qed.
Lemma prune_length k ez th l : forall clean, length clean < th -> length (prune k ez th l clean) <= th.
Proof.
  induction l as [|m l IH]; intros clean L; cbn [prune]; [lia|].
  destruct (overlap_count (ml_indices m) (map ml_indices clean) ez <? k).
  - destruct (Nat.leb_spec th (length (clean ++ [m]))) as [H|H].
    + rewrite app_length in *. cbn in *. lia.
    + apply IH. exact H.
  - destruct (Nat.leb_spec th (length clean)); [lia|]. apply IH. exact L.
Qed.
Lemma prune_prefix k ez th l : forall clean, exists t, prune k ez th l clean = clean ++ t.
Proof.
  induction l as [|m l IH]; intros clean; cbn [prune]; [exists []; rewrite app_nil_r; reflexivity|].
  destruct (overlap_count (ml_indices m) (map ml_indices clean) ez <? k).
  - destruct (th <=? length (clean ++ [m])); [exists [m]; reflexivity|].
    destruct (IH (clean ++ [m])) as (t & ->). exists (m :: t). rewrite <- app_assoc. reflexivity.
  - destruct (th <=? length clean); [exists []; rewrite app_nil_r; reflexivity|]. apply IH.
Qed.

(** ** Steps *)
Definition wf (s : topk) : Prop :=
  numbers (tk_top s) /\ by_extent (tk_top s) /\ numbers (tk_emitted s) /\ by_extent (tk_emitted s) /\
  length (tk_top s) <= tk_threshold s /\ tk_threshold s = (tk_k s + 1) * (tk_k s + 1).

Lemma insert_ok s m : wf s -> is_nan (ml_extent m) = false ->
  exists s', tk_insert s m = Ret s' /\ wf s' /\ tk_k s' = tk_k s /\ tk_ez s' = tk_ez s /\
    tk_emitted s' = tk_emitted s /\ tk_disabled s' = tk_disabled s /\
    (forall x, In x (tk_top s') -> x = m \/ In x (tk_top s)) /\
    (s' = s /\ (tk_is_complete s = true \/ beyond_last s m = true) \/
     tk_is_complete s = false /\ beyond_last s m = false /\ tk_sned s' = None /\
     exists top, bt_insert m (tk_top s) = Ret top /\ by_extent top /\
       tk_top s' = if tk_threshold s <? length top then prune (tk_k s) (tk_ez s) (tk_threshold s) top [] else top).
Proof.
  intros (N1 & S1 & N2 & S2 & L & T) Nm. unfold tk_insert.
  destruct (tk_is_complete s) eqn:C.
  { exists s. repeat split; auto. }
  destruct (beyond_last s m) eqn:B.
  { exists s. repeat split; auto. }
  destruct (bt_insert_ok m (tk_top s) Nm N1 S1) as (top & E & St & H). rewrite E. cbn [bind].
  assert (In_top : forall x, In x top -> x = m \/ In x (tk_top s)) by (eapply bt_insert_in; eauto).
  assert (Nt : numbers top) by (intros x Hx; destruct (In_top x Hx) as [->|Hx']; [exact Nm|apply N1, Hx']).
  destruct (Nat.ltb_spec (tk_threshold s) (length top)) as [Lt|Lt].
  - unfold tk_cleanup. cbn [tk_k tk_ez tk_threshold tk_top tk_emitted tk_sned tk_disabled].
    rewrite cleanup_loop_prune by exact St. cbn [bind].
    set (cl := prune (tk_k s) (tk_ez s) (tk_threshold s) top []).
    assert (Lc : length cl <= tk_threshold s) by (apply prune_length; cbn; lia).
    cbn [tk_top]. destruct (Nat.leb_spec (length cl) (tk_threshold s)); [|lia]. cbn [assert_].
    eexists. split; [reflexivity|]. cbn [tk_k tk_ez tk_threshold tk_top tk_emitted tk_sned tk_disabled wf].
    assert (Ic : forall x, In x cl -> In x top) by (intros x Hx; apply prune_in in Hx; destruct Hx as [[]|Hx]; exact Hx).
    split.
    { split; [intros x Hx; apply Nt, Ic, Hx|]. split; [apply prune_sorted; exact St|]. repeat split; auto. }
    do 4 (split; [reflexivity|]). split; [intros x Hx; apply In_top, Ic, Hx|].
    right. do 3 (split; [reflexivity|]). exists top. repeat split; auto.
    apply Nat.ltb_lt in Lt. rewrite Lt. reflexivity.
  - cbn [bind tk_top]. destruct (Nat.leb_spec (length top) (tk_threshold s)); [|lia]. cbn [assert_].
    eexists. split; [reflexivity|]. cbn [tk_k tk_ez tk_threshold tk_top tk_emitted tk_sned tk_disabled].
    split; [repeat split; auto|]. do 4 (split; [reflexivity|]). split; [exact In_top|].
    right. do 3 (split; [reflexivity|]). exists top. repeat split; auto.
    apply Nat.ltb_ge in Lt. rewrite Lt. reflexivity.
Qed.

(** emission *)
Lemma emit_loop_ok k ez p l : numbers l -> forall emitted out sned, numbers emitted -> by_extent emitted ->
  exists emitted' new sned', emit_loop k ez p l emitted out sned = Ret (emitted', out ++ new, sned') /\
    numbers emitted' /\ by_extent emitted' /\
    (forall x, In x emitted' -> In x emitted \/ In x l) /\ (forall x, In x new -> In x l).
Proof.
  induction l as [|m l IH]; intros Nl emitted out sned Ne Se; cbn [emit_loop].
  - exists emitted, [], sned. rewrite app_nil_r. repeat split; auto; try (intros ? []).
  - apply numbers_cons in Nl. destruct Nl as [Nm Nl].
    destruct (k <=? length emitted).
    { exists emitted, [], sned. rewrite app_nil_r. repeat split; auto. intros ? []. }
    destruct (ml_overlaps_iter m emitted ez).
    { destruct (IH Nl emitted out sned Ne Se) as (e' & n & s' & E & A & B & C & D).
      exists e', n, s'. rewrite E. repeat split; auto.
      - intros x Hx. destruct (C x Hx); [auto|]. right. right. assumption.
      - intros x Hx. right. apply D, Hx. }
    destruct (p (ml_extent m)).
    + destruct (bt_insert_ok m emitted Nm Ne Se) as (e1 & E1 & S1 & H1). rewrite E1. cbn [bind].
      assert (I1 := bt_insert_in m emitted e1 Nm Ne Se E1).
      assert (N1 : numbers e1) by (intros x Hx; destruct (I1 x Hx) as [->|Hx']; [exact Nm|apply Ne, Hx']).
      destruct (IH Nl e1 (out ++ [m]) sned N1 S1) as (e' & n & s' & E & A & B & C & D).
      exists e', (m :: n), s'. rewrite E, <- app_assoc. split; [reflexivity|]. repeat split; auto.
      * intros x Hx. destruct (C x Hx) as [Hx'|Hx']; [|right; right; exact Hx'].
        destruct (I1 x Hx') as [->|Hx'']; [right; left; reflexivity|left; exact Hx''].
      * intros x [<-|Hx]; [left; reflexivity|right; apply D, Hx].
    + exists emitted, [], (Some (ml_extent m)). rewrite app_nil_r. repeat split; auto. intros ? [].
Qed.
Lemma emit_ok s p : wf s ->
  exists s' out, tk_emit s p = Ret (s', out) /\ wf s' /\ tk_k s' = tk_k s /\ tk_ez s' = tk_ez s /\
    tk_top s' = tk_top s /\ tk_disabled s' = tk_disabled s /\
    (forall x, In x (tk_emitted s') -> In x (tk_emitted s) \/ In x (tk_top s)) /\ (forall x, In x out -> In x (tk_top s)).
Proof.
  intros (N1 & S1 & N2 & S2 & L & T). unfold tk_emit.
  destruct (emit_loop_ok (tk_k s) (tk_ez s) p (tk_top s) N1 (tk_emitted s) [] (tk_sned s) N2 S2)
    as (e & n & sn & E & A & B & C & D). rewrite E. cbn [bind app].
  eexists. eexists. split; [reflexivity|]. cbn [tk_k tk_ez tk_threshold tk_top tk_emitted tk_sned tk_disabled].
  split; [repeat split; auto|]. repeat split; auto.
Qed.
Lemma step_ok s op : wf s -> numbers (inserted [op]) ->
  exists s' out, tk_step s op = Ret (s', out) /\ wf s' /\ tk_k s' = tk_k s /\ tk_ez s' = tk_ez s /\
    (forall x, In x (tk_top s') -> In x (inserted [op]) \/ In x (tk_top s)) /\
    (forall x, In x (tk_emitted s') -> In x (tk_emitted s) \/ In x (tk_top s)).
Proof.
  intros W N. destruct op as [m|p|]; cbn [tk_step].
  - destruct (insert_ok s m W) as (s' & E & W' & A & B & C & _ & D & _); [apply N; left; reflexivity|].
    exists s', []. rewrite E. cbn [bind]. split; [reflexivity|]. split; [exact W'|]. split; [exact A|]. split; [exact B|]. split.
    + intros x Hx. destruct (D x Hx) as [->|]; [left; left; reflexivity|auto].
    + intros x Hx. rewrite C in Hx. auto.
  - destruct (emit_ok s p W) as (s' & out & E & W' & A & B & C & _ & D & _).
    exists s', out. split; [exact E|]. split; [exact W'|]. split; [exact A|]. split; [exact B|]. split; [rewrite C; auto|exact D].
  - exists (tk_disable s), []. split; [reflexivity|]. split; [exact W|]. do 2 (split; [reflexivity|]). split; cbn; auto.
Qed.
Lemma inserted_cons op ops : inserted (op :: ops) = inserted [op] ++ inserted ops.
Proof. unfold inserted. cbn [flat_map]. rewrite app_nil_r. reflexivity. Qed.
Lemma run_ok ops : forall s, wf s -> numbers (inserted ops) ->
  exists s' out, tk_run s ops = Ret (s', out) /\ wf s' /\ tk_k s' = tk_k s /\ tk_ez s' = tk_ez s /\
    (forall x, In x (tk_top s') -> In x (inserted ops) \/ In x (tk_top s)).
Proof.
  induction ops as [|op ops IH]; intros s W N; cbn [tk_run].
  - exists s, []. split; [reflexivity|]. split; [exact W|]. auto.
  - rewrite inserted_cons in N.
    destruct (step_ok s op W) as (s1 & o1 & E1 & W1 & A1 & B1 & C1 & D1).
    { intros x Hx. apply N, in_or_app. auto. }
    rewrite E1. cbn [bind]. destruct (IH s1 W1) as (s2 & o2 & E2 & W2 & A2 & B2 & C2).
    { intros x Hx. apply N, in_or_app. auto. }
    rewrite E2. cbn [bind]. exists s2, (o1 ++ o2). split; [reflexivity|]. split; [exact W2|].
    split; [congruence|]. split; [congruence|]. rewrite inserted_cons.
    intros x Hx. destruct (C2 x Hx) as [H|H]; [left; apply in_or_app; auto|].
    destruct (C1 x H) as [H'|H']; [left; apply in_or_app; auto|auto].
Qed.
Lemma wf_new k ez : wf (tk_new k ez).
Proof. repeat split; cbn; try (intros ? []); try constructor; lia. Qed.

(** ** Emitted motiflets, without ties *)
Definition separated (ez : nat) (s : topk) (out : list motiflet) : Prop :=
  Permutation out (tk_emitted s) /\ length (tk_emitted s) <= tk_k s /\
  (forall a b x y, a <> b -> nth_error (tk_emitted s) a = Some x -> nth_error (tk_emitted s) b = Some y -> ~ conflicting ez x y).

Lemma ml_overlaps_iter_false m l ez : ml_overlaps_iter m l ez = false <-> forall x, In x l -> ~ conflicting ez m x.
Proof.
  unfold ml_overlaps_iter. split.
  - intros H x Hx C. apply overlaps_lists_spec in C.
    assert (existsb (fun o => overlaps_lists (ml_indices m) (ml_indices o) ez) l = true); [|congruence].
    apply existsb_exists. eauto.
  - intros H. destruct (existsb _ l) eqn:E; [|reflexivity]. exfalso. apply existsb_exists in E.
    destruct E as (x & Hx & O). apply overlaps_lists_spec in O. exact (H x Hx O).
Qed.
Lemma ml_overlaps_iter_true m l ez : ml_overlaps_iter m l ez = true <-> exists x, In x l /\ conflicting ez m x.
Proof.
  unfold ml_overlaps_iter. rewrite existsb_exists. split; intros (x & Hx & O); exists x; split; auto; apply overlaps_lists_spec; exact O.
Qed.
Lemma conflicting_sym ez x y : conflicting ez x y -> conflicting ez y x.
Proof. apply sets_conflict_sym. Qed.

Definition pairwise (R : motiflet -> motiflet -> Prop) (l : list motiflet) : Prop := ForallOrdPairs R l.
Lemma pairwise_perm (R : motiflet -> motiflet -> Prop) l l' : (forall x y, R x y -> R y x) -> Permutation l l' -> pairwise R l -> pairwise R l'.
Proof.
  intros Sym P. induction P as [|x l l' P IH|x y l|l1 l2 l3 P1 IH1 P2 IH2]; intros H; auto.
  - inversion H as [|? ? F H']; subst. constructor; [|apply IH, H']. eapply Permutation_Forall; eauto.
  - inversion H as [|? ? F H']; subst. inversion H' as [|? ? F' H'']; subst. inversion F as [|? ? Rxy F'']; subst.
    constructor; [constructor; [apply Sym, Rxy|exact F']|]. constructor; assumption.
Qed.
Lemma pairwise_nth (R : motiflet -> motiflet -> Prop) l : pairwise R l -> forall a b x y, a < b -> nth_error l a = Some x -> nth_error l b = Some y -> R x y.
Proof.
  intros H. induction H as [|z l F H IH]; intros a b x y L Ea Eb; [destruct a; discriminate|].
  destruct b as [|b]; [lia|]. cbn in Eb. destruct a as [|a].
  - cbn in Ea. injection Ea as ->. rewrite Forall_forall in F. eapply F, nth_error_In; eauto.
  - cbn in Ea. exact (IH a b x y ltac:(lia) Ea Eb).
Qed.

Section NoTies.
  Variables (k ez : nat) (U : motiflet -> Prop).
  Hypothesis Hez : 0 < ez.
  Hypothesis Hne : forall m, U m -> ml_indices m <> [].
  Hypothesis Hnum : forall m, U m -> is_nan (ml_extent m) = false.
  Hypothesis Htie : forall x y, U x -> U y -> feq (ml_extent x) (ml_extent y) = true -> conflicting ez x y.
  Let R x y := ~ conflicting ez x y.
  Lemma R_sym x y : R x y -> R y x.
  Proof. unfold R. intros H C. apply H, conflicting_sym, C. Qed.

  (** inserting a motiflet that overlaps none of the emitted ones really adds it *)
  Lemma emitted_insert m em : U m -> (forall x, In x em -> U x) -> by_extent em ->
    ml_overlaps_iter m em ez = false -> exists em', bt_insert m em = Ret em' /\ Permutation em' (m :: em) /\ by_extent em'.
  Proof.
    intros Hm He S O. assert (Ne : numbers em) by (intros x Hx; apply Hnum, He, Hx).
    destruct (bt_insert_ok m em (Hnum m Hm) Ne S) as (em' & E & S' & [[P _]|[_ (x & Hx & Q)]]).
    - exists em'. auto.
    - exfalso. rewrite ml_overlaps_iter_false in O. apply (O x Hx).
      exact (Htie m x Hm (He x Hx) Q).
  Qed.

  Lemma emit_loop_clean p l : (forall x, In x l -> U x) -> forall em out sned em' out' sned',
    (forall x, In x em -> U x) -> by_extent em -> pairwise R em -> length em <= k ->
    emit_loop k ez p l em out sned = Ret (em', out', sned') ->
    exists new, out' = out ++ new /\ Permutation em' (em ++ new) /\ (forall x, In x em' -> U x) /\
      by_extent em' /\ pairwise R em' /\ length em' <= k /\
      (length em' < k -> forall z, In z l ->
         (exists r, In r em' /\ conflicting ez z r) \/
         (exists u, In u l /\ sned' = Some (ml_extent u) /\ p (ml_extent u) = false /\ (forall r, In r em' -> ~ conflicting ez u r) /\
            (z = u \/ exists a b, l = a ++ u :: b /\ In z b))) /\
      (sned' = sned \/ exists u a b, l = a ++ u :: b /\ sned' = Some (ml_extent u) /\ p (ml_extent u) = false /\
         (forall r, In r em' -> ~ conflicting ez u r) /\ forall z, In z a -> exists r, In r em' /\ conflicting ez z r).
  Proof.
    induction l as [|m l IH]; intros Hl em out sned em' out' sned' He S P L E; cbn [emit_loop] in E.
    - apply Ret_inj in E. injection E as <- <- <-. exists []. rewrite !app_nil_r. repeat split; auto; intros; contradiction.
    - assert (Hm : U m) by (apply Hl; left; reflexivity).
      assert (Hl' : forall x, In x l -> U x) by (intros; apply Hl; right; assumption).
      destruct (Nat.leb_spec k (length em)) as [Lk|Lk].
      { apply Ret_inj in E. injection E as <- <- <-. exists []. rewrite !app_nil_r. repeat split; auto. intros; lia. }
      destruct (ml_overlaps_iter m em ez) eqn:O.
      { destruct (IH Hl' em out sned em' out' sned' He S P L E) as (new & Eo & Pe & A & B & C & D & F & G).
        exists new. repeat split; auto.
        - intros Lt z [<-|Hz].
          + left. apply ml_overlaps_iter_true in O. destruct O as (x & Hx & Cx). exists x. split; [|exact Cx].
            apply (Permutation_in _ (Permutation_sym Pe)), in_or_app. auto.
          + destruct (F Lt z Hz) as [H|(u & Hu & E1 & E2 & E3 & E4)]; [left; exact H|right]. exists u.
            split; [right; exact Hu|]. repeat split; auto. destruct E4 as [->|(a & b & -> & Hb)]; [auto|right].
            exists (m :: a), b. split; [reflexivity|exact Hb].
        - destruct G as [G|(u & a & b & -> & E1 & E2 & E3 & E4)]; [left; exact G|right]. exists u, (m :: a), b.
          repeat split; auto. intros z [<-|Hz]; [|apply E4, Hz].
          apply ml_overlaps_iter_true in O. destruct O as (x & Hx & Cx). exists x. split; [|exact Cx].
          apply (Permutation_in _ (Permutation_sym Pe)), in_or_app. auto. }
      destruct (p (ml_extent m)) eqn:Pm.
      + destruct (emitted_insert m em Hm He S O) as (em1 & E1 & P1 & S1). rewrite E1 in E. cbn [bind] in E.
        assert (He1 : forall x, In x em1 -> U x).
        { intros x Hx. apply (Permutation_in _ P1) in Hx. destruct Hx as [<-|Hx]; auto. }
        assert (Pw1 : pairwise R em1).
        { eapply pairwise_perm; [exact R_sym|symmetry; exact P1|]. constructor; [|exact P]. apply Forall_forall.
          rewrite ml_overlaps_iter_false in O. exact O. }
        assert (L1 : length em1 <= k) by (rewrite (Permutation_length P1); cbn; lia).
        destruct (IH Hl' em1 (out ++ [m]) sned em' out' sned' He1 S1 Pw1 L1 E) as (new & Eo & Pe & A & B & C & D & F & G).
        assert (Self : exists r, In r em' /\ conflicting ez m r).
        { exists m. split.
          - apply (Permutation_in _ (Permutation_sym Pe)), in_or_app. left.
            apply (Permutation_in _ (Permutation_sym P1)). left. reflexivity.
          - apply overlaps_lists_spec, overlaps_lists_refl; [exact Hez|apply Hne, Hm]. }
        exists (m :: new). split; [rewrite Eo, <- app_assoc; reflexivity|].
        split. { rewrite Pe, P1. cbn [app]. apply Permutation_middle. }
        repeat split; auto.
        * intros Lt z [<-|Hz]; [left; exact Self|].
          destruct (F Lt z Hz) as [H|(u & Hu & Q1 & Q2 & Q3 & Q4)]; [left; exact H|right]. exists u.
          split; [right; exact Hu|]. repeat split; auto. destruct Q4 as [->|(a & b & -> & Hb)]; [auto|right].
          exists (m :: a), b. split; [reflexivity|exact Hb].
        * destruct G as [G|(u & a & b & -> & Q1 & Q2 & Q3 & Q4)]; [left; exact G|right]. exists u, (m :: a), b.
          repeat split; auto. intros z [<-|Hz]; [exact Self|apply Q4, Hz].
      + apply Ret_inj in E. injection E as <- <- <-. exists []. rewrite !app_nil_r. repeat split; auto.
        * intros _ z Hz. right. exists m. split; [left; reflexivity|]. repeat split; auto.
          { rewrite ml_overlaps_iter_false in O. exact O. }
          destruct Hz as [<-|Hz]; [auto|right]. exists [], l. split; [reflexivity|exact Hz].
        * right. exists m, [], l. repeat split; auto; [|intros z []]. rewrite ml_overlaps_iter_false in O. exact O.
  Qed.

  Definition good (s : topk) (out : list motiflet) : Prop :=
    wf s /\ tk_k s = k /\ tk_ez s = ez /\ (forall x, In x (tk_top s) -> U x) /\ (forall x, In x (tk_emitted s) -> U x) /\
    Permutation out (tk_emitted s) /\ length (tk_emitted s) <= k /\ pairwise R (tk_emitted s).
  Lemma good_run ops : (forall x, In x (inserted ops) -> U x) -> forall s out0 s' out, good s out0 -> tk_run s ops = Ret (s', out) ->
    good s' (out0 ++ out).
  Proof.
    induction ops as [|op ops IH]; intros Hi s out0 s' out G E; cbn [tk_run] in E.
    - apply Ret_inj in E. injection E as <- <-. rewrite app_nil_r. exact G.
    - rewrite inserted_cons in Hi.
      assert (Hi1 : forall x, In x (inserted [op]) -> U x) by (intros; apply Hi, in_or_app; auto).
      assert (Hi2 : forall x, In x (inserted ops) -> U x) by (intros; apply Hi, in_or_app; auto).
      assert (G1 : forall s1 o1, tk_step s op = Ret (s1, o1) -> good s1 (out0 ++ o1)).
      { intros s1 o1 E1. destruct G as (W & Hk & Hz & Ht & He & P & L & Pw). destruct op as [m|p|]; cbn [tk_step] in E1.
        - destruct (insert_ok s m W) as (s2 & E2 & W2 & A & B & C & _ & D & _); [apply Hnum, Hi1; left; reflexivity|].
          rewrite E2 in E1. cbn [bind] in E1. apply Ret_inj in E1. injection E1 as <- <-. rewrite app_nil_r.
          split; [exact W2|]. rewrite A, B, C. repeat split; auto.
          intros x Hx. destruct (D x Hx) as [->|Hx']; [apply Hi1; left; reflexivity|apply Ht, Hx'].
        - destruct (emit_ok s p W) as (s2 & o2 & E2 & W2 & A & B & C & _). rewrite E2 in E1. apply Ret_inj in E1. injection E1 as <- <-.
          unfold tk_emit in E2. destruct (emit_loop _ _ _ _ _ _ _) as [[[em' out'] sn']| |] eqn:El; cbn [bind] in E2; try discriminate.
          apply Ret_inj in E2. rewrite Hk, Hz in El.
          destruct W as (_ & _ & _ & Se & _).
          destruct (emit_loop_clean p (tk_top s) Ht _ _ _ _ _ _ He Se Pw L El) as (new & Eo & Pe & Q1 & Q2 & Q3 & Q4 & _).
          cbn [app] in Eo. subst out'. injection E2 as <- <-.
          split; [exact W2|]. cbn [tk_k tk_ez tk_top tk_emitted] in *. repeat split; auto.
          rewrite P, Pe. reflexivity.
        - apply Ret_inj in E1. injection E1 as <- <-. rewrite app_nil_r. repeat split; auto; apply W. }
      destruct (tk_step s op) as [[s1 o1]| |] eqn:E1; cbn [bind] in E; try discriminate.
      destruct (tk_run s1 ops) as [[s2 o2]| |] eqn:E2; cbn [bind] in E; try discriminate.
      apply Ret_inj in E. injection E as <- <-. rewrite app_assoc. apply (IH Hi2 s1 _ s2 o2 (G1 s1 o1 eq_refl) E2).
  Qed.
  Lemma good_new : good (tk_new k ez) [].
  Proof. split; [apply wf_new|]. repeat split; cbn; try (intros ? []); try lia; try constructor. Qed.
End NoTies.

(** ** The best candidate is never lost *)
Lemma sorted_head_le x l : by_extent (x :: l) -> numbers (x :: l) -> forall y, In y (x :: l) -> fle (ml_extent x) (ml_extent y) = true.
Proof.
  intros S N y [<-|Hy]; [apply fle_refl, N; left; reflexivity|]. apply StronglySorted_inv in S. destruct S as [_ F].
  rewrite Forall_forall in F. apply flt_fle, F, Hy.
Qed.
Lemma prune_head k ez th x l : 1 <= k -> exists t, prune k ez th (x :: l) [] = x :: t.
Proof.
  intros Hk. cbn [prune overlap_count map filter length]. unfold overlap_count. cbn [filter length map].
  destruct (Nat.ltb_spec 0 k); [|lia]. cbn [app length].
  destruct (th <=? 1); [exists []; reflexivity|]. destruct (prune_prefix k ez th l [x]) as (t & ->). exists t. reflexivity.
Qed.
Definition has_best (C : list motiflet) (s : topk) : Prop :=
  forall m, In m C -> exists x t, tk_top s = x :: t /\ fle (ml_extent x) (ml_extent m) = true.
Lemma insert_best s m s' C : 1 <= tk_k s -> wf s -> is_nan (ml_extent m) = false -> tk_is_complete s = false -> has_best C s ->
  tk_insert s m = Ret s' -> has_best (m :: C) s'.
Proof.
  intros Hk W Nm Hc B E. pose proof W as (N1 & S1 & _ & _ & L & T).
  destruct (insert_ok s m W Nm) as (s2 & E2 & W2 & _ & _ & _ & _ & _ & H). rewrite E in E2. apply Ret_inj in E2. subst s2.
  destruct H as [[-> [Hc'|Bl]]|(_ & Bl & _ & top & Et & St & Es)]; [congruence| |].
  - (* beyond the last one *)
    intros x [<-|Hx]; [|apply B, Hx]. unfold beyond_last in Bl. apply andb_true_iff in Bl. destruct Bl as [_ Bl].
    destruct (rev (tk_top s)) as [|z r] eqn:Er; [discriminate|].
    assert (Hz : In z (tk_top s)) by (apply in_rev; rewrite Er; left; reflexivity).
    destruct (tk_top s) as [|h t]; [destruct Hz|]. exists h, t. split; [reflexivity|].
    pose proof (sorted_head_le h t S1 N1 z Hz) as Hh. pose proof (flt_fle _ _ Bl). exact (fle_trans _ _ _ Hh H).
  - destruct (bt_insert_ok m (tk_top s) Nm N1 S1) as (top' & Et' & _ & H). rewrite Et in Et'. apply Ret_inj in Et'. subst top'.
    assert (It := bt_insert_in m (tk_top s) top Nm N1 S1 Et).
    assert (Nt : numbers top) by (intros x Hx; destruct (It x Hx) as [->|Hx']; [exact Nm|apply N1, Hx']).
    assert (A : forall c, In c (m :: C) -> exists x t, top = x :: t /\ fle (ml_extent x) (ml_extent c) = true).
    { intros c Hc1. assert (X : exists y, In y top /\ fle (ml_extent y) (ml_extent c) = true).
      { destruct Hc1 as [<-|Hc1].
        - destruct H as [[P _]|[-> (y & Hy & Q)]].
          + exists m. split; [apply (Permutation_in _ (Permutation_sym P)); left; reflexivity|apply fle_refl, Nm].
          + exists y. split; [exact Hy|]. rewrite feq_sym in Q. apply feq_fle, Q.
        - destruct (B c Hc1) as (x & t & Ex & Hx). exists x. split; [|exact Hx].
          assert (Hin : In x (tk_top s)) by (rewrite Ex; left; reflexivity).
          destruct H as [[P _]|[-> _]]; [|exact Hin]. apply (Permutation_in _ (Permutation_sym P)). right. exact Hin. }
      destruct X as (y & Hy & Qy). destruct top as [|h t]; [destruct Hy|]. exists h, t. split; [reflexivity|].
      exact (fle_trans _ _ _ (sorted_head_le h t St Nt y Hy) Qy). }
    intros c Hc1. destruct (A c Hc1) as (x & t & Ex & Hx). rewrite Es.
    destruct (tk_threshold s <? length top).
    + rewrite Ex. destruct (prune_head (tk_k s) (tk_ez s) (tk_threshold s) x t Hk) as (t' & ->). exists x, t'. auto.
    + exists x, t. auto.
Qed.
Lemma emit_emitted_length s p s' out : wf s -> tk_emit s p = Ret (s', out) ->
  length (tk_emitted s) <= length (tk_emitted s') /\ (length (tk_emitted s) <= tk_k s -> length (tk_emitted s') <= tk_k s).
Proof.
  intros (N1 & S1 & N2 & S2 & _). unfold tk_emit. intros E.
  destruct (emit_loop _ _ _ _ _ _ _) as [[[em o] sn]| |] eqn:El; cbn [bind] in E; try discriminate.
  apply Ret_inj in E. injection E as <- _. cbn [tk_emitted]. clear S1.
  revert El N1 N2 S2. generalize (tk_top s) as l, (tk_emitted s) as em0, (@nil motiflet) as o0, (tk_sned s) as sn0.
  induction l as [|m l IH]; intros em0 o0 sn0 El N1 N2 S2; cbn [emit_loop] in El.
  - apply Ret_inj in El. injection El as <- _ _. lia.
  - apply numbers_cons in N1. destruct N1 as [Nm N1].
    destruct (Nat.leb_spec (tk_k s) (length em0)); [apply Ret_inj in El; injection El as <- _ _; lia|].
    destruct (ml_overlaps_iter m em0 (tk_ez s)); [eapply IH; eauto|].
    destruct (p (ml_extent m)); [|apply Ret_inj in El; injection El as <- _ _; lia].
    destruct (bt_insert_ok m em0 Nm N2 S2) as (e1 & E1 & S' & _). rewrite E1 in El. cbn [bind] in El.
    pose proof (bt_insert_length m em0 e1 Nm N2 S2 E1) as Lb.
    assert (I1 := bt_insert_in m em0 e1 Nm N2 S2 E1).
    assert (Ne : numbers e1) by (intros x Hx; destruct (I1 x Hx) as [->|Hx']; [exact Nm|apply N2, Hx']).
    pose proof (IH e1 (o0 ++ [m]) sn0 El N1 Ne S') as [A B]. split; [lia|]. intros _. apply B. lia.
Qed.
(** completeness never goes away *)
Lemma step_complete s op s' out : wf s -> numbers (inserted [op]) -> length (tk_emitted s) <= tk_k s ->
  tk_step s op = Ret (s', out) ->
  length (tk_emitted s') <= tk_k s' /\ (tk_is_complete s = true -> tk_is_complete s' = true).
Proof.
  intros W N L E. destruct op as [m|p|]; cbn [tk_step] in E.
  - destruct (insert_ok s m W) as (s2 & E2 & _ & A & _ & C & D & _); [apply N; left; reflexivity|].
    rewrite E2 in E. cbn [bind] in E. apply Ret_inj in E. injection E as <- _.
    unfold tk_is_complete. rewrite A, C, D. auto.
  - destruct (emit_ok s p W) as (s2 & o2 & E2 & _ & A & _ & _ & D & _). rewrite E in E2. apply Ret_inj in E2. injection E2 as <- <-.
    destruct (emit_emitted_length s p s' out W E) as [G1 G2]. unfold tk_is_complete. rewrite A, D. specialize (G2 L).
    split; [exact G2|]. intros H. apply orb_true_iff in H. apply orb_true_iff. destruct H as [H|H]; [auto|right].
    apply Nat.eqb_eq in H. apply Nat.eqb_eq. lia.
  - apply Ret_inj in E. injection E as <- _. split; [exact L|]. intros _. reflexivity.
Qed.
Lemma run_complete ops : forall s s' out, wf s -> numbers (inserted ops) -> length (tk_emitted s) <= tk_k s ->
  tk_run s ops = Ret (s', out) -> tk_is_complete s = true -> tk_is_complete s' = true.
Proof.
  induction ops as [|op ops IH]; intros s s' out W N L E H; cbn [tk_run] in E.
  - apply Ret_inj in E. injection E as <- _. exact H.
  - rewrite inserted_cons in N.
    assert (N1 : numbers (inserted [op])) by (intros x Hx; apply N, in_or_app; auto).
    destruct (step_ok s op W N1) as (s1 & o1 & E1 & W1 & _). rewrite E1 in E. cbn [bind] in E.
    destruct (step_complete s op s1 o1 W N1 L E1) as [L1 C1].
    destruct (tk_run s1 ops) as [[s2 o2]| |] eqn:E2; cbn [bind] in E; try discriminate.
    apply Ret_inj in E. injection E as <- _. refine (IH s1 s2 o2 W1 _ L1 E2 (C1 H)).
    intros x Hx. apply N, in_or_app; auto.
Qed.
Lemma run_best ops : forall s s' out C, 1 <= tk_k s -> wf s -> numbers (inserted ops) -> length (tk_emitted s) <= tk_k s ->
  has_best C s -> tk_run s ops = Ret (s', out) -> tk_is_complete s' = false -> has_best (inserted ops ++ C) s'.
Proof.
  induction ops as [|op ops IH]; intros s s' out C Hk W N L B E H; cbn [tk_run] in E.
  - apply Ret_inj in E. injection E as <- _. exact B.
  - rewrite inserted_cons in N.
    assert (N1 : numbers (inserted [op])) by (intros x Hx; apply N, in_or_app; auto).
    assert (N2 : numbers (inserted ops)) by (intros x Hx; apply N, in_or_app; auto).
    assert (Hs : tk_is_complete s = false).
    { destruct (tk_is_complete s) eqn:Cs; [|reflexivity]. rewrite (run_complete (op :: ops) s s' out W) in H; auto. rewrite inserted_cons. exact N. }
    destruct (step_ok s op W N1) as (s1 & o1 & E1 & W1 & A1 & _). rewrite E1 in E. cbn [bind] in E.
    destruct (step_complete s op s1 o1 W N1 L E1) as [L1 _].
    destruct (tk_run s1 ops) as [[s2 o2]| |] eqn:E2; cbn [bind] in E; try discriminate.
    apply Ret_inj in E. injection E as <- _.
    assert (B1 : has_best (inserted [op] ++ C) s1).
    { destruct op as [m|p|]; cbn [tk_step] in E1.
      - destruct (tk_insert s m) as [s3| |] eqn:E3; cbn [bind] in E1; try discriminate. apply Ret_inj in E1. injection E1 as <- _.
        cbn. apply (insert_best s m s3 C); auto. apply N1. left. reflexivity.
      - destruct (emit_ok s p W) as (s3 & o3 & E3 & _ & _ & _ & T3 & _). rewrite E3 in E1. apply Ret_inj in E1. injection E1 as <- _.
        intros m Hm. cbn in Hm. destruct (B m Hm) as (x & t & Ex & Hx). rewrite T3. eauto.
      - apply Ret_inj in E1. injection E1 as <- _. exact B. }
    assert (B2 := IH s1 s2 o2 (inserted [op] ++ C) ltac:(lia) W1 N2 L1 B1 E2 H).
    intros m Hm. apply B2. rewrite inserted_cons in Hm. apply in_app_or in Hm. apply in_or_app.
    destruct Hm as [Hm|Hm]; [|right; apply in_or_app; auto].
    apply in_app_or in Hm. destruct Hm as [Hm|Hm]; [right; apply in_or_app; auto|auto].
Qed.

(** ** No pruning while few candidates were inserted *)
Lemma run_all ops : forall s s' out, wf s -> numbers (inserted ops) -> length (tk_emitted s) <= tk_k s ->
  length (tk_top s) + length (inserted ops) <= tk_threshold s ->
  tk_run s ops = Ret (s', out) -> tk_is_complete s' = false ->
  forall m, In m (inserted ops) \/ In m (tk_top s) -> exists x, In x (tk_top s') /\ feq (ml_extent x) (ml_extent m) = true.
Proof.
  induction ops as [|op ops IH]; intros s s' out W N L Lt E H m Hm; cbn [tk_run] in E.
  - apply Ret_inj in E. injection E as <- _. destruct Hm as [[]|Hm]. exists m. split; [exact Hm|].
    apply fle_antisym; apply fle_refl, (proj1 W), Hm.
  - pose proof W as (N0 & S0 & _ & _ & L0 & T0). rewrite inserted_cons in N, Lt.
    assert (N1 : numbers (inserted [op])) by (intros x Hx; apply N, in_or_app; auto).
    assert (N2 : numbers (inserted ops)) by (intros x Hx; apply N, in_or_app; auto).
    assert (Hs : tk_is_complete s = false).
    { destruct (tk_is_complete s) eqn:Cs; [|reflexivity]. rewrite (run_complete (op :: ops) s s' out W) in H; auto. rewrite inserted_cons. exact N. }
    destruct (step_ok s op W N1) as (s1 & o1 & E1 & W1 & A1 & _). rewrite E1 in E. cbn [bind] in E.
    destruct (step_complete s op s1 o1 W N1 L E1) as [L1 _].
    destruct (tk_run s1 ops) as [[s2 o2]| |] eqn:E2; cbn [bind] in E; try discriminate.
    apply Ret_inj in E. injection E as <- _. rewrite app_length in Lt.
    assert (Th : tk_threshold s1 = tk_threshold s) by (destruct W1 as (_ & _ & _ & _ & _ & ->); rewrite T0, A1; reflexivity).
    assert (K : length (tk_top s1) <= length (tk_top s) + length (inserted [op]) /\
                forall c, In c (inserted [op]) \/ In c (tk_top s) -> exists x, In x (tk_top s1) /\ feq (ml_extent x) (ml_extent c) = true).
    { destruct op as [c0|p|]; cbn [tk_step] in E1.
      - assert (Nm : is_nan (ml_extent c0) = false) by (apply N1; left; reflexivity).
        destruct (insert_ok s c0 W Nm) as (s3 & E3 & _ & _ & _ & _ & _ & _ & Hc). rewrite E3 in E1. cbn [bind] in E1.
        apply Ret_inj in E1. injection E1 as <- _. cbn in Lt.
        destruct Hc as [[-> [Hc|Hc]]|(_ & _ & _ & top & Et & St & Es)]; [congruence| |].
        + unfold beyond_last in Hc. apply andb_true_iff in Hc. destruct Hc as [Hc _]. apply Nat.eqb_eq in Hc. lia.
        + pose proof (bt_insert_length c0 (tk_top s) top Nm N0 S0 Et) as Lb.
          assert (Ne : tk_threshold s <? length top = false) by (apply Nat.ltb_ge; lia). rewrite Ne in Es. rewrite Es.
          split; [cbn; lia|]. destruct (bt_insert_ok c0 (tk_top s) Nm N0 S0) as (top' & Et' & _ & Q).
          rewrite Et in Et'. apply Ret_inj in Et'. subst top'.
          intros c [[<-|[]]|Hc].
          * destruct Q as [[P _]|[-> (y & Hy & Q)]].
            -- exists c0. split; [apply (Permutation_in _ (Permutation_sym P)); left; reflexivity|]. apply fle_antisym; apply fle_refl, Nm.
            -- exists y. split; [exact Hy|]. rewrite feq_sym. exact Q.
          * exists c. split; [|apply fle_antisym; apply fle_refl, N0, Hc].
            destruct Q as [[P _]|[-> _]]; [|exact Hc]. apply (Permutation_in _ (Permutation_sym P)). right. exact Hc.
      - destruct (emit_ok s p W) as (s3 & o3 & E3 & _ & _ & _ & T3 & _). rewrite E3 in E1. apply Ret_inj in E1. injection E1 as <- _.
        rewrite T3. split; [lia|]. intros c [[]|Hc]. exists c. split; [exact Hc|]. apply fle_antisym; apply fle_refl, N0, Hc.
      - apply Ret_inj in E1. injection E1 as <- _. cbn. split; [lia|]. intros c [[]|Hc]. exists c. split; [exact Hc|].
        apply fle_antisym; apply fle_refl, N0, Hc. }
    destruct K as [K1 K2].
    assert (IH' := IH s1 s2 o2 W1 N2 L1 ltac:(lia) E2 H).
    rewrite inserted_cons in Hm.
    assert (Hm' : In m (inserted ops) \/ (In m (inserted [op]) \/ In m (tk_top s))).
    { destruct Hm as [Hm|Hm]; [apply in_app_or in Hm; tauto|auto]. }
    destruct Hm' as [Hm'|Hm'].
    + apply IH'. auto.
    + destruct (K2 m Hm') as (x & Hx & Qx). destruct (IH' x (or_intror Hx)) as (y & Hy & Qy). exists y. split; [exact Hy|]. f64_tac.
Qed.
