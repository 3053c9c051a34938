(** When neighbourhoods are reported. *)
From Coq Require Import Floats.SpecFloat.
From Verif Require Import Base F64 Overlaps OverlapsSpec OverlapsProofs BruteSpec Graph GraphSpec GraphProofs.

Definition flags_inv (R : f64 -> nat -> Prop) (nn : list entry) : Prop :=
  (forall e, In e nn -> ef e = false -> R (ed e) (snd e)) /\
  (forall d j, R d j -> exists e, In e nn /\ snd e = j /\ ((ef e = false /\ ed e = d) \/ flt (ed e) d = true)).

Definition consistent (es : list (f64 * nat)) : Prop := forall d d' j, In (d, j) es -> In (d', j) es -> d = d'.

Lemma tidy_old es nn t e : node_inv es nn -> consistent es -> tidy nn t -> In e nn -> ef e = false ->
  exists w, In w t /\ ef w = false /\ ed w = ed e /\ snd w = snd e.
Proof.
  intros (N & I & _) C [T1 T2 T3] He Fe. destruct (T3 e He) as (w & Hw & Ew & Lw).
  rewrite Forall_forall in N.
  assert (D : ed w = ed e) by (apply (C (ed w) (ed e) (snd e)); [rewrite <- Ew; apply I, T1, Hw|apply I, He]).
  exists w. split; [exact Hw|]. split; [|auto].
  destruct (ef w) eqn:Fw; [|reflexivity]. exfalso.
  assert (Q : entry_lt e w = true); [|congruence]. apply entry_lt_spec; auto. right. split; [congruence|]. left. auto.
Qed.
Lemma tidy_flags es R nn t : node_inv es nn -> tidy nn t -> flags_inv R nn -> flags_inv R t.
Proof.
  intros V T (F1 & F2). pose proof T as [T1 T2 T3]. split; [auto|].
  intros d j H. destruct (F2 d j H) as (e & He & <- & Q).
  destruct (T3 e He) as (w & Hw & Ew & Lw). destruct V as (N & _). rewrite Forall_forall in N.
  exists w. split; [exact Hw|]. split; [exact Ew|].
  pose proof (entry_le_dist w e (N _ (T1 _ Hw)) (N _ He) Lw) as D.
  destruct Q as [[Fe <-]|Q]; [|right; exact (fle_flt_trans _ _ _ D Q)].
  destruct (flt (ed w) (ed e)) eqn:L; [right; reflexivity|left].
  assert (ED : ed w = ed e).
  { apply feq_abs. apply fle_antisym; [exact D|]. fold (ed w) (ed e). rewrite fle_not_flt by (apply ed_num, N; auto).
    rewrite L. reflexivity. }
  split; [|exact ED]. destruct (ef w) eqn:Fw; [|reflexivity]. exfalso.
  assert (X : entry_lt e w = true); [|congruence]. apply entry_lt_spec; [apply N, He|apply N, T1, Hw|].
  right. split; [congruence|]. left. auto.
Qed.
Lemma marked_flags k ez ind (R R' : f64 -> nat -> Prop) t : Forall num t -> flags_inv R t ->
  (forall d j, R' d j <-> R d j \/ exists e, In e (chosen k ez ind t) /\ ed e = d /\ snd e = j) ->
  flags_inv R' (marked k ez ind t).
Proof.
  intros N (F1 & F2) H. rewrite Forall_forall in N. split.
  - intros e' He' Fe. apply H. apply marked_in in He'. destruct He' as (e & He & E1 & [->|[C E2]]); [left; auto|].
    right. exists e. rewrite E2, set_flag_distance, E1. auto.
  - assert (P : forall e, In e (chosen k ez ind t) -> exists e', In e' (marked k ez ind t) /\ ef e' = false /\ ed e' = ed e /\ snd e' = snd e).
    { intros e C. exists (dwf_set_flag (fst e) false, snd e). split; [apply marked_chosen, C|]. cbn [fst snd].
      split; [apply set_flag_flag, N; eapply chosen_in; eauto|]. split; [apply set_flag_distance|reflexivity]. }
    intros d j Q. apply H in Q. destruct Q as [Q|(e & C & <- & <-)].
    + destruct (F2 d j Q) as (e & He & <- & Fe). destruct (marked_keeps k ez t e ind He) as [C|C]; [|exists e; auto].
      destruct (P e C) as (e' & A & B & D & E). exists e'. rewrite D, E, B. split; [exact A|]. split; [reflexivity|].
      destruct Fe as [[_ ->]|Fe]; auto.
    + destruct (P e C) as (e' & A & B & D & E). exists e'. auto.
Qed.

(** ** Reports of one read *)
Lemma nth_error_flat {A} (r : list (list entry * option A)) x :
  In x (flat_map (fun p => match snd p with Some y => [y] | None => [] end) r) <->
  exists i nn, nth_error r i = Some (nn, Some x).
Proof.
  rewrite in_flat_map. split.
  - intros ((nn & o) & H & Hx). cbn in Hx. destruct o as [y|]; [|destruct Hx]. destruct Hx as [->|[]].
    apply In_nth_error in H. destruct H as (i & H). eauto.
  - intros (i & nn & H). exists (nn, Some x). split; [eapply nth_error_In; eauto|left; reflexivity].
Qed.
Lemma reported_app i a b d j : reported_for i (a ++ b) d j <-> reported_for i a d j \/ reported_for i b d j.
Proof.
  unfold reported_for. split.
  - intros (x & y & p & H & Q). apply in_app_or in H. destruct H; [left|right]; eauto 8.
  - intros [(x & y & p & H & Q)|(x & y & p & H & Q)]; exists x, y, p; (split; [apply in_or_app; auto|exact Q]).
Qed.

Lemma read_reports n ez ops g k g' new : graph_inv n ez ops g -> g_neighborhoods g k = Ret (g', new) ->
  forall i, i < n -> exists nn nn' out, nth_error (g_nn g) i = Some nn /\ nth_error (g_nn g') i = Some nn' /\
    read_node k ez i (touched ops i) nn nn' out /\
    (forall ind ds, (In (ind, ds) new /\ nth_error ind 0 = Some i) <-> out = Some (ind, ds)).
Proof.
  intros V E i Li. destruct (g_read_spec n ez ops g k V) as (g1 & r & E1 & Z1 & U1 & L1 & L2 & P).
  rewrite E in E1. apply Ret_inj in E1. injection E1 as -> ->.
  destruct (P i Li) as (nn & nn' & out & A & B & C & D). exists nn, nn', out. split; [exact A|]. split; [exact B|]. split; [exact D|].
  assert (Hd : forall m x y o, m < n -> nth_error r m = Some (y, o) -> o = Some x -> nth_error (fst x) 0 = Some m).
  { intros m x y o Lm Em ->. destruct (P m Lm) as (nn1 & nn2 & out1 & _ & _ & C1 & D1). rewrite Em in C1. injection C1 as <- <-.
    unfold read_node in D1. destruct (touched ops m); [|destruct D1; discriminate].
    destruct D1 as (t & _ & _ & D1). destruct (existsb _ _); [|discriminate]. injection D1 as ->. reflexivity. }
  intros ind ds. rewrite nth_error_flat. split.
  - intros ((m & y & Em) & H0). assert (Lm : m < n) by (rewrite <- L2; apply nth_error_Some; congruence).
    pose proof (Hd m (ind, ds) y _ Lm Em eq_refl) as Q. cbn [fst] in Q. assert (m = i) by congruence. subst m.
    rewrite Em in C. injection C as _ <-. reflexivity.
  - intros ->. split; [eauto|]. exact (Hd i (ind, ds) nn' _ Li C eq_refl).
Qed.

(** the reports of node [i], in terms of the chosen entries *)
Lemma report_pairs i c (d : f64) (j : nat) :
  (exists p, nth_error ([i] ++ map snd c) (S p) = Some j /\ nth_error ([f_zero] ++ map (fun e => ed e) c) (S p) = Some d) <->
  exists e : entry, In e c /\ ed e = d /\ snd e = j.
Proof.
  cbn [app nth_error]. split.
  - intros (p & A & B). rewrite nth_error_map in A, B. destruct (nth_error c p) as [e|] eqn:E; [|discriminate].
    cbn [option_map] in A, B. injection A as <-. injection B as <-. exists e. split; [eapply nth_error_In; eauto|auto].
  - intros (e & He & <- & <-). apply In_nth_error in He. destruct He as (p & E). exists p.
    rewrite !nth_error_map, E. auto.
Qed.

Definition graph_flags (n : nat) (g : graph) (out : list (list nat * list f64)) : Prop :=
  forall i nn, i < n -> nth_error (g_nn g) i = Some nn -> flags_inv (reported_for i out) nn.

Lemma flags_grow R nn d j : is_sign_negative d = false -> flags_inv R nn -> flags_inv R (nn ++ [(d, j)]).
Proof.
  intros S (F1 & F2). split.
  - intros e H Fe. apply in_app_or in H. destruct H as [H|[<-|[]]]; [auto|].
    cbn in Fe. unfold dwf_flag in Fe. rewrite S in Fe. discriminate.
  - intros d' j' H. destruct (F2 d' j' H) as (e & He & E). exists e. split; [apply in_or_app; auto|exact E].
Qed.

Lemma flags_step n ez ops g op g' out new : graph_inv n ez ops g -> well_formed n (ops ++ [op]) ->
  graph_flags n g out -> g_step g op = Ret (g', new) -> graph_flags n g' (out ++ new).
Proof.
  intros V W F E. pose proof V as (Ez & Ln & Lu & H). destruct op as [d a b| |k]; cbn [g_step] in E.
  - destruct (W d a b ltac:(apply in_or_app; right; left; reflexivity)) as (La & Lb & Nd & Sg).
    destruct (g_insert_spec g d a b n Ln Lu La Lb) as (g1 & E1 & Z1 & L1 & L2 & P). rewrite E1 in E. cbn [bind] in E.
    apply Ret_inj in E. injection E as <- <-. rewrite app_nil_r. intros i nn' Li En'.
    destruct (H i Li) as (_ & nn & En & _). destruct (P i Li) as (_ & Pn). rewrite (Pn nn En) in En'. injection En' as <-.
    specialize (F i nn Li En).
    destruct (a =? i), (b =? i); cbn [app]; rewrite ?app_nil_r; try exact F; try (apply flags_grow; assumption).
    change [(d, b); (d, a)] with ([(d, b)] ++ [(d, a)]). rewrite app_assoc. repeat apply flags_grow; assumption.
  - apply Ret_inj in E. injection E as <- <-. rewrite app_nil_r. exact F.
  - intros i nn' Li En'. destruct (read_reports n ez ops g k g' new V E i Li) as (nn & nn1 & o & En & En1 & R & Rep).
    assert (nn1 = nn') by congruence. subst nn1.
    destruct (H i Li) as (_ & nn0 & En0 & V0). assert (nn0 = nn) by congruence. subst nn0.
    specialize (F i nn Li En).
    assert (RX : forall d j, reported_for i (out ++ new) d j <->
      reported_for i out d j \/ exists ind ds p, o = Some (ind, ds) /\ nth_error ind (S p) = Some j /\ nth_error ds (S p) = Some d).
    { intros d j. rewrite reported_app. unfold reported_for at 2. split; intros [A|A]; auto; right.
      - destruct A as (ind & ds & p & A1 & A2 & A3). exists ind, ds, p. split; [apply Rep; auto|exact A3].
      - destruct A as (ind & ds & p & A1 & A2). apply Rep in A1. exists ind, ds, p. destruct A1. auto. }
    unfold read_node in R. destruct (touched ops i).
    + destruct R as (t & T & -> & Eo).
      pose proof (tidy_flags _ _ _ _ V0 T F) as Ft. pose proof (tidy_node _ _ _ V0 T) as Vt.
      apply (marked_flags k ez [i] (reported_for i out)); [apply Vt|exact Ft|].
      intros d j. rewrite RX. set (c := chosen k ez [i] t) in *. destruct (existsb (fun e => ef e) c) eqn:Ex.
      * rewrite <- (report_pairs i c d j). split; intros [A|A]; auto; right.
        -- destruct A as (ind & ds & p & A1 & A2). rewrite Eo in A1. injection A1 as <- <-. eauto.
        -- destruct A as (p & A). exists ([i] ++ map snd c), ([f_zero] ++ map (fun e => ed e) c), p. auto.
      * split; [intros [A|(? & ? & ? & A & _)]; [auto|congruence]|]. intros [A|(e & He & <- & <-)]; [auto|]. left.
        apply Ft; [eapply chosen_in; eauto|]. destruct (ef e) eqn:Q; [|reflexivity]. exfalso.
        assert (existsb (fun e => ef e) c = true); [|congruence]. apply existsb_exists. eauto.
    + destruct R as [-> Eo]. destruct F as (F1 & F2). split; intros; [apply RX; left; auto|].
      apply RX in H0. destruct H0 as [A|(? & ? & ? & A & _)]; [auto|congruence].
Qed.

Lemma flags_run n ez ops : well_formed n ops ->
  forall g out, g_run (g_new n ez) ops = Ret (g, out) -> graph_inv n ez ops g /\ graph_flags n g out.
Proof.
  induction ops as [|op ops IH] using rev_ind; intros W g out E.
  - apply Ret_inj in E. injection E as <- <-. split; [apply graph_inv_new|].
    intros i nn Li En. cbn in En. rewrite nth_error_repeat in En by exact Li. injection En as <-.
    split; [intros ? []|]. intros d j (? & ? & ? & [] & _).
  - rewrite g_run_app in E. destruct (g_run (g_new n ez) ops) as [[g1 o1]| |] eqn:E1; try discriminate. cbn [bind g_run] in E.
    destruct (g_step g1 op) as [[g2 o2]| |] eqn:E2; try discriminate. cbn [bind] in E. rewrite app_nil_r in E.
    apply Ret_inj in E. injection E as <- <-.
    destruct (IH (well_formed_app _ _ _ W) g1 o1 eq_refl) as (V & F).
    split; [eapply graph_step; eauto|]. eapply flags_step; eauto.
Qed.

(** ** A second selection from the same neighbours takes nothing new *)
Lemma lt_sorted_pos l : lt_sorted l -> Forall num l -> forall p q x y, nth_error l p = Some x -> nth_error l q = Some y ->
  entry_lt x y = true -> p < q.
Proof.
  intros S N p q x y Ex Ey L. rewrite Forall_forall in N.
  pose proof (N x ltac:(eapply nth_error_In; eauto)) as Nx. pose proof (N y ltac:(eapply nth_error_In; eauto)) as Ny.
  destruct (Nat.lt_trichotomy p q) as [H|[->|H]]; [exact H|exfalso|exfalso].
  - assert (x = y) by congruence. subst. rewrite (entry_lt_irrefl y Ny) in L. discriminate.
  - pose proof (pairs_nth _ _ (sorted_pairs _ _ S) q p y x H Ey Ex) as L'. cbn in L'.
    pose proof (entry_lt_trans x y x Nx Ny Nx L L') as Q. rewrite (entry_lt_irrefl x Nx) in Q. discriminate.
Qed.

Lemma entry_dec (x y : entry) : {x = y} + {x <> y}.
Proof. repeat decide equality. Qed.

Lemma nodup_map_filter {A B} (f : A -> B) (g : A -> bool) l : NoDup (map f l) -> NoDup (map f (filter g l)).
Proof.
  induction l as [|x l IH]; cbn; intros M; [constructor|]. apply NoDup_cons_iff in M. destruct M as [M1 M2].
  destruct (g x); [|auto]. cbn. constructor; [|auto]. intros Q. apply M1. apply in_map_iff in Q.
  destruct Q as (s & <- & Hs). apply filter_In in Hs. apply in_map, Hs.
Qed.
Lemma apart_nodup ez l : 0 < ez -> ForallOrdPairs (fun x y => ~ too_close ez x y) l -> NoDup l.
Proof.
  intros Hez. induction 1 as [|x l F Q IHQ]; constructor; [|exact IHQ].
  intros Hx. rewrite Forall_forall in F. apply (F x Hx). split; lia.
Qed.
Section Stable.
  Variables (k k' ez i : nat) (t t2 : list entry).
  Hypotheses (Hez : 0 < ez) (Hk : k' <= k) (N : Forall num t) (S1 : lt_sorted t) (N2 : Forall num t2) (S2 : lt_sorted t2).
  Let c := chosen k ez [i] t.
  Let c2 := chosen k' ez [i] t2.
  Hypothesis A : forall e, In e t2 -> exists e0, In e0 t /\ ed e0 = ed e /\ snd e0 = snd e /\ (ef e = false -> ef e0 = false \/ In e0 c).
  Hypothesis B : forall s, In s c -> exists s', In s' t2 /\ ed s' = ed s /\ snd s' = snd s /\ ef s' = false.

  Let before2 (e : entry) := [i] ++ map snd (filter (fun x => entry_lt x e) c2).

  Lemma numt e : In e t -> num e. Proof. intros H. rewrite Forall_forall in N. auto. Qed.
  Lemma numt2 e : In e t2 -> num e. Proof. intros H. rewrite Forall_forall in N2. auto. Qed.
  Lemma c_in e : In e c -> In e t. Proof. apply chosen_in. Qed.
  Lemma c2_in e : In e c2 -> In e t2. Proof. apply chosen_in. Qed.
  Lemma c_apart : ForallOrdPairs (fun x y => ~ too_close ez x y) ([i] ++ map snd c).
  Proof. apply chosen_apart. repeat constructor. Qed.
  Lemma c_apart_ids s s1 : In s c -> In s1 c -> too_close ez (snd s) (snd s1) -> snd s = snd s1.
  Proof.
    intros Hs Hs1 T. apply In_nth_error in Hs, Hs1. destruct Hs as (p & Ep), Hs1 as (q & Eq).
    assert (Ep' : nth_error ([i] ++ map snd c) (S p) = Some (snd s)) by (cbn; apply map_nth_error, Ep).
    assert (Eq' : nth_error ([i] ++ map snd c) (S q) = Some (snd s1)) by (cbn; apply map_nth_error, Eq).
    destruct (Nat.lt_trichotomy p q) as [L|[->|L]]; [exfalso|congruence|exfalso].
    - exact (pairs_nth _ _ c_apart (S p) (S q) _ _ ltac:(lia) Ep' Eq' T).
    - exact (pairs_nth _ _ c_apart (S q) (S p) _ _ ltac:(lia) Eq' Ep' (too_close_sym _ _ _ T)).
  Qed.
  Lemma c_apart_i s : In s c -> ~ too_close ez (snd s) i.
  Proof.
    intros Hs T. apply In_nth_error in Hs. destruct Hs as (p & Ep).
    apply (pairs_nth _ _ c_apart 0 (S p) i (snd s) ltac:(lia)); [reflexivity|cbn; apply map_nth_error, Ep|apply too_close_sym, T].
  Qed.
  Lemma before2_mono b e : In b t2 -> In e t2 -> entry_lt b e = true -> incl (before2 b) (before2 e) /\ length (before2 b) <= length (before2 e).
  Proof.
    intros Hb He L.
    assert (I : forall x, In x c2 -> entry_lt x b = true -> entry_lt x e = true).
    { intros x Hx Lx. apply (entry_lt_trans x b e); auto using numt2, c2_in. }
    unfold before2. split.
    - intros x [<-|Hx]; [left; reflexivity|right]. apply in_map_iff in Hx. destruct Hx as (y & <- & Hy). apply filter_In in Hy.
      apply in_map, filter_In. split; [apply Hy|]. apply I; apply Hy.
    - cbn. rewrite !map_length. apply le_n_S. clear - I. induction c2 as [|x l IH]; cbn; [lia|].
      assert (IH' := IH (fun x H => I x (or_intror H))).
      destruct (entry_lt x b) eqn:E; [rewrite (I x (or_introl eq_refl) E); cbn; lia|]. destruct (entry_lt x e); cbn; lia.
  Qed.
  (** what comes before a chosen entry was chosen, or overlaps something chosen earlier *)
  Lemma before_chosen b e : In b t2 -> In e c2 -> entry_lt b e = true ->
    In b c2 \/ exists j, In j (before2 b) /\ too_close ez (snd b) j.
  Proof.
    intros Hb He L. destruct (before2_mono b e Hb (c2_in e He) L) as (_ & Le).
    apply (chosen_iff k' ez t2 e [i] N2 S2 (c2_in e He)) in He. cbn zeta in He. fold c2 in He.
    change ([i] ++ map snd (filter (fun c : entry => entry_lt c e) c2)) with (before2 e) in He. destruct He as [Lk _].
    pose proof (chosen_iff k' ez t2 b [i] N2 S2 Hb) as X. cbn zeta in X. fold c2 in X.
    change ([i] ++ map snd (filter (fun c : entry => entry_lt c b) c2)) with (before2 b) in X.
    destruct (overlaps_any (snd b) (before2 b) ez) eqn:Ov.
    - right. apply overlaps_any_spec in Ov. exact Ov.
    - left. apply X. split; [lia|reflexivity].
  Qed.
  Lemma chosen_free e j : In e c2 -> In j (before2 e) -> ~ too_close ez (snd e) j.
  Proof.
    intros He Hj T. apply (chosen_iff k' ez t2 e [i] N2 S2 (c2_in e He)) in He. cbn zeta in He. fold c2 in He.
    change ([i] ++ map snd (filter (fun c : entry => entry_lt c e) c2)) with (before2 e) in He. destruct He as [_ Ov].
    rewrite overlaps_any_false in Ov. exact (Ov j Hj T).
  Qed.
  Definition from_c (e : entry) : Prop := exists s, In s c /\ ed s = ed e /\ snd s = snd e.

  Lemma stable_pos : forall p e, nth_error t2 p = Some e -> In e c2 -> from_c e /\ ef e = false.
  Proof.
    induction p as [p IH] using lt_wf_ind. intros e Ep He.
    assert (Ht : In e t2) by (eapply nth_error_In; eauto). pose proof (numt2 e Ht) as Ne.
    assert (IH' : forall x, In x c2 -> entry_lt x e = true -> from_c x).
    { intros x Hx L. destruct (In_nth_error _ _ (c2_in x Hx)) as (q & Eq).
      apply (IH q (lt_sorted_pos t2 S2 N2 q p x e Eq Ep L) x Eq Hx). }
    destruct (A e Ht) as (e0 & He0 & D0 & J0 & F0).
    (* a chosen entry of the first selection that was before e0 *)
    assert (X : forall s s', In s c -> In s' t2 -> ed s' = ed s -> snd s' = snd s -> entry_lt s' e = true -> In (snd s) (before2 e)).
    { intros s s' Hs Hs' D J L. destruct (before_chosen s' e Hs' He L) as [Q|(j & Hj & T)].
      - right. apply in_map_iff. exists s'. split; [exact J|]. apply filter_In. auto.
      - pose proof (proj1 (before2_mono s' e Hs' Ht L)) as Inc. destruct Hj as [<-|Hj].
        + exfalso. rewrite J in T. exact (c_apart_i s Hs T).
        + apply in_map_iff in Hj. destruct Hj as (c' & <- & Hc'). apply filter_In in Hc'. destruct Hc' as [Hc' Lc'].
          assert (Lce : entry_lt c' e = true) by (apply (entry_lt_trans c' s' e); auto using numt2, c2_in).
          destruct (IH' c' Hc' Lce) as (s1 & Hs1 & D1 & J1). rewrite J, <- J1 in T.
          rewrite (c_apart_ids s s1 Hs Hs1 T), J1. right. apply in_map, filter_In. auto. }
    assert (Old : forall s, In s c -> entry_lt s e0 = true -> ~ In e0 c -> In (snd s) (before2 e)).
    { intros s Hs L Nc. destruct (B s Hs) as (s' & Hs' & D & J & F). apply (X s s' Hs Hs' D J).
      apply entry_lt_spec; [apply numt2, Hs'|exact Ne|].
      apply entry_lt_spec in L; [|apply numt, c_in, Hs|apply numt, He0].
      destruct L as [L|[L [[L1 L2]|[L1 L2]]]].
      - left. rewrite D, <- D0. exact L.
      - right. split; [congruence|]. left. split; [exact F|]. destruct (ef e) eqn:Q; [reflexivity|].
        exfalso. destruct (F0 eq_refl) as [Z|Z]; [congruence|exact (Nc Z)].
      - right. split; [congruence|]. rewrite F, J, <- J0. destruct (ef e) eqn:Q; [left; auto|right; auto]. }
    destruct (in_dec (fun x y => entry_dec x y) e0 c) as [C|NC]; [|exfalso].
    - split; [exists e0; auto|]. destruct (ef e) eqn:Q; [exfalso|reflexivity].
      destruct (B e0 C) as (s' & Hs' & D & J & F).
      assert (L : entry_lt s' e = true).
      { apply entry_lt_spec; [apply numt2, Hs'|exact Ne|]. right. split; [congruence|]. left. auto. }
      apply (chosen_free e (snd e0) He (X e0 s' C Hs' D J L)). rewrite J0. split; lia.
    - pose proof (chosen_iff k ez t e0 [i] N S1 He0) as Y. cbn zeta in Y. fold c in Y.
      set (before := [i] ++ map snd (filter (fun x => entry_lt x e0) c)) in *.
      destruct (overlaps_any (snd e0) before ez) eqn:Ov.
      + apply overlaps_any_spec in Ov. destruct Ov as (j & Hj & T). rewrite J0 in T.
        apply (chosen_free e j He); [|exact T]. destruct Hj as [<-|Hj]; [left; reflexivity|].
        apply in_map_iff in Hj. destruct Hj as (s & <- & Hs). apply filter_In in Hs. apply Old; try apply Hs. exact NC.
      + assert (Full : k <= length before).
        { destruct (Nat.lt_ge_cases (length before) k) as [L|L]; [|exact L]. exfalso. apply NC, Y. auto. }
        assert (Inc : incl before (before2 e)).
        { intros j [<-|Hj]; [left; reflexivity|]. apply in_map_iff in Hj. destruct Hj as (s & <- & Hs). apply filter_In in Hs.
          apply Old; try apply Hs. exact NC. }
        assert (ND : NoDup before).
        { assert (ND0 : NoDup ([i] ++ map snd c)).
          { apply (apart_nodup ez); [exact Hez|exact c_apart]. }
          unfold before. cbn in ND0 |- *. apply NoDup_cons_iff in ND0. destruct ND0 as [M1 M2]. constructor.
          - intros Q. apply M1. apply in_map_iff in Q. destruct Q as (s & Es & Hs). apply filter_In in Hs. apply in_map_iff. exists s. split; [exact Es|apply Hs].
          - apply nodup_map_filter, M2. }
        pose proof (NoDup_incl_length ND Inc) as Ll.
        apply (chosen_iff k' ez t2 e [i] N2 S2 Ht) in He. cbn zeta in He. fold c2 in He.
        change ([i] ++ map snd (filter (fun c : entry => entry_lt c e) c2)) with (before2 e) in He. lia.
  Qed.
End Stable.

Lemma stable_selection k k' ez i t t2 : 0 < ez -> k' <= k -> Forall num t -> lt_sorted t -> Forall num t2 -> lt_sorted t2 ->
  (forall e, In e t2 -> exists e0, In e0 t /\ ed e0 = ed e /\ snd e0 = snd e /\ (ef e = false -> ef e0 = false \/ In e0 (chosen k ez [i] t))) ->
  (forall s, In s (chosen k ez [i] t) -> exists s', In s' t2 /\ ed s' = ed s /\ snd s' = snd s /\ ef s' = false) ->
  existsb (fun e => ef e) (chosen k' ez [i] t2) = false.
Proof.
  intros Hez Hk N S1 N2 S2 A B. destruct (existsb _ _) eqn:E; [exfalso|reflexivity].
  apply existsb_exists in E. destruct E as (e & He & Fe).
  destruct (In_nth_error _ _ (chosen_in _ _ _ _ _ He)) as (p & Ep).
  destruct (stable_pos k k' ez i t t2 Hez Hk N S1 N2 S2 A B p e Ep He) as [_ F]. congruence.
Qed.

Definition no_reads (ops : list g_op) : Prop := forall k, ~ In (GRead k) ops.
Lemma quiet_run n ez ops mid : forall g0 g out, graph_inv n ez ops g0 -> well_formed n (ops ++ mid) -> no_reads mid ->
  g_run g0 mid = Ret (g, out) -> out = [] /\ graph_inv n ez (ops ++ mid) g /\
  forall i, i < n -> forall nn, nth_error (g_nn g0) i = Some nn ->
    exists extra, nth_error (g_nn g) i = Some (nn ++ extra) /\ (forall e, In e extra -> In e (edges mid i) /\ ef e = true).
Proof.
  revert ops. induction mid as [|op mid IH]; intros ops g0 g out V W Q E.
  - apply Ret_inj in E. injection E as <- <-. rewrite app_nil_r. split; [reflexivity|]. split; [exact V|].
    intros i Li nn En. exists []. rewrite app_nil_r. split; [exact En|intros ? []].
  - cbn [g_run] in E. destruct (g_step g0 op) as [[g1 o1]| |] eqn:E1; try discriminate. cbn [bind] in E.
    destruct (g_run g1 mid) as [[g2 o2]| |] eqn:E2; try discriminate. cbn [bind] in E. apply Ret_inj in E. injection E as <- <-.
    replace (ops ++ op :: mid) with ((ops ++ [op]) ++ mid) in * by (rewrite <- app_assoc; reflexivity).
    pose proof (graph_step n ez ops g0 op g1 o1 V (well_formed_app _ _ _ W) E1) as V1.
    destruct (IH (ops ++ [op]) g1 g2 o2 V1 W (fun k H => Q k (or_intror H)) E2) as (-> & V2 & P2).
    pose proof V as (Ez & Ln & Lu & H).
    destruct op as [d a b| |k]; cbn [g_step] in E1.
    + destruct (W d a b ltac:(apply in_or_app; left; apply in_or_app; right; left; reflexivity)) as (La & Lb & Nd & Sg).
      destruct (g_insert_spec g0 d a b n Ln Lu La Lb) as (g' & E' & _ & _ & _ & P). rewrite E' in E1. cbn [bind] in E1.
      apply Ret_inj in E1. injection E1 as <- <-. split; [reflexivity|]. split; [exact V2|].
      intros i Li nn En. destruct (P i Li) as (_ & Pn). destruct (P2 i Li _ (Pn nn En)) as (ex & Ex & Hex).
      rewrite <- app_assoc in Ex. eexists. split; [exact Ex|]. cbn [edges].
      intros e He. apply in_app_or in He. rewrite !in_app_iff. destruct He as [He|He]; [|specialize (Hex e He); tauto].
      apply in_app_or in He. split; [tauto|].
      assert (e = (d, b) \/ e = (d, a)) as [->| ->].
      { destruct He as [He|He]; [destruct (a =? i)|destruct (b =? i)]; cbn in He; try tauto; destruct He as [<-|[]]; auto. }
      * cbn. unfold dwf_flag. rewrite Sg. reflexivity.
      * cbn. unfold dwf_flag. rewrite Sg. reflexivity.
    + apply Ret_inj in E1. injection E1 as <- <-. split; [reflexivity|]. split; [exact V2|].
      intros i Li nn En. exact (P2 i Li nn En).
    + exfalso. apply (Q k). left. reflexivity.
Qed.

Lemma reinsert_silent n ez ops k mid k' g0 new0 g1 out1 g2 new2 i : 0 < ez -> k' <= k ->
  graph_inv n ez ops g0 -> well_formed n (ops ++ GRead k :: mid) -> same_distances (ops ++ GRead k :: mid) -> no_reads mid ->
  i < n -> touched ops i = true -> (forall d j, In (d, j) (edges mid i) -> In (d, j) (edges ops i)) ->
  g_neighborhoods g0 k = Ret (g1, new0) ->
  g_run g1 mid = Ret (g2, out1) ->
  forall g3, g_neighborhoods g2 k' = Ret (g3, new2) ->
  forall ind ds, In (ind, ds) new2 -> nth_error ind 0 <> Some i.
Proof.
  intros Hez Hk V W Sd Q Li Ti Hm E0 E1 g3 E2 ind ds Hin H0.
  destruct (read_reports n ez ops g0 k g1 new0 V E0 i Li) as (nn & nn1 & o & En & En1 & R & _).
  unfold read_node in R. rewrite Ti in R. destruct R as (t & T & -> & _).
  pose proof V as (_ & _ & _ & HV). destruct (HV i Li) as (_ & nn0 & En0 & V0). assert (nn0 = nn) by congruence. subst nn0.
  assert (V1 : graph_inv n ez (ops ++ [GRead k]) g1).
  { apply (graph_step n ez ops g0 (GRead k) g1 new0 V); [|exact E0].
    replace (ops ++ GRead k :: mid) with ((ops ++ [GRead k]) ++ mid) in W by (rewrite <- app_assoc; reflexivity).
    eapply well_formed_app; eauto. }
  replace (ops ++ GRead k :: mid) with ((ops ++ [GRead k]) ++ mid) in * by (rewrite <- app_assoc; reflexivity).
  destruct (quiet_run n ez _ mid g1 g2 out1 V1 W Q E1) as (_ & V2 & P).
  destruct (P i Li _ En1) as (ex & En2 & Hex).
  destruct (read_reports n ez _ g2 k' g3 new2 V2 E2 i Li) as (nn2 & nn3 & o2 & En2' & _ & R2 & Rep).
  rewrite En2 in En2'. injection En2' as <-.
  assert (O2 : o2 = Some (ind, ds)) by (apply Rep; auto).
  unfold read_node in R2. destruct (touched ((ops ++ [GRead k]) ++ mid) i); [|destruct R2; congruence]. destruct R2 as (t2 & T2 & _ & Eo).
  pose proof V2 as (_ & _ & _ & HV2). destruct (HV2 i Li) as (_ & nn4 & En4 & Vn). rewrite En2 in En4. injection En4 as <-.
  assert (Ceq : edges ((ops ++ [GRead k]) ++ mid) i = edges ops i ++ edges mid i).
  { rewrite !edges_app. cbn [edges]. rewrite app_nil_r. reflexivity. }
  assert (Cs : consistent (edges ((ops ++ [GRead k]) ++ mid) i)) by (intros d d' j A B; exact (Sd i d d' j A B)).
  pose proof (tidy_node _ _ _ V0 T) as Vt. pose proof (tidy_node _ _ _ Vn T2) as Vt2.
  pose proof T as [Ta Tb Tc]. pose proof T2 as [Ta2 Tb2 Tc2].
  rewrite (stable_selection k k' ez i t t2 Hez Hk (proj1 Vt) Tb (proj1 Vt2) Tb2) in Eo; [congruence| |].
  - intros e He. pose proof (Ta2 e He) as He'. apply in_app_or in He'. destruct He' as [He'|He'].
    + apply marked_in in He'. destruct He' as (e0 & He0 & J & [->|[C D]]); exists e0; (split; [exact He0|]).
      * split; [reflexivity|]. split; [reflexivity|]. auto.
      * split; [rewrite D; symmetry; apply set_flag_distance|]. split; [auto|]. auto.
    + destruct (Hex e He') as [He1 Fe].
      assert (S1 : In (ed e, snd e) (edges ops i)).
      { pose proof (proj1 (proj2 Vt2) e He) as S1. rewrite Ceq in S1. apply in_app_or in S1.
        destruct S1 as [S1|S1]; [exact S1|apply Hm, S1]. }
      destruct (proj2 (proj2 Vt) _ _ S1) as (e0 & He0 & J0 & _). exists e0. split; [exact He0|].
      split; [|split; [exact J0|congruence]].
      apply (Cs (ed e0) (ed e) (snd e)); rewrite Ceq; apply in_or_app; left; [|exact S1].
      rewrite <- J0. apply Vt, He0.
  - intros s Hs.
    assert (Hm1 : In (dwf_set_flag (fst s) false, snd s) (marked k ez [i] t ++ ex)) by (apply in_or_app; left; apply marked_chosen, Hs).
    assert (Ns : is_nan (fst s) = false).
    { pose proof (proj1 Vt) as Nt. rewrite Forall_forall in Nt. apply Nt. eapply chosen_in; eauto. }
    destruct (tidy_old _ _ _ _ Vn Cs T2 Hm1 (set_flag_flag _ _ Ns)) as (w & Hw & Fw & D & J).
    exists w. split; [exact Hw|]. cbn [fst snd] in *. rewrite set_flag_distance in D. auto.
Qed.

(** a report contains something not reported before *)
Lemma report_new n ez ops k g out g' new i ind ds : 0 < ez -> graph_inv n ez ops g -> graph_flags n g out ->
  g_neighborhoods g k = Ret (g', new) -> i < n -> In (ind, ds) new -> nth_error ind 0 = Some i ->
  touched ops i = true /\ nearest_neighbourhood ez k i (edges ops i) ind ds /\
  exists p d j, nth_error ind (S p) = Some j /\ nth_error ds (S p) = Some d /\ ~ reported_for i out d j.
Proof.
  intros Hez V F E Li Hin H0.
  destruct (read_reports n ez ops g k g' new V E i Li) as (nn & nn1 & o & En & En1 & R & Rep).
  assert (O : o = Some (ind, ds)) by (apply Rep; auto).
  pose proof V as (_ & _ & _ & HV). destruct (HV i Li) as (_ & nn0 & En0 & V0). assert (nn0 = nn) by congruence. subst nn0.
  unfold read_node in R. destruct (touched ops i); [|destruct R; congruence]. destruct R as (t & T & _ & Eo).
  split; [reflexivity|].
  pose proof (tidy_flags _ _ _ _ V0 T (F i nn Li En)) as Ft. pose proof (tidy_node _ _ _ V0 T) as Vt. pose proof T as [Ta Tb Tc].
  destruct (existsb _ _) eqn:X; [|congruence]. rewrite O in Eo. injection Eo as -> ->.
  split; [apply node_valid; assumption|].
  apply existsb_exists in X. destruct X as (e & He & Fe).
  destruct (proj2 (report_pairs i (chosen k ez [i] t) (ed e) (snd e))) as (p & A & B); [eauto|].
  exists p, (ed e), (snd e). split; [exact A|]. split; [exact B|]. intros Q.
  destruct Ft as (_ & F2). destruct (F2 _ _ Q) as (w & Hw & Jw & Dw).
  destruct Vt as (N & _). pose proof N as N'. rewrite Forall_forall in N'.
  pose proof (chosen_in _ _ _ _ _ He) as Het.
  assert (L : entry_lt w e = true).
  { apply entry_lt_spec; [apply N', Hw|apply N', Het|]. destruct Dw as [[Fw Dw]|Dw]; [right; split; [exact Dw|left; auto]|left; exact Dw]. }
  apply (chosen_iff k ez t e [i] N Tb Het) in He. destruct He as [Le Oe].
  set (c := chosen k ez [i] t) in *.
  assert (Sub : forall x, In x (filter (fun c0 => entry_lt c0 w) c) -> In x (filter (fun c0 => entry_lt c0 e) c)).
  { intros x Hx. apply filter_In in Hx. destruct Hx as [Hx Lx]. apply filter_In. split; [exact Hx|].
    apply (entry_lt_trans x w e); auto. apply N'. eapply chosen_in; eauto. }
  assert (Hc : In w c).
  { apply (chosen_iff k ez t w [i] N Tb Hw). cbn zeta. fold c. split.
    - rewrite app_length, map_length in *. apply Nat.le_lt_trans with (2 := Le). apply Nat.add_le_mono_l.
      clear - L Sub N' Hw Het. assert (Gen : forall l, (forall x, In x l -> entry_lt x w = true -> entry_lt x e = true) ->
        length (filter (fun c0 => entry_lt c0 w) l) <= length (filter (fun c0 => entry_lt c0 e) l)).
      { induction l as [|x l IH]; intros H; cbn; [lia|]. specialize (IH (fun y Hy => H y (or_intror Hy))).
        pose proof (H x (or_introl eq_refl)) as Hx. destruct (entry_lt x w); [rewrite Hx by reflexivity; cbn; lia|].
        destruct (entry_lt x e); cbn; lia. }
      apply Gen. intros x Hx Lx. specialize (Sub x). rewrite !filter_In in Sub. apply Sub. auto.
    - rewrite Jw. destruct (overlaps_any (snd e) ([i] ++ map snd (filter (fun c0 => entry_lt c0 w) c)) ez) eqn:O2; [|reflexivity].
      exfalso. apply overlaps_any_spec in O2. destruct O2 as (y & Hy & Cy).
      assert (overlaps_any (snd e) ([i] ++ map snd (filter (fun c0 => entry_lt c0 e) c)) ez = true); [|congruence].
      apply overlaps_any_spec. exists y. split; [|exact Cy]. apply in_app_or in Hy. apply in_or_app. destruct Hy as [Hy|Hy]; [auto|right].
      apply in_map_iff in Hy. destruct Hy as (z & Ez & Hz). apply in_map_iff. exists z. split; [exact Ez|apply Sub, Hz]. }
  assert (overlaps_any (snd e) ([i] ++ map snd (filter (fun c0 => entry_lt c0 e) c)) ez = true); [|congruence].
  apply overlaps_any_spec. exists (snd e). split; [|unfold too_close; lia].
  apply in_or_app. right. apply in_map_iff. exists w. split; [exact Jw|]. apply filter_In. auto.
Qed.

(** a node with new edges that is not reported has a neighbourhood whose members were reported *)
Lemma silent_known n ez ops k g out g' new i : graph_inv n ez ops g -> graph_flags n g out ->
  g_neighborhoods g k = Ret (g', new) -> i < n -> touched ops i = true ->
  (forall ind ds, In (ind, ds) new -> nth_error ind 0 <> Some i) ->
  exists ind ds, nearest_neighbourhood ez k i (edges ops i) ind ds /\
    forall p d j, nth_error ind (S p) = Some j -> nth_error ds (S p) = Some d -> reported_for i out d j.
Proof.
  intros V F E Li Ti Hno.
  destruct (read_reports n ez ops g k g' new V E i Li) as (nn & nn1 & o & En & En1 & R & Rep).
  pose proof V as (_ & _ & _ & HV). destruct (HV i Li) as (_ & nn0 & En0 & V0). assert (nn0 = nn) by congruence. subst nn0.
  unfold read_node in R. rewrite Ti in R. destruct R as (t & T & _ & Eo).
  pose proof (tidy_flags _ _ _ _ V0 T (F i nn Li En)) as Ft. pose proof (tidy_node _ _ _ V0 T) as Vt. pose proof T as [Ta Tb Tc].
  destruct (existsb _ _) eqn:X; [exfalso; destruct (proj2 (Rep _ _) Eo) as [A B]; exact (Hno _ _ A B)|].
  eexists. eexists. split; [apply node_valid; [exact Vt|exact Tb]|].
  intros p d j A B. destruct (proj1 (report_pairs i (chosen k ez [i] t) d j)) as (e & He & <- & <-); [eauto|].
  apply Ft; [eapply chosen_in; eauto|]. destruct (ef e) eqn:Q; [|reflexivity]. exfalso.
  assert (existsb (fun e => ef e) (chosen k ez [i] t) = true); [|congruence]. apply existsb_exists. eauto.
Qed.
