From Coq Require Import Floats.SpecFloat Permutation.
From Verif Require Import Base F64 F64Arith HashValue HashSpec HashProofs Overlaps OverlapsSpec OverlapsProofs Enumerator EnumSpec Moves MovesProofs HistoryProofs
  Profile ProfileProofs Brute BruteSpec BruteProofs TopK TopKSpec TopKProofs Graph GraphSpec GraphProofs GraphFlagProofs
  Iterator IteratorSpec IteratorProofs IteratorLoop IteratorCalls IteratorSteps GuaranteeSpec GuaranteeProofs.

(** ** Edges *)
Lemma edges_back ops i j d : In (d, j) (edges ops i) -> In (d, i) (edges ops j).
Proof.
  induction ops as [|[d' a b| |k] ops IH]; cbn [edges]; intros H; [destruct H| |auto|auto].
  rewrite !in_app_iff in *. destruct H as [H|[H|H]].
  - destruct (Nat.eqb_spec a i) as [->|]; [|destruct H]. destruct H as [H|[]]. injection H as -> ->. right. left. rewrite Nat.eqb_refl. left. reflexivity.
  - destruct (Nat.eqb_spec b i) as [->|]; [|destruct H]. destruct H as [H|[]]. injection H as -> ->. left. rewrite Nat.eqb_refl. left. reflexivity.
  - auto.
Qed.
Lemma edges_insert ops d a b : In (GInsert d a b) ops -> In (d, b) (edges ops a).
Proof.
  induction ops as [|[d' x y| |k] ops IH]; cbn [edges]; intros H; [destruct H| | |].
  - rewrite !in_app_iff. destruct H as [H|H]; [injection H as -> -> ->; left; rewrite Nat.eqb_refl; left; reflexivity|auto].
  - destruct H; [discriminate|auto].
  - destruct H; [discriminate|auto].
Qed.
Lemma edge_facts p d0 T ops i d j : coherent p d0 T -> ops_ok p ops -> In (d, j) (edges ops i) ->
  d = T i j /\ is_finite d = true /\ indexed p i /\ indexed p j /\ ~ too_close (p_ez p) i j.
Proof.
  intros Ex Ho H. destruct (edges_in _ _ _ _ H) as (a & b & Hin & [[-> ->]|[-> ->]]); destruct (Ho _ _ _ Hin) as (A & B & L & C & F & _ & t & E).
  - pose proof (co_some p _ T Ex _ _ _ _ L A B E). auto.
  - pose proof (co_some p _ T Ex _ _ _ _ L A B E) as ->. rewrite (co_sym p _ T Ex). split; [reflexivity|]. split; [rewrite (co_sym p _ T Ex); exact F|].
    split; [exact B|]. split; [exact A|]. intros Tc. apply C, too_close_sym, Tc.
Qed.
Lemma untouched ops new i : (forall op, In op new -> exists d a b, op = GInsert d a b) -> touched (ops ++ [GReset] ++ new) i = false -> edges new i = [].
Proof.
  intros Hn. unfold touched. rewrite touched_since_app. cbn [app touched_since].
  assert (M : forall l, (forall op, In op l -> exists d a b, op = GInsert d a b) -> touched_since true l i = true).
  { induction l as [|op l IH]; intros H; [reflexivity|]. destruct (H op (or_introl eq_refl)) as (d & a & b & ->). cbn [touched_since orb].
    apply IH. intros; apply H; right; assumption. }
  induction new as [|op l IH]; [reflexivity|]. destruct (Hn op (or_introl eq_refl)) as (d & a & b & ->). cbn [touched_since edges orb].
  destruct ((a =? i) || (b =? i)) eqn:E.
  - rewrite M by (intros; apply Hn; right; assumption). discriminate.
  - apply orb_false_elim in E. destruct E as [-> ->]. cbn [app]. apply IH. intros; apply Hn; right; assumption.
Qed.

(** ** Greedy neighbourhoods and reports *)
Definition tail_in (T : nat -> nat -> f64) (es : list (f64 * nat)) (i : nat) (l : list nat) : Prop :=
  forall q x, nth_error l (S q) = Some x -> In (T i x, x) es.

Lemma greedy_is_nearest p T es k K i l ids ds : 0 < p_ez p -> no_ties_by p T i ->
  (forall d j, In (d, j) es -> d = T i j /\ indexed p j) ->
  greedy_neighbourhood (T i) (indexed p) (p_ez p) k i l -> length l = k -> k <= K -> tail_in T es i l ->
  nearest_neighbourhood (p_ez p) K i es ids ds -> firstn k ids = l /\ k <= length ids.
Proof.
  intros Hez Nt He (G0 & G1 & _ & _) Lk LK Tl (Nl & N0 & N1 & _ & Na & Ns & Nm & Nc).
  assert (P : forall q, q < k -> q < length ids /\ firstn (S q) ids = firstn (S q) l).
  { induction q as [|q IH]; intros Lq.
    - destruct ids as [|i0 ids]; [discriminate|]. destruct l as [|l0 l]; [discriminate|]. cbn in N0, G0 |- *. split; [lia|congruence].
    - destruct (IH ltac:(lia)) as [L1 E1].
      destruct (nth_error l (S q)) as [x|] eqn:Ex; [|apply nth_error_None in Ex; lia].
      destruct (G1 q x Ex) as (Cx & Ax & Bx). pose proof (Tl q x Ex) as Hx.
      assert (Y : exists y dy, nth_error ids (S q) = Some y /\ nth_error ds (S q) = Some dy /\ fle dy (T i x) = true).
      { assert (Get : S q < length ids -> exists y dy, nth_error ids (S q) = Some y /\ nth_error ds (S q) = Some dy).
        { intros L. destruct (nth_error ids (S q)) as [y|] eqn:Ey; [|apply nth_error_None in Ey; lia].
          destruct (nth_error ds (S q)) as [dy|] eqn:Ed; [|apply nth_error_None in Ed; lia]. eauto. }
        destruct (Nc _ _ Hx) as [(r & j' & d' & Ej & Ed & Le & Cl)|(Lf & All)].
        - assert (Lr : S q <= r).
          { destruct (Nat.le_gt_cases (S q) r) as [|L]; [assumption|exfalso].
            assert (Hj : In j' (firstn (S q) l)).
            { rewrite <- E1. apply (nth_error_In _ r). rewrite nth_error_firstn by lia. exact Ej. }
            apply (Ax j' Hj). destruct Cl as [->|Cl]; [unfold too_close; lia|apply too_close_sym, Cl]. }
          assert (r < length ids) by (apply nth_error_Some; congruence).
          destruct (Get ltac:(lia)) as (y & dy & Ey & Edy). exists y, dy. split; [exact Ey|]. split; [exact Edy|].
          destruct (Nat.eq_dec r (S q)) as [->|]; [congruence|]. eapply fle_trans; [apply (Ns (S q) r dy d'); auto; lia|exact Le].
        - destruct (Get ltac:(lia)) as (y & dy & Ey & Edy). exists y, dy. eauto. }
      destruct Y as (y & dy & Ey & Edy & Ly).
      assert (Lq2 : S q < length ids) by (apply nth_error_Some; congruence).
      destruct (He _ _ (Nm q y dy Ey Edy)) as [-> Cy].
      assert (x = y).
      { assert (I0 : In i (firstn (S q) l)) by (apply (nth_error_In _ 0); rewrite nth_error_firstn by lia; exact G0).
        apply Nt; [exact Cx|exact Cy|intros Tz; apply (Ax i I0), too_close_sym, Tz|exact (Na 0 (S q) i y ltac:(lia) N0 Ey)|]. apply fle_antisym; [|exact Ly]. apply Bx; [exact Cy|].
        intros z Hz Tz. rewrite <- E1 in Hz. apply In_nth_error in Hz. destruct Hz as (r & Hr).
        assert (Lr : r < S q).
        { assert (r < length (firstn (S q) ids)) by (apply nth_error_Some; congruence). rewrite firstn_length in *. lia. }
        rewrite nth_error_firstn in Hr by lia. apply (Na r (S q) z y Lr Hr Ey), too_close_sym, Tz. }
      subst y. split; [exact Lq2|].
      apply nth_error_ext. intros r. destruct (Nat.lt_ge_cases r (S (S q))) as [Lr|Lr].
      2:{ rewrite (proj2 (nth_error_None _ _)), (proj2 (nth_error_None _ _)); [reflexivity| |]; rewrite firstn_length; lia. }
      destruct (Nat.eq_dec r (S q)) as [->|]; [rewrite !nth_error_firstn by lia; congruence|].
      pose proof (f_equal (fun l => nth_error l r) E1) as E2. cbn beta in E2. rewrite !nth_error_firstn in E2 by lia.
      rewrite !nth_error_firstn by lia. exact E2. }
  destruct k as [|k]; [destruct l; [discriminate|discriminate]|].
  destruct (P k ltac:(lia)) as [L E]. split; [|lia]. rewrite E. apply firstn_all2. lia.
Qed.

(** what the reports have to do with the edges given so far *)
Record settled (p : problem) (T : nat -> nat -> f64) (ops : list g_op) (out : list (list nat * list f64)) : Prop := {
  st_drawn : forall ids ds i q d j, In (ids, ds) out -> nth_error ids 0 = Some i -> nth_error ids (S q) = Some j -> nth_error ds (S q) = Some d ->
    In (d, j) (edges ops i);
  st_close : forall i d j, In (d, j) (edges ops i) -> exists ids ds j1, In (ids, ds) out /\ nth_error ids 0 = Some i /\ nth_error ids 1 = Some j1 /\
    fle (T i j1) d = true /\ indexed p i /\ indexed p j1 /\ ~ too_close (p_ez p) i j1;
  st_greedy : forall i k l, no_ties_by p T i -> 2 <= k <= p_max_k p -> greedy_neighbourhood (T i) (indexed p) (p_ez p) k i l -> length l = k ->
    tail_in T (edges ops i) i l -> exists ids ds, In (ids, ds) out /\ firstn k ids = l /\ k <= length ids
}.

Lemma settled_read p d0 T ops out new g g1 g2 nbs : sound p -> coherent p d0 T -> 2 <= p_max_k p ->
  g_run (g_new (p_n p) (p_ez p)) ops = Ret (g, out) -> ops_ok p ops -> ops_ok p new -> (forall op, In op new -> exists d a b, op = GInsert d a b) ->
  g_run g ([GReset] ++ new) = Ret (g1, []) -> g_neighborhoods g1 (p_max_k p + 1) = Ret (g2, nbs) -> settled p T ops out ->
  let ops' := (ops ++ [GReset] ++ new) ++ [GRead (p_max_k p + 1)] in
  g_run (g_new (p_n p) (p_ez p)) ops' = Ret (g2, out ++ nbs) /\ ops_ok p ops' /\ settled p T ops' (out ++ nbs) /\
  (forall nb, In nb nbs -> rooted T nb).
Proof.
  intros Sd Ex Hk R Ho On Sn R1 Rd [S1 S2 S3] ops'. pose proof (sound_zone p Sd) as Hez.
  set (mid := ops ++ [GReset] ++ new) in *. set (Kk := p_max_k p + 1) in *.
  assert (Om : ops_ok p mid).
  { apply ops_ok_app; [exact Ho|]. apply ops_ok_app; [|exact On]. intros ? ? ? [H|[]]. discriminate. }
  assert (O' : ops_ok p ops') by (apply ops_ok_app; [exact Om|]; intros ? ? ? [H|[]]; discriminate).
  assert (Rm : g_run (g_new (p_n p) (p_ez p)) mid = Ret (g1, out)).
  { unfold mid. rewrite g_run_app, R. cbn [bind]. rewrite R1. cbn [bind]. rewrite app_nil_r. reflexivity. }
  assert (R' : g_run (g_new (p_n p) (p_ez p)) ops' = Ret (g2, out ++ nbs)).
  { unfold ops'. rewrite g_run_app, Rm. cbn [bind g_run g_step]. rewrite Rd. cbn [bind]. rewrite app_nil_r. reflexivity. }
  destruct (flags_run _ _ _ (ops_ok_wf p mid Om) _ _ Rm) as [V F].
  assert (Ee : forall i, edges ops' i = edges mid i) by (intros i; unfold ops'; rewrite edges_app; cbn [edges]; apply app_nil_r).
  assert (Em : forall i, edges mid i = edges ops i ++ edges new i) by (intros i; unfold mid; rewrite !edges_app; reflexivity).
  assert (NN : forall ids ds, In (ids, ds) nbs -> exists i, nth_error ids 0 = Some i /\ i < p_n p /\ nearest_neighbourhood (p_ez p) Kk i (edges mid i) ids ds).
  { intros ids ds Hin. destruct (g_read_spec _ _ _ _ Kk V) as (g' & r & Er & _ & _ & _ & Lr & P).
    rewrite Rd in Er. apply Ret_inj in Er. injection Er as _ En. subst nbs.
    pose proof Hin as Hi. apply nth_error_flat in Hi. destruct Hi as (i & nn' & Hi).
    assert (Li : i < p_n p) by (rewrite <- Lr; apply nth_error_Some; congruence).
    assert (H0 : nth_error ids 0 = Some i).
    { destruct (P i Li) as (nn & nn1 & o & _ & _ & Hr & Rn). rewrite Hi in Hr. injection Hr as <- <-.
      unfold read_node in Rn. destruct (touched mid i); [|destruct Rn; discriminate]. destruct Rn as (t & _ & _ & Eo).
      destruct (existsb _ _); [|discriminate]. injection Eo as -> _. reflexivity. }
    exists i. split; [exact H0|]. split; [exact Li|].
    destruct (report_new _ _ _ _ _ _ _ _ i ids ds Hez V F Rd Li Hin H0) as (_ & N & _). exact N. }
  assert (Fe : forall i d j, In (d, j) (edges mid i) -> d = T i j /\ is_finite d = true /\ indexed p i /\ indexed p j /\ ~ too_close (p_ez p) i j).
  { intros i d j H. exact (edge_facts p d0 T mid i d j Ex Om H). }
  (* every neighbourhood starts with something as close as any given edge *)
  assert (First : forall i ids ds d j, nearest_neighbourhood (p_ez p) Kk i (edges mid i) ids ds -> In (d, j) (edges mid i) ->
    exists j1 d1, nth_error ids 1 = Some j1 /\ nth_error ds 1 = Some d1 /\ fle d1 d = true).
  { intros i ids ds d j (Nl & N0 & N1 & _ & _ & Ns & _ & Nc) Hj.
    assert (Get : forall r, 1 <= r < length ids -> exists j1 d1, nth_error ids 1 = Some j1 /\ nth_error ds 1 = Some d1 /\
      (r = 1 \/ forall dr, nth_error ds r = Some dr -> fle d1 dr = true)).
    { intros r Lr. destruct (nth_error ids 1) as [j1|] eqn:E1; [|apply nth_error_None in E1; lia].
      destruct (nth_error ds 1) as [d1|] eqn:E2; [|apply nth_error_None in E2; lia]. exists j1, d1. split; [reflexivity|]. split; [reflexivity|].
      destruct (Nat.eq_dec r 1) as [|Nr]; [left; assumption|right]. intros dr Hr. apply (Ns 1 r); auto. lia. }
    destruct (Nc _ _ Hj) as [(r & j' & d' & Ej & Ed & Le & Cl)|(Lf & All)].
    - assert (Lr : r < length ids) by (apply nth_error_Some; congruence).
      destruct r as [|r].
      + exfalso. destruct (Fe _ _ _ Hj) as (_ & _ & _ & _ & Nc'). apply Nc'. rewrite N0 in Ej. injection Ej as <-.
        destruct Cl as [<-|Cl]; [unfold too_close; lia|exact Cl].
      + destruct (Get (S r) ltac:(lia)) as (j1 & d1 & A & B & C). exists j1, d1. split; [exact A|]. split; [exact B|].
        destruct C as [C|C]; [injection C as ->; congruence|]. eapply fle_trans; [apply C; exact Ed|exact Le].
    - destruct (Get 1 ltac:(lia)) as (j1 & d1 & A & B & _). exists j1, d1. eauto. }
  assert (Old : forall i d j, reported_for i out d j -> In (d, j) (edges ops i)).
  { intros i d j (ids & ds & q & Hin & A & B & C). eapply S1; eauto. }
  split; [exact R'|]. split; [exact O'|]. split; [split|].
  - intros ids ds i q d j Hin H0 Hj Hd. rewrite Ee. apply in_app_or in Hin. destruct Hin as [Hin|Hin].
    + rewrite Em. apply in_or_app. left. eapply S1; eauto.
    + destruct (NN ids ds Hin) as (i' & H0' & _ & (_ & _ & _ & _ & _ & _ & Nm & _)). assert (i' = i) by congruence. subst i'. eapply Nm; eauto.
  - intros i d j Hj. rewrite Ee in Hj.
    destruct (touched mid i) eqn:Tc.
    2:{ rewrite Em, (untouched ops new i Sn Tc), app_nil_r in Hj. destruct (S2 i d j Hj) as (ids & ds & j1 & A & B). exists ids, ds, j1. split; [apply in_or_app; auto|exact B]. }
    destruct (Fe _ _ _ Hj) as (_ & _ & [Li _] & _).
    destruct (existsb (fun nb : list nat * list f64 => match fst nb with x :: _ => x =? i | [] => false end) nbs) eqn:Eb.
    + apply existsb_exists in Eb. destruct Eb as ([ids ds] & Hin & Hi0). cbn [fst] in Hi0. destruct ids as [|x ids]; [discriminate|].
      apply Nat.eqb_eq in Hi0. subst x. destruct (NN _ _ Hin) as (i' & H0 & _ & N). cbn in H0. injection H0 as <-.
      destruct (First _ _ _ _ _ N Hj) as (j1 & d1 & A & B & C). exists (i :: ids), ds, j1. split; [apply in_or_app; auto|]. split; [reflexivity|]. split; [exact A|].
      destruct N as (_ & _ & _ & _ & _ & _ & Nm & _). destruct (Fe _ _ _ (Nm 0 j1 d1 A B)) as (<- & _ & Ii & Ij & Nc). split; [exact C|auto].
    + destruct (silent_known _ _ _ _ _ _ _ _ i V F Rd Li Tc) as (ids & ds & N & Rep).
      { intros ind ds' Hin H0. assert (existsb (fun nb : list nat * list f64 => match fst nb with x :: _ => x =? i | [] => false end) nbs = true); [|congruence].
        apply existsb_exists. exists (ind, ds'). split; [exact Hin|]. cbn [fst]. destruct ind as [|x ind]; [discriminate|]. cbn in H0. injection H0 as ->. apply Nat.eqb_refl. }
      destruct (First _ _ _ _ _ N Hj) as (j1 & d1 & A & B & C).
      pose proof (Old _ _ _ (Rep 0 d1 j1 A B)) as Hold. destruct (S2 i d1 j1 Hold) as (ids2 & ds2 & j2 & A2 & B2 & C2 & D2 & E2).
      exists ids2, ds2, j2. split; [apply in_or_app; auto|]. split; [exact B2|]. split; [exact C2|]. split; [eapply fle_trans; eauto|exact E2].
  - intros i k l Nt Hkk G Ll Tl. assert (Tl' : tail_in T (edges mid i) i l) by (intros q x Hx; rewrite <- Ee; eauto).
    assert (Fi : forall d j, In (d, j) (edges mid i) -> d = T i j /\ indexed p j).
    { intros d j H. destruct (Fe _ _ _ H) as (A & _ & _ & B & _). auto. }
    destruct (touched mid i) eqn:Tc.
    2:{ destruct (S3 i k l Nt Hkk G Ll) as (ids & ds & A & B).
        { intros q x Hx. specialize (Tl' q x Hx). rewrite Em, (untouched ops new i Sn Tc), app_nil_r in Tl'. exact Tl'. }
        exists ids, ds. split; [apply in_or_app; auto|exact B]. }
    assert (Li : i < p_n p).
    { destruct (nth_error l 1) as [x|] eqn:Ex1; [|apply nth_error_None in Ex1; lia]. destruct (Fe _ _ _ (Tl' 0 x Ex1)) as (_ & _ & [Li _] & _). exact Li. }
    destruct (existsb (fun nb : list nat * list f64 => match fst nb with x :: _ => x =? i | [] => false end) nbs) eqn:Eb.
    + apply existsb_exists in Eb. destruct Eb as ([ids ds] & Hin & Hi0). cbn [fst] in Hi0. destruct ids as [|x ids]; [discriminate|].
      apply Nat.eqb_eq in Hi0. subst x. destruct (NN _ _ Hin) as (i' & H0 & _ & N). cbn in H0. injection H0 as <-.
      exists (i :: ids), ds. split; [apply in_or_app; auto|].
      eapply greedy_is_nearest; [exact Hez|exact Nt|exact Fi|exact G|exact Ll| |exact Tl'|exact N]. unfold Kk. lia.
    + destruct (silent_known _ _ _ _ _ _ _ _ i V F Rd Li Tc) as (ids & ds & N & Rep).
      { intros ind ds' Hin H0. assert (existsb (fun nb : list nat * list f64 => match fst nb with x :: _ => x =? i | [] => false end) nbs = true); [|congruence].
        apply existsb_exists. exists (ind, ds'). split; [exact Hin|]. cbn [fst]. destruct ind as [|x ind]; [discriminate|]. cbn in H0. injection H0 as ->. apply Nat.eqb_refl. }
      destruct (greedy_is_nearest p T (edges mid i) k Kk i l ids ds Hez Nt Fi G Ll ltac:(unfold Kk; lia) Tl' N) as [El Lk].
      destruct (S3 i k l Nt Hkk G Ll) as (ids2 & ds2 & A2 & B2).
      { intros q x Hx. assert (Lq : S q < k) by (rewrite <- Ll; apply nth_error_Some; congruence).
        pose proof Hx as Hx'. rewrite <- El, nth_error_firstn in Hx' by lia.
        destruct N as (Nl & _ & _ & _ & _ & _ & Nm & _).
        destruct (nth_error ds (S q)) as [dx|] eqn:Ed; [|apply nth_error_None in Ed; lia].
        destruct (Fi _ _ (Nm q x dx Hx' Ed)) as [-> _]. apply Old. eapply Rep; eauto. }
      exists ids2, ds2. split; [apply in_or_app; auto|exact B2].
  - intros [ids ds] Hin. destruct (NN ids ds Hin) as (i & H0 & _ & (Nl & _ & _ & _ & _ & _ & Nm & _)). exists i. cbn [fst snd]. split; [exact H0|]. split; [congruence|].
    intros q j Hj. destruct (nth_error ds (S q)) as [d|] eqn:Ed.
    + destruct (Fe _ _ _ (Nm q j d Hj Ed)) as (-> & Fd & _). auto.
    + apply nth_error_None in Ed. assert (S q < length ids) by (apply nth_error_Some; congruence). lia.
Qed.

(** ** What the queues know about the pairs that met *)
Definition known (p : problem) (T : nat -> nat -> f64) (top : list topk) (ops : list g_op) (u v : nat) : Prop :=
  indexed p u /\ indexed p v /\
  (In (T u v, v) (edges ops u) \/
   (forall k, 2 <= k <= p_max_k p -> best_below top k (T u v)) \/
   fle f_inf (T u v) = true).

Lemma known_more p T top top' ops more u v : improves top top' -> known p T top ops u v -> known p T top' (ops ++ more) u v.
Proof.
  intros I (A & B & [H|[H|H]]); (split; [exact A|split; [exact B|]]); [left; rewrite edges_app; apply in_or_app; auto|right; left; intros k Hk; apply I, H, Hk|right; right; exact H].
Qed.
Lemma known_sym p d0 T top ops u v : coherent p d0 T -> known p T top ops u v -> known p T top ops v u.
Proof.
  intros Ex. unfold known. rewrite (co_sym p _ T Ex v u). intros (A & B & [H|H]); (split; [exact B|split; [exact A|]]); [left; apply edges_back, H|auto].
Qed.

Record covered (p : problem) (T : nat -> nat -> f64) (tables : list table) (past : list config) (top : list topk) (ops : list g_op) (out : list (list nat * list f64)) : Prop := {
  cv_nested : nested top;
  cv_tables : forall c, In c past -> c_rep c < length tables;
  cv_known : forall c u v, In c past -> meet tables (p_ez p) (c_prefix c) (c_rep c) u v -> known p T top ops u v;
  cv_handled : forall nb, In nb out -> handled p T top nb
}.

Lemma meet_tables tables more ez q r u v : r < length tables -> meet (tables ++ more) ez q r u v <-> meet tables ez q r u v.
Proof. intros L. unfold meet. rewrite nth_error_app1 by exact L. reflexivity. Qed.

Lemma covered_more p T tables more past top top' ops out : improves top top' -> nested top' ->
  covered p T tables past top ops out -> covered p T (tables ++ more) past top' ops out.
Proof.
  intros I N [A B C D]. split.
  - exact N.
  - intros c Hc. rewrite app_length. specialize (B c Hc). lia.
  - intros c u v Hc M. rewrite <- (app_nil_r ops). apply (known_more p T top); [exact I|].
    apply (C c u v Hc). apply (proj1 (meet_tables tables more _ _ _ u v (B c Hc)) M).
  - intros nb Hn. eapply handled_improves; eauto.
Qed.

Lemma seen_dec h prev check q x y : collide h q x y -> seen_before h prev check x y \/ ~ seen_before h prev check x y.
Proof.
  intros C. unfold seen_before. destruct check; [|right; intros [? _]; discriminate].
  destruct prev as [r|]; [|right; intros (_ & r & ? & _); discriminate].
  assert (Dc : collide h r x y \/ ~ collide h r x y).
  { destruct C as (Lx & hx & hy & Ex & Ey & _).
    assert (Da : forall n, agree n hx hy \/ ~ agree n hx hy).
    { induction n as [|n IHn]; [left; intros z Hz; lia|].
      destruct (N.eq_dec (byte_at hx n) (byte_at hy n)) as [Eb|Eb].
      - destruct IHn as [IHn|IHn].
        + left. intros z Hz. destruct (Nat.eq_dec z n) as [->|]; [exact Eb|]. apply IHn. lia.
        + right. intros A. apply IHn. intros z Hz. apply A. lia.
      - right. intros A. apply Eb, A. lia. }
    destruct (Da r) as [A|A].
    - left. split; [exact Lx|]. exists hx, hy. auto.
    - right. intros (_ & hx' & hy' & Ex' & Ey' & A'). apply A. congruence. }
  destruct Dc as [Dc|Dc]; [left; split; [reflexivity|]; exists r; auto|].
  right. intros (_ & q' & Eq & Cq). injection Eq as <-. auto.
Qed.
Lemma Forall2_in_l {A B} (R : A -> B -> Prop) l l' x : Forall2 R l l' -> In x l -> exists y, In y l' /\ R x y.
Proof. intros F. induction F as [|a b l l' H F IH]; intros []; [subst; exists b; split; [left; reflexivity|exact H]|]. destruct (IH H0) as (y & Hy & Ry). exists y. split; [right; exact Hy|exact Ry]. Qed.

Lemma not_below_infinite x : is_nan x = false -> is_sign_negative x = false -> is_finite x = false -> fle f_inf x = true.
Proof.
  intros N S F. destruct x as [s|s| |s m e]; try discriminate. destruct s; [discriminate|reflexivity].
Qed.

Definition heads (p : problem) : Prop := forall c i j, p_coin p c i j = true.

(** one turn *)
Lemma turn_covered p T seed s s' fuel past ops out : sound p -> coherent p (ml_extent seed) T -> heads p -> 1 <= p_top_k p -> 2 <= p_max_k p -> inv p seed s ->
  turn p s fuel = Ret s' -> hist_inv past (it_conf s) ->
  g_run (g_new (p_n p) (p_ez p)) ops = Ret (it_graph s, out) -> ops_ok p ops -> settled p T ops out -> covered p T (it_tables s) past (it_top s) ops out ->
  exists ops' out' top, g_run (g_new (p_n p) (p_ez p)) ops' = Ret (it_graph s', out') /\ ops_ok p ops' /\ settled p T ops' out' /\
    queues_ok p seed top /\ covered p T (it_tables s) (past ++ [it_conf s]) top ops' out' /\ same_candidates top (it_top s') /\
    hist_inv (past ++ [it_conf s]) (it_conf s') /\
    (exists new, it_return s' = it_return s ++ new /\ forall m, In m new -> from_queue p true (confirmed p (it_conf s)) top m) /\
    exists more, it_tables s' = it_tables s ++ more.
Proof.
  intros Sd Ex Hd H1 H2 I E Hi R Ho St [Cn Ct Ck Ch]. pose proof (sound_zone p Sd) as Hez.
  destruct (turn_inv p seed s s' fuel Sd I E) as (_ & _ & _ & (more & Et & _) & ch & Mv).
  pose proof (hist_step _ _ _ _ Hi Mv) as Hi'.
  unfold turn in E.
  destruct (update_graph_ok p seed s Sd I) as (s1 & t & k & th & bs & pos & new & Ru & I1 & A1 & A2 & A3 & A4 & Tt & Tk & Lk & Th & _ & _ & Chr & F2 & _ & Ins & On & ops0 & _ & _ & Rn & Sn & Pok).
  destruct (update_graph p s fuel) as [s1'| |] eqn:E1; cbn [bind] in E; try discriminate.
  pose proof (ret_returns _ _ _ _ (update_graph_mono p s) E1 Ru) as ->.
  destruct (emit_confirmed p s1) as [s2| |] eqn:E2; cbn [bind] in E; try discriminate.
  destruct (0 <? p_n p); cbn [assert_] in E; [|discriminate].
  destruct (inv_graph _ _ _ I1) as (opsx & Vx & Hx). destruct (neighborhoods_ok p opsx (it_graph s1) (p_max_k p + 1) Hx Vx) as (g2 & nbs & En & _ & Nok).
  destruct (settled_read p _ T ops out new (it_graph s) (it_graph s1) g2 nbs Sd Ex H2 R Ho On Sn Rn En St) as (R' & O' & S' & Rt).
  set (ops' := (ops ++ [GReset] ++ new) ++ [GRead (p_max_k p + 1)]) in *.
  unfold emit_confirmed in E2. rewrite En in E2. cbn [bind] in E2.
  destruct (add_all_best p T seed nbs Sd H1) with (top := it_top s1) as (top1 & Ea & Q1 & Im & N1 & Hn1).
  { intros nb Hnb. auto. }
  { apply I1. }
  { rewrite A1. exact Cn. }
  rewrite Ea in E2. cbn [bind] in E2.
  destruct (emit_queues p (it_conf s1) top1 (it_return s1)) as [[top2 ret2]| |] eqn:Eq; cbn [bind] in E2; try discriminate.
  destruct (emit_queues_from p seed _ _ _ _ _ Q1 Eq) as (Sc & nw & Er & Hnw).
  destruct (min_distance _) as [nx| |]; cbn [bind] in E2; try discriminate. apply Ret_inj in E2.
  assert (Adv : it_top s' = it_top s2 /\ it_return s' = it_return s2 /\ it_graph s' = it_graph s2).
  { clear - E. unfold advance in E. destruct (next_prefix p s2); cbn [bind] in E; try discriminate.
    destruct (if c_prefix (it_conf s2) <=? _ then _ else _); cbn [bind] in E; try discriminate.
    destruct (config_move _ _); cbn [bind] in E; try discriminate. apply Ret_inj in E. subst s'. auto. }
  destruct Adv as (D1 & D2 & D3). rewrite <- E2 in D1, D2, D3. cbn [it_top it_return it_graph] in D1, D2, D3.
  rewrite A1 in Im.
  exists ops', (out ++ nbs), top1. rewrite D3. split; [exact R'|]. split; [exact O'|]. split; [exact S'|]. split; [exact Q1|]. split; [|split; [|split; [exact Hi'|split]]].
  - split.
    + exact N1.
    + intros c Hc. apply in_app_or in Hc. destruct Hc as [Hc|[<-|[]]]; [auto|]. apply (inv_conf _ _ _ I).
    + assert (KO : forall c u v, In c past -> meet (it_tables s) (p_ez p) (c_prefix c) (c_rep c) u v -> known p T top1 ops' u v).
      { intros c u v Hc M. unfold ops'. rewrite <- app_assoc. eapply known_more; eauto. }
      intros c u v Hc M. apply in_app_or in Hc. destruct Hc as [Hc|[<-|[]]]; [eauto|].
      destruct M as (Nt & t0 & x & y & Ht0 & Cl & Nl & Uv). rewrite Tt in Ht0. injection Ht0 as <-.
      destruct (seen_dec _ (c_prev (it_conf s)) (c_check (it_conf s)) _ _ _ Cl) as [(Cc & q & Eqq & Cq)|Ns].
      * unfold c_check in Cc. destruct (c_prev_reps (it_conf s)) as [m|] eqn:Em; [|discriminate]. apply Nat.ltb_lt in Cc.
        destruct (hi_prev _ _ Hi q m Eqq Em) as (Eqs & Vis & _). destruct (proj2 (Vis (c_rep (it_conf s))) Cc) as (c' & Hc' & Er' & Ep').
        apply (KO c' u v Hc'). split; [exact Nt|]. exists t, x, y. rewrite Er', Ep'. split; [exact Tt|]. split; [exact Cq|]. split; [|exact Uv].
        intros La. apply Nl. eapply last_shorter; [|exact La]. lia.
      * assert (Tr : ~ trivial (snd t) (p_ez p) x y).
        { intros (a & b & Ha & Hb & Tz). destruct Uv as [[Hu Hv]|[Hu Hv]]; rewrite Ha in Hu; rewrite Hb in Hv; injection Hu as ->; injection Hv as ->;
          rewrite !Nat2N.id in Tz; apply Nt; [exact Tz|apply too_close_sym, Tz]. }
        assert (Hp : In (x, y) pos) by (apply Chr; auto).
        destruct (Forall2_in_l _ _ _ _ F2 Hp) as ([a b] & Hab & (a0 & b0 & Ea0 & Eb0 & _ & Eab)). cbn [fst snd] in Ea0, Eb0.
        pose proof (Pok _ Hab) as (P1 & P2 & P3 & P4). cbn [fst snd] in P1, P2, P3, P4.
        assert (Sx : (N.to_nat a = u /\ N.to_nat b = v) \/ (N.to_nat a = v /\ N.to_nat b = u)).
        { destruct Uv as [[Hu Hv]|[Hu Hv]]; rewrite Ea0 in Hu; rewrite Eb0 in Hv; injection Hu as ->; injection Hv as ->;
          destruct Eab as [Eab|Eab]; injection Eab as -> ->; rewrite !Nat2N.id; auto. }
        assert (Kab : known p T top1 ops' (N.to_nat a) (N.to_nat b)).
        { set (ua := N.to_nat a) in *. set (ub := N.to_nat b) in *.
          split; [exact P2|]. split; [exact P3|]. unfold graph_threshold in Th.
          destruct (queues_get p seed (it_top s) (p_max_k p) (inv_queues _ _ _ I) ltac:(lia)) as (tq & Egq & Entq & Qtq). rewrite Egq in Th. cbn [bind] in Th. apply Ret_inj in Th.
          assert (Nth : is_nan th = false).
          { destruct (tk_kth_distance tq) as [Ek|] eqn:Ekk; subst th; [|reflexivity]. destruct (kth_in tq Ek Ekk) as (m & Hm & <-). apply (proj1 (q_wf _ _ _ _ Qtq) m Hm). }
          assert (Us : used_threshold p (ml_extent seed) th).
          { destruct (tk_kth_distance tq) as [Ek|] eqn:Ekk; subst th; [|left; reflexivity]. right. destruct (kth_in tq Ek Ekk) as (m & Hm & <-).
            destruct (q_members _ _ _ _ Qtq m (or_introl Hm)) as (Lm & [(_ & Vi & Va & _ & _ & Vw)| ->]); [right|left; reflexivity].
            destruct (Vw ltac:(lia)) as (i1 & i2 & x1 & x2 & Li & Hx1 & Hx2 & Ex12). exists x2, x1.
            split; [apply Vi, (nth_error_In _ _ Hx2)|]. split; [apply Vi, (nth_error_In _ _ Hx1)|]. split; [|exact Ex12].
            intros ->. apply (Va i1 i2 x1 x1 Li Hx1 Hx2). unfold too_close. lia. }
          destruct (p_zeucl_threshold p ua ub th) as [dab|] eqn:Eth.
          - pose proof (co_some p _ T Ex _ _ _ _ P1 P2 P3 Eth) as Ed.
            destruct (is_finite dab) eqn:Fd.
            2:{ right; right. rewrite <- Ed. apply not_below_infinite; [|eapply (sound_threshold p Sd); exact Eth|exact Fd]. rewrite Ed. apply (co_number p _ T Ex); auto. lia. }
            left. apply in_concat in Hab. destruct Hab as (bt & Hbt & Hin). apply In_nth_error in Hbt, Hin. destruct Hbt as (bi & Hbi), Hin as (bj & Hbj).
            pose proof (Ins bi bt bj (a, b) _ Hbi Hbj (Hd _ _ _) Eth Fd) as Hg. cbn [fst snd] in Hg. rewrite <- Ed.
            unfold ops'. rewrite !edges_app. apply in_or_app. left. apply in_or_app. right. apply in_or_app. right. apply edges_insert, Hg.
          - right. pose proof (co_none p _ T Ex _ _ _ P1 P2 P3 Nth Us Eth) as Lth.
            destruct (tk_kth_distance tq) as [Ek|] eqn:Ekk; subst th; [left; intros kk Hkk|right; exact Lth].
            destruct (kth_in tq Ek Ekk) as (m & Hm & Em). apply Im. apply (best_below_le _ _ (ml_extent m)); [eapply Cn; [|exact Entq|exact Hm]; lia|].
            rewrite Em. exact Lth. }
        destruct Sx as [[<- <-]|[<- <-]]; [exact Kab|exact (known_sym p _ T _ _ _ _ Ex Kab)].
    + intros nb Hnb. apply in_app_or in Hnb. destruct Hnb as [Hnb|Hnb]; [|auto]. eapply handled_improves; [exact Im|auto].
  - rewrite D1. exact Sc.
  - exists nw. rewrite D2, Er, A2. split; [reflexivity|]. rewrite A3 in Hnw. exact Hnw.
  - exists more. exact Et.
Qed.

(** ** Steps *)
Lemma step_view p s s' : step p s s' ->
  (exists fuel, goes_on p s /\ turn p s fuel = Ret s') \/
  (it_top s' = it_top s /\ it_graph s' = it_graph s /\ it_conf s' = it_conf s /\ it_tables s' = it_tables s /\ it_candidates s' = it_candidates s /\
   incl (it_return s') (it_return s)) \/
  (p_stop p = true /\ p_threshold p < it_candidates s /\ forallb tk_is_complete (it_top s) = false /\ it_return s = [] /\
   exists s1, emit_everything s = Ret s1 /\ it_top s' = it_top s1 /\ it_graph s' = it_graph s /\ it_conf s' = it_conf s /\ it_tables s' = it_tables s /\
     incl (it_return s') (it_return s1)).
Proof.
  assert (P : forall s0, it_top (fst (pop s0)) = it_top s0 /\ it_graph (fst (pop s0)) = it_graph s0 /\ it_conf (fst (pop s0)) = it_conf s0 /\
    it_tables (fst (pop s0)) = it_tables s0 /\ it_candidates (fst (pop s0)) = it_candidates s0 /\ incl (it_return (fst (pop s0))) (it_return s0)).
  { intros s0. unfold pop. destruct (rev (it_return s0)) as [|m t] eqn:E; cbn [fst]; [repeat split; apply incl_refl|].
    cbn. repeat split. rewrite <- (rev_involutive (it_return s0)), E. cbn [rev]. apply incl_appl, incl_refl. }
  intros (go & fuel & [E|(x & E)]).
  { destruct (loop_body_inl _ _ _ _ _ E) as (_ & G & T). left. eauto. }
  right. unfold loop_body in E. destruct (it_return s) as [|m0 r0] eqn:Er.
  - destruct (negb go); [apply Ret_inj in E; injection E as <- _; left; rewrite Er; repeat split; apply incl_refl|].
    destruct (forallb tk_is_complete (it_top s)) eqn:Ef; [apply Ret_inj in E; injection E as <- _; left; rewrite Er; repeat split; apply incl_refl|].
    destruct (_ && _) eqn:Et.
    + right. apply andb_true_iff in Et. destruct Et as [Et1 Et2]. apply Nat.ltb_lt in Et1.
      split; [exact Et2|]. split; [exact Et1|]. split; [reflexivity|]. split; [reflexivity|].
      destruct (emit_everything s) as [s1| |] eqn:Ee; cbn [bind] in E; try discriminate. exists s1. split; [reflexivity|].
      destruct (P s1) as (P1 & P2 & P3 & P4 & P5 & P6). destruct (pop s1) as [s2 o]. apply Ret_inj in E. injection E as <- _. cbn [fst] in *.
      assert (Q : it_graph s1 = it_graph s /\ it_conf s1 = it_conf s /\ it_tables s1 = it_tables s).
      { clear - Ee. unfold emit_everything in Ee. destruct (foreach _ _ _) as [[tp rt]| |]; cbn [bind] in Ee; try discriminate. apply Ret_inj in Ee. subst s1. auto. }
      destruct Q as (Q1 & Q2 & Q3). rewrite P1, P2, P3, P4, Q1, Q2, Q3. auto.
    + destruct (turn p s fuel) as [s1| |]; cbn [bind] in E; discriminate.
  - left. destruct (P s) as (P1 & P2 & P3 & P4 & P5 & P6). destruct (pop s) as [s2 o]. apply Ret_inj in E. injection E as <- _. cbn [fst] in *. rewrite Er in P6. auto 8.
Qed.

Definition found (p : problem) (T : nat -> nat -> f64) (s : iter) : Prop :=
  exists past ops out, hist_inv past (it_conf s) /\ g_run (g_new (p_n p) (p_ez p)) ops = Ret (it_graph s, out) /\ ops_ok p ops /\
    settled p T ops out /\ covered p T (it_tables s) past (it_top s) ops out.
Definition disabled_last (s : iter) : Prop :=
  forall k t, 2 <= k -> nth_error (it_top s) k = Some t -> tk_disabled t = true -> forallb tk_is_complete (it_top s) = true.

Lemma closed_best top : (forall k t, nth_error top k = Some t -> tk_disabled t = true) -> forall k x, best_below top k x.
Proof. intros H k x t Ht [_ F]. rewrite (H k t Ht) in F. discriminate. Qed.

Lemma new_found p T a b d s : sound p -> seed_ok p a b d -> iter_new p a b d = Ret s -> found p T s.
Proof.
  intros Sd So E. destruct (new_inv p a b d s Sd So E) as (I & Hk & _ & _ & _ & _ & p0 & _ & Ep).
  pose proof So as (_ & _ & _ & Nd).
  exists [], [], []. split.
  { destruct (inv_conf _ _ _ I) as (_ & Hp & _). rewrite Ep in Hp |- *. apply hist_start. cbn in Hp. lia. }
  unfold iter_new in E.
  destruct (add_repetitions p [] 1 K) as [t0| |]; cbn [bind] in E; try discriminate.
  destruct (add_repetitions p t0 _ K) as [t1| |]; cbn [bind] in E; try discriminate.
  destruct (calibration_prefix (p_expected p)) as [?| |]; cbn [bind] in E; try discriminate.
  destruct (first_meaningful_prefix (p_expected p)) as [q0| |] eqn:Eq; cbn [bind] in E; try discriminate.
  destruct (0 <? q0); cbn [assert_] in E; [|discriminate].
  destruct (p_max_k p) as [|[|K2]] eqn:Ek; [lia|lia|]. replace (S (S K2) + 1) with (S (S (S K2))) in E by lia.
  set (t := tk_new (p_top_k p) (p_ez p)) in *. cbn [repeat] in E. unfold get, put in E. cbn [nth_error bind set_nth option_map] in E.
  assert (Ins : exists t2, tk_insert t (Motiflet [a; b] d) = Ret t2 /\ (forall m, In m (tk_top t2) -> m = Motiflet [a; b] d)).
  { destruct (insert_ok t (Motiflet [a; b] d)) as (t2 & E2 & _ & _ & _ & _ & _ & M & _).
    - apply wf_new.
    - exact Nd.
    - exists t2. split; [exact E2|]. intros m Hm. destruct (M m Hm) as [->|[]]. reflexivity. }
  destruct Ins as (t2 & E2 & M2). rewrite E2 in E. cbn [bind] in E. apply Ret_inj in E. subst s. cbn [it_graph it_tables it_top].
  split; [reflexivity|]. split; [intros ? ? ? []|]. split.
  { split.
    - intros ? ? ? ? ? ? [].
    - intros i dd j [].
    - intros i k l _ Hkk _ Ll Tl. destruct (nth_error l 1) as [x|] eqn:Ex1; [|apply nth_error_None in Ex1; lia]. destruct (Tl 0 x Ex1). }
  split.
  - intros k k' tq m Lk Htq Hm. destruct k' as [|[|[|k']]]; [lia|lia| |].
    + cbn [nth_error] in Htq. injection Htq as <-. assert (k = 2) by lia. subst k. intros tt Htt F. cbn [nth_error] in Htt. injection Htt as <-.
      pose proof (M2 m Hm) as ->. destruct (tk_top t2) as [|m0 r0] eqn:Et2; [destruct Hm|]. exists m0, r0. split; [reflexivity|].
      rewrite (M2 m0 ltac:(left; reflexivity)). apply fle_refl, Nd.
    + cbn [nth_error] in Htq. apply nth_error_In, repeat_spec in Htq. subst tq. destruct Hm.
  - intros ? [].
  - intros ? ? ? [].
  - intros ? [].
Qed.

Section Trace.
  Variables (p : problem) (a b : nat) (d : f64).
  Hypotheses (Sd : sound p) (So : seed_ok p a b d).
  Let seed := Motiflet [a; b] d.

  Lemma trace_max_k h : trace p a b d h -> 2 <= p_max_k p.
  Proof. intros T. induction T as [s E|]; [apply (new_inv p a b d s Sd So E)|assumption]. Qed.

  Lemma trace_disabled h : trace p a b d h -> exists s l, h = s :: l /\ disabled_last s.
  Proof.
    intros T. induction T as [s E|s s' l T IH St].
    - exists s, []. split; [reflexivity|]. intros k t Hk Ht D. rewrite (new_disabled p a b d s E k t Hk Ht) in D. discriminate.
    - destruct IH as (s0 & l0 & Eq & D). injection Eq as <- <-. exists s', (s :: l). split; [reflexivity|].
      destruct (trace_inv p a b d _ Sd So T) as (s0 & l0 & Eq & I). injection Eq as <- <-.
      destruct (step_view p s s' St) as [(f & G & Et)|[(Tp & _)|(_ & _ & _ & _ & s1 & Ee & Tp & _)]].
      + intros k t Hk Ht Dt. exfalso. pose proof (turn_disabled p s f s' Et) as Md.
        assert (Dk : nth_error (map tk_disabled (it_top s)) k = Some true) by (rewrite <- Md, nth_error_map, Ht; cbn; congruence).
        rewrite nth_error_map in Dk. destruct (nth_error (it_top s) k) as [t0|] eqn:Et0; [|discriminate]. cbn in Dk. injection Dk as Dk.
        destruct G as (_ & G & _). rewrite (D k t0 Hk Et0 Dk) in G. discriminate.
      + intros k t Hk Ht. rewrite Tp in *. exact (D k t Hk Ht).
      + intros k t Hk Ht _. rewrite Tp. destruct (emit_everything_ok p seed s I) as (s1' & new & E1 & _ & _ & F & _). rewrite Ee in E1. apply Ret_inj in E1. subst s1'. exact F.
  Qed.

  Section Found.
    Variable T : nat -> nat -> f64.
    Hypotheses (Ex : coherent p d T) (Hd : heads p) (H1 : 1 <= p_top_k p).

    Lemma trace_found h : trace p a b d h -> exists s l, h = s :: l /\ found p T s.
    Proof.
      intros Tr. induction Tr as [s E|s s' l Tr IH St].
      - exists s, []. split; [reflexivity|]. eapply new_found; eauto.
      - destruct IH as (s0 & l0 & Eq & (past & ops & out & F1 & F2 & F3 & F4 & F5)). injection Eq as <- <-. exists s', (s :: l). split; [reflexivity|].
        destruct (trace_inv p a b d _ Sd So Tr) as (s0 & l0 & Eq & I). injection Eq as <- <-.
        destruct (step_view p s s' St) as [(f & G & Et)|[(Tp & Eg & Ec & Etb & _)|(_ & _ & _ & _ & s1 & Ee & Tp & Eg & Ec & Etb & _)]].
        + destruct (turn_covered p T seed s s' f past ops out Sd Ex Hd H1 (trace_max_k _ Tr) I Et F1 F2 F3 F4 F5)
            as (ops' & out' & top & R' & O' & S' & Q' & C' & Sc & Hi & _ & more & Em).
          exists (past ++ [it_conf s]), ops', out'. split; [exact Hi|]. split; [exact R'|]. split; [exact O'|]. split; [exact S'|].
          rewrite Em. apply (covered_more p T _ more _ top); [|eapply same_nested; [exact Sc|apply C']|exact C'].
          intros k x B. eapply same_best; eauto.
        + exists past, ops, out. rewrite Tp, Eg, Ec, Etb. auto.
        + exists past, ops, out. rewrite Eg, Ec, Etb. split; [exact F1|]. split; [exact F2|]. split; [exact F3|]. split; [exact F4|].
          destruct (emit_everything_from p seed s s1 I Ee) as (_ & Dis). rewrite <- Tp in Dis.
          rewrite <- (app_nil_r (it_tables s)). apply (covered_more p T _ [] _ (it_top s)); [| |exact F5].
          * intros k x _. apply closed_best, Dis.
          * intros k k' t m _ _ _. apply closed_best, Dis.
    Qed.
  End Found.

  (** a property of everything emitted holds of everything returned *)
  Section Items.
    Variable Q : motiflet -> Prop.
    Hypothesis Qturn : forall s s' m, turn_of p a b d s s' -> In m (it_return s') -> Q m.
    Hypothesis Qstop : forall s s1 m, stop_of p a b d s -> it_return s = [] -> forallb tk_is_complete (it_top s) = false ->
      emit_everything s = Ret s1 -> In m (it_return s1) -> Q m.

    Lemma trace_return h : trace p a b d h -> exists s l, h = s :: l /\ forall m, In m (it_return s) -> Q m.
    Proof.
      intros T. induction T as [s E|s s' l T IH St].
      - exists s, []. split; [reflexivity|]. destruct (new_inv p a b d s Sd So E) as (_ & _ & -> & _). intros m [].
      - destruct IH as (s0 & l0 & Eq & IH). injection Eq as <- <-. exists s', (s :: l). split; [reflexivity|].
        destruct (step_view p s s' St) as [(f & G & Et)|[(_ & _ & _ & _ & _ & Inc)|(S1 & S2 & S3 & S4 & s1 & Ee & _ & _ & _ & _ & Inc)]].
        + intros m Hm. apply (Qturn s s'); [|exact Hm]. exists l, f. split; [constructor; assumption|]. rewrite (loop_body_go p s f G), Et. reflexivity.
        + intros m Hm. auto.
        + intros m Hm. apply (Qstop s s1); auto. split; [exists l; exact T|auto].
    Qed.
    Lemma calls_items cbs : forall s fuel s' l h, calls p cbs s fuel = Ret (s', l) -> trace p a b d (s :: h) -> forall m, In m (items l) -> Q m.
    Proof.
      induction cbs as [|cb cbs IH]; intros s fuel s' l h E T m Hm.
      - cbn [calls] in E. apply Ret_inj in E. injection E as <- <-. destruct Hm.
      - destruct (calls_split _ _ _ _ _ _ _ E) as (s1 & x & l' & (n & s2 & Tn & _ & f & B) & E' & ->).
        destruct (turns_trace p a b d _ _ _ Tn _ T) as (h1 & H1).
        assert (T' : trace p a b d (s1 :: s2 :: h1)) by (constructor; [exact H1|]; eexists; eexists; right; eexists; exact B).
        unfold items in Hm. cbn [flat_map] in Hm. apply in_app_or in Hm. destruct Hm as [Hm|Hm]; [|eapply IH; eauto].
        destruct x as [|m0|]; [destruct Hm| |destruct Hm]. destruct Hm as [->|[]].
        destruct (trace_return _ H1) as (s0 & l0 & Eq & Ret2). injection Eq as <- <-.
        destruct (trace_inv p a b d _ Sd So H1) as (s0 & l0 & Eq & I). injection Eq as <- <-.
        destruct (loop_body_cases p seed s2 _ f _ Sd I B) as (_ & _ & C).
        destruct C as ([[C _]|(R0 & _ & F0 & St0 & s3 & Ee & C & _)] & _).
        + apply Ret2. rewrite C. apply in_or_app. right. left. reflexivity.
        + apply andb_true_iff in St0. destruct St0 as [St1 St2]. apply Nat.ltb_lt in St1.
          apply (Qstop s2 s3); auto; [split; [exists h1; exact H1|auto]|]. rewrite C. apply in_or_app. right. left. reflexivity.
    Qed.
    Lemma session_items cbs fuel s l : session p a b d cbs fuel = Ret (s, l) -> forall m, In m (items l) -> Q m.
    Proof.
      intros E. unfold session in E. destruct (iter_new p a b d) as [s0| |] eqn:E0; cbn [bind] in E; try discriminate.
      intros m Hm. apply (calls_items cbs s0 fuel s l [] E); [constructor; exact E0|exact Hm].
    Qed.
  End Items.
End Trace.
