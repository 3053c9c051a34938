(** Property theorems C33, C34, C65, C145, C146 (the neighbour graph).
    Specification: OverlapsSpec.v, GraphSpec.v.  Model: Graph.v. *)
From Coq Require Import Floats.SpecFloat.
From Verif Require Import Base F64 Overlaps OverlapsSpec OverlapsProofs BruteSpec Graph GraphSpec GraphProofs GraphFlagProofs.

(** the distance that is a positive integer *)
Notation dz p := (S754_finite false p%positive 0).

(** * C65: the distance with a flag in its sign *)
Theorem c65_distance_with_flag :
  (** storing: the distance reads back, flagged as new *)
  (forall d, is_nan d = false -> is_sign_negative d = false ->
     dwf_distance (dwf_from d) = d /\ dwf_flag (dwf_from d) = true) /\
  (** changing the flag: it reads back, the distance stays *)
  (forall x b, is_nan x = false -> dwf_flag (dwf_set_flag x b) = b /\ dwf_distance (dwf_set_flag x b) = dwf_distance x) /\
  (** two stored values with the same distance and flag are the same *)
  (forall x y, is_nan x = false -> dwf_distance x = dwf_distance y -> dwf_flag x = dwf_flag y -> x = y) /\
  (** order: by distance, then old before new *)
  (forall x y, is_nan x = false -> is_nan y = false ->
     (dwf_cmp x y = Some Lt <->
        flt (dwf_distance x) (dwf_distance y) = true \/
        (feq (dwf_distance x) (dwf_distance y) = true /\ dwf_flag x = false /\ dwf_flag y = true)) /\
     (dwf_cmp x y = Some Gt <-> dwf_cmp y x = Some Lt) /\
     (dwf_cmp x y = Some Eq <-> x = y)).
Proof.
  split; [|split; [|split]].
  - intros d N S. split; [apply abs_id, S|]. unfold dwf_flag, dwf_from. rewrite S. reflexivity.
  - intros x b N. split; [apply set_flag_flag, N|apply set_flag_distance].
  - exact dwf_determined.
  - intros x y Nx Ny.
    assert (LT : forall x y, is_nan x = false -> is_nan y = false ->
       (dwf_cmp x y = Some Lt <->
        flt (dwf_distance x) (dwf_distance y) = true \/
        (feq (dwf_distance x) (dwf_distance y) = true /\ dwf_flag x = false /\ dwf_flag y = true))).
    { clear. intros x y Nx Ny. unfold dwf_cmp, partial_cmp, flt, feq.
      destruct (SFcompare (dwf_distance x) (dwf_distance y)) as [[]|]; destruct (dwf_flag x), (dwf_flag y); cbn;
        split; try discriminate; try tauto; intuition discriminate. }
    assert (SW : dwf_cmp x y = option_map CompOpp (dwf_cmp y x)).
    { unfold dwf_cmp, partial_cmp, dwf_distance.
      assert (C : SFcompare (SFabs x) (SFabs y) = option_map CompOpp (SFcompare (SFabs y) (SFabs x))).
      { destruct x as [s|s| |s m e], y as [s'|s'| |s' m' e']; try discriminate; try reflexivity. cbn.
        rewrite (Z.compare_antisym e' e). destruct (e' ?= e)%Z; cbn; try reflexivity.
        rewrite (Pos.compare_cont_antisym m' m Eq). cbn [CompOpp]. destruct (Pos.compare_cont Eq m' m); reflexivity. }
      rewrite C. destruct (SFcompare (SFabs y) (SFabs x)) as [[]|]; cbn; try reflexivity.
      destruct (dwf_flag x), (dwf_flag y); reflexivity. }
    split; [apply LT; assumption|]. split.
    + rewrite SW. destruct (dwf_cmp y x) as [[]|]; cbn; split; congruence.
    + unfold dwf_cmp, partial_cmp. destruct (SFcompare (dwf_distance x) (dwf_distance y)) as [[]|] eqn:E.
      * assert (Q : dwf_distance x = dwf_distance y) by (apply feq_abs; unfold feq, dwf_distance in *; rewrite E; reflexivity).
        split.
        -- intros H. apply dwf_determined; [assumption|exact Q|].
           destruct (dwf_flag x), (dwf_flag y); try reflexivity; discriminate.
        -- intros ->. destruct (dwf_flag y); reflexivity.
      * split; [discriminate|]. intros ->. pose proof (fle_refl (dwf_distance y)) as R. unfold fle, dwf_distance in *.
        assert (F : flt (SFabs y) (SFabs y) = false) by apply flt_irrefl. unfold flt in F. rewrite E in F. discriminate.
      * split; [discriminate|]. intros ->. pose proof (fle_refl (SFabs y)) as R. unfold fle, dwf_distance in *. rewrite E in R.
        rewrite abs_nan in R. specialize (R Ny). discriminate.
      * split; [discriminate|]. intros ->. pose proof (fle_refl (SFabs y)) as R. unfold fle, dwf_distance in *. rewrite E in R.
        rewrite abs_nan in R. specialize (R Ny). discriminate.
Qed.
Print Assumptions c65_distance_with_flag.
(** the case of distance zero, and infinity *)
Example c65_example :
  dwf_flag (dwf_set_flag (dwf_from f_zero) false) = false /\ dwf_distance (dwf_set_flag (dwf_from f_zero) false) = f_zero /\
  dwf_cmp (dwf_set_flag f_zero false) f_zero = Some Lt /\ dwf_cmp f_inf (dwf_set_flag f_inf false) = Some Gt /\
  dwf_cmp (dz 3) (dwf_set_flag (dz 4) false) = Some Lt.
Proof. repeat split; reflexivity. Qed.

(** * C33: the neighbourhoods are valid, and reading never aborts *)
Theorem c33_neighbourhoods :
  forall (n ez : nat) (ops : list g_op), well_formed n ops ->
    exists g out, g_run (g_new n ez) ops = Ret (g, out) /\
      forall k, exists g' reports, g_step g (GRead k) = Ret (g', reports) /\
        forall indices distances, In (indices, distances) reports ->
          exists i, i < n /\ touched ops i = true /\
            nearest_neighbourhood ez k i (edges ops i) indices distances.
Proof.
  intros n ez ops W. destruct (graph_run n ez ops W) as (g & out & E & V). exists g, out. split; [exact E|].
  intros k. destruct (g_read_spec n ez ops g k V) as (g' & r & E' & _ & _ & _ & Lr & P). exists g'. eexists. split; [exact E'|].
  intros ind ds H. apply nth_error_flat in H. destruct H as (i & nn' & Hi).
  assert (Li : i < n) by (rewrite <- Lr; apply nth_error_Some; congruence).
  destruct (P i Li) as (nn & nn1 & o & En & _ & Hr & R). rewrite Hi in Hr. injection Hr as <- <-.
  exists i. split; [exact Li|]. unfold read_node in R. destruct (touched ops i); [|destruct R; discriminate].
  split; [reflexivity|]. destruct R as (t & T & _ & Eo). destruct (existsb _ _); [|discriminate]. injection Eo as -> ->.
  pose proof V as (_ & _ & _ & HV). destruct (HV i Li) as (_ & nn0 & En0 & V0). assert (nn0 = nn) by congruence. subst nn0.
  apply node_valid; [eapply tidy_node; eauto|apply T].
Qed.
Print Assumptions c33_neighbourhoods.
(** Node 0 has neighbours 10 (at 3), 11 (at 2), 20 (at 2); with exclusion zone 5, 11 hides 10. *)
Definition ex_graph : list g_op :=
  [GInsert (dz 3) 0 10; GInsert (dz 2) 0 20; GInsert (dz 2) 0 11; GInsert (dz 3) 0 10].
Example c33_example :
  well_formed 30 ex_graph /\
  match g_run (g_new 30 5) (ex_graph ++ [GRead 3]) with
  | Ret (_, out) => In ([0; 11; 20], [f_zero; dz 2; dz 2]) out /\ In ([10; 0], [f_zero; dz 3]) out /\ length out = 4
  | _ => False
  end.
Proof.
  split.
  - intros d a b H. repeat (destruct H as [H|H]; [injection H as <- <- <-; repeat split; lia|]). destruct H.
  - vm_compute. split; [left; reflexivity|]. split; [right; left; reflexivity|reflexivity].
Qed.

(** * C34: reported exactly when something new appears *)
Theorem c34_reported_when_changed :
  (** [out]: everything reported before the read *)
  (forall (n ez k : nat) (ops : list g_op) g out g' reports i,
     0 < ez -> well_formed n ops -> g_run (g_new n ez) ops = Ret (g, out) -> g_step g (GRead k) = Ret (g', reports) -> i < n ->
     (** a reported node got an edge since the last reset, and its neighbourhood has a member not reported for it before *)
     (forall indices distances, In (indices, distances) reports -> nth_error indices 0 = Some i ->
        touched ops i = true /\
        exists p d j, nth_error indices (S p) = Some j /\ nth_error distances (S p) = Some d /\ ~ reported_for i out d j) /\
     (** a node that got an edge and is not reported has a neighbourhood all of whose members were reported before *)
     (touched ops i = true ->
        (forall indices distances, In (indices, distances) reports -> nth_error indices 0 <> Some i) ->
        exists indices distances, nearest_neighbourhood ez k i (edges ops i) indices distances /\
          forall p d j, nth_error indices (S p) = Some j -> nth_error distances (S p) = Some d -> reported_for i out d j)) /\
  (** giving again edges that the node already had does not make it reported again *)
  (forall (n ez k k' : nat) (ops again : list g_op) i g out g' reports,
     0 < ez -> k' <= k -> i < n ->
     well_formed n (ops ++ GRead k :: again) -> same_distances (ops ++ GRead k :: again) ->
     touched ops i = true -> (forall m, ~ In (GRead m) again) ->
     (forall d j, In (d, j) (edges again i) -> In (d, j) (edges ops i)) ->
     g_run (g_new n ez) (ops ++ GRead k :: again) = Ret (g, out) ->
     g_step g (GRead k') = Ret (g', reports) ->
     forall indices distances, In (indices, distances) reports -> nth_error indices 0 <> Some i).
Proof.
  split.
  - intros n ez k ops g out g' reports i Hez W E E' Li. cbn [g_step] in E'.
    destruct (flags_run n ez ops W g out E) as (V & F). split.
    + intros ind ds H H0. destruct (report_new n ez ops k g out g' reports i ind ds Hez V F E' Li H H0) as (A & _ & B). auto.
    + intros Ti Hno. exact (silent_known n ez ops k g out g' reports i V F E' Li Ti Hno).
  - intros n ez k k' ops again i g out g' reports Hez Hk Li W Sd Ti Q Hm E E'. cbn [g_step] in E'.
    rewrite g_run_app in E. destruct (g_run (g_new n ez) ops) as [[g0 o0]| |] eqn:E0; try discriminate. cbn [bind] in E.
    cbn [g_run g_step] in E. destruct (g_neighborhoods g0 k) as [[g1 o1]| |] eqn:E1; try discriminate. cbn [bind] in E.
    destruct (g_run g1 again) as [[g2 o2]| |] eqn:E2; try discriminate. cbn [bind] in E. apply Ret_inj in E. injection E as <- <-.
    destruct (flags_run n ez ops (well_formed_app _ _ _ W) g0 o0 E0) as (V & _).
    exact (reinsert_silent n ez ops k again k' g0 o1 g1 o2 g2 reports i Hez Hk V W Sd Q Li Ti Hm E1 E2 g' E').
Qed.
Print Assumptions c34_reported_when_changed.
(** In the example above, giving (0, 10) again with the same distance reports nothing for 0
    nor for 10; a new nearer neighbour 25 of node 0 does. *)
Example c34_example :
  same_distances (ex_graph ++ GRead 3 :: [GReset; GInsert (dz 3) 0 10]) /\
  match g_run (g_new 30 5) (ex_graph ++ [GRead 3]) with
  | Ret (g, _) =>
      match g_run g [GReset; GInsert (dz 3) 0 10; GRead 3], g_run g [GReset; GInsert (dz 1) 0 25; GRead 3] with
      | Ret (_, out1), Ret (_, out2) => out1 = [] /\ In ([0; 25; 11], [f_zero; dz 1; dz 2]) out2
      | _, _ => False
      end
  | _ => False
  end.
Proof.
  split.
  - intros i d d' j A B. unfold ex_graph in *. cbn [app edges] in A, B.
    destruct (0 =? i) eqn:E0, (10 =? i) eqn:E1, (20 =? i) eqn:E2, (11 =? i) eqn:E3;
    rewrite ?Nat.eqb_eq in *; try lia; cbn in A, B;
    repeat match goal with H : _ \/ _ |- _ => destruct H | H : False |- _ => destruct H
      | H : (_, _) = (_, _) |- _ => injection H as <- <- end; try lia; try reflexivity; try discriminate; try congruence.
  - vm_compute. split; [reflexivity|left; reflexivity].
Qed.

(** * C145: asking for an edge *)
(** A pair of nodes has an edge exactly when one was given between them, in either direction,
    whatever was read or reset in between; asking about a node outside the graph aborts. *)
Theorem c145_has_edge :
  forall (n ez : nat) (ops : list g_op) g out, well_formed n ops -> g_run (g_new n ez) ops = Ret (g, out) ->
    (forall a b, a < n -> exists r, g_has_edge g a b = Ret r /\
       (r = true <-> exists d, In (GInsert d a b) ops \/ In (GInsert d b a) ops)) /\
    (forall a b, n <= a -> g_has_edge g a b = Panic).
Proof.
  intros n ez ops g out W E. destruct (graph_run n ez ops W) as (g1 & o1 & E1 & V).
  assert (g1 = g) as -> by (rewrite E in E1; apply Ret_inj in E1; congruence). clear E1.
  destruct V as (_ & Ln & _ & HV).
  assert (IE : forall ops a b, (exists d, In (d, b) (edges ops a)) <-> exists d, In (GInsert d a b) ops \/ In (GInsert d b a) ops).
  { clear. intros ops a b. induction ops as [|op t IH]; cbn [edges].
    - split; [intros (d & [])|intros (d & [[]|[]])].
    - split.
      + intros (d & H). destruct op as [d0 x y| |k];
          try (destruct (proj1 IH (ex_intro _ d H)) as (d' & [K|K]); exists d'; [left|right]; right; exact K).
        rewrite !in_app_iff in H. destruct H as [H|[H|H]].
        * destruct (Nat.eqb_spec x a) as [->|]; [|destruct H]. destruct H as [H|[]]. injection H as -> ->. exists d. left. left. reflexivity.
        * destruct (Nat.eqb_spec y a) as [->|]; [|destruct H]. destruct H as [H|[]]. injection H as -> ->. exists d. right. left. reflexivity.
        * destruct (proj1 IH (ex_intro _ d H)) as (d' & [K|K]); exists d'; [left|right]; right; exact K.
      + intros (d & H).
        assert (C : op = GInsert d a b \/ op = GInsert d b a \/ (In (GInsert d a b) t \/ In (GInsert d b a) t)) by (cbn in H; tauto).
        destruct C as [->|[->|C]].
        * exists d. rewrite Nat.eqb_refl. left. reflexivity.
        * exists d. rewrite Nat.eqb_refl, !in_app_iff. right. left. left. reflexivity.
        * destruct (proj2 IH (ex_intro _ d C)) as (d' & K). exists d'. destruct op; rewrite ?in_app_iff; auto. }
  split.
  - intros a b La. destruct (HV a La) as (_ & nn & En & _ & I & R). unfold g_has_edge, get. rewrite En. cbn [bind].
    eexists. split; [reflexivity|]. rewrite <- IE, existsb_exists. split.
    + intros (e & He & Eb). apply Nat.eqb_eq in Eb. subst b. exists (dwf_distance (fst e)). apply I, He.
    + intros (d & H). destruct (R d b H) as (e & He & Ej & _). exists e. split; [exact He|apply Nat.eqb_eq; exact Ej].
  - intros a b La. unfold g_has_edge, get. rewrite (proj2 (nth_error_None (g_nn g) a)) by lia. reflexivity.
Qed.
Print Assumptions c145_has_edge.
(** after reading and resetting, 0 and 10 have an edge both ways, 10 and 20 have none *)
Example c145_case :
  well_formed 30 (ex_graph ++ [GRead 3; GReset]) /\
  match g_run (g_new 30 5) (ex_graph ++ [GRead 3; GReset]) with
  | Ret (g, _) => g_has_edge g 0 10 = Ret true /\ g_has_edge g 10 0 = Ret true /\ g_has_edge g 10 20 = Ret false /\
      g_has_edge g 0 40 = Ret false /\ g_has_edge g 40 0 = Panic
  | _ => False
  end.
Proof.
  split.
  - intros d a b H. repeat (destruct H as [H|H]; [first [discriminate H|injection H as <- <- <-; repeat split; lia]|]). destruct H.
  - vm_compute. repeat split; reflexivity.
Qed.

(** * C146: a distance that is not a number *)
Lemma mapi_res_panic {A B} (f : nat -> A -> res B) l : forall i0,
  (forall j x, nth_error l j = Some x -> f (i0 + j) x = Panic \/ exists y, f (i0 + j) x = Ret y) ->
  (exists j x, nth_error l j = Some x /\ f (i0 + j) x = Panic) -> mapi_res f i0 l = Panic.
Proof.
  induction l as [|x l IH]; intros i0 H (j & z & Ej & P); [destruct j; discriminate|]. cbn [mapi_res].
  destruct (H 0 x eq_refl) as [P0|(y & Ey)]; rewrite Nat.add_0_r in *; [rewrite P0; reflexivity|]. rewrite Ey. cbn [bind].
  destruct j as [|j]; [cbn in Ej; injection Ej as <-; rewrite Nat.add_0_r in P; congruence|]. rewrite (IH (S i0)); [reflexivity| |].
  - intros j' x' E'. specialize (H (S j') x' E'). replace (S i0 + j') with (i0 + S j') by lia. exact H.
  - exists j, z. split; [exact Ej|]. replace (S i0 + j) with (i0 + S j) by lia. exact P.
Qed.
(** Giving an edge whose distance is not a number makes the next read abort exactly when one
    of its nodes has another edge (an edge from a node to itself counts twice); when both
    nodes had none the read returns. *)
Theorem c146_not_a_number :
  forall (n ez : nat) (ops : list g_op) g out d a b k,
    well_formed n ops -> g_run (g_new n ez) ops = Ret (g, out) -> is_nan d = true -> a < n -> b < n ->
    (a = b \/ edges ops a <> [] \/ edges ops b <> [] -> g_run g [GInsert d a b; GRead k] = Panic) /\
    (a <> b -> edges ops a = [] -> edges ops b = [] -> exists r, g_run g [GInsert d a b; GRead k] = Ret r).
Proof.
  intros n ez ops g out d a b k W E Nd La Lb. destruct (graph_run n ez ops W) as (g1 & o1 & E1 & V).
  assert (g1 = g) as -> by (rewrite E in E1; apply Ret_inj in E1; congruence). clear E1.
  destruct V as (Ez & Ln & Lu & HV).
  destruct (g_insert_spec g d a b n Ln Lu La Lb) as (g' & Ei & Ez' & Ln' & Lu' & P).
  cbn [g_run g_step]. rewrite Ei. cbn [bind g_run g_step].
  (* the list of each node, and when it is empty *)
  assert (Q : forall i, i < n -> exists u nn, nth_error (g_updated g') i = Some u /\
     nth_error (g_nn g') i = Some (nn ++ (if a =? i then [(d, b)] else []) ++ (if b =? i then [(d, a)] else [])) /\
     (a = i \/ b = i -> u = true) /\ node_inv (edges ops i) nn).
  { intros i Li. destruct (HV i Li) as (Hu & nn & En & Hn). destruct (P i Li) as (Pu & Pn).
    exists (touched ops i || (a =? i) || (b =? i)), nn. split; [apply Pu, Hu|]. split; [apply Pn, En|]. split; [|exact Hn].
    intros [->| ->]; rewrite Nat.eqb_refl, ?orb_true_r; reflexivity. }
  assert (EM : forall es nn, node_inv es nn -> (nn = [] <-> es = [])).
  { intros es nn (_ & I & R). split; intros ->.
    - destruct es as [|[d0 j0] es]; [reflexivity|]. destruct (R d0 j0 (or_introl eq_refl)) as (e & [] & _).
    - destruct nn as [|e nn]; [reflexivity|]. destruct (I e (or_introl eq_refl)). }
  unfold g_neighborhoods, g_remove_duplicates.
  match goal with |- context [mapi_res ?f 0 (g_nn g')] => set (f1 := f) end.
  assert (F1 : forall j nn, nth_error (g_nn g') j = Some nn -> f1 (0 + j) nn = Panic \/ exists y, f1 (0 + j) nn = Ret y).
  { intros j nn Ej. assert (Lj : j < n) by (rewrite <- Ln'; apply nth_error_Some; congruence).
    destruct (Q j Lj) as (u & _ & Eu & _). unfold f1. cbn [Nat.add]. unfold get. rewrite Eu. cbn [bind].
    destruct u; [|eauto]. unfold nn_sort. destruct (_ && _); cbn [bind]; eauto. }
  split.
  - intros C. rewrite (mapi_res_panic f1 (g_nn g') 0 F1); [reflexivity|].
    assert (K : exists i, i < n /\ (a = i \/ b = i) /\ (a = b \/ edges ops i <> [])) by (destruct C as [C|[C|C]]; [exists a|exists a|exists b]; auto).
    destruct K as (i & Li & Ti & Ci). destruct (Q i Li) as (u & nn & Eu & En & Hu & Hn).
    exists i. eexists. split; [exact En|]. unfold f1. cbn [Nat.add]. unfold get. rewrite Eu, (Hu Ti). cbn [bind].
    unfold nn_sort. rewrite (proj2 (Nat.leb_le 2 _)), (proj2 (existsb_exists _ _)); [reflexivity| |].
    + assert (X : exists j, In (d, j) ((if a =? i then [(d, b)] else []) ++ (if b =? i then [(d, a)] else []))).
      { destruct Ti as [->| ->]; rewrite Nat.eqb_refl; [exists b; left; reflexivity|exists a; apply in_or_app; right; left; reflexivity]. }
      destruct X as (j & X). exists (d, j). split; [apply in_or_app; right; exact X|exact Nd].
    + rewrite app_length. destruct Ci as [->|Ne].
      * assert (b = i) as -> by (destruct Ti; assumption). rewrite Nat.eqb_refl. cbn. lia.
      * assert (nn <> []) by (intros Z; apply Ne, (EM _ _ Hn), Z). destruct nn as [|e nn]; [congruence|].
        destruct Ti as [->| ->]; rewrite Nat.eqb_refl, app_length; cbn; lia.
  - intros Nab Ea Eb. destruct (mapi_res_ok f1 (g_nn g') 0) as (l1 & E1 & L1 & P1).
    { intros j nn0 Ej. assert (Lj : j < n) by (rewrite <- Ln'; apply nth_error_Some; congruence).
      destruct (Q j Lj) as (u & nn & Eu & En & _ & Hn). rewrite Ej in En. injection En as ->.
      unfold f1. cbn [Nat.add]. unfold get. rewrite Eu. cbn [bind]. destruct u; [|eauto].
      destruct (Nat.eqb_spec a j) as [->|Naj], (Nat.eqb_spec b j) as [->|Nbj]; try lia.
      - rewrite Ea in Hn. rewrite (proj2 (EM _ _ Hn) eq_refl). cbn. eauto.
      - rewrite Eb in Hn. rewrite (proj2 (EM _ _ Hn) eq_refl). cbn. eauto.
      - cbn [app]. rewrite app_nil_r. destruct (nn_tidy nn (proj1 Hn)) as (s & -> & _). cbn [bind]. eauto. }
    rewrite E1. cbn [bind g_nn g_updated g_ez].
    match goal with |- context [mapi_res ?f 0 l1] => set (f2 := f) end.
    destruct (mapi_res_ok f2 l1 0) as (l2 & E2 & _).
    { intros j nn Ej. assert (Lj : j < n) by (rewrite <- Ln', <- L1; apply nth_error_Some; congruence).
      destruct (Q j Lj) as (u & _ & Eu & _). unfold f2. cbn [Nat.add]. unfold get. rewrite Eu. cbn [bind]. eauto. }
    rewrite E2. cbn [bind]. eauto.
Qed.
Print Assumptions c146_not_a_number.
Example c146_case :
  match g_run (g_new 30 5) ex_graph with
  | Ret (g, _) => g_run g [GInsert S754_nan 11 5; GRead 3] = Panic /\ g_run g [GInsert S754_nan 5 5; GRead 3] = Panic /\
      match g_run g [GInsert S754_nan 5 25; GRead 3] with Ret _ => True | _ => False end
  | _ => False
  end.
Proof. vm_compute. auto. Qed.
