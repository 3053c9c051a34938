(** Property theorems C18-C26 (brute-force searches).
    Specification: OverlapsSpec.v, BruteSpec.v.  Model: Brute.v. *)
From Coq Require Import Permutation Sorting.Sorted Floats.SpecFloat.
From Verif Require Import Base F64 Overlaps OverlapsSpec OverlapsProofs.
From Verif Require Import Brute BruteSpec BruteProofs MotifBfProofs.

(** distances used in the examples *)
Definition d1 : f64 := S754_finite false 1 0.
Definition d2 : f64 := S754_finite false 2 0.
Definition d3 : f64 := S754_finite false 3 0.

(** * C18: extents *)
Theorem c18_extents :
  forall (zeucl : nat -> nat -> f64) (positions : list nat),
    nonneg zeucl ->
    ((forall a b x y, a < b -> nth_error positions a = Some x -> nth_error positions b = Some y ->
        is_nan (zeucl y x) = false) ->
     exists extents, compute_extents zeucl positions = Ret extents /\
       length extents = length positions /\
       (forall i e, nth_error extents i = Some e -> max_pairwise zeucl (firstn (S i) positions) e) /\
       (forall i j e f, i <= j -> nth_error extents i = Some e -> nth_error extents j = Some f -> fle e f = true)) /\
    ((exists a b x y, a < b /\ nth_error positions a = Some x /\ nth_error positions b = Some y /\
        is_nan (zeucl y x) = true) ->
     compute_extents zeucl positions = Panic).
Proof.
  intros zeucl l Hp. split.
  - intros Hn. apply compute_extents_ok; assumption.
  - intros (a & b & x & y & L & Ea & Eb & Hd). exact (compute_extents_panic zeucl l a b x y L Ea Eb Hd).
Qed.
Print Assumptions c18_extents.
(** non-vacuity: three positions, pairwise distances 1, 3, 2 *)
Definition ex_zeucl (x y : nat) : f64 :=
  if x + y =? 9 then d1 else if x + y =? 11 then d3 else d2.
Example c18_example : nonneg ex_zeucl /\ compute_extents ex_zeucl [2; 7; 9] = Ret [f_zero; d1; d3].
Proof.
  split; [|reflexivity]. intros x y _. unfold ex_zeucl.
  destruct (_ =? _); [reflexivity|]. destruct (_ =? _); reflexivity.
Qed.

(** * Common facts on a successful run *)
Lemma max_pairwise_le (d : nat -> nat -> f64) l e e' : all_numbers d l ->
  max_pairwise d l e -> max_pairwise d l e' -> fle e e' = true.
Proof.
  intros Hn (A & B & C) (A' & B' & C'). destruct (Nat.le_gt_cases (length l) 1) as [L|L].
  - rewrite A, A' by exact L. reflexivity.
  - destruct C as (a & b & x & y & Lab & Ea & Eb & ->); [lia|]. exact (B' a b x y Lab Ea Eb).
Qed.
Section Facts.
  Variables (ts : series) (order : nat -> option (list nat)) (k ez : nat) (t : split).
  Hypothesis dpos : nonneg (s_zeucl ts).
  Hypothesis Hl : leaves t = seq 0 (s_n ts).
  Hypothesis Hord : forall from d, from < s_n ts -> distance_profile ts from = Ret d -> sort_outcome d (order from).
  Notation nb := (fun from => snd (res_of ts order k ez from)).
  Notation ext := (fun from => fst (res_of ts order k ez from)).

  Lemma ok_order from : from < s_n ts -> ok ts order k ez from ->
    Permutation (ord order from) (seq 0 (s_n ts)) /\
    (existsb is_nan (map (dp ts from) (seq 0 (s_n ts))) = false ->
     forall i j a b, i < j -> nth_error (ord order from) i = Some a -> nth_error (ord order from) j = Some b ->
       fle (dp ts from a) (dp ts from b) = true).
  Proof.
    intros L H. destruct (kx_cases ts order k ez dpos from) as [E|(_ & d & Ed & Eo & _)]; [unfold ok in H; congruence|].
    pose proof (Hord from d L Ed) as S. rewrite Eo in S. cbn [sort_outcome] in S. destruct S as [P S].
    destruct (distance_profile_cases ts from) as [E|E]; [congruence|]. rewrite Ed in E. apply Ret_inj in E. subst d.
    rewrite map_length, seq_length in P. split; [exact P|]. intros Hn i j a b Lij Ea Eb.
    assert (Ba : forall i a, nth_error (ord order from) i = Some a -> nth_error (map (dp ts from) (seq 0 (s_n ts))) a = Some (dp ts from a)).
    { intros i' a' E'. apply nth_error_In in E'. apply (Permutation_in _ P) in E'. apply in_seq in E'.
      rewrite nth_error_map. rewrite (nth_error_nth' _ 0) by (rewrite seq_length; lia). rewrite seq_nth by lia. reflexivity. }
    exact (S Hn i j a b _ _ Lij Ea Eb (Ba i a Ea) (Ba j b Eb)).
  Qed.

  Lemma nb_range from : from < s_n ts -> ok ts order k ez from -> Forall (fun x => x < s_n ts) (nb from).
  Proof.
    intros L H. destruct (ok_order from L H) as [P _]. destruct (ok_facts ts order k ez dpos from H) as (En & _).
    apply Forall_forall. intros x Hx. rewrite En in Hx. apply pick_in in Hx. destruct Hx as [[<-|[]]|Hx]; [exact L|].
    assert (Hx' : In x (ord order from)).
    { destruct (ord order from); [destruct Hx|right; exact Hx]. }
    apply (Permutation_in _ P) in Hx'. apply in_seq in Hx'. lia.
  Qed.

  Lemma nb_apart from : ok ts order k ez from -> pairwise_apart ez (nb from).
  Proof.
    intros H. destruct (ok_facts ts order k ez dpos from H) as (En & _). rewrite En. apply pick_apart.
    intros [|a] [|[|b]] x y Lab Ea Eb; try lia; discriminate.
  Qed.

  Lemma ok_numbers from s : ok ts order k ez from -> all_numbers (s_zeucl ts) (firstn s (nb from)).
  Proof.
    intros H. destruct (kx_cases ts order k ez dpos from) as [E|(_ & d & _ & _ & _ & _ & Hn)]; [unfold ok in H; congruence|].
    intros a b x y L Ea Eb.
    assert (b < s).
    { assert (b < length (firstn s (nb from))) by (apply nth_error_Some; congruence). rewrite firstn_length in *. lia. }
    rewrite nth_error_firstn in Ea, Eb by lia. exact (Hn a b x y L Ea Eb).
  Qed.

  Variable r : list (f64 * list nat).
  Hypothesis Er : brute_force_motiflets ts order k ez t = Ret r.
  Lemma all_ok from : from < s_n ts -> ok ts order k ez from.
  Proof. intros L. destruct (brute_inv ts order k ez dpos t r Er) as [Ho _]. apply Ho. rewrite Hl. apply in_seq. lia. Qed.

  Lemma entry_inv p : In p r -> exists i from, 1 <= i < k /\ from < s_n ts /\ i < length (ext from) /\
     p = best ts order k ez i (seq 0 (s_n ts)) /\
     p = (nth i (ext from) f_zero, firstn (i + 1) (nb from)) /\ is_finite (fst p) = true.
  Proof.
    intros Hp. destruct (brute_inv ts order k ez dpos t r Er) as [Ho E]. rewrite E in Hp.
    apply filter_In in Hp. destruct Hp as [Hp Hf]. apply in_map_iff in Hp. destruct Hp as (i & Ei & Hi).
    apply in_seq in Hi. rewrite Hl in Ho, Ei.
    destruct (best_spec ts order k ez dpos i (seq 0 (s_n ts)) Ho) as [_ [B|(from & Hfrom & L & B & _)]].
    - subst p. rewrite B in Hf. discriminate.
    - exists i, from. apply in_seq in Hfrom. repeat split; try lia; try assumption; congruence.
  Qed.
  Lemma entry_support i from : from < s_n ts -> i < length (ext from) -> length (firstn (i + 1) (nb from)) = i + 1.
  Proof.
    intros L Li. destruct (ok_facts ts order k ez dpos from (all_ok from L)) as (_ & Le & _).
    rewrite firstn_length. lia.
  Qed.
  Lemma entry_exists i from : 1 <= i < k -> from < s_n ts -> i < length (ext from) ->
    is_finite (nth i (ext from) f_zero) = true ->
    In (best ts order k ez i (seq 0 (s_n ts))) r /\ length (snd (best ts order k ez i (seq 0 (s_n ts)))) = i + 1.
  Proof.
    intros Hi L Li Hf. destruct (brute_inv ts order k ez dpos t r Er) as [Ho E]. rewrite Hl in Ho, E.
    destruct (best_spec ts order k ez dpos i (seq 0 (s_n ts)) Ho) as [A B].
    assert (Hfr : In from (seq 0 (s_n ts))) by (apply in_seq; lia).
    pose proof (A from Hfr Li) as Af.
    destruct B as [B|(y & Hy & Ly & B & C)].
    - rewrite B in Af. cbn [fst id_entry] in Af. exfalso. destruct (nth i (ext from) f_zero); cbn in *; try discriminate; destruct s; discriminate.
    - apply in_seq in Hy. split.
      + rewrite E. apply filter_In. split; [apply in_map_iff; exists i; split; [reflexivity|apply in_seq; lia]|]. rewrite B. cbn [fst].
        destruct (ext_nth_facts ts order k ez dpos y i (all_ok y ltac:(lia)) Ly) as (N1 & N2 & _).
        destruct (nth i (ext y) f_zero) as [s|s| |s m e]; cbn in *; try discriminate; try reflexivity; destruct s; discriminate.
      + rewrite B. cbn [snd]. apply (entry_support i y); [lia|exact Ly].
  Qed.
End Facts.

(** * C19: validity *)
Theorem c19_motiflets_valid :
  forall (ts : series) (order : nat -> option (list nat)) (k ez : nat) (t : split) (motiflets : list (f64 * list nat)),
    nonneg (s_zeucl ts) ->
    (forall from d, from < s_n ts -> distance_profile ts from = Ret d -> sort_outcome d (order from)) ->
    leaves t = seq 0 (s_n ts) ->
    brute_force_motiflets ts order k ez t = Ret motiflets ->
    (forall extent positions, In (extent, positions) motiflets ->
       2 <= length positions <= k /\
       Forall (fun x => x < s_n ts) positions /\
       pairwise_apart ez positions /\
       is_finite extent = true /\
       max_pairwise (s_zeucl ts) positions extent) /\
    (forall i j ei ej pi pj, i < j ->
       nth_error motiflets i = Some (ei, pi) -> nth_error motiflets j = Some (ej, pj) ->
       length pi < length pj /\ fle ei ej = true).
Proof.
  intros ts order k ez t r dpos Hord Hl Er. split.
  - intros e l Hin. destruct (entry_inv ts order k ez t dpos Hl Hord r Er _ Hin) as (i & from & Hi & Lf & Li & _ & Ep & Hf).
    injection Ep as Ee El. cbn [fst] in Hf. pose proof (all_ok ts order k ez t dpos Hl Hord r Er from Lf) as Ho.
    assert (Len : length l = i + 1) by (rewrite El; eapply entry_support; eauto).
    split; [lia|]. split.
    + rewrite Forall_forall. intros x Hx. pose proof (nb_range ts order k ez dpos Hord from Lf Ho) as R.
      rewrite Forall_forall in R. apply R. rewrite El in Hx. eapply In_firstn_in; eauto.
    + split; [|split; [exact Hf|]].
      * pose proof (nb_apart ts order k ez dpos Hord from Ho) as Ap. rewrite El. intros a b x y Lab Ea Eb.
        assert (b < i + 1).
        { assert (b < length (firstn (i + 1) (snd (res_of ts order k ez from)))) by (apply nth_error_Some; congruence).
          rewrite firstn_length in *. lia. }
        rewrite nth_error_firstn in Ea, Eb by lia. exact (Ap a b x y Lab Ea Eb).
      * rewrite El, Ee. replace (i + 1) with (S i) by lia. apply (ext_nth_facts ts order k ez dpos from i Ho Li).
  - (* order *)
    intros a b ea eb pa pb Lab Ea Eb.
    destruct (brute_inv ts order k ez dpos t r Er) as [Ho E]. rewrite Hl in Ho, E.
    assert (G : forall m s, (forall i, s <= i < s + m -> 1 <= i < k) ->
      StronglySorted (fun p q : f64 * list nat => length (snd p) < length (snd q) /\ fle (fst p) (fst q) = true)
        (filter (fun p : f64 * list nat => is_finite (fst p)) (map (fun i => best ts order k ez i (seq 0 (s_n ts))) (seq s m)))).
    { induction m as [|m IH]; intros s Hs; cbn [seq map filter]; [constructor|].
      assert (IH' := IH (S s) ltac:(intros; apply Hs; lia)).
      destruct (is_finite (fst (best ts order k ez s (seq 0 (s_n ts))))) eqn:F; [|exact IH'].
      constructor; [exact IH'|]. apply Forall_forall. intros q Hq. apply filter_In in Hq. destruct Hq as [Hq Fq].
      apply in_map_iff in Hq. destruct Hq as (i & Ei & Hi). apply in_seq in Hi.
      destruct (best_spec ts order k ez dpos s (seq 0 (s_n ts)) Ho) as [A B].
      destruct (best_spec ts order k ez dpos i (seq 0 (s_n ts)) Ho) as [_ Bi].
      destruct B as [B|(x & Hx & Lx & B & _)]; [rewrite B in F; discriminate|].
      destruct Bi as [Bi|(y & Hy & Ly & Bi & _)]; [rewrite Ei in Bi; rewrite Bi in Fq; discriminate|].
      rewrite Ei in Bi. apply in_seq in Hx, Hy. pose proof (Ho y ltac:(apply in_seq; lia)) as Oy.
      destruct (ok_facts ts order k ez dpos y Oy) as (_ & _ & _ & _ & Mono).
      split.
      - rewrite B, Bi. cbn [snd].
        rewrite (entry_support ts order k ez t dpos Hl Hord r Er s x ltac:(lia) Lx).
        rewrite (entry_support ts order k ez t dpos Hl Hord r Er i y ltac:(lia) Ly). lia.
      - assert (Ls : s < length (fst (res_of ts order k ez y))) by lia.
        pose proof (A y ltac:(apply in_seq; lia) Ls) as A1. rewrite Bi. cbn [fst].
        refine (fle_trans _ _ _ A1 (Mono s i _ _ _ _ _)); [lia| |]; apply nth_error_nth'; lia. }
    specialize (G (k - 1) 1 ltac:(intros; lia)). rewrite <- E in G.
    clear - G Lab Ea Eb. revert a b Lab Ea Eb. induction G as [|p l S IH F]; intros a b Lab Ea Eb.
    + destruct a; discriminate.
    + destruct b as [|b]; [lia|]. cbn in Eb. destruct a as [|a].
      * cbn in Ea. injection Ea as ->. rewrite Forall_forall in F. apply nth_error_In in Eb. exact (F _ Eb).
      * cbn in Ea. exact (IH a b ltac:(lia) Ea Eb).
Qed.
Print Assumptions c19_motiflets_valid.

(** three windows far from each other; the first two are at distance 1 *)
Definition ex_d (x y : nat) : f64 := if x + y =? 1 then d1 else if x + y =? 2 then d2 else d3.
Definition ex_series : series := Series 3 (fun _ => false) ex_d ex_d.
Definition ex_order (from : nat) : option (list nat) :=
  match from with 0 => Some [0; 1; 2] | 1 => Some [1; 0; 2] | _ => Some [2; 0; 1] end.
Lemma ex_nonneg : nonneg ex_d.
Proof. intros x y _. unfold ex_d. destruct (_ =? _); [reflexivity|]. destruct (_ =? _); reflexivity. Qed.
(** a computable check of [sort_outcome] *)
Lemma sort_outcome_check d o :
  (length o =? length d) && forallb (fun i => existsb (Nat.eqb i) o) (seq 0 (length d)) &&
  forallb (fun i => forallb (fun j => negb (i <? j) || fle (nth (nth i o 0) d f_zero) (nth (nth j o 0) d f_zero))
     (seq 0 (length o))) (seq 0 (length o)) = true -> sort_outcome d (Some o).
Proof.
  intros C. apply andb_true_iff in C. destruct C as [C1 C]. apply andb_true_iff in C1. destruct C1 as [C1 C2].
  apply Nat.eqb_eq in C1. rewrite forallb_forall in C2. split.
  { symmetry. apply NoDup_Permutation_bis; [apply seq_NoDup|rewrite seq_length; lia|]. intros i Hi. apply C2 in Hi.
    apply existsb_exists in Hi. destruct Hi as (y & Hy & E). apply Nat.eqb_eq in E. subst y. exact Hy. }
  intros _ i j a b x y L Ea Eb Ex Ey.
  rewrite forallb_forall in C.
  assert (Li : i < length o) by (apply nth_error_Some; congruence).
  assert (Lj : j < length o) by (apply nth_error_Some; congruence).
  specialize (C i ltac:(apply in_seq; lia)). rewrite forallb_forall in C. specialize (C j ltac:(apply in_seq; lia)).
  destruct (Nat.ltb_spec i j); [|lia]. cbn [negb orb] in C.
  rewrite (nth_error_nth _ _ _ Ea), (nth_error_nth _ _ _ Eb), (nth_error_nth _ _ _ Ex), (nth_error_nth _ _ _ Ey) in C. exact C.
Qed.
Tactic Notation "outcome_tac" integer(n) :=
  let from := fresh in let d := fresh in let L := fresh in let E := fresh in
  intros from d L E;
  do n (destruct from as [|from];
    [vm_compute in E; apply Ret_inj in E; subst d; apply sort_outcome_check; vm_compute; reflexivity|]);
  exfalso; cbn in L; lia.
Lemma ex_order_ok : forall from d, from < s_n ex_series -> distance_profile ex_series from = Ret d ->
  sort_outcome d (ex_order from).
Proof. outcome_tac 3. Qed.
Example c19_example :
  brute_force_motiflets ex_series ex_order 3 1 (Node (Leaf [0]) (Leaf [1; 2])) = Ret [(d1, [0; 1]); (d3, [0; 1; 2])] /\
  nonneg (s_zeucl ex_series) /\ leaves (Node (Leaf [0]) (Leaf [1; 2])) = seq 0 (s_n ex_series).
Proof. split; [reflexivity|]. split; [exact ex_nonneg|reflexivity]. Qed.

(** * C20: minimal extents *)
(** the distance from window [i] to window [j] (flat windows are excluded below) *)
Definition distance_from (ts : series) (i j : nat) : f64 := if j =? i then f_zero else s_raw ts i j.

(** Missing from the full property: the neighbourhoods do not range over all the
    other windows.  One window at minimal distance from [from], the first of the
    sorted order, is never a candidate ([skipped]); see C23. *)
Theorem c20_minimal_extent_partial :
  forall (ts : series) (order : nat -> option (list nat)) (k ez : nat) (t : split) (motiflets : list (f64 * list nat)),
    nonneg (s_zeucl ts) -> 0 < ez ->
    (forall i, i < s_n ts -> s_flat ts i = false) ->
    (forall from d, from < s_n ts -> distance_profile ts from = Ret d -> sort_outcome d (order from)) ->
    leaves t = seq 0 (s_n ts) ->
    brute_force_motiflets ts order k ez t = Ret motiflets ->
    exists (neighbourhood : nat -> list nat) (skipped : nat -> nat),
      (forall from, from < s_n ts ->
         skipped from < s_n ts /\
         (forall z, z < s_n ts -> fle (distance_from ts from (skipped from)) (distance_from ts from z) = true) /\
         greedy_neighbourhood (distance_from ts from) (fun z => z < s_n ts /\ z <> skipped from) ez k from
           (neighbourhood from)) /\
      (forall s, 2 <= s <= k ->
         ((exists e l, In (e, l) motiflets /\ length l = s) <->
          (exists from e, from < s_n ts /\ s <= length (neighbourhood from) /\
             max_pairwise (s_zeucl ts) (firstn s (neighbourhood from)) e /\ is_finite e = true)) /\
         (forall e l, In (e, l) motiflets -> length l = s ->
            (exists from, from < s_n ts /\ s <= length (neighbourhood from) /\ l = firstn s (neighbourhood from)) /\
            (forall from e', from < s_n ts -> s <= length (neighbourhood from) ->
               max_pairwise (s_zeucl ts) (firstn s (neighbourhood from)) e' -> fle e e' = true))).
Proof.
  intros ts order k ez t r dpos Hez Hflat Hord Hl Er.
  exists (fun from => snd (res_of ts order k ez from)), (fun from => hd 0 (ord order from)).
  assert (Ho := all_ok ts order k ez t dpos Hl Hord r Er).
  split.
  - intros from L. specialize (Ho from L). destruct (ok_order ts order k ez dpos Hord from L Ho) as [P S].
    assert (Hn : existsb is_nan (map (dp ts from) (seq 0 (s_n ts))) = false).
    { destruct (existsb is_nan (map (dp ts from) (seq 0 (s_n ts)))) eqn:E; [|reflexivity]. exfalso.
      apply existsb_exists in E. destruct E as (v & Hv & Nv). apply in_map_iff in Hv. destruct Hv as (z & Ez & Hz).
      apply in_seq in Hz. destruct (kx_cases ts order k ez dpos from) as [E'|(_ & d & Ed & _)]; [unfold ok in Ho; congruence|].
      pose proof (distance_profile_numbers ts from d Ed z ltac:(lia) (Hflat z ltac:(lia))). congruence. }
    specialize (S Hn).
    assert (D : forall z, z < s_n ts -> dp ts from z = distance_from ts from z).
    { intros z Lz. unfold dp, distance_from. rewrite (Hflat z Lz). reflexivity. }
    assert (Nz : forall z, z < s_n ts -> is_nan (distance_from ts from z) = false).
    { intros z Lz. rewrite <- D by exact Lz. destruct (is_nan (dp ts from z)) eqn:E; [|reflexivity].
      exfalso. assert (X : existsb is_nan (map (dp ts from) (seq 0 (s_n ts))) = true); [|congruence].
      apply existsb_exists. exists (dp ts from z). split; [apply in_map, in_seq; lia|exact E]. }
    assert (Ir : forall z, In z (ord order from) <-> z < s_n ts).
    { intros z. split; intros H.
      - apply (Permutation_in _ P) in H. apply in_seq in H. lia.
      - apply (Permutation_in _ (Permutation_sym P)). apply in_seq. lia. }
    assert (Nd : NoDup (ord order from)) by (eapply Permutation_NoDup; [symmetry; exact P|apply seq_NoDup]).
    destruct (ord order from) as [|h o] eqn:Eo.
    { exfalso. destruct (Ir from) as [_ I]. apply (I L). }
    cbn [hd]. split; [apply Ir; left; reflexivity|]. split.
    + intros z Lz. pose proof (proj2 (Ir z) Lz) as Hz. apply In_nth_error in Hz. destruct Hz as (j & Ej).
      assert (Lh : h < s_n ts) by (apply Ir; left; reflexivity).
      destruct j as [|j].
      * cbn in Ej. injection Ej as <-. apply fle_refl. exact (Nz h Lh).
      * rewrite <- (D h Lh), <- (D z Lz). exact (S 0 (Datatypes.S j) h z ltac:(lia) eq_refl Ej).
    + destruct (ok_facts ts order k ez dpos from Ho) as (En & _). cbn beta. rewrite En, Eo. cbn [skipn].
      apply NoDup_cons_iff in Nd. destruct Nd as [Nh Nd].
      apply pick_greedy; try assumption.
      * intros z Hz. split; [apply Ir; right; exact Hz|]. intros ->. contradiction.
      * intros i j a b Lij Ea Eb. rewrite <- !D by (apply Ir; right; eapply nth_error_In; eauto).
        exact (S (Datatypes.S i) (Datatypes.S j) a b ltac:(lia) Ea Eb).
      * intros z [Lz _]. apply Nz, Lz.
      * reflexivity.
      * intros [|i] x E; discriminate.
      * cbn. lia.
      * intros z [Lz Nz']. left. apply Ir in Lz. destruct Lz as [<-|Lz]; [congruence|exact Lz].
  - intros s Hs. split.
    + split.
      * intros (e & l & Hin & Hlen). destruct (entry_inv ts order k ez t dpos Hl Hord r Er _ Hin) as (i & from & Hi & Lf & Li & _ & Ep & Hf).
        injection Ep as Ee El. pose proof (entry_support ts order k ez t dpos Hl Hord r Er i from Lf Li) as Ls.
        cbn beta in Ls. rewrite <- El in Ls.
        destruct (ok_facts ts order k ez dpos from (Ho from Lf)) as (_ & Le & _).
        exists from, e. cbn beta. split; [exact Lf|]. split; [lia|]. split; [|exact Hf].
        replace s with (S i) by lia. rewrite Ee. apply (ext_nth_facts ts order k ez dpos from i (Ho from Lf) Li).
      * intros (from & e & Lf & Ls & M & Fe). destruct (ok_facts ts order k ez dpos from (Ho from Lf)) as (_ & Le & _).
        assert (Li : s - 1 < length (fst (res_of ts order k ez from))) by lia.
        destruct (ext_nth_facts ts order k ez dpos from (s - 1) (Ho from Lf) Li) as (N1 & N2 & M').
        replace (S (s - 1)) with s in M' by lia.
        destruct (entry_exists ts order k ez t dpos Hl Hord r Er (s - 1) from ltac:(lia) Lf Li) as [I1 I2].
        { pose proof (max_pairwise_le _ _ _ _ (ok_numbers ts order k ez dpos Hord from s (Ho from Lf)) M' M) as C.
          destruct (nth (s - 1) (fst (res_of ts order k ez from)) f_zero) as [sg|sg| |sg m x]; cbn in *; try reflexivity; try discriminate.
          destruct sg; [discriminate|]. destruct e as [se|se| |se me xe]; cbn in *; try discriminate; destruct se; discriminate. }
        destruct (best ts order k ez (s - 1) (seq 0 (s_n ts))) as [e' l']. exists e', l'. split; [exact I1|]. cbn [snd] in I2. lia.
    + intros e l Hin Hlen. destruct (entry_inv ts order k ez t dpos Hl Hord r Er _ Hin) as (i & from & Hi & Lf & Li & Eb & Ep & Hf).
      pose proof (entry_support ts order k ez t dpos Hl Hord r Er i from Lf Li) as Ls. cbn beta in Ls.
      assert (El : l = firstn (i + 1) (snd (res_of ts order k ez from))) by congruence.
      rewrite <- El in Ls. assert (Es : s = i + 1) by lia. clear Hlen. subst s.
      split.
      * exists from. split; [exact Lf|]. split; [|exact El].
        destruct (ok_facts ts order k ez dpos from (Ho from Lf)) as (_ & Le & _). lia.
      * intros y e' Ly Lsy M. cbn beta in Lsy, M.
        destruct (ok_facts ts order k ez dpos y (Ho y Ly)) as (_ & Le & _).
        assert (Hall : forall x, In x (seq 0 (s_n ts)) -> ok ts order k ez x) by (intros x Hx; apply in_seq in Hx; apply Ho; lia).
        destruct (best_spec ts order k ez dpos i (seq 0 (s_n ts)) Hall) as [A _].
        rewrite <- Eb in A. cbn [fst] in A.
        specialize (A y ltac:(apply in_seq; lia) ltac:(lia)).
        destruct (ext_nth_facts ts order k ez dpos y i (Ho y Ly) ltac:(lia)) as (_ & _ & M').
        replace (S i) with (i + 1) in M' by lia.
        pose proof (max_pairwise_le _ _ _ _ (ok_numbers ts order k ez dpos Hord y (i + 1) (Ho y Ly)) M' M) as C.
        exact (fle_trans _ _ _ A C).
Qed.
Print Assumptions c20_minimal_extent_partial.

(** When no two windows that do not overlap are at distance 0, the neighbourhoods do
    range over all windows. *)
Theorem c20_no_repeats_partial :
  forall (ts : series) (order : nat -> option (list nat)) (k ez : nat) (t : split) (motiflets : list (f64 * list nat)),
    nonneg (s_zeucl ts) -> nonneg (s_raw ts) -> 0 < ez ->
    (forall i, i < s_n ts -> s_flat ts i = false) ->
    (forall i j, i < s_n ts -> j < s_n ts -> ~ too_close ez i j -> flt f_zero (s_raw ts i j) = true) ->
    (forall from d, from < s_n ts -> distance_profile ts from = Ret d -> sort_outcome d (order from)) ->
    leaves t = seq 0 (s_n ts) ->
    brute_force_motiflets ts order k ez t = Ret motiflets ->
    exists (neighbourhood : nat -> list nat),
      (forall from, from < s_n ts ->
         greedy_neighbourhood (distance_from ts from) (fun z => z < s_n ts) ez k from (neighbourhood from)) /\
      (forall s, 2 <= s <= k ->
         ((exists e l, In (e, l) motiflets /\ length l = s) <->
          (exists from e, from < s_n ts /\ s <= length (neighbourhood from) /\
             max_pairwise (s_zeucl ts) (firstn s (neighbourhood from)) e /\ is_finite e = true)) /\
         (forall e l, In (e, l) motiflets -> length l = s ->
            (exists from, from < s_n ts /\ s <= length (neighbourhood from) /\ l = firstn s (neighbourhood from)) /\
            (forall from e', from < s_n ts -> s <= length (neighbourhood from) ->
               max_pairwise (s_zeucl ts) (firstn s (neighbourhood from)) e' -> fle e e' = true))).
Proof.
  intros ts order k ez t r dpos rpos Hez Hflat Hrep Hord Hl Er.
  destruct (c20_minimal_extent_partial ts order k ez t r dpos Hez Hflat Hord Hl Er) as (nb & sk & A & B).
  exists nb. split; [|exact B]. intros from L. destruct (A from L) as (Ls & Lo & G0 & G1 & G2 & G3).
  assert (T : too_close ez (sk from) from).
  { destruct (overlaps (sk from) from ez) eqn:O; [apply overlaps_spec; exact O|]. exfalso.
    assert (N : ~ too_close ez (sk from) from) by (rewrite <- overlaps_spec; congruence).
    assert (N' : ~ too_close ez from (sk from)) by (unfold too_close in *; lia).
    assert (Ne : sk from <> from) by (intros E; apply N; rewrite E; unfold too_close; lia).
    pose proof (Hrep from (sk from) L Ls N') as R. specialize (Lo from L). unfold distance_from in Lo.
    rewrite Nat.eqb_refl in Lo. apply Nat.eqb_neq in Ne. rewrite Ne in Lo. f64_tac. }
  assert (H0 : forall i, In from (firstn (S i) (nb from))).
  { intros i. destruct (nb from) as [|h l]; [discriminate|]. cbn in G0. injection G0 as ->. left. reflexivity. }
  split; [exact G0|]. split; [|split; [exact G2|]].
  - intros i x E. destruct (G1 i x E) as ((Lx & _) & F & M). split; [exact Lx|]. split; [exact F|].
    intros z Lz Fz. apply M; [|exact Fz]. split; [exact Lz|]. intros ->. exact (Fz from (H0 i) T).
  - intros Lk z Lz. destruct (Nat.eq_dec z (sk from)) as [->|Ne]; [|apply G3; auto].
    exists from. split; [eapply In_firstn_in, (H0 0)|exact T].
Qed.
Print Assumptions c20_no_repeats_partial.
Example c20_example :
  brute_force_motiflets ex_series ex_order 3 1 (Leaf [0; 1; 2]) = Ret [(d1, [0; 1]); (d3, [0; 1; 2])] /\
  nonneg (s_zeucl ex_series) /\ nonneg (s_raw ex_series) /\
  (forall i j, i < s_n ex_series -> j < s_n ex_series -> ~ too_close 1 i j -> flt f_zero (s_raw ex_series i j) = true) /\
  (forall from d, from < s_n ex_series -> distance_profile ex_series from = Ret d -> sort_outcome d (ex_order from)).
Proof.
  split; [reflexivity|]. split; [exact ex_nonneg|]. split; [exact ex_nonneg|]. split; [|exact ex_order_ok].
  intros i j _ _ _. cbn [ex_series s_raw]. unfold ex_d. destruct (_ =? _); [reflexivity|]. destruct (_ =? _); reflexivity.
Qed.

(** * C21: the schedule does not matter *)
Theorem c21_schedule_independent :
  forall (ts : series) (order : nat -> option (list nat)) (k ez : nat) (t : split),
    nonneg (s_zeucl ts) ->
    leaves t = seq 0 (s_n ts) ->
    brute_force_motiflets ts order k ez t = brute_force_motiflets ts order k ez (Leaf (seq 0 (s_n ts))).
Proof.
  intros ts order k ez t dpos Hl.
  destruct (all_ok_dec ts order k ez dpos (seq 0 (s_n ts))) as [Ho|Hp].
  - destruct (run_split_ok ts order k ez dpos t) as (m & E & Lm & Nm); [rewrite Hl; exact Ho|].
    destruct (run_split_ok ts order k ez dpos (Leaf (seq 0 (s_n ts)))) as (m' & E' & Lm' & Nm'); [exact Ho|].
    unfold brute_force_motiflets. rewrite E, E'. cbn [bind]. f_equal. f_equal.
    apply (nth_ext _ _ id_entry id_entry); [lia|]. intros i _. rewrite Nm, Nm', Hl. reflexivity.
  - unfold brute_force_motiflets.
    rewrite (run_split_panic ts order k ez dpos t) by (rewrite Hl; exact Hp).
    rewrite (run_split_panic ts order k ez dpos (Leaf (seq 0 (s_n ts)))) by exact Hp. reflexivity.
Qed.
Print Assumptions c21_schedule_independent.
Example c21_example :
  brute_force_motiflets ex_series ex_order 3 1 (Node (Node (Leaf [0]) (Leaf [])) (Leaf [1; 2])) = Ret [(d1, [0; 1]); (d3, [0; 1; 2])] /\
  leaves (Node (Node (Leaf [0]) (Leaf [])) (Leaf [1; 2])) = seq 0 (s_n ex_series).
Proof. split; reflexivity. Qed.

(** * C22: flat windows *)
(** the insertion sort used by the standard library for short slices, comparing with [<];
    the first argument is the part already sorted, in reverse *)
Fixpoint insert_tail (d : nat -> f64) (x : nat) (sorted : list nat) : list nat :=
  match sorted with
  | [] => [x]
  | y :: t => if flt (d x) (d y) then y :: insert_tail d x t else x :: y :: t
  end.
Definition insertion_sort (d : nat -> f64) (n : nat) : list nat :=
  rev (fold_left (fun l x => insert_tail d x l) (seq 0 n) []).

(** A series with two windows that are not flat and do not overlap, and a flat one: the
    search aborts, whatever the schedule, also when its sort is a plain insertion sort. *)
Theorem c22_flat_refuted :
  exists (ts : series) (order : nat -> option (list nat)) (k ez i j : nat),
    (i < s_n ts /\ j < s_n ts /\ ~ too_close ez i j /\ s_flat ts i = false /\ s_flat ts j = false) /\
    (forall x y, x < s_n ts -> y < s_n ts -> s_flat ts x = false -> s_flat ts y = false ->
       is_nan (s_raw ts x y) = false /\ is_nan (s_zeucl ts x y) = false) /\
    nonneg (s_zeucl ts) /\
    (forall from d, from < s_n ts -> distance_profile ts from = Ret d ->
       sort_outcome d (order from) /\ order from = Some (insertion_sort (fun z => nth z d f_nan) (s_n ts))) /\
    (forall t, leaves t = seq 0 (s_n ts) -> brute_force_motiflets ts order k ez t = Panic).
Proof.
  set (z := fun x y : nat => if (x =? 2) || (y =? 2) then f_nan else d1).
  set (o := fun from => match from with 0 => Some [0; 1; 2] | 1 => Some [1; 0; 2] | _ => Some [2; 0; 1] end).
  set (ts := Series 3 (fun i => i =? 2) (fun _ _ => d1) z).
  exists ts, o, 3, 1, 0, 1.
  assert (P : nonneg (s_zeucl ts)).
  { intros x y. cbn [ts s_zeucl]. unfold z. destruct (_ || _); [discriminate|reflexivity]. }
  split; [repeat split; cbn; try lia; unfold too_close; lia|]. split.
  - intros x y _ _ Fx Fy. cbn [ts s_flat] in Fx, Fy. cbn [ts s_raw s_zeucl]. unfold z. rewrite Fx, Fy. split; reflexivity.
  - split; [exact P|]. split.
    + intros from d L E. do 3 (destruct from as [|from];
        [vm_compute in E; apply Ret_inj in E; subst d; split;
          [split; [symmetry; apply NoDup_Permutation_bis; [apply seq_NoDup|cbn; lia|intros x Hx; cbn in *; tauto]
            |intros H; first [vm_compute in H; discriminate
               | apply (proj2 (sort_outcome_check [d1; d1; f_zero] [2; 0; 1] eq_refl) H)]]
          |reflexivity]|]). cbn in L. lia.
    + intros t Hl. rewrite (c21_schedule_independent ts o 3 1 t P Hl). reflexivity.
Qed.
Print Assumptions c22_flat_refuted.

(** Without flat windows the search returns.  Missing: series with flat windows. *)
Theorem c22_no_flat_partial :
  forall (ts : series) (order : nat -> option (list nat)) (k ez : nat) (t : split),
    nonneg (s_zeucl ts) ->
    (forall i, i < s_n ts -> s_flat ts i = false) ->
    (forall x y, x < s_n ts -> y < s_n ts -> (x <> y -> is_nan (s_raw ts x y) = false) /\ is_nan (s_zeucl ts x y) = false) ->
    (forall from d, from < s_n ts -> distance_profile ts from = Ret d -> sort_outcome d (order from)) ->
    leaves t = seq 0 (s_n ts) ->
    exists motiflets, brute_force_motiflets ts order k ez t = Ret motiflets.
Proof.
  intros ts order k ez t dpos Hflat Hnum Hord Hl.
  destruct (run_split_ok ts order k ez dpos t) as (m & E & _).
  - intros from Hf. rewrite Hl in Hf. apply in_seq in Hf. assert (L : from < s_n ts) by lia. clear Hf.
    assert (Ed : distance_profile ts from = Ret (map (dp ts from) (seq 0 (s_n ts)))).
    { apply distance_profile_ok. intros i Li Ni _. apply Hnum; auto. }
    pose proof (Hord from _ L Ed) as S.
    destruct (kx_cases ts order k ez dpos from) as [Ep|[Hx _]]; [|exact Hx]. exfalso.
    unfold k_extents_bf in Ep. rewrite Ed in Ep. cbn [bind] in Ep.
    destruct (order from) as [o|] eqn:Eo; cbn [sort_indices bind sort_outcome] in *.
    + destruct S as [P _]. rewrite map_length, seq_length in P.
      destruct (compute_extents_ok (s_zeucl ts) dpos (pick k ez [from] (skipn 1 o))) as (e & Ee & _).
      * assert (R : forall x, In x (pick k ez [from] (skipn 1 o)) -> x < s_n ts).
        { intros x Hx. apply pick_in in Hx. destruct Hx as [[<-|[]]|Hx]; [exact L|].
          assert (Hx' : In x o) by (destruct o; [destruct Hx|right; exact Hx]).
          apply (Permutation_in _ P) in Hx'. apply in_seq in Hx'. lia. }
        intros a b x y _ Ea Eb. apply nth_error_In in Ea, Eb. apply Hnum; apply R; assumption.
      * rewrite Ee in Ep. discriminate.
    + apply existsb_exists in S. destruct S as (v & Hv & Nv). apply in_map_iff in Hv. destruct Hv as (y & Ey & Hy).
      apply in_seq in Hy. unfold dp in Ey. rewrite Hflat in Ey by lia. destruct (Nat.eqb_spec y from) as [Q|Q]; subst v; [discriminate|].
      rewrite (proj1 (Hnum from y L ltac:(lia))) in Nv by congruence. discriminate.
  - unfold brute_force_motiflets. rewrite E. cbn [bind]. eauto.
Qed.
Print Assumptions c22_no_flat_partial.
Example c22_example :
  nonneg (s_zeucl ex_series) /\ (forall i, i < s_n ex_series -> s_flat ex_series i = false) /\
  (forall x y, x < s_n ex_series -> y < s_n ex_series ->
     (x <> y -> is_nan (s_raw ex_series x y) = false) /\ is_nan (s_zeucl ex_series x y) = false) /\
  (forall from d, from < s_n ex_series -> distance_profile ex_series from = Ret d -> sort_outcome d (ex_order from)).
Proof.
  split; [exact ex_nonneg|]. split; [reflexivity|]. split; [|exact ex_order_ok].
  intros x y _ _. cbn [ex_series s_raw s_zeucl]. unfold ex_d.
  destruct (_ =? _); [split; reflexivity|]. destruct (_ =? _); split; reflexivity.
Qed.

(** * C23: exact repeats *)
(** Two identical windows that do not overlap.  Searching from window 1 with an insertion
    sort does not find window 0, and with another order allowed by the unstable sort the
    whole search returns nothing, on any schedule. *)
Theorem c23_repeats_refuted :
  exists (ts : series) (by_insertion other : nat -> option (list nat)) (k ez : nat),
    nonneg (s_zeucl ts) /\ s_n ts = 2 /\ (forall i, s_flat ts i = false) /\ 2 <= k /\ ~ too_close ez 1 0 /\
    s_raw ts 1 0 = f_zero /\ s_raw ts 0 1 = f_zero /\
    s_zeucl ts 1 0 = f_zero /\ s_zeucl ts 0 1 = f_zero /\
    (forall from d, from < s_n ts -> distance_profile ts from = Ret d ->
       sort_outcome d (by_insertion from) /\ by_insertion from = Some (insertion_sort (fun z => nth z d f_nan) (s_n ts)) /\
       sort_outcome d (other from)) /\
    (exists extents, k_extents_bf ts by_insertion k ez 1 = Ret (extents, [1])) /\
    (forall t, leaves t = seq 0 (s_n ts) -> brute_force_motiflets ts other k ez t = Ret []).
Proof.
  set (ts := Series 2 (fun _ => false) (fun _ _ => f_zero) (fun _ _ => f_zero)).
  set (o1 := fun from : nat => Some [0; 1]).
  set (o2 := fun from => match from with 0 => Some [1; 0] | _ => Some [0; 1] end).
  exists ts, o1, o2, 2, 1. assert (P : nonneg (s_zeucl ts)) by (intros x y _; reflexivity).
  split; [exact P|]. split; [reflexivity|]. split; [reflexivity|]. split; [lia|]. split; [unfold too_close; lia|].
  do 4 (split; [reflexivity|]). split.
  - intros from d L E. do 2 (destruct from as [|from];
      [vm_compute in E; apply Ret_inj in E; subst d; split;
        [apply sort_outcome_check; vm_compute; reflexivity|split; [reflexivity|apply sort_outcome_check; vm_compute; reflexivity]]|]).
    cbn in L. lia.
  - split; [exists [f_zero]; reflexivity|].
    intros t Hl. rewrite (c21_schedule_independent ts o2 2 1 t P Hl). reflexivity.
Qed.
Print Assumptions c23_repeats_refuted.

(** * C20 is false when windows repeat *)
(** Two windows at distance 0, sorted the other way round by the unstable sort: the pair is
    the nearest neighbourhood of both, and nothing is returned. *)
Theorem c20_minimal_extent_refuted :
  exists (ts : series) (order : nat -> option (list nat)) (k ez from s : nat) (neighbourhood : list nat) (e : f64),
    nonneg (s_zeucl ts) /\ nonneg (s_raw ts) /\ 0 < ez /\ (forall i, i < s_n ts -> s_flat ts i = false) /\
    (forall from d, from < s_n ts -> distance_profile ts from = Ret d -> sort_outcome d (order from)) /\
    from < s_n ts /\ 2 <= s <= k /\
    greedy_neighbourhood (distance_from ts from) (fun z => z < s_n ts) ez k from neighbourhood /\
    s <= length neighbourhood /\ max_pairwise (s_zeucl ts) (firstn s neighbourhood) e /\ is_finite e = true /\
    (forall t, leaves t = seq 0 (s_n ts) -> brute_force_motiflets ts order k ez t = Ret []).
Proof.
  set (ts := Series 2 (fun _ => false) (fun _ _ => f_zero) (fun _ _ => f_zero)).
  set (o2 := fun from => match from with 0 => Some [1; 0] | _ => Some [0; 1] end).
  exists ts, o2, 2, 1, 0, 2, [0; 1], f_zero.
  assert (P : nonneg (s_zeucl ts)) by (intros x y _; reflexivity).
  split; [exact P|]. split; [intros x y _; reflexivity|]. split; [lia|]. split; [reflexivity|]. split; [outcome_tac 2|].
  split; [cbn; lia|]. split; [lia|]. split.
  { split; [reflexivity|]. split; [|split].
    - intros i x E. destruct i as [|i]; [injection E as <-|destruct i; discriminate E]. cbn [firstn].
      split; [cbn; lia|]. split; [intros y [<-|[]]; unfold too_close; lia|].
      intros z Lz Fz. cbn in Lz. destruct z as [|[|z]]; [|reflexivity|lia].
      reflexivity.
    - cbn; lia.
    - cbn; lia. }
  split; [cbn; lia|]. split; [|split; [reflexivity|]].
  - split; [cbn; lia|]. split.
    + intros a b x y _ _ _. reflexivity.
    + intros _. exists 0, 1, 0, 1. repeat split. lia.
  - intros t Hl. rewrite (c21_schedule_independent ts o2 2 1 t P Hl). reflexivity.
Qed.
Print Assumptions c20_minimal_extent_refuted.

(** The only window not considered is the first of the sorted order: a repeat is
    considered whenever the query window itself comes first. *)
Theorem c23_repeats_partial :
  forall (ts : series) (order : nat -> option (list nat)) (k ez from : nat) (extents : list f64) (neighbours o : list nat),
    0 < ez -> from < s_n ts ->
    (forall d, distance_profile ts from = Ret d -> sort_outcome d (order from)) ->
    order from = Some o ->
    nth_error o 0 = Some from ->
    k_extents_bf ts order k ez from = Ret (extents, neighbours) ->
    forall z, z < s_n ts -> length neighbours < k -> exists y, In y neighbours /\ too_close ez z y.
Proof.
  intros ts order k ez from ext l o Hez L Hord Eo E0 E z Lz Lk.
  unfold k_extents_bf in E. destruct (distance_profile_cases ts from) as [Ed|Ed]; [rewrite Ed in E; discriminate|].
  specialize (Hord _ Ed). rewrite Ed, Eo in E. rewrite Eo in Hord. cbn [bind sort_indices] in E. cbn in Hord.
  destruct Hord as [P _]. rewrite map_length, seq_length in P.
  destruct (compute_extents (s_zeucl ts) (pick k ez [from] (skipn 1 o))) as [e| |]; cbn [bind] in E; try discriminate.
  apply Ret_inj in E. injection E as _ <-.
  destruct o as [|h o]; [discriminate|]. cbn in E0. injection E0 as ->. cbn [skipn] in *.
  assert (Hz : In z (from :: o)) by (apply (Permutation_in _ (Permutation_sym P)), in_seq; lia).
  assert (G : forall l ret, length (pick k ez ret l) < k -> In z l \/ (exists y, In y ret /\ too_close ez z y) ->
     exists y, In y (pick k ez ret l) /\ too_close ez z y).
  { induction l as [|j l IH]; intros ret Ln H; cbn [pick] in *.
    - destruct H as [[]|H]; exact H.
    - destruct (Nat.ltb_spec (length ret) k) as [Lr|Lr]; [|lia].
      destruct (existsb (fun hh => overlaps j hh ez) ret) eqn:Ov.
      + apply IH; [exact Ln|]. destruct H as [[->|H]|H]; [|auto|auto]. right.
        apply existsb_exists in Ov. destruct Ov as (y & Hy & O). exists y. split; [exact Hy|]. apply overlaps_spec, O.
      + apply IH; [exact Ln|]. destruct H as [[->|H]|(y & Hy & T)]; [|auto|].
        * right. exists z. split; [apply in_or_app; right; left; reflexivity|]. unfold too_close. lia.
        * right. exists y. split; [apply in_or_app; auto|exact T]. }
  apply G; [exact Lk|]. destruct Hz as [->|Hz]; [|auto]. right. exists z. split; [left; reflexivity|]. unfold too_close. lia.
Qed.
Print Assumptions c23_repeats_partial.
Example c23_example : ex_order 0 = Some [0; 1; 2] /\ k_extents_bf ex_series ex_order 4 1 0 = Ret ([f_zero; d1; d3], [0; 1; 2]).
Proof. split; reflexivity. Qed.

(** * C24: the first motif is the closest pair *)
Lemma motif_le_dist x y : motif_le x y = true -> fle (m_dist x) (m_dist y) = true.
Proof.
  unfold motif_le. intros H. apply orb_true_iff in H. destruct H as [H|H]; [apply flt_fle, H|].
  apply andb_true_iff in H. apply feq_fle, H.
Qed.
Lemma nn_flt_inf ts ez nns : nn_motifs ts ez = Ret nns -> forall m, In m nns -> flt (m_dist m) f_inf = true ->
  exists i j, i < s_n ts /\ j < s_n ts /\ ~ too_close ez i j /\ m_a m = Nat.min i j /\ m_b m = Nat.max i j /\ m_dist m = dp ts i j.
Proof.
  intros E m Hm F. destruct (nn_motifs_inv ts ez nns E) as [Ln N]. apply In_nth_error in Hm. destruct Hm as (i & Ei).
  assert (Li : i < s_n ts) by (rewrite <- Ln; apply nth_error_Some; congruence).
  destruct (N i m Ei) as (d & j & [[Ed _]|(Lj & T & Ed & _)] & ->); cbn [m_a m_b m_dist fst snd] in *.
  - injection Ed as -> _. vm_compute in F. discriminate.
  - exists i, j. repeat split; try assumption. unfold too_close in *. lia.
Qed.
Lemma nn_profile ts ez nns i : nn_motifs ts ez = Ret nns -> i < s_n ts -> exists d, distance_profile ts i = Ret d.
Proof.
  intros E L. unfold nn_motifs in E.
  pose (I := fun (a : nat) (_ : list motif) => forall i, i < a -> exists d, distance_profile ts i = Ret d).
  refine (foreach_seq_inv _ I 0 (s_n ts) [] nns _ _ E i L).
  - intros y Ly. lia.
  - intros y out out' Ly IH Eb z Lz. destruct (Nat.eq_dec z y) as [->|]; [|apply IH; lia].
    unfold nearest_neighbor_bf in Eb. destruct (distance_profile ts y) as [d| |]; [eauto|discriminate|discriminate].
Qed.

Theorem c24_first_is_closest :
  forall (ts : series) (k ez : nat) (nns sorted motifs : list motif),
    0 < ez ->
    nn_motifs ts ez = Ret nns ->
    Permutation sorted nns ->
    StronglySorted (fun x y => motif_le x y = true) sorted ->
    motifs = brute_force_motifs sorted k ez ->
    length motifs <= k /\
    StronglySorted (fun x y => fle (m_dist x) (m_dist y) = true) motifs /\
    (forall p q x y, p < q -> nth_error motifs p = Some x -> nth_error motifs q = Some y ->
       ~ sets_conflict ez [m_a x; m_b x] [m_a y; m_b y]) /\
    (forall i j, 1 <= k -> i < s_n ts -> j < s_n ts -> ~ too_close ez i j -> s_flat ts j = false ->
       flt (s_raw ts i j) f_inf = true ->
       exists first, nth_error motifs 0 = Some first /\ fle (m_dist first) (s_raw ts i j) = true /\
         m_b first < s_n ts /\ ~ too_close ez (m_a first) (m_b first) /\
         (m_dist first = s_raw ts (m_a first) (m_b first) \/ m_dist first = s_raw ts (m_b first) (m_a first))).
Proof.
  intros ts k ez nns sorted motifs Hez E P S ->. unfold brute_force_motifs.
  split; [apply pick_motifs_length; cbn; lia|]. split.
  - assert (S' : StronglySorted (fun x y => fle (m_dist x) (m_dist y) = true) sorted).
    { clear - S. induction S as [|x l S IH F]; constructor; [exact IH|]. rewrite Forall_forall in *. intros y Hy. apply motif_le_dist, F, Hy. }
    apply (pick_motifs_sorted k ez _ sorted []). exact S'.
  - split.
    + intros p q x y L Ep Eq C.
      assert (M : motif_overlaps (m_a y) (m_b y) (m_a x) (m_b x) ez = false).
      { refine (pick_motifs_apart k ez sorted [] _ p q x y L Ep Eq). intros [|a] ? ? ? ? Ea; discriminate. }
      assert (M' : motif_overlaps (m_a y) (m_b y) (m_a x) (m_b x) ez = true); [|congruence].
      apply motif_overlaps_full. right. right. destruct C as (u & v & Hu & Hv & T). exists v, u.
      split; [exact Hv|]. split; [exact Hu|]. unfold too_close in *. lia.
    + intros i j Hk Li Lj T Fj Fin. destruct (nn_motifs_inv ts ez nns E) as [Ln N].
      assert (Hi : exists mi, nth_error nns i = Some mi).
      { destruct (nth_error nns i) eqn:Ei; [eauto|]. apply nth_error_None in Ei. lia. }
      destruct Hi as (mi & Ei). destruct (N i mi Ei) as (d & j' & Hnn & Emi).
      assert (Ne : j <> i) by (intros ->; apply T; unfold too_close; lia).
      assert (Dp : dp ts i j = s_raw ts i j).
      { unfold dp. apply Nat.eqb_neq in Ne. rewrite Ne, Fj. reflexivity. }
      assert (T' : ~ too_close ez j i) by (unfold too_close in *; lia).
      assert (Dle : fle d (s_raw ts i j) = true).
      { destruct (nn_profile ts ez nns i E Li) as (dl & Edl).
        pose proof (distance_profile_numbers ts i dl Edl j Lj Fj) as Nn. rewrite Dp in Nn.
        destruct Hnn as [[_ H]|(_ & _ & _ & Fd & H)]; specialize (H j Lj T'); rewrite Dp in H; cbn [fst] in *; [congruence|].
        f64_tac. }
      destruct sorted as [|first rest].
      { exfalso. apply Permutation_nil in P. subst nns. destruct i; discriminate. }
      exists first. split.
      { cbn [pick_motifs]. destruct (Nat.ltb_spec (length (@nil motif)) k); [|cbn in *; lia]. cbn [existsb app].
        destruct (pick_motifs_prefix k ez rest [first]) as (tl & ->). reflexivity. }
      assert (F0 : fle (m_dist first) d = true).
      { assert (Hin : In mi (first :: rest)) by (apply (Permutation_in _ (Permutation_sym P)); eapply nth_error_In; eauto).
        apply StronglySorted_inv in S. destruct S as [_ F]. rewrite Forall_forall in F.
        replace d with (m_dist mi) by (rewrite Emi; reflexivity).
        destruct Hin as [->|Hin]; [|apply motif_le_dist, F, Hin].
        apply fle_refl. rewrite Emi. cbn [m_dist]. apply (fle_nan _ _ Dle). }
      assert (F1 : fle (m_dist first) (s_raw ts i j) = true) by (exact (fle_trans _ _ _ F0 Dle)).
      split; [exact F1|].
      destruct (nn_flt_inf ts ez nns E first) as (a & b & La & Lb & Tab & Ea & Eb & Ed).
      { apply (Permutation_in _ P). left. reflexivity. }
      { exact (fle_flt_trans _ _ _ F1 Fin). }
      assert (Nab : a <> b) by (intros ->; apply Tab; unfold too_close; lia).
      split; [lia|]. split; [rewrite Ea, Eb; unfold too_close in *; lia|].
      assert (Nf : is_nan (m_dist first) = false) by (apply (fle_nan _ _ F1)).
      assert (Edr : m_dist first = s_raw ts a b).
      { rewrite Ed in Nf |- *. unfold dp in *. destruct (Nat.eqb_spec b a); [congruence|]. destruct (s_flat ts b); [discriminate|reflexivity]. }
      rewrite Ea, Eb. destruct (Nat.le_gt_cases a b).
      * left. rewrite Nat.min_l, Nat.max_r by lia. exact Edr.
      * right. rewrite Nat.min_r, Nat.max_l by lia. exact Edr.
Qed.
Print Assumptions c24_first_is_closest.
Example c24_example :
  nn_motifs ex_series 1 = Ret [Motif 0 1 d1; Motif 0 1 d1; Motif 0 2 d2] /\
  StronglySorted (fun x y => motif_le x y = true) [Motif 0 1 d1; Motif 0 1 d1; Motif 0 2 d2] /\
  brute_force_motifs [Motif 0 1 d1; Motif 0 1 d1; Motif 0 2 d2] 2 1 = [Motif 0 1 d1] /\
  ~ too_close 1 0 1 /\ flt (s_raw ex_series 0 1) f_inf = true.
Proof. split; [reflexivity|]. split; [repeat constructor|]. split; [reflexivity|]. split; [unfold too_close; lia|reflexivity]. Qed.

(** * C25: greedy over all pairs *)
(** Four windows: 0-1 at distance 1; 2 and 3 are closer to 0 and 1 than to each other.
    Asking for two motifs returns only one, although 2-3 is disjoint from it. *)
Theorem c25_all_pairs_refuted :
  exists (ts : series) (k ez : nat) (nns sorted : list motif) (i j : nat),
    0 < ez /\ nn_motifs ts ez = Ret nns /\ Permutation sorted nns /\
    StronglySorted (fun x y => motif_le x y = true) sorted /\
    (forall x y, s_raw ts x y = s_raw ts y x) /\
    length (brute_force_motifs sorted k ez) < k /\
    i < s_n ts /\ j < s_n ts /\ ~ too_close ez i j /\ is_finite (s_raw ts i j) = true /\
    (forall m, In m (brute_force_motifs sorted k ez) -> ~ sets_conflict ez [m_a m; m_b m] [i; j]).
Proof.
  set (raw := fun x y : nat => if x + y =? 1 then d1 else if (x + y =? 2) || (x + y =? 4) then d2 else d3).
  set (ts := Series 4 (fun _ => false) raw raw).
  set (l := [Motif 0 1 d1; Motif 0 1 d1; Motif 0 2 d2; Motif 1 3 d2]).
  exists ts, 2, 1, l, l, 2, 3.
  split; [lia|]. split; [reflexivity|]. split; [reflexivity|]. split; [repeat constructor|].
  split; [intros x y; cbn [ts s_raw]; unfold raw; rewrite (Nat.add_comm x y); reflexivity|].
  split; [vm_compute; lia|]. split; [vm_compute; lia|]. split; [vm_compute; lia|]. split; [unfold too_close; lia|].
  split; [reflexivity|]. intros m Hm. vm_compute in Hm. destruct Hm as [<-|[]].
  intros (x & y & Hx & Hy & T). cbn in Hx, Hy. unfold too_close in T. lia.
Qed.
Print Assumptions c25_all_pairs_refuted.

(** What holds: the result is the greedy selection among the pairs made of a window and
    its nearest non-overlapping neighbour.  Missing: the other pairs. *)
Theorem c25_nearest_pairs_partial :
  forall (ts : series) (k ez : nat) (nns sorted motifs : list motif),
    0 < ez ->
    nn_motifs ts ez = Ret nns ->
    Permutation sorted nns ->
    StronglySorted (fun x y => motif_le x y = true) sorted ->
    motifs = brute_force_motifs sorted k ez ->
    (forall i j, i < s_n ts -> j < s_n ts -> ~ too_close ez i j -> s_flat ts j = false ->
       flt (s_raw ts i j) f_inf = true ->
       exists nearest m, nearest < s_n ts /\ ~ too_close ez i nearest /\ s_flat ts nearest = false /\
         fle (s_raw ts i nearest) (s_raw ts i j) = true /\
         m = Motif (Nat.min i nearest) (Nat.max i nearest) (s_raw ts i nearest) /\
         (In m motifs \/
          (exists r, In r motifs /\ fle (m_dist r) (m_dist m) = true /\ sets_conflict ez [m_a r; m_b r] [m_a m; m_b m]) \/
          (length motifs = k /\ forall r, In r motifs -> fle (m_dist r) (m_dist m) = true))).
Proof.
  intros ts k ez nns sorted motifs Hez E P S -> i j Li Lj T Fj Fin. unfold brute_force_motifs.
  destruct (nn_motifs_inv ts ez nns E) as [Ln N].
  assert (Hi : exists mi, nth_error nns i = Some mi).
  { destruct (nth_error nns i) eqn:Ei; [eauto|]. apply nth_error_None in Ei. lia. }
  destruct Hi as (mi & Ei). destruct (N i mi Ei) as (d & j' & Hnn & Emi).
  assert (Ne : j <> i) by (intros ->; apply T; unfold too_close; lia).
  assert (Dp : dp ts i j = s_raw ts i j).
  { unfold dp. apply Nat.eqb_neq in Ne. rewrite Ne, Fj. reflexivity. }
  assert (T' : ~ too_close ez j i) by (unfold too_close in *; lia).
  destruct (nn_profile ts ez nns i E Li) as (dl & Edl).
  pose proof (distance_profile_numbers ts i dl Edl j Lj Fj) as Nn. rewrite Dp in Nn.
  destruct Hnn as [[_ H]|(Lj' & Tj' & Ed & Fd & H)]; specialize (H j Lj T'); rewrite Dp in H; cbn [fst snd] in *; [congruence|].
  assert (Nd : is_nan d = false) by (apply (flt_nan _ _ Fd)).
  assert (Ne' : j' <> i) by (intros ->; apply Tj'; unfold too_close; lia).
  assert (Raw : s_flat ts j' = false /\ d = s_raw ts i j').
  { rewrite Ed in Nd |- *. unfold dp in *. apply Nat.eqb_neq in Ne'. rewrite Ne' in *. destruct (s_flat ts j'); [discriminate|auto]. }
  destruct Raw as [Fj' Er].
  exists j', mi. split; [exact Lj'|]. split; [unfold too_close in *; lia|]. split; [exact Fj'|].
  split; [rewrite <- Er; f64_tac|]. split; [rewrite Emi, Er; reflexivity|].
  assert (Hin : In mi sorted) by (apply (Permutation_in _ (Permutation_sym P)); eapply nth_error_In; eauto).
  assert (Dm : m_dist mi = d) by (rewrite Emi; reflexivity).
  destruct (pick_motifs_greedy k ez (fun x y => motif_le x y = true) sorted [] S mi Hin) as [G|[(r & Hr & Lr & M)|[Lk G]]].
  - left. exact G.
  - right. left. exists r. split; [exact Hr|]. apply motif_le_dist in Lr. split; [exact Lr|].
    apply motif_overlaps_full in M. destruct M as [M|[M|(x & y & Hx & Hy & M)]].
    + exfalso. rewrite Emi in M. cbn [m_a m_b] in M. unfold too_close in *. lia.
    + exfalso. destruct (nn_flt_inf ts ez nns E r) as (a & b & _ & _ & Tab & Ea & Eb & _).
      * apply (Permutation_in _ P). apply pick_motifs_in in Hr. destruct Hr as [[]|Hr]. exact Hr.
      * rewrite Dm in Lr. exact (fle_flt_trans _ _ _ Lr Fd).
      * rewrite Ea, Eb in M. unfold too_close in *. lia.
    + exists y, x. split; [exact Hy|]. split; [exact Hx|]. unfold too_close in *. lia.
  - right. right. split.
    + pose proof (pick_motifs_length k ez sorted [] ltac:(cbn; lia)). lia.
    + intros r Hr. apply motif_le_dist, G, Hr.
Qed.
Print Assumptions c25_nearest_pairs_partial.
Example c25_example :
  nn_motifs ex_series 1 = Ret [Motif 0 1 d1; Motif 0 1 d1; Motif 0 2 d2] /\
  In (Motif 0 1 d1) (brute_force_motifs [Motif 0 1 d1; Motif 0 1 d1; Motif 0 2 d2] 2 1) /\
  ~ too_close 1 2 0 /\ flt (s_raw ex_series 2 0) f_inf = true.
Proof. split; [reflexivity|]. split; [left; reflexivity|]. split; [unfold too_close; lia|reflexivity]. Qed.

(** * C26: returned motifs are real pairs *)
(** When every two windows overlap, a pair (0, 0) at infinite distance is returned. *)
Theorem c26_real_pairs_refuted :
  exists (ts : series) (ez : nat) (nns sorted : list motif) (m : motif),
    0 < ez /\ (forall i, s_flat ts i = false) /\
    nn_motifs ts ez = Ret nns /\ Permutation sorted nns /\
    StronglySorted (fun x y => motif_le x y = true) sorted /\
    In m (brute_force_motifs sorted 1 ez) /\ m_a m = m_b m /\ is_finite (m_dist m) = false.
Proof.
  exists (Series 2 (fun _ => false) (fun _ _ => d1) (fun _ _ => d1)), 5.
  exists [Motif 0 0 f_inf; Motif 0 1 f_inf], [Motif 0 0 f_inf; Motif 0 1 f_inf], (Motif 0 0 f_inf).
  split; [lia|]. split; [reflexivity|]. split; [reflexivity|]. split; [reflexivity|].
  split; [repeat constructor|]. split; [left; reflexivity|]. split; reflexivity.
Qed.
Print Assumptions c26_real_pairs_refuted.

(** The motifs at finite distance are real pairs.  Missing: those at infinite distance. *)
Theorem c26_real_pairs_partial :
  forall (ts : series) (k ez : nat) (nns sorted : list motif) (m : motif),
    0 < ez ->
    nn_motifs ts ez = Ret nns ->
    Permutation sorted nns ->
    In m (brute_force_motifs sorted k ez) ->
    is_finite (m_dist m) = true ->
    m_a m < m_b m /\ m_b m < s_n ts /\ ~ too_close ez (m_a m) (m_b m) /\
    (s_flat ts (m_b m) = false /\ m_dist m = s_raw ts (m_a m) (m_b m) \/
     s_flat ts (m_a m) = false /\ m_dist m = s_raw ts (m_b m) (m_a m)).
Proof.
  intros ts k ez nns sorted m Hez E P Hm F. apply pick_motifs_in in Hm. destruct Hm as [[]|Hm].
  apply (Permutation_in _ P) in Hm.
  destruct (nn_flt_inf ts ez nns E m Hm (finite_flt_inf _ F)) as (a & b & La & Lb & Tab & Ea & Eb & Ed).
  assert (Nab : a <> b) by (intros ->; apply Tab; unfold too_close; lia).
  assert (Edr : s_flat ts b = false /\ m_dist m = s_raw ts a b).
  { apply finite_not_nan in F. rewrite Ed in F |- *. unfold dp in *. destruct (Nat.eqb_spec b a); [congruence|].
    destruct (s_flat ts b); [discriminate|auto]. }
  rewrite Ea, Eb. split; [lia|]. split; [lia|]. split; [unfold too_close in *; lia|].
  destruct (Nat.le_gt_cases a b).
  - left. rewrite Nat.min_l, Nat.max_r by lia. exact Edr.
  - right. rewrite Nat.min_r, Nat.max_l by lia. exact Edr.
Qed.
Print Assumptions c26_real_pairs_partial.
Example c26_example :
  nn_motifs ex_series 1 = Ret [Motif 0 1 d1; Motif 0 1 d1; Motif 0 2 d2] /\
  In (Motif 0 1 d1) (brute_force_motifs [Motif 0 1 d1; Motif 0 1 d1; Motif 0 2 d2] 2 1) /\ is_finite d1 = true.
Proof. split; [reflexivity|]. split; [left; reflexivity|reflexivity]. Qed.
