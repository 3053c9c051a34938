(** Proofs about the neighbour graph. *)
From Coq Require Import Floats.SpecFloat.
From Verif Require Import Base F64 Overlaps OverlapsSpec OverlapsProofs BruteSpec Graph GraphSpec.

Notation ed e := (dwf_distance (fst e)).
Notation ef e := (dwf_flag (fst e)).
Definition num (e : entry) : Prop := is_nan (fst e) = false.

(** ** Distances with flags *)
Lemma abs_nan x : is_nan (SFabs x) = is_nan x.
Proof. destruct x; reflexivity. Qed.
Lemma abs_nonneg x : is_nan x = false -> fle f_zero (SFabs x) = true.
Proof. destruct x; try discriminate; reflexivity. Qed.
Lemma abs_sign x : is_sign_negative (SFabs x) = false.
Proof. destruct x; reflexivity. Qed.
Lemma abs_id x : is_sign_negative x = false -> SFabs x = x.
Proof. destruct x; cbn; intros; subst; reflexivity. Qed.
Lemma feq_unsigned x y : is_sign_negative x = false -> is_sign_negative y = false -> feq x y = true -> x = y.
Proof.
  intros Sx Sy E. pose proof (feq_nan x y E) as [Nx Ny]. rewrite feq_key in E by assumption.
  destruct x as [s|s| |s m e], y as [s'|s'| |s' m' e']; try discriminate; cbn in Sx, Sy; subst;
    destruct E as (A & B & C); cbn in A, B, C; try lia; try reflexivity.
  injection C as ->. subst. reflexivity.
Qed.
Lemma feq_abs x y : feq (SFabs x) (SFabs y) = true -> SFabs x = SFabs y.
Proof. apply feq_unsigned; apply abs_sign. Qed.
Lemma dwf_determined x y : is_nan x = false -> dwf_distance x = dwf_distance y -> dwf_flag x = dwf_flag y -> x = y.
Proof.
  destruct x as [s|s| |s m e], y as [s'|s'| |s' m' e']; cbn; intros N D F; try discriminate.
  - destruct s, s'; try discriminate; reflexivity.
  - destruct s, s'; try discriminate; reflexivity.
  - injection D as -> ->. destruct s, s'; try discriminate; reflexivity.
Qed.
Lemma set_flag_distance x b : dwf_distance (dwf_set_flag x b) = dwf_distance x.
Proof. unfold dwf_set_flag. destruct (negb _); [|reflexivity]. destruct x; reflexivity. Qed.
Lemma set_flag_flag x b : is_nan x = false -> dwf_flag (dwf_set_flag x b) = b.
Proof.
  unfold dwf_set_flag. intros N. destruct (Bool.eqb b (dwf_flag x)) eqn:E; cbn [negb].
  - apply eqb_prop in E. congruence.
  - destruct x as [s|s| |s m e]; try discriminate; destruct s, b; try reflexivity; discriminate.
Qed.
Lemma set_flag_nan x b : is_nan (dwf_set_flag x b) = is_nan x.
Proof. unfold dwf_set_flag. destruct (negb _); [|reflexivity]. destruct x; reflexivity. Qed.

(** ** The order of entries *)
Definition ekey (x y : entry) : Prop :=
  flt (ed x) (ed y) = true \/
  (ed x = ed y /\ ((ef x = false /\ ef y = true) \/ (ef x = ef y /\ snd x < snd y))).
Lemma entry_lt_spec x y : num x -> num y -> entry_lt x y = true <-> ekey x y.
Proof.
  intros Nx Ny. unfold entry_lt, entry_cmp, dwf_cmp, ekey, partial_cmp, flt.
  assert (Nx' : is_nan (ed x) = false) by (unfold dwf_distance; rewrite abs_nan; exact Nx).
  assert (Ny' : is_nan (ed y) = false) by (unfold dwf_distance; rewrite abs_nan; exact Ny).
  destruct (SFcompare (ed x) (ed y)) as [[]|] eqn:E.
  - assert (Q : ed x = ed y) by (apply feq_abs; unfold feq, dwf_distance in *; rewrite E; reflexivity).
    destruct (ef x), (ef y); cbn [bool_cmp].
    + destruct (Nat.compare_spec (snd x) (snd y)); cbn; split; intros H1; try discriminate; try reflexivity;
        try (right; split; [exact Q|right; split; [reflexivity|lia]]);
        destruct H1 as [H1|[_ [[? ?]|[_ ?]]]]; try discriminate; lia.
    + split; [discriminate|]. intros [H|[_ [[? ?]|[? ?]]]]; discriminate.
    + split; [|reflexivity]. intros _. right. split; [exact Q|left; auto].
    + destruct (Nat.compare_spec (snd x) (snd y)); cbn; split; intros H1; try discriminate; try reflexivity;
        try (right; split; [exact Q|right; split; [reflexivity|lia]]);
        destruct H1 as [H1|[_ [[? ?]|[_ ?]]]]; try discriminate; lia.
  - split; [left; reflexivity|reflexivity].
  - split; [discriminate|]. intros [H|[H _]]; [discriminate|]. exfalso. rewrite H in E.
    assert (flt (ed y) (ed y) = false) by apply flt_irrefl. pose proof (fle_refl _ Ny') as R. unfold fle in R. rewrite E in R. discriminate.
  - split; [discriminate|]. intros [H|[H _]]; [discriminate|]. exfalso. rewrite H in E.
    pose proof (fle_refl _ Ny') as R. unfold fle in R. rewrite E in R. discriminate.
Qed.
Lemma entry_lt_irrefl x : num x -> entry_lt x x = false.
Proof.
  intros N. destruct (entry_lt x x) eqn:E; [|reflexivity]. apply entry_lt_spec in E; try assumption.
  destruct E as [E|[_ [[A B]|[_ L]]]]; [rewrite flt_irrefl in E; discriminate|congruence|lia].
Qed.
Lemma entry_lt_trans x y z : num x -> num y -> num z -> entry_lt x y = true -> entry_lt y z = true -> entry_lt x z = true.
Proof.
  intros Nx Ny Nz A B. apply entry_lt_spec in A; try assumption. apply entry_lt_spec in B; try assumption.
  apply entry_lt_spec; try assumption. unfold ekey in *.
  destruct A as [A|[A A']], B as [B|[B B']].
  - left. exact (flt_trans _ _ _ A B).
  - left. rewrite <- B. exact A.
  - left. rewrite A. exact B.
  - right. split; [congruence|]. destruct A' as [[? ?]|[? ?]], B' as [[? ?]|[? ?]]; try congruence.
    + left. split; congruence.
    + left. split; congruence.
    + right. split; [congruence|lia].
Qed.
Lemma entry_lt_total x y : num x -> num y -> entry_lt x y = false -> entry_lt y x = false -> x = y.
Proof.
  intros Nx Ny A B.
  assert (A' : ~ ekey x y) by (intros H; apply entry_lt_spec in H; try assumption; congruence).
  assert (B' : ~ ekey y x) by (intros H; apply entry_lt_spec in H; try assumption; congruence).
  unfold ekey in *.
  assert (Nx' : is_nan (ed x) = false) by (unfold dwf_distance; rewrite abs_nan; exact Nx).
  assert (Ny' : is_nan (ed y) = false) by (unfold dwf_distance; rewrite abs_nan; exact Ny).
  assert (Q : ed x = ed y).
  { apply feq_abs. fold (ed x) (ed y). apply fle_antisym.
    - rewrite fle_not_flt by assumption. destruct (flt (ed y) (ed x)); [exfalso; apply B'; left; reflexivity|reflexivity].
    - rewrite fle_not_flt by assumption. destruct (flt (ed x) (ed y)); [exfalso; apply A'; left; reflexivity|reflexivity]. }
  assert (F : ef x = ef y).
  { destruct (ef x) eqn:Fx, (ef y) eqn:Fy; try reflexivity; exfalso; [apply B'|apply A']; right; split; auto. }
  assert (I : snd x = snd y).
  { destruct (Nat.lt_trichotomy (snd x) (snd y)) as [L|[L|L]]; [exfalso; apply A'|exact L|exfalso; apply B']; right; split; auto. }
  destruct x as [dx ix], y as [dy iy]. cbn in *. f_equal; [|exact I]. apply dwf_determined; assumption.
Qed.
Lemma entry_lt_dist x y : num x -> num y -> entry_lt x y = true -> fle (ed x) (ed y) = true.
Proof.
  intros Nx Ny E. apply entry_lt_spec in E; try assumption. destruct E as [E|[E _]]; [apply flt_fle, E|].
  rewrite E. apply fle_refl. unfold dwf_distance. rewrite abs_nan. exact Ny.
Qed.
Lemma entry_le_dist x y : num x -> num y -> entry_lt y x = false -> fle (ed x) (ed y) = true.
Proof.
  intros Nx Ny E. destruct (entry_lt x y) eqn:F; [apply entry_lt_dist; assumption|].
  rewrite (entry_lt_total x y Nx Ny F E). apply fle_refl. unfold dwf_distance. rewrite abs_nan. exact Ny.
Qed.

(** ** Sorting and removing duplicates *)
Lemma entry_insert_perm x l : Permutation (entry_insert x l) (x :: l).
Proof.
  induction l as [|y l IH]; cbn [entry_insert]; [reflexivity|]. destruct (entry_lt y x); [|reflexivity].
  rewrite IH. apply perm_swap.
Qed.
Lemma entry_sort_perm l : Permutation (entry_sort l) l.
Proof. induction l as [|x l IH]; cbn; [reflexivity|]. rewrite entry_insert_perm, IH. reflexivity. Qed.
Definition le_sorted (l : list entry) : Prop := StronglySorted (fun x y => entry_lt y x = false) l.
Definition lt_sorted (l : list entry) : Prop := StronglySorted (fun x y => entry_lt x y = true) l.
Lemma entry_le_trans x y z : num x -> num y -> num z -> entry_lt y x = false -> entry_lt z y = false -> entry_lt z x = false.
Proof.
  intros Nx Ny Nz A B. destruct (entry_lt z x) eqn:E; [|reflexivity]. exfalso.
  destruct (entry_lt x y) eqn:F.
  - rewrite (entry_lt_trans z x y) in B; congruence.
  - rewrite (entry_lt_total x y Nx Ny F A) in E. congruence.
Qed.
Lemma entry_insert_sorted x l : num x -> Forall num l -> le_sorted l -> le_sorted (entry_insert x l).
Proof.
  intros Nx. induction l as [|y l IH]; intros N S; cbn [entry_insert].
  - repeat constructor.
  - inversion N as [|? ? Ny N']; subst. apply StronglySorted_inv in S. destruct S as [S F].
    destruct (entry_lt y x) eqn:E.
    + constructor; [apply IH; assumption|]. rewrite Forall_forall in F |- *. intros z Hz.
      apply (Permutation_in _ (entry_insert_perm x l)) in Hz. destruct Hz as [<-|Hz]; [|auto].
      destruct (entry_lt x y) eqn:G; [|reflexivity]. exfalso.
      pose proof (entry_lt_trans x y x Nx Ny Nx G E) as Q. rewrite (entry_lt_irrefl x Nx) in Q. discriminate.
    + constructor; [constructor; assumption|]. rewrite Forall_forall in F, N' |- *. intros z [<-|Hz]; [exact E|].
      apply (entry_le_trans x y z Nx Ny (N' z Hz) E). auto.
Qed.
Lemma entry_sort_sorted l : Forall num l -> le_sorted (entry_sort l).
Proof.
  induction 1 as [|x l Nx N IH]; cbn; [constructor|]. apply entry_insert_sorted; [exact Nx| |exact IH].
  rewrite Forall_forall in *. intros y Hy. apply N, (Permutation_in _ (entry_sort_perm l)), Hy.
Qed.

Lemma dedup_from_in l : forall x z, In z (dedup_from x l) -> In z l.
Proof.
  induction l as [|y l IH]; intros x z H; cbn [dedup_from] in H; [exact H|].
  destruct (_ =? _); [right; eauto|]. destruct H as [<-|H]; [left; reflexivity|right; eauto].
Qed.
Lemma dedup_from_sorted l : forall x, Forall num (x :: l) -> le_sorted (x :: l) -> lt_sorted (x :: dedup_from x l).
Proof.
  induction l as [|y l IH]; intros x N S; cbn [dedup_from].
  - repeat constructor.
  - inversion N as [|? ? Nx N']; subst. inversion N' as [|? ? Ny Nl]; subst.
    apply StronglySorted_inv in S. destruct S as [S F]. inversion F as [|? ? Fy Fl]; subst.
    destruct (Nat.eqb_spec (snd y) (snd x)) as [E|E].
    + apply IH; [constructor; assumption|]. apply StronglySorted_inv in S. destruct S as [S _]. constructor; assumption.
    + assert (L : entry_lt x y = true).
      { destruct (entry_lt x y) eqn:Q; [reflexivity|]. exfalso. apply E. rewrite (entry_lt_total x y Nx Ny Q Fy). reflexivity. }
      specialize (IH y N' S). constructor; [exact IH|]. constructor; [exact L|].
      apply StronglySorted_inv in IH. destruct IH as [_ G]. rewrite Forall_forall in *. intros z Hz.
      apply (entry_lt_trans x y z Nx Ny); [|exact L|auto]. apply Nl. eapply dedup_from_in; eauto.
Qed.
Lemma dedup_from_rep l : forall x z, Forall num (x :: l) -> le_sorted (x :: l) -> In z (x :: l) ->
  exists w, In w (x :: dedup_from x l) /\ snd w = snd z /\ entry_lt z w = false.
Proof.
  induction l as [|y l IH]; intros x z N S H; cbn [dedup_from].
  - destruct H as [<-|[]]. exists x. split; [left; reflexivity|]. split; [reflexivity|]. apply entry_lt_irrefl. inversion N; assumption.
  - inversion N as [|? ? Nx N']; subst. inversion N' as [|? ? Ny Nl]; subst.
    pose proof S as S0. apply StronglySorted_inv in S. destruct S as [S F]. inversion F as [|? ? Fy Fl]; subst.
    destruct (Nat.eqb_spec (snd y) (snd x)) as [E|E].
    + assert (S1 : le_sorted (x :: l)) by (apply StronglySorted_inv in S; destruct S as [S _]; constructor; assumption).
      assert (N1 : Forall num (x :: l)) by (constructor; assumption).
      destruct H as [<-|[<-|H]].
      * apply (IH x x N1 S1). left; reflexivity.
      * exists x. split; [left; reflexivity|]. split; [congruence|exact Fy].
      * apply (IH x z N1 S1). right. exact H.
    + destruct H as [<-|H].
      * exists x. split; [left; reflexivity|]. split; [reflexivity|apply entry_lt_irrefl, Nx].
      * destruct (IH y z N' S H) as (w & Hw & A & B). exists w. split; [right; exact Hw|auto].
Qed.

(** what [sort] and [dedup] leave *)
Record tidy (l l' : list entry) : Prop := {
  tidy_in : forall z, In z l' -> In z l;
  tidy_sorted : lt_sorted l';
  tidy_rep : forall z, In z l -> exists w, In w l' /\ snd w = snd z /\ entry_lt z w = false;
  tidy_adjacent : Sorted (fun x y => snd x <> snd y) l' }.
Lemma dedup_from_adjacent l : forall x, Sorted (fun x y => snd x <> snd y) (x :: dedup_from x l).
Proof.
  induction l as [|y l IH]; intros x; cbn [dedup_from]; [repeat constructor|].
  destruct (Nat.eqb_spec (snd y) (snd x)) as [E|E]; [apply IH|]. constructor; [apply IH|]. constructor. congruence.
Qed.
Lemma nn_tidy l : Forall num l -> exists s, nn_sort l = Ret s /\ tidy l (nn_dedup s).
Proof.
  intros N. unfold nn_sort.
  assert (E : existsb (fun e => is_nan (fst e)) l = false).
  { rewrite Forall_forall in N. destruct (existsb _ l) eqn:E; [|reflexivity]. apply existsb_exists in E.
    destruct E as (x & Hx & E). rewrite (N x Hx) in E. discriminate. }
  rewrite E, andb_false_r. exists (entry_sort l). split; [reflexivity|].
  pose proof (entry_sort_sorted l N) as S. pose proof (entry_sort_perm l) as P.
  assert (N' : Forall num (entry_sort l)).
  { rewrite Forall_forall in *. intros x Hx. apply N, (Permutation_in _ P), Hx. }
  destruct (entry_sort l) as [|x t] eqn:El.
  - apply Permutation_nil in P. subst l. constructor; cbn; [tauto|constructor|tauto|constructor].
  - constructor; cbn [nn_dedup].
    + intros z [<-|Hz]; apply (Permutation_in _ P); [left; reflexivity|right; eapply dedup_from_in; eauto].
    + apply dedup_from_sorted; assumption.
    + intros z Hz. apply (Permutation_in _ (Permutation_sym P)) in Hz. apply dedup_from_rep; assumption.
    + apply dedup_from_adjacent.
Qed.

(** ** The scan of one neighbourhood *)
Fixpoint chosen (k ez : nat) (ind : list nat) (l : list entry) : list entry :=
  match l with
  | [] => []
  | e :: t =>
      if length ind <? k then
        if negb (overlaps_any (snd e) ind ez) then e :: chosen k ez (ind ++ [snd e]) t else chosen k ez ind t
      else []
  end.
Fixpoint marked (k ez : nat) (ind : list nat) (l : list entry) : list entry :=
  match l with
  | [] => []
  | e :: t =>
      if length ind <? k then
        if negb (overlaps_any (snd e) ind ez)
        then (dwf_set_flag (fst e) false, snd e) :: marked k ez (ind ++ [snd e]) t
        else e :: marked k ez ind t
      else l
  end.
Lemma nn_scan_eq k ez l : forall ind ds emit,
  nn_scan k ez l ind ds emit =
  (marked k ez ind l, ind ++ map snd (chosen k ez ind l), ds ++ map (fun e => ed e) (chosen k ez ind l),
   emit || existsb (fun e => ef e) (chosen k ez ind l)).
Proof.
  induction l as [|[jd jj] l IH]; intros ind ds emit; cbn [nn_scan chosen marked fst snd].
  - rewrite !app_nil_r, orb_false_r. reflexivity.
  - destruct (length ind <? k); [|cbn; rewrite !app_nil_r, orb_false_r; reflexivity].
    destruct (negb _); rewrite IH; [|reflexivity]. cbn [map existsb fst snd]. rewrite <- !app_assoc, orb_assoc. reflexivity.
Qed.
Lemma chosen_in k ez l e : forall ind, In e (chosen k ez ind l) -> In e l.
Proof.
  induction l as [|x l IH]; intros ind H; cbn [chosen] in H; [exact H|].
  destruct (length ind <? k); [|destruct H]. destruct (negb _); [destruct H as [<-|H]; [left; reflexivity|]|]; right; eauto.
Qed.
Lemma chosen_length k ez l : forall ind, length ind <= Nat.max k 1 -> length (ind ++ map snd (chosen k ez ind l)) <= Nat.max k 1.
Proof.
  induction l as [|x l IH]; intros ind L; cbn [chosen]; [cbn; rewrite app_nil_r; exact L|].
  destruct (Nat.ltb_spec (length ind) k); [|cbn; rewrite app_nil_r; exact L].
  destruct (negb _); [|apply IH, L]. cbn [map].
  specialize (IH (ind ++ [snd x])). rewrite <- app_assoc in IH. apply IH. rewrite app_length. cbn. lia.
Qed.
Lemma chosen_apart k ez l : forall ind, ForallOrdPairs (fun x y => ~ too_close ez x y) ind ->
  ForallOrdPairs (fun x y => ~ too_close ez x y) (ind ++ map snd (chosen k ez ind l)).
Proof.
  induction l as [|x l IH]; intros ind A; cbn [chosen]; [cbn; rewrite app_nil_r; exact A|].
  destruct (length ind <? k); [|cbn; rewrite app_nil_r; exact A].
  destruct (overlaps_any (snd x) ind ez) eqn:E; cbn [negb]; [apply IH, A|]. cbn [map].
  specialize (IH (ind ++ [snd x])). rewrite <- app_assoc in IH. apply IH.
  rewrite overlaps_any_false in E. clear - A E. induction A as [|y t F A IH]; cbn; [repeat constructor|].
  constructor; [|apply IH; intros z Hz; apply E; right; exact Hz].
  rewrite Forall_forall in *. intros z Hz. apply in_app_or in Hz. destruct Hz as [Hz|[<-|[]]]; [auto|].
  intros T. apply (E y); [left; reflexivity|]. apply too_close_sym, T.
Qed.
Lemma lt_sorted_filter k ez l : forall ind, lt_sorted l -> lt_sorted (chosen k ez ind l).
Proof.
  induction l as [|x l IH]; intros ind S; cbn [chosen]; [constructor|].
  apply StronglySorted_inv in S. destruct S as [S F].
  destruct (length ind <? k); [|constructor]. destruct (negb _); [|apply IH, S]. constructor; [apply IH, S|].
  rewrite Forall_forall in *. intros y Hy. apply F. eapply chosen_in; eauto.
Qed.
(** an entry is chosen when, among [ind] and the chosen entries before it, there is room and
    nothing overlaps it *)
Lemma chosen_iff k ez l e : forall ind, Forall num l -> lt_sorted l -> In e l ->
  (In e (chosen k ez ind l) <->
   let before := ind ++ map snd (filter (fun c => entry_lt c e) (chosen k ez ind l)) in
   length before < k /\ overlaps_any (snd e) before ez = false).
Proof.
  induction l as [|x l IH]; intros ind N S H; [destruct H|].
  inversion N as [|? ? Nx N']; subst. apply StronglySorted_inv in S. destruct S as [S F]. rewrite Forall_forall in F.
  assert (Ne : num e) by (rewrite Forall_forall in N; apply N, H).
  destruct H as [->|H].
  - (* x = e: nothing chosen is before it *)
    assert (Z : forall c, (forall z, In z c -> In z (e :: l)) -> filter (fun c => entry_lt c e) c = []).
    { intros c Hc. induction c as [|z c IHc]; [reflexivity|]. cbn [filter].
      assert (Q : entry_lt z e = false).
      { destruct (Hc z (or_introl eq_refl)) as [<-|Hz]; [apply entry_lt_irrefl, Nx|].
        destruct (entry_lt z e) eqn:Q; [|reflexivity]. rewrite Forall_forall in N'.
        pose proof (entry_lt_trans e z e Nx (N' z Hz) Nx (F z Hz) Q) as T. rewrite (entry_lt_irrefl e Nx) in T. discriminate. }
      rewrite Q. apply IHc. intros y Hy. apply Hc. right. exact Hy. }
    rewrite Z by (intros z Hz; eapply chosen_in; eauto). cbn [map]. rewrite app_nil_r. cbn [chosen].
    destruct (Nat.ltb_spec (length ind) k) as [L|L].
    + destruct (overlaps_any (snd e) ind ez) eqn:E; cbn [negb].
      * split; [|intros [_ ?]; congruence]. intros Q. apply chosen_in in Q. specialize (F e Q).
        rewrite (entry_lt_irrefl e Nx) in F. discriminate.
      * split; [intros _; auto|intros _; left; reflexivity].
    + split; [intros []|intros [? _]; lia].
  - assert (xe : entry_lt x e = true) by auto.
    cbn [chosen]. destruct (Nat.ltb_spec (length ind) k) as [L|L].
    + destruct (negb (overlaps_any (snd x) ind ez)).
      * specialize (IH (ind ++ [snd x]) N' S H). cbn zeta in *. cbn [filter]. rewrite xe. cbn [map].
        rewrite <- app_assoc in IH. cbn [app] in IH. rewrite <- IH. cbn [In]. split; [|auto].
        intros [->|Q]; [|exact Q]. rewrite (entry_lt_irrefl e Ne) in xe. discriminate.
      * exact (IH ind N' S H).
    + cbn [filter map In]. rewrite app_nil_r. split; [intros []|intros [? _]; lia].
Qed.

(** the entries after the scan *)
Lemma marked_in k ez l e' : forall ind, In e' (marked k ez ind l) ->
  exists e, In e l /\ snd e' = snd e /\ (e' = e \/ (In e (chosen k ez ind l) /\ fst e' = dwf_set_flag (fst e) false)).
Proof.
  induction l as [|x l IH]; intros ind H; cbn [marked chosen] in *; [destruct H|].
  destruct (length ind <? k).
  - destruct (negb _).
    + destruct H as [<-|H]; [exists x; cbn; auto 6|]. destruct (IH _ H) as (e & A & B & [->|[C D]]); exists e; cbn; auto 6.
    + destruct H as [<-|H]; [exists x; cbn; auto 6|]. destruct (IH _ H) as (e & A & B & [->|[C D]]); exists e; cbn; auto 6.
  - exists e'. auto.
Qed.
Lemma marked_chosen k ez l e : forall ind, In e (chosen k ez ind l) -> In (dwf_set_flag (fst e) false, snd e) (marked k ez ind l).
Proof.
  induction l as [|x l IH]; intros ind H; cbn [marked chosen] in *; [destruct H|].
  destruct (length ind <? k); [|destruct H]. destruct (negb _).
  - destruct H as [<-|H]; [left; reflexivity|right; auto].
  - right; auto.
Qed.
Lemma marked_keeps k ez l e : forall ind, In e l -> In e (chosen k ez ind l) \/ In e (marked k ez ind l).
Proof.
  induction l as [|x l IH]; intros ind H; cbn [marked chosen] in *; [destruct H|].
  destruct (length ind <? k); [|auto]. destruct (negb _).
  - destruct H as [<-|H]; [left; left; reflexivity|]. destruct (IH (ind ++ [snd x]) H); cbn; auto.
  - destruct H as [<-|H]; [right; left; reflexivity|]. destruct (IH ind H); cbn; auto.
Qed.

(** ** One node *)
Definition node_inv (es nn : list (f64 * nat)) : Prop :=
  Forall num nn /\ (forall e, In e nn -> In (ed e, snd e) es) /\
  (forall d j, In (d, j) es -> exists e, In e nn /\ snd e = j /\ fle (ed e) d = true).

Lemma filter_all {A} (f : A -> bool) l : length l <= length (filter f l) -> forall x, In x l -> f x = true.
Proof.
  induction l as [|y l IH]; intros H x Hx; [destruct Hx|]. cbn in H.
  assert (B : length (filter f l) <= length l) by (clear; induction l as [|z l IH]; cbn; [lia|destruct (f z); cbn; lia]).
  destruct (f y) eqn:E; cbn in H; [|lia]. destruct Hx as [<-|Hx]; [exact E|]. apply IH; [lia|exact Hx].
Qed.
Lemma ed_num e : num e -> is_nan (ed e) = false.
Proof. intros N. unfold dwf_distance. rewrite abs_nan. exact N. Qed.
Lemma pairs_nth {A} (R : A -> A -> Prop) l : ForallOrdPairs R l ->
  forall a b x y, a < b -> nth_error l a = Some x -> nth_error l b = Some y -> R x y.
Proof.
  induction 1 as [|z l F P IH]; intros [|a] [|b] x y L Ea Eb; try discriminate; try lia; cbn in Ea, Eb.
  - injection Ea as <-. rewrite Forall_forall in F. apply F. eapply nth_error_In; eauto.
  - exact (IH a b x y ltac:(lia) Ea Eb).
Qed.
Lemma sorted_pairs {A} (R : A -> A -> Prop) l : StronglySorted R l -> ForallOrdPairs R l.
Proof. induction 1; constructor; assumption. Qed.

Lemma node_valid k ez i es nn : node_inv es nn -> lt_sorted nn ->
  nearest_neighbourhood ez k i es ([i] ++ map snd (chosen k ez [i] nn)) ([f_zero] ++ map (fun e => ed e) (chosen k ez [i] nn)).
Proof.
  intros (N & In_ & Rep) S. set (c := chosen k ez [i] nn).
  assert (Cn : forall e, In e c -> In e nn) by (intros e; apply chosen_in).
  assert (Nc : forall e, In e c -> num e) by (intros e He; rewrite Forall_forall in N; auto).
  pose proof (lt_sorted_filter k ez nn [i] S) as Sc. fold c in Sc.
  split; [rewrite !app_length, !map_length; reflexivity|]. split; [reflexivity|]. split; [reflexivity|].
  split; [apply chosen_length; cbn; lia|].
  split.
  { intros a b x y L Ex Ey. refine (pairs_nth _ _ (chosen_apart k ez nn [i] _) a b x y L Ex Ey). repeat constructor. }
  split.
  { intros p q d e L Ed Ee. destruct p as [|p], q as [|q]; try lia; cbn in Ed, Ee.
    - injection Ed as <-. rewrite nth_error_map in Ee. destruct (nth_error c q) as [z|] eqn:Ez; [|discriminate].
      injection Ee as <-. apply abs_nonneg. apply Nc. eapply nth_error_In; eauto.
    - rewrite nth_error_map in Ed, Ee. destruct (nth_error c p) as [y|] eqn:Ey; [|discriminate].
      destruct (nth_error c q) as [z|] eqn:Ez; [|discriminate]. injection Ed as <-. injection Ee as <-.
      apply entry_lt_dist; [apply Nc; eapply nth_error_In; eauto|apply Nc; eapply nth_error_In; eauto|].
      exact (pairs_nth _ _ (sorted_pairs _ _ Sc) p q y z ltac:(lia) Ey Ez). }
  split.
  { intros p j d Ej Ed. cbn in Ej, Ed. rewrite nth_error_map in Ej, Ed. destruct (nth_error c p) as [y|] eqn:Ey; [|discriminate].
    injection Ej as <-. injection Ed as <-. apply In_, Cn. eapply nth_error_In; eauto. }
  intros d j Hd. destruct (Rep d j Hd) as (e & He & Ej & Le).
  assert (Ne : num e) by (rewrite Forall_forall in N; auto).
  assert (Z : fle f_zero d = true) by (apply (fle_trans _ (ed e)); [apply abs_nonneg, Ne|exact Le]).
  assert (Loc : forall z, In z c -> fle (ed z) d = true -> (snd z = j \/ too_close ez (snd z) j) ->
    exists p j' d', nth_error ([i] ++ map snd c) p = Some j' /\ nth_error ([f_zero] ++ map (fun e => ed e) c) p = Some d' /\
        fle d' d = true /\ (j' = j \/ too_close ez j' j)).
  { intros z Hz Lz T. apply In_nth_error in Hz. destruct Hz as (p & Ep). exists (Datatypes.S p), (snd z), (ed z).
    cbn. split; [apply map_nth_error, Ep|]. split; [apply (map_nth_error (fun e => ed e)), Ep|auto]. }
  pose proof (chosen_iff k ez nn e [i] N S He) as X. cbn zeta in X. fold c in X.
  set (before := [i] ++ map snd (filter (fun c => entry_lt c e) c)) in *.
  destruct (overlaps_any (snd e) before ez) eqn:Ov.
  - left. apply overlaps_any_spec in Ov. destruct Ov as (j' & Hj' & T). apply too_close_sym in T.
    unfold before in Hj'. destruct Hj' as [<-|Hj'].
    + exists 0, i, f_zero. split; [reflexivity|]. split; [reflexivity|]. split; [exact Z|]. right. rewrite <- Ej. exact T.
    + apply in_map_iff in Hj'. destruct Hj' as (z & <- & Hz). apply filter_In in Hz. destruct Hz as [Hz Lz].
      apply (Loc z Hz).
      * apply (fle_trans _ (ed e)); [|exact Le]. apply entry_lt_dist; auto.
      * right. rewrite <- Ej. exact T.
  - destruct (Nat.lt_ge_cases (length before) k) as [L|L].
    + left. apply (Loc e); [apply X; auto|exact Le|left; exact Ej].
    + right.
      assert (Lt : length before <= length ([i] ++ map snd c)).
      { unfold before. cbn. rewrite !map_length. apply le_n_S. clear. induction c as [|z l IH]; cbn; [lia|destruct (entry_lt z e); cbn; lia]. }
      split; [lia|]. intros [|p] d' Ed; cbn in Ed; [injection Ed as <-; exact Z|].
      rewrite nth_error_map in Ed. destruct (nth_error c p) as [z|] eqn:Ez; [|discriminate]. injection Ed as <-.
      apply nth_error_In in Ez.
      assert (All : length c <= length (filter (fun c => entry_lt c e) c)).
      { pose proof (chosen_length k ez nn [i] ltac:(cbn; lia)) as Q. fold c in Q. unfold before in L.
        rewrite !app_length, !map_length in *. cbn [length] in *. destruct k as [|k]; [|lia].
        assert (c = []) as -> by (unfold c; destruct nn; reflexivity). cbn. lia. }
      pose proof (filter_all _ _ All z Ez) as Lz. apply (fle_trans _ (ed e)); [|exact Le]. apply entry_lt_dist; auto.
Qed.

Lemma tidy_node es nn nn' : node_inv es nn -> tidy nn nn' -> node_inv es nn'.
Proof.
  intros (N & I & R) [T1 T2 T3 _]. rewrite Forall_forall in N.
  split; [apply Forall_forall; auto|]. split; [auto|].
  intros d j H. destruct (R d j H) as (e & He & Ej & Le). destruct (T3 e He) as (w & Hw & Ew & Lw).
  exists w. split; [exact Hw|]. split; [congruence|]. apply (fle_trans _ (ed e)); [|exact Le]. apply entry_le_dist; auto.
Qed.
Lemma marked_node k ez ind es nn : node_inv es nn -> node_inv es (marked k ez ind nn).
Proof.
  intros (N & I & R). rewrite Forall_forall in N.
  assert (P : forall e', In e' (marked k ez ind nn) -> exists e, In e nn /\ snd e' = snd e /\ ed e' = ed e /\ num e').
  { intros e' H. apply marked_in in H. destruct H as (e & He & E1 & [->|[_ E2]]); exists e; repeat split; auto.
    - rewrite E2. apply set_flag_distance.
    - unfold num. rewrite E2, set_flag_nan. apply N, He. }
  split; [apply Forall_forall; intros e' H; destruct (P e' H) as (e & _ & _ & _ & Q); exact Q|].
  split; [intros e' H; destruct (P e' H) as (e & He & -> & -> & _); auto|].
  intros d j H. destruct (R d j H) as (e & He & Ej & Le). destruct (marked_keeps k ez nn e ind He) as [C|C].
  - exists (dwf_set_flag (fst e) false, snd e). split; [apply marked_chosen, C|]. cbn [fst snd].
    rewrite set_flag_distance. auto.
  - exists e. auto.
Qed.

(** ** The whole graph *)
Lemma mapi_res_ok {A B} (f : nat -> A -> res B) l : forall i0,
  (forall j x, nth_error l j = Some x -> exists y, f (i0 + j) x = Ret y) ->
  exists l', mapi_res f i0 l = Ret l' /\ length l' = length l /\
    forall j x, nth_error l j = Some x -> exists y, f (i0 + j) x = Ret y /\ nth_error l' j = Some y.
Proof.
  induction l as [|x l IH]; intros i0 H.
  - exists []. repeat split. intros [|j] x E; discriminate.
  - destruct (H 0 x eq_refl) as (y & Ey). rewrite Nat.add_0_r in Ey.
    destruct (IH (S i0)) as (l' & El & Ll & Pl).
    { intros j z E. destruct (H (S j) z E) as (w & Ew). exists w. rewrite <- Ew. f_equal. lia. }
    exists (y :: l'). cbn [mapi_res]. rewrite Ey. cbn [bind]. rewrite El. cbn [bind]. split; [reflexivity|].
    split; [cbn; lia|]. intros [|j] z E; cbn in E.
    + injection E as <-. exists y. rewrite Nat.add_0_r. auto.
    + destruct (Pl j z E) as (w & Ew & Nw). exists w. rewrite <- Ew. split; [f_equal; lia|exact Nw].
Qed.
Lemma edges_app a b i : edges (a ++ b) i = edges a i ++ edges b i.
Proof.
  induction a as [|[d x y| |k] a IH]; cbn [edges app]; try exact IH; [reflexivity|]. rewrite IH, <- !app_assoc. reflexivity.
Qed.
Lemma touched_since_app a b i : forall t, touched_since t (a ++ b) i = touched_since (touched_since t a i) b i.
Proof. induction a as [|[d x y| |k] a IH]; intros t; cbn [touched_since app]; auto. Qed.
Lemma g_run_app a b : forall g, g_run g (a ++ b) =
  (let! '(g1, o1) := g_run g a in let! '(g2, o2) := g_run g1 b in Ret (g2, o1 ++ o2)).
Proof.
  induction a as [|op a IH]; intros g; cbn [g_run app].
  - cbn [bind]. destruct (g_run g b) as [[g2 o2]| |]; reflexivity.
  - destruct (g_step g op) as [[g1 o1]| |]; cbn [bind]; try reflexivity. rewrite IH.
    destruct (g_run g1 a) as [[g2 o2]| |]; cbn [bind]; try reflexivity.
    destruct (g_run g2 b) as [[g3 o3]| |]; cbn [bind]; try reflexivity. rewrite app_assoc. reflexivity.
Qed.

Definition graph_inv (n ez : nat) (ops : list g_op) (g : graph) : Prop :=
  g_ez g = ez /\ length (g_nn g) = n /\ length (g_updated g) = n /\
  forall i, i < n -> nth_error (g_updated g) i = Some (touched ops i) /\
    exists nn, nth_error (g_nn g) i = Some nn /\ node_inv (edges ops i) nn.

Lemma graph_inv_new n ez : graph_inv n ez [] (g_new n ez).
Proof.
  split; [reflexivity|]. split; [apply repeat_length|]. split; [apply repeat_length|].
  intros i L. split; [apply nth_error_repeat, L|]. exists []. split; [apply nth_error_repeat, L|].
  split; [constructor|]. split; [intros ? []|intros ? ? []].
Qed.

Lemma set_nth_spec {A} (l l' : list A) i x : set_nth l i x = Some l' ->
  length l' = length l /\ nth_error l' i = Some x /\ (forall j, j <> i -> nth_error l' j = nth_error l j).
Proof.
  revert l' i. induction l as [|y l IH]; intros l' [|i] E; cbn in E; try discriminate.
  - injection E as <-. repeat split. intros [|j] H; [lia|reflexivity].
  - destruct (set_nth l i x) as [t|] eqn:Et; [|discriminate]. cbn in E. injection E as <-.
    destruct (IH t i Et) as (A1 & A2 & A3). repeat split; cbn; [lia|exact A2|]. intros [|j] H; [reflexivity|]. apply A3. lia.
Qed.
Lemma set_nth_ok {A} (l : list A) i x : i < length l -> exists l', set_nth l i x = Some l'.
Proof.
  revert i. induction l as [|y l IH]; intros [|i] L; cbn in *; try lia; [eauto|].
  destruct (IH i ltac:(lia)) as (l' & ->). cbn. eauto.
Qed.

(** what insertion does to each node *)
Lemma g_insert_spec g d a b n : length (g_nn g) = n -> length (g_updated g) = n -> a < n -> b < n ->
  exists g', g_insert g d a b = Ret g' /\ g_ez g' = g_ez g /\ length (g_nn g') = n /\ length (g_updated g') = n /\
    forall i, i < n ->
      (forall u, nth_error (g_updated g) i = Some u -> nth_error (g_updated g') i = Some (u || (a =? i) || (b =? i))) /\
      (forall nn, nth_error (g_nn g) i = Some nn ->
         nth_error (g_nn g') i = Some (nn ++ (if a =? i then [(d, b)] else []) ++ (if b =? i then [(d, a)] else []))).
Proof.
  intros Ln Lu La Lb. unfold g_insert, get, put, dwf_from.
  destruct (nth_error (g_nn g) a) as [na|] eqn:Ea; [|apply nth_error_None in Ea; lia]. cbn [bind].
  destruct (set_nth_ok (g_nn g) a (na ++ [(d, b)]) ltac:(lia)) as (l1 & E1). rewrite E1. cbn [bind].
  destruct (set_nth_spec _ _ _ _ E1) as (L1 & A1 & B1).
  destruct (nth_error l1 b) as [nb|] eqn:Eb; [|apply nth_error_None in Eb; lia]. cbn [bind].
  destruct (set_nth_ok l1 b (nb ++ [(d, a)]) ltac:(lia)) as (l2 & E2). rewrite E2. cbn [bind].
  destruct (set_nth_spec _ _ _ _ E2) as (L2 & A2 & B2).
  destruct (set_nth_ok (g_updated g) a true ltac:(lia)) as (u1 & E3). rewrite E3. cbn [bind].
  destruct (set_nth_spec _ _ _ _ E3) as (L3 & A3 & B3).
  destruct (set_nth_ok u1 b true ltac:(lia)) as (u2 & E4). rewrite E4. cbn [bind].
  destruct (set_nth_spec _ _ _ _ E4) as (L4 & A4 & B4).
  eexists. split; [reflexivity|]. cbn [g_ez g_nn g_updated]. split; [reflexivity|]. split; [lia|]. split; [lia|].
  intros i L. split.
  - intros u Hu. destruct (Nat.eqb_spec b i) as [->|Nb].
    + rewrite A4, orb_true_r. reflexivity.
    + rewrite B4 by lia. rewrite orb_false_r. destruct (Nat.eqb_spec a i) as [->|Na].
      * rewrite A3, orb_true_r. reflexivity.
      * rewrite B3 by lia. rewrite orb_false_r. exact Hu.
  - intros nn Hn. destruct (Nat.eqb_spec b i) as [->|Nb].
    + rewrite A2. destruct (Nat.eqb_spec a i) as [->|Na].
      * assert (nb = na ++ [(d, i)]) by congruence. assert (na = nn) by congruence. subst. rewrite <- app_assoc. reflexivity.
      * rewrite (B1 i ltac:(lia)) in Eb. assert (nb = nn) by congruence. subst. reflexivity.
    + rewrite B2 by lia. rewrite app_nil_r. destruct (Nat.eqb_spec a i) as [->|Na].
      * assert (na = nn) by congruence. subst. exact A1.
      * rewrite B1 by lia. rewrite app_nil_r. exact Hn.
Qed.

Lemma node_inv_grow es nn d j : node_inv es nn -> is_nan d = false -> is_sign_negative d = false ->
  node_inv (es ++ [(d, j)]) (nn ++ [(d, j)]).
Proof.
  intros (N & I & R) Nd Sd.
  assert (Ad : dwf_distance d = d) by (apply abs_id, Sd).
  split; [apply Forall_app; split; [exact N|repeat constructor; exact Nd]|]. split.
  - intros e H. apply in_app_or in H. apply in_or_app. destruct H as [H|[<-|[]]]; [left; auto|right].
    left. cbn. rewrite Ad. reflexivity.
  - intros d' j' H. apply in_app_or in H. destruct H as [H|[H|[]]].
    + destruct (R d' j' H) as (e & He & E). exists e. split; [apply in_or_app; auto|exact E].
    + injection H as <- <-. exists (d, j). split; [apply in_or_app; right; left; reflexivity|]. cbn. rewrite Ad.
      split; [reflexivity|apply fle_refl, Nd].
Qed.

(** what a read does to each node *)
Definition read_node (k ez i : nat) (u : bool) (nn nn' : list entry) (out : option (list nat * list f64)) : Prop :=
  if u then
    exists t, tidy nn t /\ nn' = marked k ez [i] t /\
      out = (if existsb (fun e => ef e) (chosen k ez [i] t)
             then Some ([i] ++ map snd (chosen k ez [i] t), [f_zero] ++ map (fun e => ed e) (chosen k ez [i] t))
             else None)
  else nn' = nn /\ out = None.

Lemma g_read_spec n ez ops g k : graph_inv n ez ops g ->
  exists g' r, g_neighborhoods g k = Ret (g', flat_map (fun p : list entry * option (list nat * list f64) => match snd p with Some x => [x] | None => [] end) r) /\
    g_ez g' = ez /\ g_updated g' = g_updated g /\ length (g_nn g') = n /\ length r = n /\
    forall i, i < n -> exists nn nn' out, nth_error (g_nn g) i = Some nn /\ nth_error (g_nn g') i = Some nn' /\
      nth_error r i = Some (nn', out) /\ read_node k ez i (touched ops i) nn nn' out.
Proof.
  intros (Ez & Ln & Lu & H). unfold g_neighborhoods, g_remove_duplicates.
  match goal with |- context [mapi_res ?f 0 (g_nn g)] => set (f1 := f) end.
  destruct (mapi_res_ok f1 (g_nn g) 0) as (l1 & E1 & L1 & P1).
  { intros j nn Ej. assert (Lj : j < n) by (rewrite <- Ln; apply nth_error_Some; congruence).
    destruct (H j Lj) as (Hu & nn' & En & Hn). assert (nn' = nn) by congruence. subst nn'.
    unfold f1. cbn [Nat.add]. unfold get. rewrite Hu. cbn [bind]. destruct (touched ops j); [|eauto].
    destruct (nn_tidy nn (proj1 Hn)) as (s & -> & _). cbn [bind]. eauto. }
  rewrite E1. cbn [bind g_nn g_updated g_ez].
  match goal with |- context [mapi_res ?f 0 l1] => set (f2 := f) end.
  destruct (mapi_res_ok f2 l1 0) as (l2 & E2 & L2 & P2).
  { intros j nn Ej. assert (Lj : j < n) by (rewrite <- Ln, <- L1; apply nth_error_Some; congruence).
    destruct (H j Lj) as (Hu & _). unfold f2. cbn [Nat.add]. unfold get. rewrite Hu. cbn [bind]. eauto. }
  rewrite E2. cbn [bind]. eexists. exists l2. split; [reflexivity|]. cbn [g_nn g_updated g_ez].
  split; [exact Ez|]. split; [reflexivity|]. split; [rewrite map_length; lia|]. split; [lia|].
  intros i Li. destruct (H i Li) as (Hu & nn & En & Hn).
  destruct (P1 i nn En) as (y1 & F1 & N1). destruct (P2 i y1 N1) as ((nn', out) & F2 & N2). cbn [Nat.add] in F1, F2.
  exists nn, nn', out. split; [exact En|]. split; [rewrite nth_error_map, N2; reflexivity|]. split; [exact N2|].
  unfold f1, get in F1. unfold f2, get in F2. rewrite Hu in F1, F2. cbn [bind] in F1, F2. unfold read_node.
  apply Ret_inj in F2. unfold g_node in F2.
  destruct (touched ops i).
  - destruct (nn_tidy nn (proj1 Hn)) as (s & Es & T). rewrite Es in F1. cbn [bind] in F1. apply Ret_inj in F1. subst y1.
    rewrite nn_scan_eq, Ez in F2. cbn [orb] in F2. injection F2 as <- <-. exists (nn_dedup s). auto.
  - apply Ret_inj in F1. subst y1. injection F2 as <- <-. auto.
Qed.

Lemma graph_step n ez ops g op g' out : graph_inv n ez ops g -> well_formed n (ops ++ [op]) -> g_step g op = Ret (g', out) ->
  graph_inv n ez (ops ++ [op]) g'.
Proof.
  intros V W E. pose proof V as (Ez & Ln & Lu & H). destruct op as [d a b| |k]; cbn [g_step] in E.
  - destruct (W d a b ltac:(apply in_or_app; right; left; reflexivity)) as (La & Lb & Nd & Sd).
    destruct (g_insert_spec g d a b n Ln Lu La Lb) as (g1 & E1 & Z1 & L1 & L2 & P). rewrite E1 in E. cbn [bind] in E.
    apply Ret_inj in E. injection E as <- <-. split; [congruence|]. split; [exact L1|]. split; [exact L2|].
    intros i Li. destruct (H i Li) as (Hu & nn & En & Hn). destruct (P i Li) as (Pu & Pn). split.
    + unfold touched. rewrite touched_since_app. cbn [touched_since]. apply Pu, Hu.
    + eexists. split; [apply Pn, En|]. rewrite edges_app. cbn [edges]. rewrite app_nil_r.
      destruct (a =? i), (b =? i); cbn [app]; rewrite ?app_nil_r; try exact Hn; try (apply node_inv_grow; assumption).
      change [(d, b); (d, a)] with ([(d, b)] ++ [(d, a)]). rewrite !app_assoc. apply node_inv_grow; try assumption.
      apply node_inv_grow; assumption.
  - apply Ret_inj in E. injection E as <- <-. split; [exact Ez|]. split; [exact Ln|]. split; [cbn; rewrite map_length; exact Lu|].
    intros i Li. destruct (H i Li) as (Hu & nn & En & Hn). cbn [g_reset_updated g_updated g_nn]. split.
    + rewrite nth_error_map, Hu. unfold touched. rewrite touched_since_app. reflexivity.
    + exists nn. rewrite edges_app. cbn [edges]. rewrite app_nil_r. auto.
  - destruct (g_read_spec n ez ops g k V) as (g1 & r & E1 & Z1 & U1 & L1 & L2 & P). rewrite E1 in E.
    apply Ret_inj in E. injection E as <- <-. split; [exact Z1|]. split; [exact L1|]. split; [rewrite U1; exact Lu|].
    intros i Li. destruct (H i Li) as (Hu & nn & En & Hn). split.
    + rewrite U1, Hu. unfold touched. rewrite touched_since_app. reflexivity.
    + destruct (P i Li) as (nn0 & nn' & o & En0 & En' & _ & R). assert (nn0 = nn) by congruence. subst nn0.
      exists nn'. split; [exact En'|]. rewrite edges_app. cbn [edges]. rewrite app_nil_r.
      unfold read_node in R. destruct (touched ops i).
      * destruct R as (t & T & -> & _). apply marked_node. eapply tidy_node; eauto.
      * destruct R as [-> _]. exact Hn.
Qed.

Lemma graph_step_ok n ez ops g op : graph_inv n ez ops g -> well_formed n (ops ++ [op]) -> exists g' out, g_step g op = Ret (g', out).
Proof.
  intros V W. pose proof V as (Ez & Ln & Lu & H). destruct op as [d a b| |k]; cbn [g_step].
  - destruct (W d a b ltac:(apply in_or_app; right; left; reflexivity)) as (La & Lb & Nd & Sd).
    destruct (g_insert_spec g d a b n Ln Lu La Lb) as (g1 & -> & _). cbn [bind]. eauto.
  - eauto.
  - destruct (g_read_spec n ez ops g k V) as (g1 & r & -> & _). eauto.
Qed.
Lemma well_formed_app n a b : well_formed n (a ++ b) -> well_formed n a.
Proof. intros W d x y H. apply W, in_or_app; left; exact H. Qed.
Lemma graph_run n ez ops : well_formed n ops -> exists g out, g_run (g_new n ez) ops = Ret (g, out) /\ graph_inv n ez ops g.
Proof.
  induction ops as [|op ops IH] using rev_ind; intros W.
  - exists (g_new n ez), []. split; [reflexivity|apply graph_inv_new].
  - destruct (IH (well_formed_app _ _ _ W)) as (g & out & E & V).
    destruct (graph_step_ok n ez ops g op V W) as (g' & out' & E').
    exists g', (out ++ out'). split; [|eapply graph_step; eauto].
    rewrite g_run_app, E. cbn [bind g_run]. rewrite E'. cbn [bind]. rewrite app_nil_r. reflexivity.
Qed.
