(** Property theorem C147 (the overlap tests with machine words).  Model: OverlapsWords.v. *)
From Coq Require Import Permutation.
From Verif Require Import Base Overlaps OverlapsWords.
Local Open Scope Z_scope.

(** some position of one list is closer than [ez] to some position of the other *)
Definition closer (ez : Z) (xs ys : list Z) : Prop := exists x y, In x xs /\ In y ys /\ Z.abs (x - y) < ez.

Lemma as_isize_id x : - 2 ^ 63 <= x < 2 ^ 63 -> as_isize x = x.
Proof.
  intros H. unfold as_isize. cbv zeta. destruct (Z.lt_ge_cases x 0) as [L|L].
  - replace (x mod 2 ^ 64) with (x + 2 ^ 64). 2:{ symmetry. rewrite <- (Z.mod_add x 1) by lia. rewrite Z.mul_1_l. apply Z.mod_small. lia. }
    destruct (Z.ltb_spec (x + 2 ^ 64) (2 ^ 63)); lia.
  - rewrite Z.mod_small by lia. destruct (Z.ltb_spec x (2 ^ 63)); lia.
Qed.
Lemma as_isize_high x : 2 ^ 63 <= x < 2 ^ 64 -> as_isize x = x - 2 ^ 64.
Proof. intros H. unfold as_isize. cbv zeta. rewrite Z.mod_small by lia. destruct (Z.ltb_spec x (2 ^ 63)); lia. Qed.
Lemma isize_ok checks x : - 2 ^ 63 <= x < 2 ^ 63 -> isize_result checks x = Ret x.
Proof.
  intros H. unfold isize_result. rewrite as_isize_id by lia. rewrite (proj2 (Z.leb_le _ _)), (proj2 (Z.ltb_lt _ _)) by lia. rewrite andb_false_r. reflexivity.
Qed.

(** * C147 *)
(** Positions below 2^63.  With an exclusion zone below 2^63 the test is exact in both builds.
    With a larger zone every pair of positions is too close; the debug build says the opposite
    or aborts, and the release build says the opposite unless the positions are far enough. *)
Theorem c147_positions :
  forall (checks : bool) (a b ez : Z), 0 <= a < 2 ^ 63 -> 0 <= b < 2 ^ 63 ->
    (0 <= ez < 2 ^ 63 -> exists r, overlaps_build checks a b ez = Ret r /\ (r = true <-> Z.abs (a - b) < ez)) /\
    (2 ^ 63 <= ez < 2 ^ 64 ->
       Z.abs (a - b) < ez /\
       overlaps_build checks a b ez =
         (if Z.abs (a - b) <? ez - 2 ^ 63 then Ret false else if checks then Panic else Ret true)).
Proof.
  intros checks a b ez Ha Hb. unfold overlaps_build. rewrite (as_isize_id a), (as_isize_id b) by lia.
  rewrite (isize_ok checks (a - b)) by lia. cbn [bind]. rewrite (isize_ok checks (Z.abs _)) by lia. cbn [bind]. split.
  - intros He. rewrite (as_isize_id ez) by lia. rewrite isize_ok by lia. cbn [bind]. eexists. split; [reflexivity|].
    rewrite Z.ltb_lt. lia.
  - intros He. split; [lia|]. rewrite (as_isize_high ez) by lia. destruct (Z.ltb_spec (Z.abs (a - b)) (ez - 2 ^ 63)) as [L|L].
    + rewrite isize_ok by lia. cbn [bind]. f_equal. apply Z.ltb_ge. lia.
    + unfold isize_result. rewrite (proj2 (Z.ltb_ge (Z.abs (a - b) - (ez - 2 ^ 64)) (2 ^ 63))) by lia. rewrite andb_false_r. cbn [negb]. rewrite andb_true_r.
      destruct checks; [reflexivity|]. cbn [bind]. rewrite as_isize_high by lia. f_equal. apply Z.ltb_lt. lia.
Qed.
Print Assumptions c147_positions.
Example c147_positions_case :
  overlaps_build true 10 14 5 = Ret true /\ overlaps_build true 10 15 5 = Ret false /\
  overlaps_build false 10 14 (2 ^ 64 - 1) = Ret false /\ overlaps_build true 10 14 (2 ^ 63 + 4) = Panic /\ overlaps_build false 10 14 (2 ^ 63 + 4) = Ret true.
Proof. repeat split; reflexivity. Qed.

Lemma insert_word_perm x l : Permutation (insert_word x l) (x :: l).
Proof. induction l as [|y t IH]; cbn; [reflexivity|]. destruct (x <=? y); [reflexivity|]. rewrite IH. apply perm_swap. Qed.
Lemma sort_words_perm l : Permutation (sort_words l) l.
Proof. induction l as [|x l IH]; cbn; [reflexivity|]. rewrite insert_word_perm, IH. reflexivity. Qed.
Fixpoint ascending (l : list Z) : Prop :=
  match l with x :: ((y :: _) as t) => x <= y /\ ascending t | _ => True end.
Lemma insert_word_asc x l : ascending l -> ascending (insert_word x l).
Proof.
  induction l as [|y t IH]; intros H; cbn [insert_word]; [exact I|]. destruct (Z.leb_spec x y); [split; [lia|exact H]|].
  destruct t as [|z t]; cbn [insert_word] in *; [cbn; lia|]. destruct H as (H1 & H2). specialize (IH H2).
  destruct (Z.leb_spec x z); cbn in *; repeat split; try lia; tauto.
Qed.
Lemma sort_words_asc l : ascending (sort_words l).
Proof. induction l as [|x l IH]; cbn; [exact I|]. apply insert_word_asc, IH. Qed.

Ltac inj := match goal with H : _ :: _ = _ :: _ |- _ => injection H; clear H; intros end.
(** Two motifs with positions below 2^63, each with its own positions not closer than the zone.
    With a zone below 2^63 the test is exact, in both builds. *)
Theorem c147_motifs :
  forall (checks : bool) (a1 b1 a2 b2 ez : Z),
    (forall x, In x [a1; b1; a2; b2] -> 0 <= x < 2 ^ 63) -> 0 <= ez < 2 ^ 63 ->
    ez <= Z.abs (a1 - b1) -> ez <= Z.abs (a2 - b2) ->
    exists r, motif_overlaps_build checks a1 b1 a2 b2 ez = Ret r /\ (r = true <-> closer ez [a1; b1] [a2; b2]).
Proof.
  intros checks a1 b1 a2 b2 ez Hp He N1 N2. unfold motif_overlaps_build.
  pose proof (sort_words_perm [a1; b1; a2; b2]) as P. pose proof (sort_words_asc [a1; b1; a2; b2]) as S.
  pose proof (Permutation_length P) as L. destruct (sort_words [a1; b1; a2; b2]) as [|i0 [|i1 [|i2 [|i3 [|? ?]]]]]; try discriminate L. clear L.
  assert (R : forall x, In x [i0; i1; i2; i3] -> 0 <= x < 2 ^ 63) by (intros x H; apply Hp, (Permutation_in x P), H).
  assert (A : forall x, In x [i0; i1; i2; i3] -> usize_add checks x ez = Ret (x + ez)).
  { intros x H. apply R in H. unfold usize_add. rewrite (proj2 (Z.leb_gt _ _)) by lia. rewrite andb_false_r, Z.mod_small by lia. reflexivity. }
  rewrite !A by (cbn; tauto). cbn [bind]. cbn [ascending] in S.
  assert (K : (i1 < i0 + ez \/ i2 < i1 + ez \/ i3 < i2 + ez) <-> closer ez [a1; b1] [a2; b2]).
  { assert (C : closer ez [a1; b1] [a2; b2] <-> Z.abs (a1 - a2) < ez \/ Z.abs (a1 - b2) < ez \/ Z.abs (b1 - a2) < ez \/ Z.abs (b1 - b2) < ez).
    { unfold closer. split.
      - intros (x & y & [<-|[<-|[]]] & [<-|[<-|[]]] & H); tauto.
      - intros [H|[H|[H|H]]]; eexists _, _; (split; [|split; [|exact H]]); cbn; tauto. }
    rewrite C. clear C A R Hp.
    apply Permutation_sym in P.
    revert S N1 N2.
    apply Permutation_vs_cons_inv in P as P1. destruct P1 as (u1 & v1 & E1). 
    assert (P2 : Permutation (u1 ++ v1) [i1; i2; i3]) by (apply (Permutation_cons_inv (a := i0)); rewrite Permutation_middle, <- E1; exact P).
    apply Permutation_vs_cons_inv in P2 as P3. destruct P3 as (u2 & v2 & E2).
    assert (P4 : Permutation (u2 ++ v2) [i2; i3]) by (apply (Permutation_cons_inv (a := i1)); rewrite Permutation_middle, <- E2; exact P2).
    apply Permutation_vs_cons_inv in P4 as P5. destruct P5 as (u3 & v3 & E3).
    assert (P6 : Permutation (u3 ++ v3) [i3]) by (apply (Permutation_cons_inv (a := i2)); rewrite Permutation_middle, <- E3; exact P4).
    apply Permutation_sym, Permutation_length_1_inv in P6. clear P P2 P4.
    destruct u3 as [|? [|? ?]]; cbn in P6; try discriminate P6; repeat inj; subst; cbn in E3;
    destruct u2 as [|? [|? [|? ?]]]; cbn in E3; try discriminate E3; repeat inj; subst; cbn in E2;
    destruct u1 as [|? [|? [|? [|? ?]]]]; cbn in E2; try discriminate E2; repeat inj; subst; cbn in E1; repeat inj; subst; lia. }
  destruct (Z.ltb_spec i1 (i0 + ez)) as [H1|H1]; [exists true; split; [reflexivity|]; rewrite <- K; tauto|].
  destruct (Z.ltb_spec i2 (i1 + ez)) as [H2|H2]; [exists true; split; [reflexivity|]; rewrite <- K; tauto|].
  eexists. split; [reflexivity|]. rewrite Z.ltb_lt, <- K. lia.
Qed.
Print Assumptions c147_motifs.
Example c147_motifs_case :
  motif_overlaps_build true 0 20 10 30 5 = Ret false /\ motif_overlaps_build true 0 20 24 60 5 = Ret true /\
  motif_overlaps_build true 0 (2 ^ 62 + 9) 5 (2 ^ 63 - 1) (2 ^ 62 - 7) = Ret true.
Proof. repeat split; reflexivity. Qed.

(** With a larger zone it should say that any two motifs overlap, or abort: in a release build it
    says that two motifs with the same positions do not. *)
Theorem c147_motifs_refuted :
  forall p q, 0 < p -> p < q -> q < 2 ^ 63 ->
    closer (2 ^ 64 - 1) [p; q] [p; q] /\
    motif_overlaps_build true p q p q (2 ^ 64 - 1) = Panic /\ motif_overlaps_build false p q p q (2 ^ 64 - 1) = Ret false.
Proof.
  intros p q Hp Hq Hb. split; [exists p, p; cbn; split; [tauto|]; split; [tauto|]; lia|].
  assert (E : sort_words [p; q; p; q] = [p; p; q; q]).
  { cbn [sort_words fold_right insert_word]. destruct (Z.leb_spec p q); [|lia]. cbn [insert_word].
    destruct (Z.leb_spec q p); [lia|]. cbn [insert_word]. rewrite Z.leb_refl. rewrite ?Z.leb_refl. cbn [insert_word].
    rewrite ?Z.leb_refl. reflexivity. }
  unfold motif_overlaps_build. rewrite E.
  assert (U : forall x, 0 < x < 2 ^ 63 -> usize_add true x (2 ^ 64 - 1) = Panic /\ usize_add false x (2 ^ 64 - 1) = Ret (x - 1)).
  { intros x Hx. unfold usize_add. rewrite (proj2 (Z.leb_le _ _)) by lia. cbn [andb]. split; [reflexivity|]. f_equal.
    replace (x + (2 ^ 64 - 1)) with (x - 1 + 1 * 2 ^ 64) by lia. rewrite Z.mod_add by lia. apply Z.mod_small. lia. }
  destruct (U p ltac:(lia)) as (U1 & U2). destruct (U q ltac:(lia)) as (U3 & U4). rewrite U1, !U2, !U4. cbn [bind]. split; [reflexivity|].
  destruct (Z.ltb_spec p (p - 1)); [lia|]. destruct (Z.ltb_spec q (p - 1)); [lia|]. f_equal. apply Z.ltb_ge. lia.
Qed.
Print Assumptions c147_motifs_refuted.
Example c147_refuted_case : motif_overlaps_build false 10 20 10 20 (2 ^ 64 - 1) = Ret false.
Proof. reflexivity. Qed.

(** The tests on unbounded positions that the rest of the model uses (Overlaps.v) are these, for
    positions and zones below 2^63. *)
Lemma sort_words_nat l : sort_words (map Z.of_nat l) = map Z.of_nat (sort_nat l).
Proof.
  induction l as [|x l IH]; [reflexivity|]. cbn [map sort_words sort_nat fold_right]. fold (sort_words (map Z.of_nat l)). fold (sort_nat l). rewrite IH.
  clear IH. induction (sort_nat l) as [|y t IH]; [reflexivity|]. cbn [map insert_word insert_nat].
  destruct (Z.leb_spec (Z.of_nat x) (Z.of_nat y)), (Nat.leb_spec x y); try lia; cbn [map]; [reflexivity|]. rewrite IH. reflexivity.
Qed.
Theorem c147_model :
  forall (checks : bool) (ez : nat), Z.of_nat ez < 2 ^ 63 ->
    (forall a b, Z.of_nat a < 2 ^ 63 -> Z.of_nat b < 2 ^ 63 ->
       overlaps_build checks (Z.of_nat a) (Z.of_nat b) (Z.of_nat ez) = Ret (overlaps a b ez)) /\
    (forall a1 b1 a2 b2, (forall x, In x [a1; b1; a2; b2] -> Z.of_nat x < 2 ^ 63) ->
       motif_overlaps_build checks (Z.of_nat a1) (Z.of_nat b1) (Z.of_nat a2) (Z.of_nat b2) (Z.of_nat ez) = Ret (motif_overlaps a1 b1 a2 b2 ez)).
Proof.
  intros checks ez He. split.
  - intros a b Ha Hb. destruct (proj1 (c147_positions checks (Z.of_nat a) (Z.of_nat b) (Z.of_nat ez) ltac:(lia) ltac:(lia)) ltac:(lia)) as (r & -> & R).
    f_equal. unfold overlaps. destruct r; symmetry; [apply Z.ltb_lt; pose proof (proj1 R eq_refl); lia|]. apply Z.ltb_ge.
    destruct (Z.lt_ge_cases (Z.abs (Z.of_nat a - Z.of_nat b)) (Z.of_nat ez)) as [H|H]; [apply R in H; discriminate|lia].
  - intros a1 b1 a2 b2 Hp. unfold motif_overlaps_build, motif_overlaps.
    change [Z.of_nat a1; Z.of_nat b1; Z.of_nat a2; Z.of_nat b2] with (map Z.of_nat [a1; b1; a2; b2]). rewrite sort_words_nat.
    pose proof (sort_words_perm (map Z.of_nat [a1; b1; a2; b2])) as P. rewrite sort_words_nat in P.
    pose proof (Permutation_length P) as L. rewrite !map_length in L.
    destruct (sort_nat [a1; b1; a2; b2]) as [|i0 [|i1 [|i2 [|i3 [|? ?]]]]]; try discriminate L. cbn [map].
    assert (A : forall x, In x [i0; i1; i2; i3] -> usize_add checks (Z.of_nat x) (Z.of_nat ez) = Ret (Z.of_nat (x + ez))).
    { intros x H. apply (in_map Z.of_nat) in H. apply (Permutation_in _ P) in H. apply in_map_iff in H. destruct H as (y & E & Hy). apply Hp in Hy.
      unfold usize_add. rewrite (proj2 (Z.leb_gt _ _)) by lia. rewrite andb_false_r, Z.mod_small by lia. f_equal. lia. }
    rewrite !A by (cbn; tauto). cbn [bind].
    assert (B : forall x y, (Z.of_nat x <? Z.of_nat y) = Nat.ltb x y) by (intros x y; destruct (Z.ltb_spec (Z.of_nat x) (Z.of_nat y)), (Nat.ltb_spec x y); try reflexivity; lia).
    rewrite !B. destruct (Nat.ltb i1 (i0 + ez)); [reflexivity|]. destruct (Nat.ltb i2 (i1 + ez)); reflexivity.
Qed.
Print Assumptions c147_model.
Example c147_model_case : motif_overlaps 7 40 50 90 10 = false /\ motif_overlaps 7 40 49 90 10 = true /\
  motif_overlaps_build true 7 40 49 90 10 = Ret true.
Proof. repeat split; reflexivity. Qed.
