From Verif Require Import Base Overlaps OverlapsSpec.

Lemma overlaps_spec a b ez : overlaps a b ez = true <-> too_close ez a b.
Proof. unfold overlaps, too_close. lia. Qed.
Lemma overlaps_spec_false a b ez : overlaps a b ez = false <-> ~ too_close ez a b.
Proof. unfold overlaps, too_close. lia. Qed.
Lemma overlaps_sym a b ez : overlaps a b ez = overlaps b a ez.
Proof. unfold overlaps. f_equal. lia. Qed.
Lemma overlaps_refl a ez : 0 < ez -> overlaps a a ez = true.
Proof. unfold overlaps. lia. Qed.
Lemma too_close_sym ez a b : too_close ez a b -> too_close ez b a.
Proof. unfold too_close. lia. Qed.

(** ** Machine words *)
Lemma as_isize_id x : (- 2 ^ 63 <= x < 2 ^ 63)%Z -> as_isize x = x.
Proof.
  intros H. unfold as_isize.
  destruct (Z_le_gt_dec 0 x).
  - rewrite Z.mod_small by lia. destruct (Z.ltb_spec x (2^63)); lia.
  - replace (x mod 2 ^ 64)%Z with (x + 2^64)%Z.
    + destruct (Z.ltb_spec (x + 2^64) (2^63)); lia.
    + apply Zmod_unique with (-1)%Z; lia.
Qed.

Lemma overlaps_word_spec a b ez :
  (0 <= a < 2 ^ 63)%Z -> (0 <= b < 2 ^ 63)%Z -> (0 <= ez < 2 ^ 63)%Z ->
  overlaps_word a b ez = (Z.abs (a - b) <? ez)%Z.
Proof.
  intros Ha Hb He. unfold overlaps_word.
  rewrite (as_isize_id a), (as_isize_id b), (as_isize_id ez) by lia.
  rewrite (as_isize_id (a - b)) by lia.
  rewrite (as_isize_id (Z.abs (a - b))) by lia.
  rewrite (as_isize_id (Z.abs (a - b) - ez)) by lia.
  lia.
Qed.

Lemma overlaps_word_nat a b ez :
  (Z.of_nat a < 2 ^ 63)%Z -> (Z.of_nat b < 2 ^ 63)%Z -> (Z.of_nat ez < 2 ^ 63)%Z ->
  overlaps_word (Z.of_nat a) (Z.of_nat b) (Z.of_nat ez) = overlaps a b ez.
Proof.
  intros Ha Hb He. rewrite overlaps_word_spec by lia. unfold overlaps. lia.
Qed.

(** ** Sets of positions *)
Lemma overlaps_any_spec a ys ez :
  overlaps_any a ys ez = true <-> exists y, In y ys /\ too_close ez a y.
Proof.
  unfold overlaps_any. rewrite existsb_exists.
  split; intros (y & Hy & H); exists y; split; auto; apply overlaps_spec; exact H.
Qed.
Lemma overlaps_any_false a ys ez :
  overlaps_any a ys ez = false <-> forall y, In y ys -> ~ too_close ez a y.
Proof.
  rewrite <- not_true_iff_false, overlaps_any_spec. firstorder.
Qed.
Lemma overlaps_lists_spec xs ys ez :
  overlaps_lists xs ys ez = true <-> sets_conflict ez xs ys.
Proof.
  unfold overlaps_lists, sets_conflict. rewrite existsb_exists. split.
  - intros (x & Hx & H). apply overlaps_any_spec in H. destruct H as (y & Hy & H). eauto.
  - intros (x & y & Hx & Hy & H). exists x. split; [exact Hx|].
    apply overlaps_any_spec. eauto.
Qed.
Lemma sets_conflict_sym ez xs ys : sets_conflict ez xs ys -> sets_conflict ez ys xs.
Proof.
  intros (x & y & Hx & Hy & H). exists y, x. auto using too_close_sym.
Qed.
Lemma overlaps_lists_sym xs ys ez : overlaps_lists xs ys ez = overlaps_lists ys xs ez.
Proof.
  destruct (overlaps_lists xs ys ez) eqn:E1, (overlaps_lists ys xs ez) eqn:E2; try reflexivity.
  - apply overlaps_lists_spec, sets_conflict_sym, overlaps_lists_spec in E1. congruence.
  - apply overlaps_lists_spec, sets_conflict_sym, overlaps_lists_spec in E2. congruence.
Qed.
Lemma overlaps_lists_false xs ys ez :
  overlaps_lists xs ys ez = false <-> ~ sets_conflict ez xs ys.
Proof. rewrite <- overlaps_lists_spec. destruct (overlaps_lists xs ys ez); split; congruence. Qed.
Lemma overlaps_lists_refl xs ez : 0 < ez -> xs <> [] -> overlaps_lists xs xs ez = true.
Proof.
  intros He Hx. destruct xs as [|x xs]; [congruence|].
  apply overlaps_lists_spec. exists x, x. repeat split; try (left; reflexivity); lia.
Qed.

(** ** Motifs *)
Lemma insert_nat_length x l : length (insert_nat x l) = S (length l).
Proof. induction l as [|y l IH]; cbn; [reflexivity|]. destruct (x <=? y); cbn; lia. Qed.

Lemma motif_overlaps_spec a1 b1 a2 b2 ez :
  ~ too_close ez a1 b1 -> ~ too_close ez a2 b2 ->
  motif_overlaps a1 b1 a2 b2 ez = true <-> sets_conflict ez [a1; b1] [a2; b2].
Proof.
  intros H1 H2.
  assert (S : sets_conflict ez [a1; b1] [a2; b2] <->
     (too_close ez a1 a2 \/ too_close ez a1 b2 \/ too_close ez b1 a2 \/ too_close ez b1 b2)).
  { unfold sets_conflict. split.
    - intros (x & y & Hx & Hy & H). cbn in Hx, Hy.
      destruct Hx as [<-|[<-|[]]], Hy as [<-|[<-|[]]]; auto.
    - intros [H|[H|[H|H]]]; [exists a1, a2|exists a1, b2|exists b1, a2|exists b1, b2];
        cbn; auto. }
  rewrite S. clear S.
  unfold motif_overlaps, too_close in *. unfold sort_nat. cbn [fold_right insert_nat].
  destruct (Nat.leb_spec a2 b2); cbn [insert_nat].
  - destruct (Nat.leb_spec b1 a2); cbn [insert_nat].
    + destruct (Nat.leb_spec a1 b1); cbn [insert_nat]; [lia|].
      destruct (Nat.leb_spec a1 a2); cbn [insert_nat]; [lia|].
      destruct (Nat.leb_spec a1 b2); cbn [insert_nat]; lia.
    + destruct (Nat.leb_spec b1 b2); cbn [insert_nat].
      * destruct (Nat.leb_spec a1 a2); cbn [insert_nat]; [lia|].
        destruct (Nat.leb_spec a1 b1); cbn [insert_nat]; [lia|].
        destruct (Nat.leb_spec a1 b2); cbn [insert_nat]; lia.
      * destruct (Nat.leb_spec a1 a2); cbn [insert_nat]; [lia|].
        destruct (Nat.leb_spec a1 b2); cbn [insert_nat]; [lia|].
        destruct (Nat.leb_spec a1 b1); cbn [insert_nat]; lia.
  - destruct (Nat.leb_spec b1 b2); cbn [insert_nat].
    + destruct (Nat.leb_spec a1 b1); cbn [insert_nat]; [lia|].
      destruct (Nat.leb_spec a1 b2); cbn [insert_nat]; [lia|].
      destruct (Nat.leb_spec a1 a2); cbn [insert_nat]; lia.
    + destruct (Nat.leb_spec b1 a2); cbn [insert_nat].
      * destruct (Nat.leb_spec a1 b2); cbn [insert_nat]; [lia|].
        destruct (Nat.leb_spec a1 b1); cbn [insert_nat]; [lia|].
        destruct (Nat.leb_spec a1 a2); cbn [insert_nat]; lia.
      * destruct (Nat.leb_spec a1 b2); cbn [insert_nat]; [lia|].
        destruct (Nat.leb_spec a1 a2); cbn [insert_nat]; [lia|].
        destruct (Nat.leb_spec a1 b1); cbn [insert_nat]; lia.
Qed.

Lemma motif_overlaps_sym a1 b1 a2 b2 ez :
  motif_overlaps a1 b1 a2 b2 ez = motif_overlaps a2 b2 a1 b1 ez.
Proof.
  unfold motif_overlaps. f_equal.
  replace (sort_nat [a2; b2; a1; b1]) with (sort_nat [a1; b1; a2; b2]); [reflexivity|].
  unfold sort_nat. cbn [fold_right].
  assert (C : forall x y l, insert_nat x (insert_nat y l) = insert_nat y (insert_nat x l)).
  { intros x y l. induction l as [|z l IH]; cbn [insert_nat].
    - destruct (Nat.leb_spec x y), (Nat.leb_spec y x); try reflexivity; try lia.
      replace y with x by lia. reflexivity.
    - destruct (Nat.leb_spec y z), (Nat.leb_spec x z); cbn [insert_nat].
      + destruct (Nat.leb_spec x y), (Nat.leb_spec y x); cbn [insert_nat];
          destruct (Nat.leb_spec x z), (Nat.leb_spec y z); try lia; try reflexivity.
        replace y with x by lia; reflexivity.
      + destruct (Nat.leb_spec x y), (Nat.leb_spec x z), (Nat.leb_spec y z); try lia; reflexivity.
      + destruct (Nat.leb_spec y x), (Nat.leb_spec x z), (Nat.leb_spec y z); try lia; reflexivity.
      + destruct (Nat.leb_spec x z), (Nat.leb_spec y z); try lia. rewrite IH. reflexivity. }
  rewrite (C b1 a2 [b2]) || idtac.
  change (insert_nat b2 []) with [b2]. change (insert_nat b1 []) with [b1].
  replace [b2] with (insert_nat b2 []) by reflexivity.
  replace [b1] with (insert_nat b1 []) by reflexivity.
  rewrite (C b1 a2), (C b1 b2), (C a1 a2), (C a1 b2). reflexivity.
Qed.
