(** The definitions of TextSpec.v with the character classes of the code (Text.v), and that they
    mean the same. *)
From Coq Require Import String Ascii.
From Verif Require Import Base Text TextSpec.
Local Open Scope N_scope.
Local Open Scope list_scope.

Definition blanks (s : list N) : Prop := Forall (fun c => is_space c = true) s.
Definition size_text (text : list N) (v : N) : Prop :=
  exists digits gap unit m ending, is_digits digits /\ blanks gap /\ unit_is unit m /\ ending_is ending /\
    map lower text = written digits ++ gap ++ unit ++ ending /\ v = decimal digits * m.
Definition loose_text (text : list N) (digits unit : list N) : Prop :=
  exists front plus gap i j, is_digits digits /\ blanks front /\ blanks gap /\ (plus = [] \/ plus = codes "+") /\
    map lower text = front ++ plus ++ written digits ++ gap ++ unit ++ times i (codes "b") ++ times j (codes "bytes").
Definition blank (line : list N) : bool := forallb is_space line.
Definition number {X} (parse : list N -> option (X * nat)) (line : list N) : option X :=
  match parse line with
  | Some (x, n) => if blank (skipn n line) then Some x else None
  | None => None
  end.
Definition numbers {X} (parse : list N -> option (X * nat)) (lines : list (list N)) : option (list X) :=
  all_some (map (number parse) (filter (fun l => negb (blank l)) lines)).

Lemma is_space_white c : is_space c = is_white c.
Proof.
  unfold is_space, is_white, white. cbn [existsb].
  destruct (N.eqb_spec c 9), (N.eqb_spec c 10), (N.eqb_spec c 11), (N.eqb_spec c 12), (N.eqb_spec c 13), (N.eqb_spec c 32);
  destruct (N.leb_spec 9 c), (N.leb_spec c 13); cbn; try reflexivity; lia.
Qed.
Lemma small_cases (P : N -> bool) : forallb P (map N.of_nat (seq 0 128)) = true -> forall c, c < 128 -> P c = true.
Proof.
  intros H c L. rewrite forallb_forall in H. apply H, in_map_iff. exists (N.to_nat c). split; [apply N2Nat.id|]. apply in_seq. lia.
Qed.
Lemma capitals_small c : In c capitals -> c < 128.
Proof. intros H. apply N.ltb_lt. revert c H. apply forallb_forall. vm_compute. reflexivity. Qed.
Lemma smalls_small c : In c smalls -> c < 128.
Proof. intros H. apply N.ltb_lt. revert c H. apply forallb_forall. vm_compute. reflexivity. Qed.
Lemma is_letter_alphabetic c : is_letter c = is_alphabetic c.
Proof.
  destruct (N.lt_ge_cases c 128) as [L|G].
  - apply eqb_prop. revert c L. apply (small_cases (fun c => Bool.eqb (is_letter c) (is_alphabetic c))). vm_compute. reflexivity.
  - replace (is_letter c) with false by (unfold is_letter; symmetry; apply orb_false_intro; apply andb_false_intro2, N.leb_gt; lia).
    symmetry. unfold is_alphabetic. apply not_true_iff_false. rewrite existsb_exists. intros (x & Hx & E). apply N.eqb_eq in E. subst x.
    apply in_app_or in Hx. destruct Hx as [Hx|Hx]; [apply capitals_small in Hx|apply smalls_small in Hx]; lia.
Qed.
Lemma lower_lowercase c : lower c = lowercase c.
Proof.
  destruct (N.lt_ge_cases c 128) as [L|G].
  - apply N.eqb_eq. revert c L. apply (small_cases (fun c => lower c =? lowercase c)). vm_compute. reflexivity.
  - replace (lower c) with c by (unfold lower; destruct (N.leb_spec c 90); [lia|]; rewrite andb_false_r; reflexivity).
    unfold lowercase. destruct (find _ _) as [[x y]|] eqn:E; [|reflexivity]. apply find_some in E. destruct E as (I & E). cbn [fst] in E. apply N.eqb_eq in E. subst x.
    apply in_combine_l, capitals_small in I. lia.
Qed.
Lemma blanks_same s : TextSpec.blanks s <-> blanks s.
Proof. unfold TextSpec.blanks, blanks. rewrite !Forall_forall. split; intros H c Hc; specialize (H c Hc); rewrite is_space_white in *; exact H. Qed.
Lemma lower_same text : map lowercase text = map lower text.
Proof. apply map_ext. intros c. symmetry. apply lower_lowercase. Qed.
Lemma size_text_same text v : TextSpec.size_text text v <-> size_text text v.
Proof.
  unfold TextSpec.size_text, size_text. split; intros (digits & gap & unit & m & ending & H1 & H2 & H3 & H4 & H5 & H6); exists digits, gap, unit, m, ending;
  (split; [exact H1|]; split; [apply blanks_same, H2|]; rewrite ?lower_same in *; auto).
Qed.
Lemma loose_text_same text digits unit : TextSpec.loose_text text digits unit <-> loose_text text digits unit.
Proof.
  unfold TextSpec.loose_text, loose_text. split; intros (front & plus & gap & i & j & H1 & H2 & H3 & H4 & H5); exists front, plus, gap, i, j;
  (split; [exact H1|]; split; [apply blanks_same, H2|]; split; [apply blanks_same, H3|]; rewrite ?lower_same in *; auto).
Qed.
Lemma blank_same line : TextSpec.blank line = blank line.
Proof. unfold TextSpec.blank, blank. induction line as [|c l IH]; [reflexivity|]. cbn [forallb]. rewrite IH, is_space_white. reflexivity. Qed.
Lemma numbers_same {X} (parse : list N -> option (X * nat)) lines : TextSpec.numbers parse lines = numbers parse lines.
Proof.
  unfold TextSpec.numbers, numbers. replace (filter (fun l => negb (TextSpec.blank l)) lines) with (filter (fun l => negb (blank l)) lines) by (apply filter_ext; intros l; rewrite blank_same; reflexivity).
  f_equal. apply map_ext. intros l. unfold TextSpec.number, number. destruct (parse l) as [[x n]|]; [|reflexivity]. rewrite blank_same. reflexivity.
Qed.
