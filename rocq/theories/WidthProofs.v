(** The quantisation width. *)
From Coq Require Import Reals Lra.
From Verif Require Import Base RSpec RealProofs Series SeriesProofs FFT FFTProofs Hashing HashingSpec HashingProofs.
Local Open Scope R_scope.

Definition numbers_sorted (l : list (option R)) : Prop :=
  forall i j x y, (i <= j)%nat -> nth_error l i = Some x -> nth_error l j = Some y -> number_le x y.
Lemma sorted_split l : numbers_sorted l -> exists r c, l = map Some r ++ repeat None c /\ numbers_sorted (map Some r).
Proof.
  induction l as [|x l IH]; intros Hs; [exists [], 0%nat; split; [reflexivity|intros i j x y _ E; destruct i; discriminate E]|].
  destruct IH as (r & c & -> & Hr); [intros i j a b L E1 E2; apply (Hs (S i) (S j)); auto; lia|]. destruct x as [x|].
  - exists (x :: r), c. split; [reflexivity|]. intros i j a b L E1 E2. apply (Hs i j); [exact L| |]; change (Some x :: map Some r ++ repeat None c) with (map Some (x :: r) ++ repeat None c);
      rewrite nth_error_app1 by (apply nth_error_Some; congruence); assumption.
  - exists [], (S c). destruct r as [|y r]; [split; [reflexivity|exact Hr]|exfalso]. specialize (Hs 0%nat 1%nat None (Some y) ltac:(lia) eq_refl eq_refl). exact Hs.
Qed.
Lemma drop_some x l : drop_infinite (Some x :: l) = Some x :: l.
Proof. reflexivity. Qed.
Lemma repeat_rev {A} (x : A) n : rev (repeat x n) = repeat x n.
Proof. induction n as [|n IH]; [reflexivity|]. cbn. rewrite IH. clear IH. induction n as [|n IH]; [reflexivity|]. cbn. rewrite IH. reflexivity. Qed.
Lemma pop_ok r c : pop_infinite (map Some r ++ repeat None c) = map Some r.
Proof.
  unfold pop_infinite. rewrite rev_app_distr, repeat_rev. replace (drop_infinite (repeat None c ++ rev (map Some r))) with (rev (map Some r)); [apply rev_involutive|].
  induction c as [|c IH]; cbn [repeat app drop_infinite]; [|exact IH]. rewrite <- map_rev. destruct (rev r); reflexivity.
Qed.
Lemma some_prefix {A} (g : A -> option R) order r c : map g order = map Some r ++ repeat None c ->
  forall x i, nth_error order x = Some i -> ((x < length r)%nat -> g i = Some (nth x r 0)) /\ ((length r <= x)%nat -> g i = None).
Proof.
  intros E x i Ex. assert (Eg : nth_error (map g order) x = Some (g i)) by (rewrite nth_error_map, Ex; reflexivity). rewrite E in Eg. split; intros L.
  - rewrite nth_error_app1, nth_error_map, (nth_error_nth' r 0) in Eg by (rewrite ?map_length; lia). injection Eg as <-. reflexivity.
  - rewrite nth_error_app2 in Eg by (rewrite map_length; lia). apply nth_error_In, repeat_spec in Eg. exact Eg.
Qed.

Section ComputeWidth.
  Variables (s : series) (ts : list R) (w : nat) (f : fftdata) (v : list R) (arrange : list (option R) -> list (option R)).
  Hypothesis M : made s ts w.
  Hypothesis F : fft_ok s f.
  Hypothesis Ev : length v = w.
  Hypothesis So : sorts_numbers arrange.
  Notation n := (num_subsequences s).
  (** the sorted projections, and the windows they come from *)
  Lemma dotps_ok : exists dotps order r,
    znormalized_sliding_dot_product_write s f v (repeat (Some 0%R) n) (fun i x o => Ret x) = Ret dotps /\
    pop_infinite (arrange dotps) = map Some r /\ Permutation (seq 0 n) order /\ numbers_sorted (map Some r) /\
    (forall x i, nth_error order x = Some i -> ((x < length r)%nat -> ~ left_out ts w i /\ inner v (znorm (window ts w i)) = nth x r 0) /\ ((length r <= x)%nat -> left_out ts w i)).
  Proof.
    destruct (zwrite_ok s ts w f M F v (repeat (Some 0) n) (fun i x o => Ret x) Ev (repeat_length _ _)) as (dotps & E & L & H); [intros i o _; eexists; reflexivity|].
    rewrite repeat_length in L. destruct (So dotps) as (P & Sd). destruct (arranged None _ _ P) as (order & Po & Eo). rewrite L in Po.
    destruct (sorted_split _ Sd) as (r & c & Er & Hr). exists dotps, order, r. split; [exact E|]. rewrite Er, pop_ok. split; [reflexivity|]. split; [exact Po|]. split; [exact Hr|].
    rewrite Eo in Er. intros x i Ex. pose proof (some_prefix _ _ _ _ Er x i Ex) as (S1 & S2).
    assert (Li : (i < n)%nat) by (apply nth_error_In in Ex; apply (Permutation_in _ (Permutation_sym Po)), in_seq in Ex; lia).
    assert (Ez : nth i dotps None = zvalue ts w v i).
    { destruct (H i (Some 0)) as (o' & H1 & H2); [rewrite (nth_error_nth' _ (Some 0)) by (rewrite repeat_length; exact Li); f_equal; apply nth_repeat|].
      apply Ret_inj in H1. rewrite <- H1 in H2. apply nth_error_nth. exact H2. }
    cbv beta in S1, S2. rewrite Ez in S1, S2. unfold zvalue, flat_sd_threshold, left_out in *. destruct (Rlt_dec _ _) as [Lf|Nf].
    - split; [intros C; specialize (S1 C); discriminate S1|auto].
    - split; [intros C; specialize (S1 C); injection S1 as S1; auto|intros C; specialize (S2 C); discriminate S2].
  Qed.
End ComputeWidth.
