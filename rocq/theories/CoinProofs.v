(** Lemmas about the coin. *)
From Coq Require Import Floats.SpecFloat.
From Verif Require Import Base F64 F64Arith HashValue Overlaps OverlapsSpec Enumerator Moves Profile Brute BruteSpec TopK TopKProofs Graph
  Iterator IteratorSpec IteratorProofs IteratorLoop FpOps FloatProofs Counts Coin.

Lemma kth_loop_in k ez l : forall acc d, kth_loop k ez l acc = Some d -> exists m, (In m l \/ In m acc) /\ ml_extent m = d.
Proof.
  induction l as [|x l IH]; intros acc d H; cbn [kth_loop] in H; [discriminate|].
  set (acc' := if ml_overlaps_iter x acc ez then acc else acc ++ [x]) in H.
  assert (Ha : forall m, In m acc' -> In m (x :: l) \/ In m acc).
  { intros m Hm. subst acc'. destruct (ml_overlaps_iter x acc ez); [right; exact Hm|]. apply in_app_or in Hm. destruct Hm as [Hm|[<-|[]]]; [right; exact Hm|left; left; reflexivity]. }
  clearbody acc'. destruct (length acc' =? k).
  - destruct (List.last (map Some acc') None) as [m|] eqn:E; [|discriminate]. cbn [option_map] in H. injection H as <-. exists m. split; [|reflexivity]. apply Ha.
    assert (Hin : In (Some m) (map Some acc')). { rewrite <- E. destruct acc' as [|y acc'] using rev_ind; [discriminate E|]. rewrite map_app. cbn [map]. rewrite last_last. apply in_or_app. right. left. reflexivity. }
    apply in_map_iff in Hin. destruct Hin as (m' & [= ->] & Hm). exact Hm.
  - destruct (IH acc' d H) as (m & [Hm|Hm] & E); [exists m; split; [left; right; exact Hm|exact E]|exists m; split; [apply Ha, Hm|exact E]].
Qed.

(** the thresholds of a search: infinity, or the distance of two windows of the index, or that
    of the sampled pair *)
Definition possible_threshold (p : problem) (d th : f64) : Prop :=
  th = f_inf \/ th = d \/ exists i j, indexed p i /\ indexed p j /\ th = p_zeucl p i j.
Lemma threshold_possible p a b d s : inv p (Motiflet [a; b] d) s -> exists th, graph_threshold p s = Ret th /\ possible_threshold p d th.
Proof.
  intros I. pose proof (inv_queues _ _ _ I) as Q. destruct (queues_get p _ (it_top s) (p_max_k p) Q ltac:(lia)) as (t & E & _ & Qt).
  unfold graph_threshold. rewrite E. cbn [bind]. eexists. split; [reflexivity|]. destruct (tk_kth_distance t) as [th|] eqn:Et; [|left; reflexivity]. right.
  destruct (kth_loop_in _ _ _ _ _ Et) as (m & [Hm|[]] & <-). destruct (q_members _ _ _ _ Qt m (or_introl Hm)) as (_ & [V| ->]); [right|left; reflexivity].
  destruct V as (V1 & V2 & _ & V4). destruct V4 as (_ & _ & V4). destruct (V4 ltac:(lia)) as (x & y & u & v & _ & Hu & Hv & Ee). exists v, u.
  split; [apply V2, (nth_error_In _ _ Hv)|]. split; [apply V2, (nth_error_In _ _ Hu)|exact Ee].
Qed.

Section accepted.
Variable probability : f64 -> f64.
Variable p : problem.
Variables (a b : nat) (d : f64).
Hypothesis Sd : sound p.
Hypothesis A : forall th reps, possible_threshold p d th -> 1 <= reps -> exists c, bernoulli_new (sample_rate probability th reps) = Ret c.
Let seed := Motiflet [a; b] d.

Lemma update_coin_eq s fuel : inv p seed s -> update_graph_coin probability p s fuel = update_graph p s fuel.
Proof.
  intros I. unfold update_graph_coin. destruct (threshold_possible p a b d s I) as (th & -> & Pt). cbn [bind].
  pose proof (inv_conf _ _ _ I) as (C & _). destruct (A th (length (it_tables s)) Pt ltac:(lia)) as (c & ->). cbn [bind].
  apply Nat.ltb_lt in C. rewrite C. reflexivity.
Qed.
Lemma turn_coin_eq s fuel : inv p seed s -> turn_coin probability p s fuel = turn p s fuel.
Proof. intros I. unfold turn_coin, turn. rewrite update_coin_eq by exact I. reflexivity. Qed.
Lemma body_coin_eq s go fuel : inv p seed s -> loop_body_coin probability p s go fuel = loop_body p s go fuel.
Proof. intros I. unfold loop_body_coin, loop_body. rewrite turn_coin_eq by exact I. reflexivity. Qed.
Lemma body_keeps s go fuel r : inv p seed s -> loop_body p s go fuel = Ret r -> inv p seed (match r with inl s' => s' | inr (s', _) => s' end).
Proof.
  intros I E. pose proof (loop_body_cases p seed s go fuel r Sd I E) as C. destruct r as [s'|[s' []]].
  - apply C.
  - destruct C as (-> & _). exact I.
  - apply C.
  - apply C.
Qed.
Definition body_of (go : iter -> bool -> nat -> res (iter + (iter * answer))) (callback : nat -> bool) (fuel : nat) (st : iter * nat) : res (iter * nat + iter * answer) :=
  let '(s, i) := st in
  let! r := go s (callback i) fuel in
  match r with inl s => Ret (inl (s, S i)) | inr x => Ret (inr x) end.
Lemma next_coin_eq callback fuel : forall n s i, inv p seed s ->
  loop n (body_of (loop_body_coin probability p) callback fuel) (s, i) = loop n (body_of (loop_body p) callback fuel) (s, i) /\
  forall s' x, loop n (body_of (loop_body p) callback fuel) (s, i) = Ret (s', x) -> inv p seed s'.
Proof.
  induction n as [|n IH]; intros s i I; cbn [loop]; [split; [reflexivity|discriminate]|].
  unfold body_of at 1 3 5. rewrite body_coin_eq by exact I. destruct (loop_body p s (callback i) fuel) as [r| |] eqn:E; cbn [bind]; [|split; [reflexivity|discriminate]..].
  pose proof (body_keeps s (callback i) fuel r I E) as K. destruct r as [s1|[s1 x]].
  - apply IH, K.
  - split; [reflexivity|]. intros s' y [= <- <-]. exact K.
Qed.
Lemma calls_coin_eq fuel cbs : forall s, inv p seed s -> calls_coin probability p cbs s fuel = calls p cbs s fuel.
Proof.
  induction cbs as [|cb cbs IH]; intros s I; [reflexivity|]. cbn [calls_coin calls].
  destruct (next_coin_eq cb fuel fuel s 0 I) as (E & K). change (next_coin probability p cb s fuel) with (loop fuel (body_of (loop_body_coin probability p) cb fuel) (s, 0)).
  change (next_interruptible p cb s fuel) with (loop fuel (body_of (loop_body p) cb fuel) (s, 0)). rewrite E.
  destruct (loop fuel (body_of (loop_body p) cb fuel) (s, 0)) as [[s' x]| |]; cbn [bind]; [|reflexivity..]. rewrite IH by (apply (K s' x); reflexivity). reflexivity.
Qed.
Lemma session_coin_eq cbs fuel : seed_ok p a b d -> session_coin probability p a b d cbs fuel = session p a b d cbs fuel.
Proof.
  intros So. unfold session_coin, session. destruct (iter_new p a b d) as [s| |] eqn:E; cbn [bind]; [|reflexivity..].
  apply calls_coin_eq. exact (proj1 (new_inv p a b d s Sd So E)).
Qed.
End accepted.

(** the coin is made unless the probability is below 0 *)
Lemma nonneg_le x : is_nan x = false -> is_sign_negative x = false -> fle f_zero x = true.
Proof. destruct x as [[]|[]| |[] m e]; cbn; congruence. Qed.
Lemma f_of_nat_sign n : is_sign_negative (f_of_nat n) = false.
Proof. unfold f_of_nat. apply normalize_sign; [lia|reflexivity]. Qed.
Lemma fmul_sign' x y : is_sign_negative x = false -> is_sign_negative y = false -> is_sign_negative (fmul x y) = false.
Proof.
  intros X Y. destruct (is_nan (fmul x y)) eqn:E; [apply nan_sign, E|]. rewrite fmul_sign by exact E. rewrite X, Y. reflexivity.
Qed.
Lemma coin_made probability th reps : is_sign_negative (probability th) = false -> exists c, bernoulli_new (sample_rate probability th reps) = Ret c.
Proof.
  intros H. unfold sample_rate. destruct (is_nan (probability th)); [eexists; reflexivity|].
  assert (S : is_sign_negative (fdiv (f_of_nat 8) (fmul (probability th) (f_of_nat reps))) = false) by (apply fdiv_sign; [apply f_of_nat_sign|]; apply fmul_sign'; [exact H|apply f_of_nat_sign]).
  set (x := fdiv _ _) in *. clearbody x. unfold f_min. destruct (is_nan x) eqn:N; [eexists; reflexivity|]. cbn [is_nan f_one].
  destruct (flt f_one x) eqn:L; [eexists; reflexivity|]. unfold bernoulli_new. rewrite (nonneg_le x N S). cbn [andb]. destruct (flt x f_one) eqn:L1; [eexists; reflexivity|].
  assert (E : feq x f_one = true).
  { apply feq_key; [exact N|reflexivity|]. assert (~ klt f_one x) by (intros C; apply (flt_key f_one x eq_refl N) in C; congruence).
    assert (~ klt x f_one) by (intros C; apply (flt_key x f_one N eq_refl) in C; congruence). unfold klt, keq in *. lia. }
  rewrite E. eexists. reflexivity.
Qed.
