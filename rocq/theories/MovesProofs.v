From Verif Require Import Base Moves.

(** Invariant of the visited configurations: [past] are the configurations before [c]. *)
Definition visited (past : list config) (r p : nat) : Prop :=
  exists c, In c past /\ c_rep c = r /\ c_prefix c = p.

Record hist_inv (past : list config) (c : config) : Prop := {
  hi_pos : 1 <= c_prefix c;
  hi_none : c_prev c = None <-> c_prev_reps c = None;
  (* at the current prefix: exactly the repetitions below the current one *)
  hi_cur : forall r, visited past r (c_prefix c) <-> r < c_rep c;
  hi_nocur : forall c', In c' past -> c_prefix c <= c_prefix c';
  hi_prev : forall q m, c_prev c = Some q -> c_prev_reps c = Some m ->
     q = S (c_prefix c) /\
     (forall r, visited past r q <-> r < m) /\
     (forall c', In c' past -> c_prefix c' <> c_prefix c -> c_rep c' < m);
  hi_first : c_prev c = None -> forall c', In c' past -> c_prefix c' = c_prefix c;
  hi_dup : forall i j a b, nth_error past i = Some a -> nth_error past j = Some b ->
     c_rep a = c_rep b -> c_prefix a = c_prefix b -> i = j
}.

Lemma hist_start p0 : 1 <= p0 -> hist_inv [] (config_start p0).
Proof.
  intros H. split; cbn; try tauto; try lia.
  - intros r. split; [|lia]. intros (c & [] & _).
  - discriminate.
  - intros i j a b Hi. destruct i; discriminate.
Qed.

Lemma visited_snoc past c r p :
  visited (past ++ [c]) r p <-> visited past r p \/ (c_rep c = r /\ c_prefix c = p).
Proof.
  unfold visited. split.
  - intros (c' & Hc & E1 & E2). apply in_app_or in Hc. destruct Hc as [Hc|[<-|[]]]; [left|right]; eauto.
  - intros [(c' & Hc & E)|E].
    + exists c'. split; [apply in_or_app; left; exact Hc|exact E].
    + exists c. split; [apply in_or_app; right; left; reflexivity|exact E].
Qed.

Lemma nth_error_snoc {A} (l : list A) x i a :
  nth_error (l ++ [x]) i = Some a <-> nth_error l i = Some a \/ (i = length l /\ a = x).
Proof.
  split.
  - intros H. destruct (Nat.lt_ge_cases i (length l)) as [L|L].
    + rewrite nth_error_app1 in H by exact L. auto.
    + rewrite nth_error_app2 in H by exact L. destruct (i - length l) as [|k] eqn:E; cbn in H.
      * right. split; [lia|congruence].
      * destruct k; discriminate.
  - intros [H|[-> ->]].
    + rewrite nth_error_app1; [exact H|]. apply nth_error_Some. congruence.
    + rewrite nth_error_app2, Nat.sub_diag by lia. reflexivity.
Qed.

Lemma hist_step past c n c' :
  hist_inv past c ->
  config_move c (if must_stay c then c_prefix c else n) = Ret c' ->
  hist_inv (past ++ [c]) c'.
Proof.
  intros I E. unfold config_move in E.
  assert (Dup : forall i j a b, nth_error (past ++ [c]) i = Some a -> nth_error (past ++ [c]) j = Some b ->
     c_rep a = c_rep b -> c_prefix a = c_prefix b -> i = j).
  { intros i j a b Hi Hj Er Ep. apply nth_error_snoc in Hi. apply nth_error_snoc in Hj.
    destruct Hi as [Hi|[-> ->]], Hj as [Hj|[-> ->]]; auto.
    - eapply (hi_dup _ _ I); eauto.
    - exfalso. apply nth_error_In in Hi.
      assert (V : visited past (c_rep c) (c_prefix c)) by (exists a; auto).
      apply (hi_cur _ _ I) in V. lia.
    - exfalso. apply nth_error_In in Hj.
      assert (V : visited past (c_rep c) (c_prefix c)) by (exists b; auto).
      apply (hi_cur _ _ I) in V. lia. }
  destruct (c_prefix c <=? (if must_stay c then c_prefix c else n)) eqn:C.
  - cbn [c_prefix] in E. destruct (0 <? c_prefix c) eqn:P; cbn [assert_] in E; [|discriminate].
    apply Ret_inj in E. subst c'. destruct I as [I1 I2 I3 I4 I5 I6 I7].
    split; cbn [c_rep c_prefix c_prev c_prev_reps]; auto.
    + intros r. rewrite visited_snoc, I3. lia.
    + intros c' Hc. apply in_app_or in Hc. destruct Hc as [Hc|[<-|[]]]; auto.
    + intros q m Hq Hm. destruct (I5 q m Hq Hm) as (Q1 & Q2 & Q3). split; [exact Q1|]. split.
      * intros r. rewrite visited_snoc, Q2. split; [|tauto]. intros [L|[_ L]]; [exact L|lia].
      * intros c' Hc Hne. apply in_app_or in Hc. destruct Hc as [Hc|[<-|[]]]; [auto|congruence].
    + intros Hn c' Hc. apply in_app_or in Hc. destruct Hc as [Hc|[<-|[]]]; auto.
  - destruct (must_stay c) eqn:MS; [lia|].
    cbn [c_prefix] in E. destruct (0 <? c_prefix c - 1) eqn:P; cbn [assert_] in E; [|discriminate].
    apply Ret_inj in E. subst c'. destruct I as [I1 I2 I3 I4 I5 I6 I7].
    unfold must_stay in MS. apply orb_false_iff in MS. destruct MS as [_ MS].
    split; cbn [c_rep c_prefix c_prev c_prev_reps]; auto; try lia.
    + split; discriminate.
    + intros r. split; [|lia]. intros (c' & Hc & Er & Ep). exfalso.
      apply in_app_or in Hc. destruct Hc as [Hc|[<-|[]]]; [|lia].
      apply I4 in Hc. lia.
    + intros c' Hc. apply in_app_or in Hc. destruct Hc as [Hc|[<-|[]]]; [|lia].
      apply I4 in Hc. lia.
    + intros q m Hq Hm. injection Hq as <-. injection Hm as <-. split; [lia|]. split.
      * intros r. rewrite visited_snoc, I3. lia.
      * intros c' Hc Hne. apply in_app_or in Hc. destruct Hc as [Hc|[<-|[]]]; [|lia].
        destruct (Nat.eq_dec (c_prefix c') (c_prefix c)) as [Ee|Ee].
        -- assert (V : visited past (c_rep c') (c_prefix c)) by (exists c'; auto).
           apply I3 in V. lia.
        -- destruct (c_prev c) as [q|] eqn:Eq.
           ++ destruct (c_prev_reps c) as [m|] eqn:Em; [|destruct I2 as [_ I2]; specialize (I2 eq_refl); discriminate].
              destruct (I5 q m eq_refl eq_refl) as (_ & _ & Q3). specialize (Q3 c' Hc Ee). lia.
           ++ exfalso. apply Ee. apply I6; auto.
    + discriminate.
Qed.

(** Every visited configuration satisfies the invariant with respect to those before it. *)
Lemma visit_inv past c choices cs :
  hist_inv past c -> visit c choices = Ret cs ->
  forall pre c' post, cs = pre ++ c' :: post -> hist_inv (past ++ pre) c'.
Proof.
  revert past c cs. induction choices as [|n t IH]; intros past c cs I E pre c' post Es; cbn [visit] in E.
  - apply Ret_inj in E. subst cs.
    destruct pre as [|a pre]; cbn in Es.
    + injection Es as <- _. rewrite app_nil_r. exact I.
    + injection Es as _ Es. destruct pre; discriminate.
  - destruct (config_move c _) as [c2| |] eqn:M; cbn [bind] in E; try discriminate.
    destruct (visit c2 t) as [cs2| |] eqn:V; cbn [bind] in E; try discriminate.
    apply Ret_inj in E. subst cs. pose proof (hist_step _ _ _ _ I M) as I2.
    destruct pre as [|a pre]; cbn in Es.
    + injection Es as <- _. rewrite app_nil_r. exact I.
    + injection Es as <- Es.
      replace (past ++ c :: pre) with ((past ++ [c]) ++ pre) by (rewrite <- app_assoc; reflexivity).
      eapply IH; eauto.
Qed.

Lemma visit_bounds p0 choices cs :
  1 <= p0 -> visit (config_start p0) choices = Ret cs ->
  forall c, In c cs -> 1 <= c_prefix c <= p0 /\ (forall q, c_prev c = Some q -> 1 <= q <= p0).
Proof.
  assert (G : forall choices c cs, (1 <= c_prefix c <= p0 /\ (forall q, c_prev c = Some q -> 1 <= q <= p0)) ->
    visit c choices = Ret cs ->
    forall c', In c' cs -> 1 <= c_prefix c' <= p0 /\ (forall q, c_prev c' = Some q -> 1 <= q <= p0)).
  { clear. induction choices as [|n t IH]; intros c cs B V c' Hc; cbn [visit] in V.
    - apply Ret_inj in V. subst cs. destruct Hc as [<-|[]]. exact B.
    - destruct (config_move c _) as [c2| |] eqn:M; cbn [bind] in V; try discriminate.
      destruct (visit c2 t) as [cs2| |] eqn:V2; cbn [bind] in V; try discriminate.
      apply Ret_inj in V. subst cs. destruct Hc as [<-|Hc]; [exact B|].
      apply (IH c2 cs2); auto.
      unfold config_move in M.
      destruct (c_prefix c <=? _) in M; cbn [c_prefix] in M;
        [destruct (0 <? c_prefix c) eqn:P|destruct (0 <? c_prefix c - 1) eqn:P];
        cbn [assert_] in M; try discriminate; apply Ret_inj in M; subst c2;
        cbn [c_prefix c_prev]; [exact B|].
      split; [lia|]. intros q Eq. injection Eq as <-. lia. }
  intros Hp V. apply (G choices (config_start p0) cs); auto.
  cbn. split; [lia|]. discriminate.
Qed.
