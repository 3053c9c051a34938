(** Collisions over a whole history of configurations. *)
From Verif Require Import Base HashSpec HashProofs EnumSpec Moves MovesProofs.

Section History.
  Variables (hashes indices : nat -> list N) (ez : nat).

  (** positions [x], [y] of repetition [c_rep c] are reported in configuration [c] *)
  Definition reported_in (c : config) (x y : nat) : Prop :=
    collide (hashes (c_rep c)) (c_prefix c) x y /\
    ~ in_last_bucket (hashes (c_rep c)) (c_prefix c) x /\
    ~ seen_before (hashes (c_rep c)) (c_prev c) (c_check c) x y /\
    ~ trivial (indices (c_rep c)) ez x y.

  Lemma collide_shorter h p q x y : p <= q -> collide h q x y -> collide h p x y.
  Proof.
    intros L (Lx & hx & hy & Ex & Ey & A). split; [exact Lx|]. exists hx, hy.
    repeat split; auto. eapply agree_shorter; eauto.
  Qed.
  Lemma last_shorter h p q x : p <= q -> in_last_bucket h q x -> in_last_bucket h p x.
  Proof.
    intros L (hx & hy & Ex & Ey & A). exists hx, hy. repeat split; auto. eapply agree_shorter; eauto.
  Qed.

  Lemma nth_error_split_lt {A} (l : list A) i j a b :
    i < j -> nth_error l i = Some a -> nth_error l j = Some b ->
    exists pre post, l = pre ++ b :: post /\ length pre = j /\ nth_error pre i = Some a.
  Proof.
    intros L Hi Hj. apply nth_error_split in Hj. destruct Hj as (pre & post & -> & Hl).
    exists pre, post. repeat split; auto. rewrite nth_error_app1 in Hi by lia. exact Hi.
  Qed.

  Lemma history_once_lt p0 choices cs i j a b x y :
    1 <= p0 -> visit (config_start p0) choices = Ret cs ->
    nth_error cs i = Some a -> nth_error cs j = Some b -> i < j ->
    c_rep a = c_rep b -> reported_in a x y -> reported_in b x y -> False.
  Proof.
    intros Hp V Hi Hj L Er Ra Rb.
    destruct (nth_error_split_lt cs i j a b L Hi Hj) as (pre & post & E & Hl & Ha).
    pose proof (visit_inv [] (config_start p0) choices cs (hist_start p0 Hp) V pre b post E) as I.
    cbn [app] in I. apply nth_error_In in Ha.
    pose proof (hi_nocur _ _ I a Ha) as Lp.
    destruct (Nat.eq_dec (c_prefix a) (c_prefix b)) as [Ep|Ep].
    - assert (Vis : visited pre (c_rep b) (c_prefix b)) by (exists a; auto).
      apply (hi_cur _ _ I) in Vis. lia.
    - destruct (c_prev b) as [q|] eqn:Eq.
      2:{ apply (hi_first _ _ I Eq a) in Ha. congruence. }
      destruct (c_prev_reps b) as [m|] eqn:Em.
      2:{ apply (hi_none _ _ I) in Em. congruence. }
      destruct (hi_prev _ _ I q m Eq Em) as (Q1 & Q2 & Q3). specialize (Q3 a Ha Ep).
      destruct Rb as (_ & _ & Ns & _). apply Ns. split.
      + unfold c_check. rewrite Em. lia.
      + exists q. split; [exact Eq|]. destruct Ra as (Ca & _). rewrite <- Er.
        eapply collide_shorter; [|exact Ca]. lia.
  Qed.

  Lemma history_once p0 choices cs i j a b x y :
    1 <= p0 -> visit (config_start p0) choices = Ret cs ->
    nth_error cs i = Some a -> nth_error cs j = Some b ->
    c_rep a = c_rep b -> reported_in a x y -> reported_in b x y -> i = j.
  Proof.
    intros Hp V Hi Hj Er Ra Rb. destruct (Nat.lt_trichotomy i j) as [L|[L|L]]; [exfalso|exact L|exfalso].
    - eapply (history_once_lt p0 choices cs i j a b); eauto.
    - eapply (history_once_lt p0 choices cs j i b a); eauto.
  Qed.

  Lemma history_complete p0 choices cs k c x y :
    1 <= p0 -> visit (config_start p0) choices = Ret cs ->
    nth_error cs k = Some c ->
    collide (hashes (c_rep c)) (c_prefix c) x y ->
    ~ in_last_bucket (hashes (c_rep c)) (c_prefix c) x ->
    ~ trivial (indices (c_rep c)) ez x y ->
    exists i a, i <= k /\ nth_error cs i = Some a /\ c_rep a = c_rep c /\ reported_in a x y.
  Proof.
    intros Hp V. revert c. induction k as [k IH] using lt_wf_ind. intros c Hk C NL NT.
    pose proof Hk as Hk'. apply nth_error_split in Hk'. destruct Hk' as (pre & post & E & Hl).
    pose proof (visit_inv [] (config_start p0) choices cs (hist_start p0 Hp) V pre c post E) as I.
    cbn [app] in I.
    assert (D : seen_before (hashes (c_rep c)) (c_prev c) (c_check c) x y \/
               ~ seen_before (hashes (c_rep c)) (c_prev c) (c_check c) x y).
    { unfold seen_before. destruct (c_check c); [|right; intros [? _]; discriminate].
      destruct (c_prev c) as [q|]; [|right; intros (_ & q & ? & _); discriminate].
      assert (Dc : collide (hashes (c_rep c)) q x y \/ ~ collide (hashes (c_rep c)) q x y).
      { destruct C as (Lx & hx & hy & Ex & Ey & _).
        assert (Da : forall n, agree n hx hy \/ ~ agree n hx hy).
        { induction n as [|n IHn]; [left; intros z Hz; lia|].
          destruct (N.eq_dec (byte_at hx n) (byte_at hy n)) as [Eb|Eb].
          - destruct IHn as [IHn|IHn].
            + left. intros z Hz. destruct (Nat.eq_dec z n) as [->|]; [exact Eb|]. apply IHn. lia.
            + right. intros A. apply IHn. intros z Hz. apply A. lia.
          - right. intros A. apply Eb, A. lia. }
        destruct (Da q) as [A|A].
        - left. split; [exact Lx|]. exists hx, hy. auto.
        - right. intros (_ & hx' & hy' & Ex' & Ey' & A'). apply A. congruence. }
      destruct Dc as [Dc|Dc]; [left; split; [reflexivity|]; exists q; auto|].
      right. intros (_ & q' & Eq & Cq). injection Eq as <-. auto. }
    destruct D as [(Ck & q & Eq & Cq)|D].
    - unfold c_check in Ck. destruct (c_prev_reps c) as [m|] eqn:Em; [|lia].
      destruct (hi_prev _ _ I q m Eq Em) as (Q1 & Q2 & Q3).
      assert (Vis : visited pre (c_rep c) q) by (apply Q2; lia).
      destruct Vis as (c' & Hc' & Er & Ep). apply In_nth_error in Hc'. destruct Hc' as (i & Hi).
      assert (Li : i < k). { rewrite <- Hl. apply nth_error_Some. congruence. }
      destruct (IH i Li c') as (i' & a & Li' & Ha & Era & Ra).
      + rewrite E, nth_error_app1 by lia. exact Hi.
      + rewrite Er, Ep. exact Cq.
      + rewrite Er, Ep. intros La. apply NL. eapply last_shorter; [|exact La]. lia.
      + rewrite Er. exact NT.
      + exists i', a. repeat split; auto; try lia; try congruence; apply Ra.
    - exists k, c. split; [lia|]. split; [exact Hk|]. split; [reflexivity|]. repeat split; auto; apply C.
  Qed.

  (** Reported at a shorter prefix: what is new. *)
  Lemma history_new p0 choices cs k c x y :
    1 <= p0 -> visit (config_start p0) choices = Ret cs -> nth_error cs k = Some c ->
    (exists i a, i < k /\ nth_error cs i = Some a /\ c_rep a = c_rep c) ->
    reported_in c x y <->
      collide (hashes (c_rep c)) (c_prefix c) x y /\
      ~ collide (hashes (c_rep c)) (S (c_prefix c)) x y /\
      ~ in_last_bucket (hashes (c_rep c)) (c_prefix c) x /\
      ~ trivial (indices (c_rep c)) ez x y.
  Proof.
    intros Hp V Hk (i & a & Li & Ha & Er).
    destruct (nth_error_split_lt cs i k a c Li Ha Hk) as (pre & post & E & Hl & Ha').
    pose proof (visit_inv [] (config_start p0) choices cs (hist_start p0 Hp) V pre c post E) as I.
    cbn [app] in I. apply nth_error_In in Ha'.
    assert (Ne : c_prefix a <> c_prefix c).
    { intros Ep. assert (Vis : visited pre (c_rep c) (c_prefix c)) by (exists a; auto).
      apply (hi_cur _ _ I) in Vis. lia. }
    destruct (c_prev c) as [q|] eqn:Eq.
    2:{ apply (hi_first _ _ I Eq a) in Ha'. congruence. }
    destruct (c_prev_reps c) as [m|] eqn:Em.
    2:{ apply (hi_none _ _ I) in Em. congruence. }
    destruct (hi_prev _ _ I q m Eq Em) as (Q1 & Q2 & Q3). specialize (Q3 a Ha' Ne). subst q.
    assert (Ck : c_check c = true) by (unfold c_check; rewrite Em; lia).
    unfold reported_in, seen_before. rewrite Ck, Eq.
    split.
    - intros (A & B & C & D). repeat split; auto; try apply A.
      intros Cq. apply C. split; [reflexivity|]. eauto.
    - intros (A & B & C & D). repeat split; auto; try apply A.
      intros (_ & q & E1 & C1). injection E1 as <-. auto.
  Qed.
End History.
