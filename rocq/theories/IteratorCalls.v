(** Calls of the iterator as sequences of turns: interruptions and exhaustion. *)
From Coq Require Import Permutation.
From Verif Require Import Base F64 OverlapsSpec OverlapsProofs TopK TopKSpec TopKProofs Moves Iterator IteratorSpec IteratorProofs IteratorLoop.

Lemma turn_det p s f1 f2 x y : turn p s f1 = Ret x -> turn p s f2 = Ret y -> x = y.
Proof.
  intros E1 E2. pose proof (turn_mono p s f1 (f1 + f2) ltac:(lia)) as M1. pose proof (turn_mono p s f2 (f1 + f2) ltac:(lia)) as M2.
  rewrite E1 in M1. rewrite E2 in M2. rewrite M1 in M2 by discriminate. specialize (M2 ltac:(discriminate)). congruence.
Qed.

(** the loop goes on at [s] *)
Definition goes_on (p : problem) (s : iter) : Prop :=
  it_return s = [] /\ forallb tk_is_complete (it_top s) = false /\ (p_threshold p <? it_candidates s) && p_stop p = false.

Lemma loop_body_inl p s go fuel s1 : loop_body p s go fuel = Ret (inl s1) -> go = true /\ goes_on p s /\ turn p s fuel = Ret s1.
Proof.
  unfold loop_body, goes_on. destruct (it_return s) as [|m0 r0].
  - destruct go; cbn [negb]; [|discriminate]. destruct (forallb _ _); [discriminate|]. destruct (_ && _).
    + destruct (emit_everything s) as [s2| |]; cbn [bind]; try discriminate. destruct (pop s2). discriminate.
    + destruct (turn p s fuel) as [s2| |]; cbn [bind]; try discriminate. intros E. apply Ret_inj in E. injection E as <-. auto.
  - destruct (pop s). discriminate.
Qed.
Lemma loop_body_go p s fuel : goes_on p s -> loop_body p s true fuel = let! s1 := turn p s fuel in Ret (inl s1).
Proof. intros (A & B & C). unfold loop_body. rewrite A, B, C. reflexivity. Qed.
Lemma loop_body_stop p s : goes_on p s -> loop_body p s false 0 = Ret (inr (s, Interrupted)).
Proof. intros (A & B & C). unfold loop_body. rewrite A. reflexivity. Qed.
Lemma loop_body_interrupted p s go fuel s' : loop_body p s go fuel = Ret (inr (s', Interrupted)) -> s' = s /\ go = false /\ it_return s = [].
Proof.
  unfold loop_body. destruct (it_return s) as [|m0 r0] eqn:Er.
  - destruct go; cbn [negb].
    + destruct (forallb _ _); [discriminate|]. destruct (_ && _).
      * destruct (emit_everything s) as [s2| |]; cbn [bind]; try discriminate. destruct (pop s2) as [s3 [m|]]; discriminate.
      * destruct (turn p s fuel) as [s2| |]; cbn [bind]; discriminate.
    + intros E. apply Ret_inj in E. injection E as <-. auto.
  - destruct (pop s) as [s3 [m|]]; discriminate.
Qed.
Lemma loop_body_answer p s go fuel s' a : a <> Interrupted -> loop_body p s go fuel = Ret (inr (s', a)) ->
  loop_body p s true fuel = Ret (inr (s', a)) /\ ~ goes_on p s.
Proof.
  intros Ha. unfold loop_body, goes_on. destruct (it_return s) as [|m0 r0] eqn:Er.
  - destruct go; cbn [negb].
    + destruct (forallb _ _); [intros E; split; [exact E|intros (_ & ? & _); discriminate]|]. destruct (_ && _).
      * intros E. split; [exact E|]. intros (_ & _ & ?). discriminate.
      * destruct (turn p s fuel) as [s2| |]; cbn [bind]; discriminate.
    + intros E. apply Ret_inj in E. injection E as <- <-. congruence.
  - intros E. split; [exact E|]. intros (? & _). discriminate.
Qed.

(** the loop unrolled *)
Inductive turns (p : problem) : iter -> nat -> iter -> Prop :=
| turns_none s : turns p s 0 s
| turns_more s s1 n s' : goes_on p s -> (exists fuel, turn p s fuel = Ret s1) -> turns p s1 n s' -> turns p s (S n) s'.

Lemma turns_app p s n s1 m s2 : turns p s n s1 -> turns p s1 m s2 -> turns p s (n + m) s2.
Proof. intros T1 T2. induction T1 as [s|s s1 n s' G E T IH]; [exact T2|]. econstructor; eauto. Qed.
Lemma turns_fork p s n s1 m s2 : turns p s n s1 -> turns p s m s2 -> n <= m -> turns p s1 (m - n) s2.
Proof.
  intros T1. revert m. induction T1 as [s|s s1 n s' G (f1 & E1) T IH]; intros m T2 L; [rewrite Nat.sub_0_r; exact T2|].
  inversion T2 as [|? s1' m' ? G' (f2 & E2) T' ]; subst; [lia|]. rewrite (turn_det _ _ _ _ _ _ E1 E2) in *. cbn [Nat.sub].
  apply IH; [exact T'|lia].
Qed.
Lemma turns_stuck p s n s' : turns p s n s' -> ~ goes_on p s -> n = 0 /\ s' = s.
Proof. intros T N. inversion T; subst; [auto|contradiction]. Qed.

Definition call (p : problem) (cb : nat -> bool) (s s' : iter) (a : answer) : Prop :=
  exists n s1, turns p s n s1 /\ (forall j, j < n -> cb j = true) /\ exists fuel, loop_body p s1 (cb n) fuel = Ret (inr (s', a)).

Lemma next_from_call p cb fuel : forall n s i s' a, next_from p cb s i fuel n = Ret (s', a) -> call p (fun j => cb (i + j)) s s' a.
Proof.
  unfold next_from. induction n as [|n IH]; intros s i s' a E; cbn [loop] in E; [discriminate|].
  destruct (loop_body p s (cb i) fuel) as [r| |] eqn:Eb; cbn [bind] in E; try discriminate.
  destruct r as [s1|x]; cbn [bind] in E.
  - destruct (loop_body_inl _ _ _ _ _ Eb) as (Eg & G & Et). destruct (IH s1 (S i) s' a E) as (m & s2 & T & C & f & B).
    exists (S m), s2. split; [econstructor; eauto|]. split.
    + intros [|j] Hj; [rewrite Nat.add_0_r; exact Eg|]. specialize (C j ltac:(lia)). replace (i + S j) with (S i + j) by lia. exact C.
    + exists f. replace (i + S m) with (S i + m) by lia. exact B.
  - apply Ret_inj in E. subst x. exists 0, s. split; [constructor|]. split; [lia|]. exists fuel. rewrite Nat.add_0_r. exact Eb.
Qed.
Lemma next_call p cb s fuel s' a : next_interruptible p cb s fuel = Ret (s', a) -> call p cb s s' a.
Proof. intros E. exact (next_from_call p cb fuel fuel s 0 s' a E). Qed.

Lemma loop_body_ret p s go f F x : loop_body p s go f = Ret x -> f <= F -> loop_body p s go F = Ret x.
Proof. intros E L. rewrite (loop_body_mono p s go f F L), E; [reflexivity|]. rewrite E. discriminate. Qed.
Lemma call_next p cb s s' a : call p cb s s' a -> returns (next_interruptible p cb s) (s', a).
Proof.
  intros (n & s1 & T & C & f & B).
  assert (G : exists F, forall fuel m, F <= fuel -> n < m -> next_from p cb s 0 fuel m = Ret (s', a)).
  { replace n with (0 + n) in B by reflexivity. replace cb with (fun j => cb j) in C by reflexivity.
    assert (C' : forall j, j < n -> cb (0 + j) = true) by exact C. clear C. revert C' B. generalize 0 as i.
    induction T as [s|s s2 n s1 G (f1 & E1) T IH]; intros i C B.
    - exists f. intros fuel [|m] L L'; [lia|]. unfold next_from. cbn [loop]. rewrite Nat.add_0_r in B.
      rewrite (loop_body_ret _ _ _ _ _ _ B L). reflexivity.
    - destruct (IH (S i)) as (F & H).
      { intros j Hj. replace (S i + j) with (i + S j) by lia. apply C. lia. }
      { replace (S i + n) with (i + S n) by lia. exact B. }
      exists (F + f1). intros fuel [|m] L L'; [lia|]. unfold next_from. cbn [loop].
      assert (Ci : cb i = true) by (rewrite <- (Nat.add_0_r i); apply C; lia). rewrite Ci.
      rewrite (loop_body_go p s fuel G). rewrite (turn_mono p s f1 fuel), E1 by (lia || congruence). cbn [bind].
      apply (H fuel m); lia. }
  destruct G as (F & H). exists (F + S n). intros m L. apply (H m m); lia.
Qed.

(** ** Interruptions *)
Definition yes : nat -> bool := fun _ => true.
(** the answers other than interruptions *)
Definition completed (l : list answer) : list answer :=
  filter (fun a => match a with Interrupted => false | _ => true end) l.

Lemma calls_cons p cb cbs s s1 a s2 l : call p cb s s1 a -> returns (calls p cbs s1) (s2, l) -> returns (calls p (cb :: cbs) s) (s2, a :: l).
Proof.
  intros C (n2 & R2). destruct (call_next _ _ _ _ _ C) as (n1 & R1). exists (n1 + n2). intros m L. cbn [calls].
  rewrite R1 by lia. cbn [bind]. rewrite R2 by lia. reflexivity.
Qed.
Lemma calls_split p cb cbs s fuel s2 l : calls p (cb :: cbs) s fuel = Ret (s2, l) ->
  exists s1 a l', call p cb s s1 a /\ calls p cbs s1 fuel = Ret (s2, l') /\ l = a :: l'.
Proof.
  cbn [calls]. intros E. destruct (next_interruptible p cb s fuel) as [[s1 a]| |] eqn:E1; cbn [bind] in E; try discriminate.
  destruct (calls p cbs s1 fuel) as [[s3 l']| |] eqn:E2; cbn [bind] in E; try discriminate. apply Ret_inj in E. injection E as <- <-.
  exists s1, a, l'. split; [eapply next_call; eauto|auto].
Qed.

(** a call from a state further on *)
Lemma call_yes_back p s0 n s cb s' a : a <> Interrupted -> turns p s0 n s -> call p cb s s' a -> call p yes s0 s' a.
Proof.
  intros Ha T (m & s1 & T1 & C & f & B). exists (n + m), s1. split; [eapply turns_app; eauto|]. split; [reflexivity|].
  exists f. apply (loop_body_answer _ _ _ _ _ _ Ha B).
Qed.

(** the answers of an interrupted run are those of an uninterrupted one *)
Lemma uninterrupted p cbs : forall s0 n s fuel s' l, turns p s0 n s -> calls p cbs s fuel = Ret (s', l) ->
  exists s0' n', returns (calls p (repeat yes (length (completed l))) s0) (s0', completed l) /\ turns p s0' n' s'.
Proof.
  induction cbs as [|cb cbs IH]; intros s0 n s fuel s' l T E.
  - cbn [calls] in E. apply Ret_inj in E. injection E as <- <-. exists s0, n. split; [exists 0; reflexivity|exact T].
  - destruct (calls_split _ _ _ _ _ _ _ E) as (s1 & a & l' & C & E' & ->).
    assert (Hc : a = Interrupted \/ a <> Interrupted) by (destruct a; auto; right; discriminate). destruct Hc as [->|Ha].
    + destruct C as (m & s2 & T2 & _ & f & B). destruct (loop_body_interrupted _ _ _ _ _ B) as (-> & _).
      exact (IH s0 (n + m) s2 fuel s' l' (turns_app _ _ _ _ _ _ T T2) E').
    + destruct (IH s1 0 s1 fuel s' l' (turns_none p s1) E') as (s0' & n' & R & T').
      exists s0', n'. split; [|exact T'].
      assert (Ec : completed (a :: l') = a :: completed l') by (destruct a; [congruence|reflexivity|reflexivity]).
      rewrite Ec. cbn [length repeat]. eapply calls_cons; [|exact R]. eapply call_yes_back; eauto.
Qed.

(** a run that is never interrupted gives the answers of any interrupted one *)
Lemma turns_inter p s n s' : turns p s n s' -> forall m, m <= n -> exists s1, turns p s m s1 /\ turns p s1 (n - m) s'.
Proof.
  intros T. induction T as [s|s s1 n s' G E T IH]; intros m L.
  - replace m with 0 by lia. exists s. split; constructor.
  - destruct m as [|m]; [exists s; split; [constructor|econstructor; eauto]|].
    destruct (IH m ltac:(lia)) as (s2 & T1 & T2). exists s2. split; [econstructor; eauto|exact T2].
Qed.
Lemma first_false (cb : nat -> bool) n : (forall j, j < n -> cb j = true) \/ exists j, j < n /\ cb j = false /\ forall i, i < j -> cb i = true.
Proof.
  induction n as [|n [H|(j & L & E & H)]]; [left; lia| |right; exists j; repeat split; auto].
  destruct (cb n) eqn:E.
  - left. intros j L. destruct (Nat.eq_dec j n) as [->|]; [exact E|]. apply H. lia.
  - right. exists n. repeat split; auto.
Qed.
Lemma interrupted p cbs : forall k s0 n s fuel s0' l0, length cbs <= k -> turns p s0 n s ->
  calls p (repeat yes k) s0 fuel = Ret (s0', l0) ->
  exists s' l, returns (calls p cbs s) (s', l) /\ completed l = firstn (length (completed l)) l0.
Proof.
  induction cbs as [|cb cbs IH]; intros k s0 n s fuel s0' l0 L T E.
  - exists s, []. split; [exists 0; reflexivity|reflexivity].
  - destruct k as [|k]; [cbn in L; lia|]. cbn [length] in L. assert (E0 := E). cbn [repeat] in E.
    destruct (calls_split _ _ _ _ _ _ _ E) as (s1 & a & l' & (m & s2 & T2 & _ & f & B) & E' & ->).
    assert (Ha : a <> Interrupted) by (intros ->; apply loop_body_interrupted in B; destruct B as (_ & B & _); discriminate).
    destruct (loop_body_answer _ _ _ _ _ _ Ha B) as [Bt NG].
    assert (Lnm : n <= m).
    { destruct (Nat.le_gt_cases n m) as [|Lt]; [assumption|]. exfalso.
      pose proof (turns_fork p s0 m s2 n s T2 T ltac:(lia)) as F. destruct (turns_stuck _ _ _ _ F NG). lia. }
    pose proof (turns_fork p s0 n s m s2 T T2 Lnm) as F.
    assert (INT : forall j sj, turns p s j sj -> (forall i, i < j -> cb i = true) -> cb j = false -> it_return sj = [] ->
              exists s' l, returns (calls p (cb :: cbs) s) (s', l) /\ completed l = firstn (length (completed l)) (a :: l')).
    { intros j sj Tj Hj Ej Er. destruct (IH (S k) s0 (n + j) sj fuel s0' (a :: l')) as (s' & l & R & Ec); [lia|eapply turns_app; eauto|exact E0|].
      exists s', (Interrupted :: l). split; [|exact Ec]. eapply calls_cons; [|exact R]. exists j, sj. split; [exact Tj|]. split; [exact Hj|].
      exists 0. rewrite Ej. unfold loop_body. rewrite Er. reflexivity. }
    destruct (first_false cb (m - n)) as [H|(j & Lj & Ej & Hj)].
    + destruct (cb (m - n)) eqn:Ec; [|destruct (it_return s2) as [|x t] eqn:Er].
      * destruct (IH k s1 0 s1 fuel s0' l' ltac:(lia) (turns_none p s1) E') as (s' & l & R & El).
        exists s', (a :: l). split.
        { eapply calls_cons; [|exact R]. exists (m - n), s2. split; [exact F|]. split; [exact H|]. exists f. rewrite Ec. exact Bt. }
        assert (Ea : completed (a :: l) = a :: completed l) by (destruct a; [congruence|reflexivity|reflexivity]).
        rewrite Ea. cbn [length firstn]. congruence.
      * eapply INT; eauto.
      * destruct (IH k s1 0 s1 fuel s0' l' ltac:(lia) (turns_none p s1) E') as (s' & l & R & El).
        exists s', (a :: l). split.
        { eapply calls_cons; [|exact R]. exists (m - n), s2. split; [exact F|]. split; [exact H|]. exists f.
          rewrite Ec. unfold loop_body in Bt |- *. rewrite Er in *. exact Bt. }
        assert (Ea : completed (a :: l) = a :: completed l) by (destruct a; [congruence|reflexivity|reflexivity]).
        rewrite Ea. cbn [length firstn]. congruence.
    + destruct (turns_inter p s (m - n) s2 F j ltac:(lia)) as (sj & Tj & Tj').
      apply (INT j sj Tj Hj Ej). inversion Tj' as [x Hx Hy|? ? ? ? G]; subst; [lia|apply G].
Qed.

(** ** Exhaustion *)
Lemma ended p cbs : forall s fuel s' l, it_return s = [] -> forallb tk_is_complete (it_top s) = true ->
  calls p cbs s fuel = Ret (s', l) -> s' = s /\ l = map (fun cb : nat -> bool => if cb 0 then End else Interrupted) cbs.
Proof.
  induction cbs as [|cb cbs IH]; intros s fuel s' l Er Ec E; cbn [map].
  - cbn [calls] in E. apply Ret_inj in E. injection E as <- <-. auto.
  - destruct (calls_split _ _ _ _ _ _ _ E) as (s1 & a & l' & (m & s2 & T & H & f & B) & E' & ->).
    assert (NG : ~ goes_on p s) by (intros (_ & Q & _); congruence).
    destruct (turns_stuck _ _ _ _ T NG) as [-> ->]. unfold loop_body in B. rewrite Er, Ec in B.
    destruct (cb 0); cbn [negb] in B; apply Ret_inj in B; injection B as <- <-;
      destruct (IH s fuel s' l' Er Ec E') as [-> ->]; auto.
Qed.

(** ** What calls preserve *)
Lemma turns_inv p seed s n s' : sound p -> turns p s n s' -> inv p seed s -> inv p seed s'.
Proof.
  intros Sd T. induction T as [s|s s1 n s' _ (f & E) T IH]; intros I; [exact I|].
  apply IH. eapply turn_inv; eauto.
Qed.
Lemma call_inv p seed cb s s' a : sound p -> inv p seed s -> call p cb s s' a ->
  inv p seed s' /\ forall m, a = Item m -> mine p seed m.
Proof.
  intros Sd I (n & s1 & T & _ & f & B). pose proof (turns_inv _ _ _ _ _ Sd T I) as I1.
  pose proof (loop_body_cases p seed s1 _ f _ Sd I1 B) as C. cbn beta iota in C. destruct a as [|m|].
  - destruct C as (-> & _). split; [exact I1|discriminate].
  - destruct C as (I2 & M & _). split; [exact I2|]. intros m' Hm. injection Hm as <-. exact M.
  - destruct C as (I2 & _). split; [exact I2|discriminate].
Qed.
Lemma calls_inv p seed cbs : sound p -> forall s fuel s' l, inv p seed s -> calls p cbs s fuel = Ret (s', l) ->
  inv p seed s' /\ forall m, In m (items l) -> mine p seed m.
Proof.
  intros Sd. induction cbs as [|cb cbs IH]; intros s fuel s' l I E.
  - cbn [calls] in E. apply Ret_inj in E. injection E as <- <-. split; [exact I|intros ? []].
  - destruct (calls_split _ _ _ _ _ _ _ E) as (s1 & a & l' & C & E' & ->). destruct (call_inv p seed cb s s1 a Sd I C) as [I1 M1].
    destruct (IH s1 fuel s' l' I1 E') as [I2 M2]. split; [exact I2|]. intros m Hm. unfold items in Hm. cbn [flat_map] in Hm.
    apply in_app_or in Hm. destruct Hm as [Hm|Hm]; [|apply M2, Hm].
    destruct a as [|x|]; try (destruct Hm; fail). destruct Hm as [Hm|[]]. apply M1. congruence.
Qed.

(** ** Everything recorded as emitted is returned once *)
Definition account (s : iter) (l : list motiflet) : Prop :=
  forall k, Permutation (emitted_at (it_top s) k) (of_support k (l ++ it_return s)).

Lemma turn_account p seed s s' fuel l : sound p -> no_ties p seed -> inv p seed s -> turn p s fuel = Ret s' ->
  account s l -> account s' l.
Proof.
  intros Sd NT I E A. destruct (turn_inv p seed s s' fuel Sd I E) as (_ & _ & (new & Er & Ac) & _).
  intros k. rewrite (Ac NT k), (A k), Er, app_assoc, !of_support_app. reflexivity.
Qed.
Lemma turns_account p seed s n s' l : sound p -> no_ties p seed -> turns p s n s' -> inv p seed s -> account s l -> account s' l.
Proof.
  intros Sd NT T. induction T as [s|s s1 n s' _ (f & E) T IH]; intros I A; [exact A|].
  apply IH; [eapply turn_inv; eauto|eapply turn_account; eauto].
Qed.
Lemma call_account p seed cb s s' a l : sound p -> no_ties p seed -> inv p seed s -> call p cb s s' a -> account s l ->
  account s' (l ++ items [a]).
Proof.
  intros Sd NT I (n & s1 & T & _ & f & B) A. pose proof (turns_inv _ _ _ _ _ Sd T I) as I1.
  pose proof (turns_account _ _ _ _ _ _ Sd NT T I A) as A1.
  pose proof (loop_body_cases p seed s1 _ f _ Sd I1 B) as C. cbn beta iota in C.
  destruct a as [|m|]; unfold items; cbn [flat_map app]; rewrite ?app_nil_r.
  - destruct C as (-> & _). exact A1.
  - destruct C as (_ & _ & [(Er & Et)|(Er & _ & _ & _ & s2 & _ & Er2 & Et & Ac)] & _); intros k.
    + rewrite Et, (A1 k), Er, !of_support_app, <- !app_assoc. apply Permutation_app_head, Permutation_app_comm.
    + rewrite Et, (Ac NT k), (A1 k), Er, Er2, !of_support_app, <- !app_assoc. cbn [app].
      rewrite (Permutation_app_comm (of_support k (it_return s')) (of_support k [m])). reflexivity.
  - destruct C as (_ & Er & _ & _ & _ & _ & [-> |(Er1 & _ & s2 & _ & -> & Ac)]); [exact A1|].
    intros k. rewrite (Ac NT k), (A1 k), Er1, Er. cbn. rewrite app_nil_r. reflexivity.
Qed.
Lemma calls_account p seed cbs : sound p -> no_ties p seed -> forall s fuel s' l0 l, inv p seed s -> account s l0 ->
  calls p cbs s fuel = Ret (s', l) -> account s' (l0 ++ items l).
Proof.
  intros Sd NT. induction cbs as [|cb cbs IH]; intros s fuel s' l0 l I A E.
  - cbn [calls] in E. apply Ret_inj in E. injection E as <- <-. cbn. rewrite app_nil_r. exact A.
  - destruct (calls_split _ _ _ _ _ _ _ E) as (s1 & a & l' & C & E' & ->). destruct (call_inv p seed cb s s1 a Sd I C) as [I1 M1].
    pose proof (call_account _ _ _ _ _ _ _ Sd NT I C A) as A1. pose proof (IH s1 fuel s' _ l' I1 A1 E') as A2.
    unfold items in *. cbn [flat_map] in *. rewrite app_nil_r, <- app_assoc in A2. exact A2.
Qed.

(** ** Emitting everything is greedy *)
Lemma emit_greedy k ez cands : by_extent cands -> numbers cands -> (forall c, In c cands -> conflicting ez c c) ->
  forall l pre em taken out sned em' out' sned',
  cands = pre ++ l -> (forall x, In x taken <-> In x em) -> numbers em -> by_extent em ->
  (forall z, In z pre -> exists r, In r em /\ conflicting ez z r) ->
  (forall x y, In x cands -> In y em -> feq (ml_extent x) (ml_extent y) = true -> conflicting ez x y) ->
  (forall x y, In x cands -> In y cands -> feq (ml_extent x) (ml_extent y) = true -> conflicting ez x y) ->
  emit_loop k ez (fun _ => true) l em out sned = Ret (em', out', sned') ->
  exists new, out' = out ++ new /\ greedy_from ez cands (k - length em) taken new.
Proof.
  intros Sc Nc Self. induction l as [|m l IH]; intros pre em taken out sned em' out' sned' Ec Ht Ne Se Hp T1 T2 E; cbn [emit_loop] in E.
  - apply Ret_inj in E. injection E as <- <- <-. exists []. rewrite app_nil_r in *. split; [reflexivity|]. subst pre.
    destruct (k - length em); [constructor|]. constructor. intros c Hc. destruct (Hp c Hc) as (r & Hr & C). exists r. split; [apply Ht, Hr|exact C].
  - assert (Hm : In m cands) by (rewrite Ec; apply in_elt).
    destruct (Nat.leb_spec k (length em)) as [Lk|Lk].
    { apply Ret_inj in E. injection E as <- <- <-. exists []. rewrite app_nil_r. split; [reflexivity|]. replace (k - length em) with 0 by lia. constructor. }
    destruct (ml_overlaps_iter m em ez) eqn:O.
    { apply ml_overlaps_iter_true in O. apply (IH (pre ++ [m]) em taken out sned em' out' sned'); auto.
      - rewrite <- app_assoc. exact Ec.
      - intros z Hz. apply in_app_or in Hz. destruct Hz as [Hz|[<-|[]]]; [auto|exact O]. }
    pose proof (proj1 (ml_overlaps_iter_false _ _ _) O) as O'.
    destruct (bt_insert_ok m em (Nc m Hm) Ne Se) as (em1 & E1 & S1 & [[P L]|[_ (x & Hx & Q)]]); [|exfalso; exact (O' x Hx (T1 m x Hm Hx Q))].
    rewrite E1 in E. cbn [bind] in E.
    assert (In1 : forall x, In x em1 <-> x = m \/ In x em).
    { intros x. split; intros H.
      - apply (Permutation_in _ P) in H. destruct H; auto.
      - apply (Permutation_in _ (Permutation_sym P)). destruct H as [->|H]; [left; reflexivity|right; exact H]. }
    destruct (IH (pre ++ [m]) em1 (m :: taken) (out ++ [m]) sned em' out' sned') as (new & Eo & G); auto.
    + rewrite <- app_assoc. exact Ec.
    + intros x. cbn. rewrite In1, Ht. intuition congruence.
    + intros x Hx. apply In1 in Hx. destruct Hx as [->|Hx]; [apply Nc, Hm|apply Ne, Hx].
    + intros z Hz. apply in_app_or in Hz. destruct Hz as [Hz|[<-|[]]].
      * destruct (Hp z Hz) as (r & Hr & C). exists r. split; [apply In1; auto|exact C].
      * exists m. split; [apply In1; auto|apply Self, Hm].
    + intros x y Hx Hy Q. apply In1 in Hy. destruct Hy as [->|Hy]; [apply T2; auto|apply T1; auto].
    + exists (m :: new). split; [rewrite Eo, <- app_assoc; reflexivity|].
      assert (Ll : length em1 = S (length em)) by (rewrite (Permutation_length P); reflexivity).
      rewrite Ll in G. replace (k - length em) with (S (k - S (length em))) by lia.
      constructor; [exact Hm|intros r Hr; apply O', Ht, Hr| |exact G].
      intros c Hc Fc. rewrite Ec in Hc. apply in_app_or in Hc. destruct Hc as [Hc|Hc].
      * exfalso. destruct (Hp c Hc) as (r & Hr & C). exact (Fc r (proj2 (Ht r) Hr) C).
      * rewrite Ec in Sc, Nc. assert (Sl : by_extent (m :: l)) by (clear - Sc; induction pre as [|y pre IHp]; [exact Sc|inversion Sc; auto]).
        apply (sorted_head_le m l); auto. intros y Hy. apply Nc, in_or_app. auto.
Qed.

Lemma mine_self p seed m : 0 < p_ez p -> 2 <= length (ml_indices seed) -> mine p seed m -> conflicting (p_ez p) m m.
Proof.
  intros Hz Ls M. apply overlaps_lists_spec, overlaps_lists_refl; [exact Hz|]. intros E.
  destruct M as [(V & _)| ->]; [rewrite E in V|rewrite E in Ls]; cbn in *; lia.
Qed.
Lemma emit_everything_greedy p seed s s' : sound p -> 2 <= length (ml_indices seed) ->
  (forall x y, mine p seed x -> mine p seed y -> length (ml_indices x) = length (ml_indices y) ->
     feq (ml_extent x) (ml_extent y) = true -> conflicting (p_ez p) x y) ->
  inv p seed s -> emit_everything s = Ret s' ->
  exists outs, it_return s' = it_return s ++ concat outs /\
    Forall2 (fun t out => greedy_from (p_ez p) (tk_top t) (p_top_k p - length (tk_emitted t)) (tk_emitted t) out) (it_top s) outs.
Proof.
  intros Sd Ls NT [_ _ (Lq & Q) _ _ _ _] E. unfold emit_everything in E.
  assert (G : forall l pre top0 ret0 r, it_top s = pre ++ l ->
     foreach l (fun t (acc : list topk * list motiflet) =>
         let '(top, ret) := acc in
         let! '(t, new) := tk_emit t (fun _ => true) in
         Ret (top ++ [tk_disable t], ret ++ new)) (top0, ret0) = Ret r ->
     exists outs, snd r = ret0 ++ concat outs /\
       Forall2 (fun t out => greedy_from (p_ez p) (tk_top t) (p_top_k p - length (tk_emitted t)) (tk_emitted t) out) l outs).
  { induction l as [|t l IH]; intros pre top0 ret0 r El Er; cbn [foreach] in Er.
    - apply Ret_inj in Er. subst r. exists []. rewrite app_nil_r. split; [reflexivity|constructor].
    - destruct (tk_emit t (fun _ => true)) as [[t' new]| |] eqn:Et; cbn [bind] in Er; try discriminate.
      destruct (IH (pre ++ [t]) _ _ r ltac:(rewrite <- app_assoc; exact El) Er) as (outs & Eo & F).
      assert (Qt : queue_ok p seed (length pre) t) by (apply Q; rewrite El, nth_error_app2, Nat.sub_diag by lia; reflexivity).
      unfold tk_emit in Et. destruct (emit_loop _ _ _ _ _ _ _) as [[[em' out'] sn']| |] eqn:Ee; cbn [bind] in Et; try discriminate.
      apply Ret_inj in Et. injection Et as _ ->.
      destruct Qt as [(N1 & S1 & N2 & S2 & _) Qk Qz _ Qm _ _ _]. rewrite Qk, Qz in Ee.
      destruct (emit_greedy (p_top_k p) (p_ez p) (tk_top t) S1 N1) with (l := tk_top t) (pre := @nil motiflet) (em := tk_emitted t) (taken := tk_emitted t)
        (out := @nil motiflet) (sned := tk_sned t) (em' := em') (out' := new) (sned' := sn') as (nw & En & Gr); auto.
      + intros c Hc. apply (mine_self p seed); [apply Sd|exact Ls|apply Qm; auto].
      + tauto.
      + intros z [].
      + intros x y Hx Hy. destruct (Qm x (or_introl Hx)), (Qm y (or_intror Hy)). apply NT; auto; congruence.
      + intros x y Hx Hy. destruct (Qm x (or_introl Hx)), (Qm y (or_introl Hy)). apply NT; auto; congruence.
      + cbn [app] in En. subst nw. exists (new :: outs). cbn [concat]. rewrite Eo, app_assoc. split; [reflexivity|]. constructor; assumption. }
  destruct (foreach _ _ _) as [[top' ret']| |] eqn:Ef; cbn [bind] in E; try discriminate. apply Ret_inj in E. subst s'. cbn [it_return].
  destruct (G _ [] _ _ _ eq_refl Ef) as (outs & Eo & F). exists outs. auto.
Qed.

(** once all the queues are complete, the calls return what is left, last first, then the end *)
Lemma drain p n : forall s, forallb tk_is_complete (it_top s) = true ->
  exists s', returns (calls p (repeat yes n) s) (s', firstn n (map Item (rev (it_return s)) ++ repeat End n)).
Proof.
  induction n as [|n IH]; intros s C.
  - exists s. cbn [repeat calls firstn]. exists 0. reflexivity.
  - destruct (rev (it_return s)) as [|m t] eqn:Er.
    + assert (Er' : it_return s = []) by (rewrite <- (rev_involutive (it_return s)), Er; reflexivity).
      destruct (IH s C) as (s' & R). rewrite Er in R. cbn [map app] in R.
      exists s'. cbn [repeat map app firstn]. eapply calls_cons; [|exact R].
      exists 0, s. split; [constructor|]. split; [lia|]. exists 0. unfold loop_body. rewrite Er', C. reflexivity.
    + assert (Er' : it_return s = rev t ++ [m]) by (rewrite <- (rev_involutive (it_return s)), Er; reflexivity).
      set (s1 := Iter (it_top s) (it_next s) (it_graph s) (rev t) (it_tables s) (it_buffer s) (it_conf s) (it_candidates s)).
      destruct (IH s1 C) as (s' & R). unfold s1 in R at 2. cbn [it_return] in R. rewrite rev_involutive in R.
      exists s'. cbn [repeat map app firstn].
      assert (Ef : firstn n (map Item t ++ End :: repeat End n) = firstn n (map Item t ++ repeat End n)).
      { clear. generalize (map Item t) as l. induction n as [|n IHn]; intros l; [reflexivity|].
        destruct l as [|x l]; cbn [app firstn repeat].
        - f_equal. specialize (IHn []). cbn [app] in IHn. exact IHn.
        - f_equal. assert (Hg : forall k, firstn n (l ++ End :: repeat End (k + n)) = firstn n (l ++ repeat End (k + n))).
          { clear. intros k. revert l k. induction n as [|n IHn]; intros l k; [reflexivity|]. destruct l as [|x l]; cbn [app firstn].
            - replace (k + S n) with (S (k + n)) by lia. cbn [repeat firstn]. f_equal. specialize (IHn [] k). cbn [app] in IHn. exact IHn.
            - f_equal. replace (k + S n) with (S k + n) by lia. apply IHn. }
          exact (Hg 1). }
      rewrite Ef. eapply calls_cons; [|exact R]. exists 0, s. split; [constructor|]. split; [lia|]. exists 0.
      unfold loop_body, pop. rewrite Er', rev_app_distr, rev_involutive. cbn [rev app]. destruct (rev t ++ [m]) eqn:Ex; [destruct (rev t); discriminate|]. reflexivity.
Qed.
