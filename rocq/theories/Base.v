(** Outcomes of Rust code, loops, and generic list facts.

    Nothing here models a specific line of /repo: it is the little language the
    other files use to write the model. *)
From Coq Require Export List Arith ZArith NArith Lia Bool Permutation Sorted.
From Coq Require Export ZifyBool ZifyNat ZifyN.
Export ListNotations.

(** ** Outcomes

    - [Ret a]: the Rust code returns [a];
    - [Panic]: it panics (failed assertion, index out of bounds, [unwrap] of
      [None], overflow in a checked operation, ...);
    - [Spin]: the fuel given to some loop ran out. *)
Inductive res (A : Type) : Type :=
| Ret (a : A)
| Panic
| Spin.
Arguments Ret {A} a.
Arguments Panic {A}.
Arguments Spin {A}.

Definition bind {A B} (x : res A) (f : A -> res B) : res B :=
  match x with
  | Ret a => f a
  | Panic => Panic
  | Spin => Spin
  end.

Declare Scope res_scope.
Delimit Scope res_scope with res.
Notation "'let!' x ':=' e 'in' k" := (bind e (fun x => k))
  (at level 200, x name, e at level 100, k at level 200, right associativity) : res_scope.
Notation "'let!' ' p ':=' e 'in' k" := (bind e (fun x => match x with p => k end))
  (at level 200, p pattern, e at level 100, k at level 200, right associativity) : res_scope.
Open Scope res_scope.

(** [assert!(b); k] *)
Definition assert_ {A} (b : bool) (k : res A) : res A := if b then k else Panic.

(** [v[i]] on a slice: panics out of bounds. *)
Definition get {A} (l : list A) (i : nat) : res A :=
  match nth_error l i with
  | Some a => Ret a
  | None => Panic
  end.

(** [v[i] = x] on a list: [None] is out of bounds. *)
Fixpoint set_nth {A} (l : list A) (i : nat) (x : A) : option (list A) :=
  match l, i with
  | [], _ => None
  | _ :: t, O => Some (x :: t)
  | y :: t, S i' => option_map (cons y) (set_nth t i' x)
  end.

Definition put {A} (l : list A) (i : nat) (x : A) : res (list A) :=
  match set_nth l i x with
  | Some l' => Ret l'
  | None => Panic
  end.

(** [loop body s]: run [body] until it returns [inr r].  Each iteration uses one
    unit of fuel.  A [while c { b }] is [loop (fun s => if c then (b; inl s') else inr s)]. *)
Fixpoint loop {S R} (fuel : nat) (body : S -> res (S + R)) (s : S) : res R :=
  match fuel with
  | O => Spin
  | S f =>
      match body s with
      | Ret (inl s') => loop f body s'
      | Ret (inr r) => Ret r
      | Panic => Panic
      | Spin => Spin
      end
  end.

(** [for x in l { b }] with a panicking body. *)
Fixpoint foreach {A S} (l : list A) (body : A -> S -> res S) (s : S) : res S :=
  match l with
  | [] => Ret s
  | a :: t => let! s' := body a s in foreach t body s'
  end.

(** ** What it means for fuelled code to return, panic or loop forever *)
Definition returns {A} (f : nat -> res A) (a : A) : Prop :=
  exists n0, forall n, n0 <= n -> f n = Ret a.
Definition panics {A} (f : nat -> res A) : Prop :=
  exists n0, forall n, n0 <= n -> f n = Panic.
Definition diverges {A} (f : nat -> res A) : Prop :=
  forall n, f n = Spin.

Lemma returns_det {A} (f : nat -> res A) a b : returns f a -> returns f b -> a = b.
Proof.
  intros [n Hn] [m Hm].
  specialize (Hn (n + m) ltac:(lia)). specialize (Hm (n + m) ltac:(lia)). congruence.
Qed.
Lemma returns_not_panics {A} (f : nat -> res A) a : returns f a -> panics f -> False.
Proof.
  intros [n Hn] [m Hm].
  specialize (Hn (n + m) ltac:(lia)). specialize (Hm (n + m) ltac:(lia)). congruence.
Qed.
Lemma returns_not_diverges {A} (f : nat -> res A) a : returns f a -> diverges f -> False.
Proof. intros [n Hn] Hd. specialize (Hn n ltac:(lia)). specialize (Hd n). congruence. Qed.

(** Measure rule for loops. *)
Lemma loop_measure {S R} (body : S -> res (S + R)) (I : S -> Prop) (Q : R -> Prop) (m : S -> nat) :
  (forall s, I s ->
     (exists s', body s = Ret (inl s') /\ I s' /\ m s' < m s) \/
     (exists r, body s = Ret (inr r) /\ Q r)) ->
  forall s fuel, I s -> m s < fuel -> exists r, loop fuel body s = Ret r /\ Q r.
Proof.
  intros Hb s fuel; revert s.
  induction fuel as [|f IH]; intros s HI Hm; [lia|].
  cbn [loop].
  destruct (Hb s HI) as [(s' & E & HI' & Hlt)|(r & E & HQ)]; rewrite E.
  - apply IH; [exact HI'|lia].
  - exists r; auto.
Qed.

(** More fuel does not change a finished run. *)
Lemma loop_mono {S R} (body : S -> res (S + R)) :
  forall n m s, n <= m -> loop n body s <> Spin -> loop m body s = loop n body s.
Proof.
  induction n as [|n IH]; intros m s Hle H; cbn [loop] in *; [congruence|].
  destruct m as [|m]; [lia|]. cbn [loop].
  destruct (body s) as [[s'|r]| |]; try reflexivity.
  apply IH; [lia|exact H].
Qed.

(** Partial-correctness rule: whatever the fuel, a returned value satisfies [Q]. *)
Lemma loop_inv {S R} (body : S -> res (S + R)) (I : S -> Prop) (Q : R -> Prop) :
  (forall s, I s -> forall x, body s = Ret x ->
      match x with inl s' => I s' | inr r => Q r end) ->
  forall fuel s r, I s -> loop fuel body s = Ret r -> Q r.
Proof.
  intros Hb. induction fuel as [|f IH]; intros s r HI H; cbn [loop] in H; [discriminate|].
  destruct (body s) as [[s'|r']| |] eqn:E; try discriminate.
  - apply (IH s' r); [exact (Hb s HI _ E)|exact H].
  - injection H as <-. exact (Hb s HI _ E).
Qed.

(** Safety rule: the loop never panics from states satisfying [I]. *)
Lemma loop_safe {S R} (body : S -> res (S + R)) (I : S -> Prop) :
  (forall s, I s -> body s <> Panic /\ forall s', body s = Ret (inl s') -> I s') ->
  forall fuel s, I s -> loop fuel body s <> Panic.
Proof.
  intros Hb. induction fuel as [|f IH]; intros s HI; cbn [loop]; [discriminate|].
  destruct (Hb s HI) as [Hp Hn].
  destruct (body s) as [[s'|r']| |] eqn:E; try discriminate.
  - apply IH, Hn; reflexivity.
  - congruence.
Qed.

(** Divergence rule. *)
Lemma loop_diverges {S R} (body : S -> res (S + R)) (I : S -> Prop) :
  (forall s, I s -> exists s', body s = Ret (inl s') /\ I s') ->
  forall fuel s, I s -> loop fuel body s = Spin.
Proof.
  intros Hb. induction fuel as [|f IH]; intros s HI; cbn [loop]; [reflexivity|].
  destruct (Hb s HI) as (s' & E & HI'). rewrite E. apply IH, HI'.
Qed.

(** ** [foreach] *)
Lemma foreach_inv {A S} (body : A -> S -> res S) (I : list A -> S -> Prop) (l : list A) (s : S) :
  I [] s ->
  (forall pre a post s, l = pre ++ a :: post -> I pre s ->
     exists s', body a s = Ret s' /\ I (pre ++ [a]) s') ->
  exists s', foreach l body s = Ret s' /\ I l s'.
Proof.
  intros H0 Hs.
  assert (G : forall post pre s, l = pre ++ post -> I pre s ->
     exists s', foreach post body s = Ret s' /\ I l s').
  { induction post as [|a post IH]; intros pre s1 E HI; cbn [foreach].
    - exists s1. rewrite app_nil_r in E. subst. auto.
    - destruct (Hs pre a post s1 E HI) as (s2 & E2 & HI2). rewrite E2. cbn [bind].
      apply (IH (pre ++ [a])); [rewrite <- app_assoc; exact E|exact HI2]. }
  apply (G l [] s eq_refl H0).
Qed.

Lemma foreach_app {A S} (l1 l2 : list A) (body : A -> S -> res S) s :
  foreach (l1 ++ l2) body s = bind (foreach l1 body s) (foreach l2 body).
Proof.
  revert s; induction l1 as [|a l1 IH]; intros s; cbn; [reflexivity|].
  destruct (body a s); cbn; auto.
Qed.

(** ** [set_nth] and [get] *)
Lemma set_nth_spec {A} (l : list A) i x :
  i < length l -> set_nth l i x = Some (firstn i l ++ x :: skipn (S i) l).
Proof.
  revert i; induction l as [|y l IH]; intros [|i] H; cbn in H |- *; try lia; [reflexivity|].
  rewrite IH by lia. reflexivity.
Qed.
Lemma set_nth_length {A} (l l' : list A) i x : set_nth l i x = Some l' -> length l' = length l.
Proof.
  revert i l'; induction l as [|y l IH]; intros [|i] l' H; cbn in H; try discriminate.
  - injection H as <-. reflexivity.
  - destruct (set_nth l i x) eqn:E; cbn in H; [|discriminate]. injection H as <-.
    cbn. f_equal. eapply IH; eauto.
Qed.
Lemma set_nth_nth {A} (l l' : list A) i x j :
  set_nth l i x = Some l' -> nth_error l' j = if j =? i then Some x else nth_error l j.
Proof.
  revert i l' j; induction l as [|y l IH]; intros [|i] l' j H; cbn in H; try discriminate.
  - injection H as <-. destruct j; reflexivity.
  - destruct (set_nth l i x) eqn:E; cbn in H; [|discriminate]. injection H as <-.
    destruct j; [reflexivity|]. cbn [nth_error]. rewrite (IH _ _ j E). reflexivity.
Qed.
Lemma set_nth_some {A} (l : list A) i x : i < length l -> exists l', set_nth l i x = Some l'.
Proof. intros H. rewrite set_nth_spec by exact H. eauto. Qed.

Lemma get_ret {A} (l : list A) i d : i < length l -> get l i = Ret (nth i l d).
Proof. intros H. unfold get. rewrite (nth_error_nth' l d H). reflexivity. Qed.
Lemma get_some {A} (l : list A) i a : nth_error l i = Some a -> get l i = Ret a.
Proof. unfold get; intros ->; reflexivity. Qed.

Lemma nth_error_ext {A} (l l' : list A) :
  (forall i, nth_error l i = nth_error l' i) -> l = l'.
Proof.
  revert l'; induction l as [|a l IH]; intros [|b l'] H.
  - reflexivity.
  - specialize (H 0); discriminate.
  - specialize (H 0); discriminate.
  - pose proof (H 0) as H0; cbn in H0. injection H0 as ->. f_equal.
    apply IH. intros i. exact (H (S i)).
Qed.

Lemma Ret_inj {A} (a b : A) : Ret a = Ret b -> a = b.
Proof. congruence. Qed.

Lemma skipn_skipn {A} n m (l : list A) : skipn n (skipn m l) = skipn (n + m) l.
Proof.
  revert l. induction m as [|m IH]; intros l.
  - rewrite Nat.add_0_r. reflexivity.
  - replace (n + S m) with (S (n + m)) by lia. destruct l; [rewrite skipn_nil; reflexivity|].
    cbn [skipn]. apply IH.
Qed.

(** ** More fuel never changes the outcome *)
Definition fmono {A} (f : nat -> res A) : Prop :=
  forall n m, n <= m -> f n <> Spin -> f m = f n.

Lemma fmono_const {A} (x : res A) : fmono (fun _ => x).
Proof. intros n m _ _. reflexivity. Qed.
Lemma fmono_bind {A B} (f : nat -> res A) (g : nat -> A -> res B) :
  fmono f -> (forall a, fmono (fun n => g n a)) -> fmono (fun n => bind (f n) (g n)).
Proof.
  intros Hf Hg n m L E. destruct (f n) as [a| |] eqn:F; cbn [bind] in *.
  - rewrite (Hf n m L) by congruence. rewrite F. cbn [bind]. apply Hg; assumption.
  - rewrite (Hf n m L) by congruence. rewrite F. reflexivity.
  - congruence.
Qed.
Lemma fmono_loop {S R} (b : nat -> S -> res (S + R)) (s : S) :
  (forall s, fmono (fun n => b n s)) -> fmono (fun n => loop n (b n) s).
Proof.
  intros Hb.
  assert (G : forall k k' n m s, k <= k' -> n <= m -> loop k (b n) s <> Spin ->
     loop k' (b m) s = loop k (b n) s).
  { induction k as [|k IH]; intros k' n m s1 L L' E; cbn [loop] in *; [congruence|].
    destruct k' as [|k']; [lia|]. cbn [loop].
    destruct (b n s1) as [[s2|r]| |] eqn:F; try congruence;
      rewrite (Hb s1 n m L') by congruence; rewrite F; try reflexivity.
    apply IH; [lia|lia|exact E]. }
  intros n m L E. apply G; assumption.
Qed.
Lemma fmono_foreach {A S} (l : list A) (b : nat -> A -> S -> res S) (s : S) :
  (forall a s, fmono (fun n => b n a s)) -> fmono (fun n => foreach l (b n) s).
Proof.
  intros Hb. revert s. induction l as [|a l IH]; intros s; cbn [foreach].
  - apply fmono_const.
  - apply (fmono_bind (fun n => b n a s) (fun n s' => foreach l (b n) s')); auto.
Qed.
(** To show that code returns [a] it is enough to find one fuel. *)
Lemma fmono_returns {A} (f : nat -> res A) n a : fmono f -> f n = Ret a -> returns f a.
Proof.
  intros Hf E. exists n. intros m L. rewrite (Hf n m L) by congruence. exact E.
Qed.
Lemma fmono_panics {A} (f : nat -> res A) n : fmono f -> f n = Panic -> panics f.
Proof.
  intros Hf E. exists n. intros m L. rewrite (Hf n m L) by congruence. exact E.
Qed.
Ltac fmono_tac :=
  repeat (intros; match goal with
  | |- fmono (fun n => bind (@?f n) (@?g n)) => apply (fmono_bind f g)
  | |- fmono (fun n => loop n (@?b n) ?s) => apply (fmono_loop b s)
  | |- fmono (fun n => foreach ?l (@?b n) ?s) => apply (fmono_foreach l b s)
  | |- fmono (fun n => assert_ _ _) => unfold assert_
  | |- fmono (fun n => match ?x with _ => _ end) => destruct x
  | |- fmono (fun n => ?x) => apply (fmono_const x)
  | |- fmono _ => solve [auto]
  end).

Lemma put_ok {A} (l : list A) i x : i < length l ->
  exists l', put l i x = Ret l' /\ length l' = length l /\
    forall j, nth_error l' j = if j =? i then Some x else nth_error l j.
Proof.
  intros L. destruct (set_nth_some l i x L) as (l' & E). exists l'. unfold put. rewrite E.
  split; [reflexivity|]. split; [eapply set_nth_length; eauto|]. intros j. eapply set_nth_nth; eauto.
Qed.
Lemma nth_error_firstn {A} (l : list A) n i : i < n -> nth_error (firstn n l) i = nth_error l i.
Proof.
  revert n i. induction l as [|a l IH]; intros n i L; [rewrite firstn_nil; reflexivity|].
  destruct n as [|n]; [lia|]. destruct i as [|i]; [reflexivity|]. cbn. apply IH. lia.
Qed.

Lemma In_firstn_in {A} (x : A) n l : In x (firstn n l) -> In x l.
Proof. intros H. rewrite <- (firstn_skipn n l). apply in_or_app. auto. Qed.
