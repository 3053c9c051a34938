(** C35-C39, C67, C68, C73: what the motiflet iterator returns. *)
From Coq Require Import Floats.SpecFloat Permutation.
From Verif Require Import Base F64 HashValue HashSpec Overlaps OverlapsSpec OverlapsProofs Enumerator EnumSpec Moves Profile Brute BruteSpec
  TopK TopKSpec TopKProofs Graph GraphSpec GraphProofs Iterator IteratorSpec IteratorProofs IteratorLoop IteratorCalls.

(** * Small problems used as examples *)
Definition fl (n : nat) : f64 := f_of_nat n.
Definition half : f64 := S754_finite false 4503599627370496 (-53).
(** three windows colliding in every repetition, and one alone at the end of the table *)
Definition toy_hashes : list N := [0x0100000000000000; 0x0100000000000000; 0x0100000000000000; 0x0200000000000000]%N.
Definition toy_distance (i j : nat) : f64 :=
  match Nat.min i j, Nat.max i j with
  | 0, 4 => fl 1
  | 4, 8 => fl 2
  | 0, 8 => fl 3
  | _, _ => fl 5
  end.
Definition below (d : nat -> nat -> f64) (a b : nat) (t : f64) : option f64 := if fle (d a b) t then Some (d a b) else None.
Definition toy_expected : list f64 := [f_inf; fl 2000; fl 5; fl 4; fl 3; fl 2; fl 1; half; half].
Definition toy : problem := {|
  p_n := 13; p_ez := 2; p_max_k := 3; p_top_k := 1;
  p_zeucl := toy_distance; p_zeucl_threshold := below toy_distance;
  p_table := fun _ _ => (toy_hashes, [0; 4; 8; 12]%N);
  p_failure := fun _ reps _ _ _ => if reps <? 3 then fl 1 else f_zero;
  p_delta := half; p_coin := fun _ _ _ => true;
  p_expected := toy_expected; p_setup_cost := fl 1; p_collision_cost := fl 1; p_max_repetitions := 100;
  p_buffer := 4; p_threshold := 7; p_stop := false; p_nan_first := true |}.

Lemma toy_table : table_ok toy_hashes [0; 4; 8; 12]%N.
Proof.
  split; [reflexivity|]. split.
  - intros h Hh. unfold is_u64. cbn in Hh. intuition (subst; reflexivity).
  - intros i j a b L Hi Hj.
    do 4 (destruct i as [|i]; [do 4 (destruct j as [|j]; [cbn in *; injection Hi as <-; injection Hj as <-; lia|]); destruct j; discriminate|]).
    destruct i; discriminate.
Qed.
Lemma toy_distance_cases i j : toy_distance i j = fl 1 \/ toy_distance i j = fl 2 \/ toy_distance i j = fl 3 \/ toy_distance i j = fl 5.
Proof.
  unfold toy_distance.
  destruct (Nat.min i j) as [|[|[|[|[|m]]]]]; auto; destruct (Nat.max i j) as [|[|[|[|[|[|[|[|[|n]]]]]]]]]; auto 6.
Qed.
Lemma below_sign d a b t x : (forall i j, is_sign_negative (d i j) = false) -> below d a b t = Some x -> is_sign_negative x = false.
Proof. intros H. unfold below. destruct (fle _ _); [|discriminate]. intros E. injection E as <-. apply H. Qed.
Lemma toy_sound : sound toy.
Proof.
  split.
  - cbn. lia.
  - cbn. lia.
  - intros r k _. split; [exact toy_table|discriminate].
  - intros r k x i _ H. left. cbn [p_table toy snd] in H. apply nth_error_In in H. cbn in H. intuition (subst; reflexivity).
  - intros a b t d. apply below_sign. intros i j. destruct (toy_distance_cases i j) as [->|[->|[->| ->]]]; reflexivity.
  - intros i j _. cbn [p_zeucl toy]. destruct (toy_distance_cases i j) as [->|[->|[->| ->]]]; reflexivity.
  - intros i j _ _ _. cbn [p_zeucl toy]. destruct (toy_distance_cases i j) as [->|[->|[->| ->]]]; reflexivity.
  - reflexivity.
Qed.
Lemma toy_seed : seed_ok toy 4 8 (fl 2).
Proof. repeat split; cbn; try lia. unfold too_close. lia. Qed.
Definition always : nat -> bool := fun _ => true.
(** six calls; the first is interrupted at once, the second after two turns *)
Definition toy_calls : list (nat -> bool) := [(fun _ => false); (fun i => i <? 2); always; always; always; always].
Lemma toy_run :
  exists s, session toy 4 8 (fl 2) toy_calls 30 =
    Ret (s, [Interrupted; Interrupted; Item (Motiflet [0; 4; 8] (fl 3)); Item (Motiflet [0; 4] (fl 1)); End; End]).
Proof. eexists. vm_compute. reflexivity. Qed.

Lemma mine_candidate p a b d m : mine p (Motiflet [a; b] d) m <-> candidate p a b d m.
Proof. reflexivity. Qed.
Lemma session_inv p a b d cbs fuel s answers : sound p -> seed_ok p a b d -> session p a b d cbs fuel = Ret (s, answers) ->
  exists s0, iter_new p a b d = Ret s0 /\ inv p (Motiflet [a; b] d) s0 /\ calls p cbs s0 fuel = Ret (s, answers) /\
    inv p (Motiflet [a; b] d) s /\ (forall m, In m (items answers) -> mine p (Motiflet [a; b] d) m).
Proof.
  intros Sd So E. unfold session in E. destruct (iter_new p a b d) as [s0| |] eqn:E0; cbn [bind] in E; try discriminate.
  destruct (new_inv p a b d s0 Sd So E0) as (I0 & _). destruct (calls_inv p _ cbs Sd s0 fuel s answers I0 E) as (I & M).
  exists s0. auto.
Qed.

(** * C35: every motiflet returned is valid *)
Theorem c35_returned_motiflets_are_valid :
  forall (p : problem) (a b : nat) (d : f64) (cbs : list (nat -> bool)) (fuel : nat) (s : iter) (answers : list answer) (m : motiflet),
    sound p -> seed_ok p a b d ->
    session p a b d cbs fuel = Ret (s, answers) ->
    In (Item m) answers ->
    2 <= length (ml_indices m) <= p_max_k p /\
    (forall i, In i (ml_indices m) -> i < p_n p) /\
    pairwise_apart (p_ez p) (ml_indices m) /\
    ((forall i, In i (ml_indices m) -> indexed p i) /\ max_pairwise (p_zeucl p) (ml_indices m) (ml_extent m) \/ m = Motiflet [a; b] d).
Proof.
  intros p a b d cbs fuel s answers m Sd So E Hm.
  destruct (session_inv p a b d cbs fuel s answers Sd So E) as (s0 & E0 & _ & _ & _ & M).
  assert (H : mine p (Motiflet [a; b] d) m).
  { apply M. unfold items. apply in_flat_map. exists (Item m). split; [exact Hm|left; reflexivity]. }
  destruct H as [(V1 & V2 & V3 & V4)| ->]; [split; [exact V1|]; split; [intros i Hi; apply (V2 i Hi)|auto]|].
  destruct (new_inv p a b d s0 Sd So E0) as (_ & L & _). destruct So as (A & B & T & _). cbn [ml_indices ml_extent length].
  split; [lia|]. split; [intros i [<-|[<-|[]]]; assumption|]. split; [|auto].
  intros x y i j Lxy Hx Hy. destruct x as [|x]; [|destruct y as [|[|[|y]]]; cbn in Hy; try discriminate; destruct x as [|[|x]]; cbn in Hx; try discriminate; lia].
  destruct y as [|[|[|y]]]; cbn in Hx, Hy; try discriminate; [lia|]. injection Hx as <-. injection Hy as <-. exact T.
Qed.
Print Assumptions c35_returned_motiflets_are_valid.
Example c35_case :
  sound toy /\ seed_ok toy 4 8 (fl 2) /\
  exists s answers, session toy 4 8 (fl 2) toy_calls 30 = Ret (s, answers) /\ In (Item (Motiflet [0; 4; 8] (fl 3))) answers.
Proof.
  split; [exact toy_sound|]. split; [exact toy_seed|]. destruct toy_run as (s & E). exists s. eexists. split; [exact E|].
  right. right. left. reflexivity.
Qed.

(** * C36: order of the motiflets of a support *)
(** Four windows, two close pairs of different distances confirmed in the same turn: the
    motiflets waiting to be returned are taken from the end of a vector, so the one with the
    larger extent comes first. *)
Definition pairs_distance (i j : nat) : f64 :=
  match Nat.min i j, Nat.max i j with
  | 0, 4 => fl 1
  | 8, 12 => fl 2
  | _, _ => fl 5
  end.
Definition pairs_hashes : list N := [0x0100000000000000; 0x0100000000000000; 0x0100000000000000; 0x0100000000000000; 0x0200000000000000]%N.
Definition two_pairs : problem := {|
  p_n := 17; p_ez := 2; p_max_k := 2; p_top_k := 2;
  p_zeucl := pairs_distance; p_zeucl_threshold := below pairs_distance;
  p_table := fun _ _ => (pairs_hashes, [0; 4; 8; 12; 16]%N);
  p_failure := fun _ reps _ _ _ => if reps <? 3 then fl 1 else f_zero;
  p_delta := half; p_coin := fun _ _ _ => true;
  p_expected := toy_expected; p_setup_cost := fl 1; p_collision_cost := fl 1; p_max_repetitions := 100;
  p_buffer := 10; p_threshold := 1000; p_stop := false; p_nan_first := true |}.
Lemma pairs_distance_cases i j : pairs_distance i j = fl 1 \/ pairs_distance i j = fl 2 \/ pairs_distance i j = fl 5.
Proof.
  unfold pairs_distance.
  destruct (Nat.min i j) as [|[|[|[|[|[|[|[|[|m]]]]]]]]]; auto;
    destruct (Nat.max i j) as [|[|[|[|[|[|[|[|[|[|[|[|[|n]]]]]]]]]]]]]; auto.
Qed.
Lemma pairs_table : table_ok pairs_hashes [0; 4; 8; 12; 16]%N.
Proof.
  split; [reflexivity|]. split.
  - intros h Hh. unfold is_u64. cbn in Hh. intuition (subst; reflexivity).
  - intros i j a b L Hi Hj.
    do 5 (destruct i as [|i]; [do 5 (destruct j as [|j]; [cbn in *; injection Hi as <-; injection Hj as <-; lia|]); destruct j; discriminate|]).
    destruct i; discriminate.
Qed.
Lemma two_pairs_sound : sound two_pairs.
Proof.
  split.
  - cbn. lia.
  - cbn. lia.
  - intros r k _. split; [exact pairs_table|discriminate].
  - intros r k x i _ H. left. cbn [p_table two_pairs snd] in H. apply nth_error_In in H. cbn in H. intuition (subst; reflexivity).
  - intros a b t d. apply below_sign. intros i j. destruct (pairs_distance_cases i j) as [->|[->| ->]]; reflexivity.
  - intros i j _. cbn [p_zeucl two_pairs]. destruct (pairs_distance_cases i j) as [->|[->| ->]]; reflexivity.
  - intros i j _ _ _. cbn [p_zeucl two_pairs]. destruct (pairs_distance_cases i j) as [->|[->| ->]]; reflexivity.
  - reflexivity.
Qed.
Theorem c36_order_refuted :
  exists (p : problem) (a b : nat) (d : f64) (cbs : list (nat -> bool)) (fuel : nat) (s : iter) (x y : motiflet),
    sound p /\ seed_ok p a b d /\ p_zeucl p a b = d /\
    session p a b d cbs fuel = Ret (s, [Item x; Item y]) /\
    length (ml_indices x) = length (ml_indices y) /\
    flt (ml_extent y) (ml_extent x) = true.
Proof.
  exists two_pairs, 8, 12, (fl 2), [always; always], 30. eexists. eexists. eexists.
  split; [exact two_pairs_sound|]. split; [repeat split; cbn; try lia; unfold too_close; lia|]. split; [reflexivity|].
  split; [vm_compute; reflexivity|]. split; reflexivity.
Qed.
Print Assumptions c36_order_refuted.

Lemma session_account p a b d cbs fuel s answers : sound p -> seed_ok p a b d -> no_ties p (Motiflet [a; b] d) ->
  session p a b d cbs fuel = Ret (s, answers) -> inv p (Motiflet [a; b] d) s /\ account s (items answers).
Proof.
  intros Sd So NT E. destruct (session_inv p a b d cbs fuel s answers Sd So E) as (s0 & E0 & I0 & Ec & I & _).
  destruct (new_inv p a b d s0 Sd So E0) as (_ & _ & Er & _ & Ee & _).
  split; [exact I|]. apply (calls_account p (Motiflet [a; b] d) cbs Sd NT s0 fuel s [] answers I0); [|exact Ec].
  intros k. rewrite Ee, Er. reflexivity.
Qed.

(** With [top_k = 1] at most one motiflet of each support is returned.  Missing: more. *)
Theorem c36_order_partial :
  forall (p : problem) (a b : nat) (d : f64) (cbs : list (nat -> bool)) (fuel : nat) (s : iter) (answers : list answer)
         (i j : nat) (x y : motiflet),
    sound p -> seed_ok p a b d -> p_top_k p <= 1 ->
    session p a b d cbs fuel = Ret (s, answers) ->
    nth_error answers i = Some (Item x) -> nth_error answers j = Some (Item y) -> i < j ->
    length (ml_indices x) = length (ml_indices y) ->
    fle (ml_extent x) (ml_extent y) = true.
Proof.
  intros p a b d cbs fuel s answers i j x y Sd So Hk E Hi Hj L Ls. exfalso.
  destruct (session_account p a b d cbs fuel s answers Sd So) as (I & A); [split; [cbn; lia|auto]|exact E|].
  specialize (A (length (ml_indices x))).
  assert (Le : length (emitted_at (it_top s) (length (ml_indices x))) <= 1).
  { unfold emitted_at. destruct (nth_error (it_top s) (length (ml_indices x))) as [t|] eqn:Et; [|cbn; lia].
    destruct (inv_queues _ _ _ I) as [_ Q]. destruct (Q _ _ Et). lia. }
  rewrite (Permutation_length A), of_support_app, app_length in Le.
  destruct (nth_error_split answers i Hi) as (l1 & l2 & -> & <-).
  rewrite nth_error_app2 in Hj by lia. destruct (j - length l1) as [|z] eqn:Ez; [lia|]. cbn in Hj.
  destruct (nth_error_split l2 z Hj) as (l3 & l4 & -> & _).
  unfold items in Le. rewrite flat_map_app in Le. cbn [flat_map] in Le. rewrite flat_map_app in Le. cbn [flat_map] in Le.
  rewrite !of_support_app, !app_length in Le. cbn [of_support filter] in Le. rewrite <- Ls, Nat.eqb_refl in Le. cbn [length] in Le. lia.
Qed.
Print Assumptions c36_order_partial.
Example c36_case : sound toy /\ seed_ok toy 4 8 (fl 2) /\ p_top_k toy <= 1 /\
  exists s answers, session toy 4 8 (fl 2) toy_calls 30 = Ret (s, answers) /\ nth_error answers 3 = Some (Item (Motiflet [0; 4] (fl 1))).
Proof.
  split; [exact toy_sound|]. split; [exact toy_seed|]. split; [cbn; lia|]. destruct toy_run as (s & E). exists s. eexists. split; [exact E|reflexivity].
Qed.

(** * C73: at most [top_k] motiflets per support, which do not overlap *)
(** Holds when candidates with the same support and extent overlap.  Missing: the others. *)
Theorem c73_disjoint_answers_partial :
  forall (p : problem) (a b : nat) (d : f64) (cbs : list (nat -> bool)) (fuel : nat) (s : iter) (answers : list answer) (k : nat),
    sound p -> seed_ok p a b d -> ties_overlap p a b d ->
    session p a b d cbs fuel = Ret (s, answers) ->
    let returned := filter (fun m => length (ml_indices m) =? k) (items answers) in
    length returned <= p_top_k p /\
    forall i j x y, i < j -> nth_error returned i = Some x -> nth_error returned j = Some y ->
      ~ sets_conflict (p_ez p) (ml_indices x) (ml_indices y).
Proof.
  intros p a b d cbs fuel s answers k Sd So Ht E.
  assert (NT : no_ties p (Motiflet [a; b] d)) by (split; [cbn; lia|right; exact Ht]).
  destruct (session_account p a b d cbs fuel s answers Sd So NT E) as (I & A). specialize (A k).
  rewrite of_support_app in A. fold (of_support k (items answers)). unfold emitted_at in A.
  destruct (nth_error (it_top s) k) as [t|] eqn:Et.
  - destruct (inv_queues _ _ _ I) as [_ Q]. destruct (Q k t Et) as [_ Qk _ Qe _ _ _ Qa].
    specialize (Qa (sound_zone p Sd) NT).
    split; [apply Permutation_length in A; rewrite app_length in A; lia|].
    assert (Pw : pairwise (fun x y => ~ conflicting (p_ez p) x y) (of_support k (items answers) ++ of_support k (it_return s))).
    { eapply pairwise_perm; [|exact A|exact Qa]. intros x y H C. apply H, conflicting_sym, C. }
    intros i j x y L Hi Hj. apply (pairwise_nth _ _ Pw i j x y L); rewrite nth_error_app1; auto; apply nth_error_Some; congruence.
  - apply Permutation_nil, app_eq_nil in A. destruct A as [-> _]. cbn. split; [lia|]. intros [|i]; discriminate.
Qed.
Print Assumptions c73_disjoint_answers_partial.

(** * C37: interruptions *)
(** The answers given by calls that were not interrupted are those of the same number of
    calls in a run that is never interrupted; and a run with interruptions terminates
    whenever the uninterrupted one does. *)
Theorem c37_interruptions :
  forall (p : problem) (a b : nat) (d : f64) (cbs : list (nat -> bool)),
    (forall (fuel : nat) (s : iter) (answers : list answer),
       session p a b d cbs fuel = Ret (s, answers) ->
       let given := filter (fun x => match x with Interrupted => false | _ => true end) answers in
       exists s', returns (session p a b d (repeat (fun _ => true) (length given))) (s', given)) /\
    (forall (fuel : nat) (s' : iter) (answers' : list answer),
       session p a b d (repeat (fun _ => true) (length cbs)) fuel = Ret (s', answers') ->
       exists s answers, returns (session p a b d cbs) (s, answers) /\
         let given := filter (fun x => match x with Interrupted => false | _ => true end) answers in
         given = firstn (length given) answers').
Proof.
  intros p a b d cbs. split.
  - intros fuel s answers E. unfold session in *. destruct (iter_new p a b d) as [s0| |] eqn:E0; cbn [bind] in E; try discriminate.
    destruct (uninterrupted p cbs s0 0 s0 fuel s answers (turns_none p s0) E) as (s' & n' & R & _). exists s'. exact R.
  - intros fuel s' answers' E. unfold session in *. destruct (iter_new p a b d) as [s0| |] eqn:E0; cbn [bind] in E; try discriminate.
    destruct (interrupted p cbs (length cbs) s0 0 s0 fuel s' answers' (Nat.le_refl _) (turns_none p s0) E) as (s & answers & R & Ec).
    exists s, answers. split; [exact R|exact Ec].
Qed.
Print Assumptions c37_interruptions.
Example c37_case :
  exists s s' : iter, session toy 4 8 (fl 2) toy_calls 30 =
    Ret (s, [Interrupted; Interrupted; Item (Motiflet [0; 4; 8] (fl 3)); Item (Motiflet [0; 4] (fl 1)); End; End]) /\
  session toy 4 8 (fl 2) (repeat (fun _ => true) 4) 30 =
    Ret (s', [Item (Motiflet [0; 4; 8] (fl 3)); Item (Motiflet [0; 4] (fl 1)); End; End]).
Proof. destruct toy_run as (s & E). exists s. eexists. split; [exact E|]. vm_compute. reflexivity. Qed.

(** * C38: exhaustion is for ever *)
Theorem c38_fused :
  forall (p : problem) (a b : nat) (d : f64) (cbs cbs' : list (nat -> bool)) (cb : nat -> bool) (fuel : nat)
         (s : iter) (answers answers' : list answer),
    sound p -> seed_ok p a b d ->
    session p a b d (cbs ++ cb :: cbs') fuel = Ret (s, answers ++ End :: answers') ->
    length answers = length cbs ->
    (* a call whose callback interrupts at once is interrupted, any other reports the end *)
    answers' = map (fun cb' : nat -> bool => if cb' 0 then End else Interrupted) cbs' /\
    (* and further calls do the same *)
    forall more, returns (session p a b d ((cbs ++ cb :: cbs') ++ more))
      (s, (answers ++ End :: answers') ++ map (fun cb' : nat -> bool => if cb' 0 then End else Interrupted) more).
Proof.
  intros p a b d cbs cbs' cb fuel s answers answers' Sd So E L.
  destruct (session_inv p a b d _ fuel s _ Sd So E) as (s0 & E0 & I0 & Ec & _ & _).
  assert (G : forall cbs s0 answers, inv p (Motiflet [a; b] d) s0 -> length answers = length cbs ->
     calls p (cbs ++ cb :: cbs') s0 fuel = Ret (s, answers ++ End :: answers') ->
     answers' = map (fun cb' : nat -> bool => if cb' 0 then End else Interrupted) cbs' /\
     it_return s = [] /\ forallb tk_is_complete (it_top s) = true).
  { clear - Sd. induction cbs as [|c cbs IH]; intros s0 answers I0 L E; cbn [app] in E.
    - destruct answers; [|discriminate]. cbn [app] in E.
      destruct (calls_split _ _ _ _ _ _ _ E) as (s1 & x & l' & C & E' & Ex). injection Ex as <- <-.
      destruct C as (n & s2 & T & _ & f & B). pose proof (turns_inv _ _ _ _ _ Sd T I0) as I2.
      pose proof (loop_body_cases p _ s2 _ f _ Sd I2 B) as C. cbn beta iota in C. destruct C as (_ & R1 & R2 & _).
      destruct (ended p cbs' s1 fuel s answers' R1 R2 E') as [-> ->]. auto.
    - destruct answers as [|x answers]; [discriminate|]. cbn [app] in E.
      destruct (calls_split _ _ _ _ _ _ _ E) as (s1 & x' & l' & C & E' & Ex). injection Ex as <- <-.
      destruct (call_inv p _ c s0 s1 x Sd I0 C) as [I1 _]. apply (IH s1 answers I1); [cbn in L; lia|exact E']. }
  destruct (G cbs s0 answers I0 L Ec) as (-> & R1 & R2). split; [reflexivity|].
  intros more. set (done := answers ++ End :: map _ cbs') in *. exists fuel. intros m Lm. unfold session. rewrite E0. cbn [bind].
  pose proof (calls_mono p (cbs ++ cb :: cbs') s0 fuel m Lm) as Mo. rewrite Ec in Mo. specialize (Mo ltac:(discriminate)).
  assert (App : forall c1 c2 s1 s2 l, calls p c1 s1 m = Ret (s2, l) ->
     calls p (c1 ++ c2) s1 m = let! '(s3, l') := calls p c2 s2 m in Ret (s3, l ++ l')).
  { clear. induction c1 as [|c c1 IH]; intros c2 s1 s2 l E.
    - cbn [calls] in E. apply Ret_inj in E. injection E as <- <-. cbn [app]. destruct (calls p c2 s1 m) as [[s3 l']| |]; reflexivity.
    - cbn [calls app] in *. destruct (next_interruptible p c s1 m) as [[s3 x]| |]; cbn [bind] in *; try discriminate.
      destruct (calls p c1 s3 m) as [[s4 l4]| |] eqn:E4; cbn [bind] in E; try discriminate. apply Ret_inj in E. injection E as <- <-.
      rewrite (IH c2 s3 s4 l4 E4). destruct (calls p c2 s4 m) as [[s5 l5]| |]; reflexivity. }
  rewrite (App _ _ _ _ _ Mo).
  assert (En : forall more, calls p more s m = Ret (s, map (fun cb' : nat -> bool => if cb' 0 then End else Interrupted) more)).
  { assert (Pm : 0 < m).
    { destruct m; [|lia]. destruct cbs; cbn in Mo; discriminate. }
    clear - R1 R2 Pm. induction more as [|c more IH]; [reflexivity|]. cbn [calls map].
    destruct m as [|m]; [lia|]. unfold next_interruptible at 1. cbn [loop]. unfold loop_body at 1. rewrite R1, R2.
    destruct (c 0); cbn [negb bind]; rewrite IH; reflexivity. }
  rewrite En. reflexivity.
Qed.
Print Assumptions c38_fused.
Example c38_case :
  sound toy /\ seed_ok toy 4 8 (fl 2) /\
  exists s, session toy 4 8 (fl 2) ([always; always] ++ always :: [(fun _ => false); always]) 30 =
    Ret (s, [Item (Motiflet [0; 4; 8] (fl 3)); Item (Motiflet [0; 4] (fl 1))] ++ End :: [Interrupted; End]).
Proof. split; [exact toy_sound|]. split; [exact toy_seed|]. eexists. vm_compute. reflexivity. Qed.

(** * C39: stopping on too many collisions *)
(** The answers are relative to the candidates that the queues keep (see C29).  Missing:
    candidates of the same extent that do not overlap (see C28). *)
Theorem c39_stop_partial :
  forall (p : problem) (a b : nat) (d : f64) (cbs : list (nat -> bool)) (fuel : nat) (s : iter) (answers : list answer),
    sound p -> seed_ok p a b d -> ties_overlap p a b d ->
    session p a b d cbs fuel = Ret (s, answers) ->
    it_return s = [] -> forallb tk_is_complete (it_top s) = false ->
    p_stop p = true -> p_threshold p < it_candidates s ->
    exists outs : list (list motiflet),
      (* for each support, the greedy completion of what was returned *)
      Forall2 (fun queue out => greedy_from (p_ez p) (tk_top queue) (p_top_k p - length (tk_emitted queue)) (tk_emitted queue) out)
        (it_top s) outs /\
      (forall k, Permutation (filter (fun m => length (ml_indices m) =? k) (items answers))
                   match nth_error (it_top s) k with Some queue => tk_emitted queue | None => [] end) /\
      (* all of it is returned by the next calls, and then the end *)
      forall n, exists s', returns (calls p (repeat (fun _ => true) n) s)
        (s', firstn n (map Item (rev (concat outs)) ++ repeat End n)).
Proof.
  intros p a b d cbs fuel s answers Sd So Ht E Er Ec Hs Hc.
  assert (NT : no_ties p (Motiflet [a; b] d)) by (split; [cbn; lia|right; exact Ht]).
  destruct (session_account p a b d cbs fuel s answers Sd So NT E) as (I & A).
  destruct (emit_everything_ok p _ s I) as (s1 & new & E1 & I1 & R1 & C1 & _).
  destruct (emit_everything_greedy p (Motiflet [a; b] d) s s1 Sd ltac:(cbn; lia) Ht I E1) as (outs & Eo & F).
  exists outs. split; [exact F|]. split.
  { intros k. specialize (A k). rewrite Er, app_nil_r in A. symmetry. exact A. }
  rewrite Er in Eo. cbn [app] in Eo. intros n. rewrite <- Eo. destruct n as [|n]; [exists s; exists 0; reflexivity|].
  destruct (drain p (S n) s1 C1) as (s' & n0 & R). exists s'.
  (* the first call starts from [s] instead of [s1], with the same effect *)
  apply (fmono_returns _ (S n0)); [apply calls_mono|].
  specialize (R (S n0) ltac:(lia)). cbn [repeat calls] in R |- *.
  assert (Eq : next_interruptible p (fun _ => true) s (S n0) = next_interruptible p yes s1 (S n0)).
  { unfold next_interruptible. cbn [loop]. unfold loop_body, yes. rewrite Er, Ec, Hs. cbn [negb].
    destruct (Nat.ltb_spec (p_threshold p) (it_candidates s)) as [_|]; [|lia]. cbn [andb]. rewrite E1. cbn [bind].
    destruct (it_return s1) as [|x t] eqn:Ex.
    - unfold pop. rewrite Ex. cbn [rev]. rewrite C1. reflexivity.
    - reflexivity. }
  rewrite Eq. exact R.
Qed.
Print Assumptions c39_stop_partial.

(** a case for C73 and C39: all pairs of windows have different distances *)
Definition spread_distance (i j : nat) : f64 :=
  if (i <? 17) && (j <? 17) then fl (1 + Nat.min i j * 17 + Nat.max i j) else fl 1.
Definition spread (stop : bool) : problem := {|
  p_n := 17; p_ez := 2; p_max_k := 2; p_top_k := 2;
  p_zeucl := spread_distance; p_zeucl_threshold := below spread_distance;
  p_table := fun _ _ => (pairs_hashes, [0; 4; 8; 12; 16]%N);
  p_failure := fun _ reps _ _ _ => if stop then fl 1 else if reps <? 3 then fl 1 else f_zero;
  p_delta := half; p_coin := fun _ _ _ => true;
  p_expected := toy_expected; p_setup_cost := fl 1; p_collision_cost := fl 1; p_max_repetitions := 100;
  p_buffer := 10; p_threshold := 7; p_stop := stop; p_nan_first := true |}.
Lemma spread_cases (P : f64 -> bool) i j : P (fl 1) = true ->
  forallb (fun i => forallb (fun j => P (spread_distance i j)) (seq 0 17)) (seq 0 17) = true -> P (spread_distance i j) = true.
Proof.
  intros H1 H. destruct (Nat.ltb_spec i 17) as [Hi|Hi]; [destruct (Nat.ltb_spec j 17) as [Hj|Hj]|].
  - rewrite forallb_forall in H. specialize (H i (proj2 (in_seq 17 0 i) ltac:(lia))).
    rewrite forallb_forall in H. exact (H j (proj2 (in_seq 17 0 j) ltac:(lia))).
  - unfold spread_distance. destruct (Nat.ltb_spec j 17); [lia|]. rewrite andb_false_r. exact H1.
  - unfold spread_distance. destruct (Nat.ltb_spec i 17); [lia|]. exact H1.
Qed.
Lemma spread_sound stop : sound (spread stop).
Proof.
  split.
  - cbn. lia.
  - cbn. lia.
  - intros r k _. split; [exact pairs_table|discriminate].
  - intros r k x i _ H. left. cbn [p_table spread snd] in H. apply nth_error_In in H. cbn in H. intuition (subst; reflexivity).
  - intros a b t d. apply below_sign. intros i j. apply negb_true_iff.
    apply (spread_cases (fun x => negb (is_sign_negative x))); vm_compute; reflexivity.
  - intros i j _. apply (spread_cases (fle f_zero)); vm_compute; reflexivity.
  - intros i j _ _ _. apply negb_true_iff. apply (spread_cases (fun x => negb (is_nan x))); vm_compute; reflexivity.
  - reflexivity.
Qed.
Lemma spread_distinct i j x y : i < 17 -> j < 17 -> x < 17 -> y < 17 -> feq (spread_distance i j) (spread_distance x y) = true -> i = x \/ i = y.
Proof.
  intros Hi Hj Hx Hy.
  assert (H : forallb (fun i => forallb (fun j => forallb (fun x => forallb (fun y =>
    implb (feq (spread_distance i j) (spread_distance x y)) ((i =? x) || (i =? y))) (seq 0 17)) (seq 0 17)) (seq 0 17)) (seq 0 17) = true)
    by (vm_compute; reflexivity).
  rewrite forallb_forall in H. specialize (H i (proj2 (in_seq 17 0 i) ltac:(lia))).
  rewrite forallb_forall in H. specialize (H j (proj2 (in_seq 17 0 j) ltac:(lia))).
  rewrite forallb_forall in H. specialize (H x (proj2 (in_seq 17 0 x) ltac:(lia))).
  rewrite forallb_forall in H. specialize (H y (proj2 (in_seq 17 0 y) ltac:(lia))).
  intros E. rewrite E in H. cbn [implb] in H. apply orb_prop in H. destruct H as [H|H]; apply Nat.eqb_eq in H; auto.
Qed.
Lemma spread_ties stop : ties_overlap (spread stop) 8 12 (spread_distance 8 12).
Proof.
  assert (C : forall m, candidate (spread stop) 8 12 (spread_distance 8 12) m ->
     exists i j, In i (ml_indices m) /\ In j (ml_indices m) /\ i < 17 /\ j < 17 /\ ml_extent m = spread_distance i j).
  { intros m [(L & B & _ & (_ & _ & M))| ->].
    - destruct (M ltac:(lia)) as (a & b & x & y & _ & Ex & Ey & E). exists y, x. apply nth_error_In in Ex, Ey.
      repeat split; auto; apply (B _); auto.
    - exists 8, 12. cbn. repeat split; auto; lia. }
  intros x y Cx Cy _ E. destruct (C x Cx) as (i & j & Ii & Ij & Bi & Bj & Ei). destruct (C y Cy) as (i' & j' & Ii' & Ij' & Bi' & Bj' & Ei').
  rewrite Ei, Ei' in E. destruct (spread_distinct i j i' j' Bi Bj Bi' Bj' E) as [-> | ->].
  - exists i', i'. repeat split; auto; cbn; lia.
  - exists j', j'. repeat split; auto; cbn; lia.
Qed.
Lemma spread_seed stop : seed_ok (spread stop) 8 12 (spread_distance 8 12).
Proof. repeat split; cbn; try lia. unfold too_close. lia. Qed.
Example c73_case :
  sound (spread false) /\ seed_ok (spread false) 8 12 (spread_distance 8 12) /\ ties_overlap (spread false) 8 12 (spread_distance 8 12) /\
  exists s answers, session (spread false) 8 12 (spread_distance 8 12) [always; always; always] 30 = Ret (s, answers) /\
    length (filter (fun m => length (ml_indices m) =? 2) (items answers)) = 2.
Proof.
  split; [apply spread_sound|]. split; [apply spread_seed|]. split; [apply spread_ties|].
  eexists. eexists. split; [vm_compute; reflexivity|reflexivity].
Qed.
Example c39_case :
  sound (spread true) /\ seed_ok (spread true) 8 12 (spread_distance 8 12) /\ ties_overlap (spread true) 8 12 (spread_distance 8 12) /\
  exists s answers, session (spread true) 8 12 (spread_distance 8 12) [(fun i => i <? 2)] 30 = Ret (s, answers) /\
    it_return s = [] /\ forallb tk_is_complete (it_top s) = false /\ p_stop (spread true) = true /\
    p_threshold (spread true) < it_candidates s /\ 2 <= length (concat (map tk_top (it_top s))).
Proof.
  split; [apply spread_sound|]. split; [apply spread_seed|]. split; [apply spread_ties|].
  eexists. eexists. split; [vm_compute; reflexivity|]. cbn. repeat split; try reflexivity; lia.
Qed.

(** * C68: the edges of the graph *)
(** [e] is the stored distance with its sign used as a flag. *)
Theorem c68_edges_are_genuine :
  forall (p : problem) (a b : nat) (d : f64) (s : iter) (i j : nat) (e : f64) (neighbours : list (f64 * nat)),
    sound p -> seed_ok p a b d -> reachable p a b d s ->
    nth_error (g_nn (it_graph s)) i = Some neighbours -> In (e, j) neighbours ->
    i <> j /\ i < p_n p /\ j < p_n p /\ ~ too_close (p_ez p) i j /\ is_finite e = true /\
    exists threshold, p_zeucl_threshold p (Nat.min i j) (Nat.max i j) threshold = Some (SFabs e).
Proof.
  intros p a b d s i j e nb Sd So (cbs & fuel & answers & E) Hn He.
  destruct (session_inv p a b d cbs fuel s answers Sd So E) as (_ & _ & _ & _ & I & _).
  destruct (inv_graph _ _ _ I) as (ops & (_ & L & _ & V) & Ho).
  assert (Li : i < p_n p) by (rewrite <- L; apply nth_error_Some; congruence).
  destruct (V i Li) as (_ & nb' & En & _ & N2 & _). rewrite Hn in En. injection En as <-.
  apply N2 in He. cbn [fst snd] in He. apply edges_in in He. destruct He as (x & y & Hop & C).
  destruct (Ho _ _ _ Hop) as ((Hx & _) & (Hy & _) & Lt & T & F & _ & th & Hd). unfold dwf_distance in *.
  assert (Fe : is_finite e = true) by (destruct e; auto).
  destruct C as [(-> & ->)|(-> & ->)].
  - repeat split; auto; try lia. exists th. rewrite Nat.min_l, Nat.max_r by lia. exact Hd.
  - repeat split; auto; try lia; [unfold too_close in *; lia|]. exists th. rewrite Nat.min_r, Nat.max_l by lia. exact Hd.
Qed.
Print Assumptions c68_edges_are_genuine.
Example c68_case :
  sound toy /\ seed_ok toy 4 8 (fl 2) /\
  exists s neighbours, reachable toy 4 8 (fl 2) s /\ nth_error (g_nn (it_graph s)) 4 = Some neighbours /\ length neighbours = 2.
Proof.
  split; [exact toy_sound|]. split; [exact toy_seed|]. eexists. eexists. split.
  { exists [(fun i => i <? 2)], 30. eexists. vm_compute. reflexivity. }
  split; reflexivity.
Qed.

(** With an exclusion zone of 0 (windows of length 1 by default), the entries that fill the
    pair buffer at the start are read as edges from window 0 to itself. *)
Definition toy_no_zone : problem := {|
  p_n := 13; p_ez := 0; p_max_k := 3; p_top_k := 1;
  p_zeucl := toy_distance; p_zeucl_threshold := below toy_distance;
  p_table := fun _ _ => (toy_hashes, [0; 4; 8; 12]%N);
  p_failure := fun _ reps _ _ _ => if reps <? 3 then fl 1 else f_zero;
  p_delta := half; p_coin := fun _ _ _ => true;
  p_expected := toy_expected; p_setup_cost := fl 1; p_collision_cost := fl 1; p_max_repetitions := 100;
  p_buffer := 4; p_threshold := 7; p_stop := false; p_nan_first := true |}.
Theorem c68_edges_refuted :
  exists (p : problem) (a b : nat) (d : f64) (s : iter) (neighbours : list (f64 * nat)),
    p_ez p = 0 /\ p_zeucl p a b = d /\ reachable p a b d s /\
    nth_error (g_nn (it_graph s)) 0 = Some neighbours /\ exists e, In (e, 0) neighbours.
Proof.
  exists toy_no_zone, 4, 8, (fl 2). eexists. eexists. split; [reflexivity|]. split; [reflexivity|]. split.
  { exists [(fun i => i <? 1)], 30. eexists. vm_compute. reflexivity. }
  split; [reflexivity|]. eexists. left. reflexivity.
Qed.
Print Assumptions c68_edges_refuted.

(** * C67: the collisions of a repetition are evaluated *)
(** [update_graph] is the step of a turn that goes through one repetition. *)
(** Missing: the pairs that are skipped by tossing a coin, once there are more than 8
    repetitions. *)
Lemma count_heads_all n : forall coin i, (forall j, coin j = true) -> count_heads coin i n = n.
Proof. induction n as [|n IH]; intros coin i H; [reflexivity|]. cbn [count_heads]. rewrite (H i), IH by exact H. reflexivity. Qed.
Lemma count_all_heads coin batches : (forall i j, coin i j = true) -> forall i, count_all coin i batches = length (concat batches).
Proof.
  intros H. induction batches as [|b l IH]; intros i; [reflexivity|]. cbn [count_all concat]. rewrite app_length, IH, count_heads_all; auto.
Qed.
Theorem c67_evaluated_partial :
  forall (p : problem) (a b : nat) (d : f64) (s s' : iter) (fuel : nat),
    sound p -> seed_ok p a b d -> reachable p a b d s ->
    (forall i j, p_coin p (it_conf s) i j = true) ->
    update_graph p s fuel = Ret s' ->
    exists (t : list N * list N) (threshold : f64) (pairs : list (nat * nat)),
      nth_error (it_tables s) (c_rep (it_conf s)) = Some t /\ graph_threshold p s = Ret threshold /\
      NoDup pairs /\ (forall x y, In (x, y) pairs <-> due p s t x y) /\
      it_candidates s' = it_candidates s + length pairs /\
      forall x y u v e, due p s t x y -> nth_error (snd t) x = Some u -> nth_error (snd t) y = Some v ->
        let i := N.to_nat (N.min u v) in
        let j := N.to_nat (N.max u v) in
        p_zeucl_threshold p i j threshold = Some e -> is_finite e = true ->
        exists ni nj e1 e2, nth_error (g_nn (it_graph s')) i = Some ni /\ nth_error (g_nn (it_graph s')) j = Some nj /\
          In (e1, j) ni /\ In (e2, i) nj /\ fle (SFabs e1) e = true /\ fle (SFabs e2) e = true.
Proof.
  intros p a b d s s' fuel Sd So (cbs & fuel' & answers & E) Hc Eu.
  destruct (session_inv p a b d cbs fuel' s answers Sd So E) as (_ & _ & _ & _ & I & _).
  destruct (update_graph_ok p _ s Sd I) as (s2 & t & k & th & bs & pos & new & R & I2 & _ & _ & _ & _ & Et & _ & _ & Eth & _ & ND & Ch & F2 & Cc & Hn & On & ops & V0 & V & _).
  assert (s2 = s') by (destruct R as (n0 & R); apply Ret_inj; rewrite <- Eu, <- (R (Nat.max n0 fuel) ltac:(lia)); apply update_graph_mono; [lia|congruence]).
  subst s2. exists t, th, pos. split; [exact Et|]. split; [exact Eth|]. split; [exact ND|].
  split; [exact Ch|]. split.
  { rewrite Cc, count_all_heads by exact Hc. f_equal. clear - F2. induction F2; cbn [length]; congruence. }
  intros x y u v e Hd Hu Hv i j Hz Hf.
  apply Ch in Hd. destruct (In_nth_error _ _ Hd) as (q & Hq).
  assert (exists ab, nth_error (concat bs) q = Some ab /\ report_of (snd t) (x, y) ab) as (ab & Hab & Rep).
  { clear - F2 Hq. revert q Hq. induction F2 as [|z w l l' H F IH]; intros [|q] Hq; try discriminate; cbn in Hq.
    - injection Hq as ->. exists w. split; [reflexivity|exact H].
    - apply IH, Hq. }
  destruct Rep as (u' & v' & Hu' & Hv' & Le & Eab). cbn [fst snd] in Hu', Hv'. rewrite Hu in Hu'. injection Hu' as <-. rewrite Hv in Hv'. injection Hv' as <-.
  assert (Fab : fst ab = N.min u v /\ snd ab = N.max u v) by (destruct Eab as [-> | ->]; cbn [fst snd] in *; lia).
  destruct Fab as [Fa Fb].
  assert (exists bi b' bj, nth_error bs bi = Some b' /\ nth_error b' bj = Some ab) as (bi & b' & bj & Hb' & Hbj).
  { apply nth_error_In, in_concat in Hab. destruct Hab as (b' & Hin & Hin'). destruct (In_nth_error _ _ Hin) as (bi & ?).
    destruct (In_nth_error _ _ Hin') as (bj & ?). eauto. }
  specialize (Hn bi b' bj ab e Hb' Hbj (Hc bi bj)). rewrite Fa, Fb in Hn. specialize (Hn Hz Hf). fold i j in Hn.
  destruct V as (_ & L & _ & V).
  assert (Ed : In (e, j) (edges (ops ++ [GReset] ++ new) i) /\ In (e, i) (edges (ops ++ [GReset] ++ new) j)).
  { rewrite !edges_app. split; apply in_or_app; right; apply in_or_app; right; clear - Hn.
    - induction new as [|op l IH]; [destruct Hn|]. destruct Hn as [->|Hn]; cbn [edges].
      + rewrite Nat.eqb_refl. left. reflexivity.
      + destruct op; auto. apply in_or_app. right. apply in_or_app. auto.
    - induction new as [|op l IH]; [destruct Hn|]. destruct Hn as [->|Hn]; cbn [edges].
      + rewrite Nat.eqb_refl. apply in_or_app. right. left. reflexivity.
      + destruct op; auto. apply in_or_app. right. apply in_or_app. auto. }
  assert (Bi : i < p_n p /\ j < p_n p).
  { destruct (On _ _ _ Hn) as ((Hi & _) & (Hj & _) & _). auto. }
  destruct (V i (proj1 Bi)) as (_ & ni & Eni & _ & _ & Ni). destruct (V j (proj2 Bi)) as (_ & nj & Enj & _ & _ & Nj).
  destruct (Ni e j (proj1 Ed)) as ([e1 j1] & H1 & J1 & F1). destruct (Nj e i (proj2 Ed)) as ([e2 j2] & H2 & J2 & F2').
  cbn [snd] in J1, J2. subst j1 j2. exists ni, nj, e1, e2. auto 10.
Qed.
Print Assumptions c67_evaluated_partial.
Example c67_case :
  sound toy /\ seed_ok toy 4 8 (fl 2) /\
  exists s s', reachable toy 4 8 (fl 2) s /\ (forall i j, p_coin toy (it_conf s) i j = true) /\
    update_graph toy s 30 = Ret s' /\ it_candidates s' = it_candidates s + 3 /\ due toy s (toy_hashes, [0; 4; 8; 12]%N) 0 1.
Proof.
  split; [exact toy_sound|]. split; [exact toy_seed|]. eexists. eexists. split.
  { exists [(fun i => i <? 1)], 30. eexists. vm_compute. reflexivity. }
  split; [reflexivity|]. split; [vm_compute; reflexivity|]. split; [reflexivity|].
  split; [|split; [|split]].
  - split; [lia|]. do 2 eexists. split; [reflexivity|]. split; [reflexivity|]. intros k _. reflexivity.
  - intros (hx & hl & Hx & Hl & A). cbn in Hx, Hl. injection Hx as <-. injection Hl as <-. specialize (A 0 ltac:(cbn; lia)). vm_compute in A. discriminate A.
  - intros (H & _). discriminate H.
  - intros (x & y & Hx & Hy & T). cbn in Hx, Hy. injection Hx as <-. injection Hy as <-. unfold too_close in T. cbn in T. lia.
Qed.

(** With more than 8 repetitions a colliding pair may be skipped: windows 0 and 4 collide
    only in the ninth repetition, where the coin says no. *)
Definition unlucky : problem := {|
  p_n := 13; p_ez := 2; p_max_k := 3; p_top_k := 1;
  p_zeucl := toy_distance; p_zeucl_threshold := below toy_distance;
  p_table := fun r _ => (if r <? 8 then [0x0100000000000000; 0x0200000000000000; 0x0300000000000000; 0x0400000000000000]%N else toy_hashes, [0; 4; 8; 12]%N);
  p_failure := fun _ _ _ _ _ => fl 1;
  p_delta := half; p_coin := fun c _ _ => c_rep c <? 8;
  p_expected := toy_expected; p_setup_cost := fl 1; p_collision_cost := fl 1; p_max_repetitions := 100;
  p_buffer := 4; p_threshold := 7; p_stop := false; p_nan_first := true |}.
Lemma unlucky_sound : sound unlucky.
Proof.
  split.
  - cbn. lia.
  - cbn. lia.
  - intros r k _. cbn [p_table unlucky fst snd]. destruct (r <? 8); [|split; [exact toy_table|discriminate]].
    split; [|discriminate]. split; [reflexivity|]. split.
    + intros h Hh. unfold is_u64. cbn in Hh. intuition (subst; reflexivity).
    + intros i j a b L Hi Hj.
      do 4 (destruct i as [|i]; [do 4 (destruct j as [|j]; [cbn in *; injection Hi as <-; injection Hj as <-; lia|]); destruct j; discriminate|]).
      destruct i; discriminate.
  - intros r k x i _ H. left. cbn [p_table unlucky snd] in H. apply nth_error_In in H. cbn in H. intuition (subst; reflexivity).
  - intros a b t d. apply below_sign. intros i j. destruct (toy_distance_cases i j) as [->|[->|[->| ->]]]; reflexivity.
  - intros i j _. cbn [p_zeucl unlucky]. destruct (toy_distance_cases i j) as [->|[->|[->| ->]]]; reflexivity.
  - intros i j _ _ _. cbn [p_zeucl unlucky]. destruct (toy_distance_cases i j) as [->|[->|[->| ->]]]; reflexivity.
  - reflexivity.
Qed.
Theorem c67_evaluated_refuted :
  exists (p : problem) (a b : nat) (d : f64) (s s' : iter) (t : list N * list N) (threshold e : f64),
    sound p /\ seed_ok p a b d /\ reachable p a b d s /\ 8 < length (it_tables s) /\
    (exists fuel, update_graph p s fuel = Ret s') /\
    nth_error (it_tables s) (c_rep (it_conf s)) = Some t /\ graph_threshold p s = Ret threshold /\
    due p s t 0 1 /\ nth_error (snd t) 0 = Some 0%N /\ nth_error (snd t) 1 = Some 4%N /\
    p_zeucl_threshold p 0 4 threshold = Some e /\ is_finite e = true /\
    it_candidates s' = it_candidates s /\ nth_error (g_nn (it_graph s')) 0 = Some [].
Proof.
  exists unlucky, 4, 8, (fl 2). do 5 eexists. split; [exact unlucky_sound|].
  split; [repeat split; cbn; try lia; unfold too_close; lia|]. split.
  { exists [(fun i => i <? 8)], 30. eexists. vm_compute. reflexivity. }
  split; [cbn; lia|]. split; [exists 30; vm_compute; reflexivity|]. split; [reflexivity|]. split; [reflexivity|].
  split; [|repeat split; reflexivity].
  split; [|split; [|split]].
  - split; [lia|]. do 2 eexists. split; [reflexivity|]. split; [reflexivity|]. intros k _. reflexivity.
  - intros (hx & hl & Hx & Hl & A). cbn in Hx, Hl. injection Hx as <-. injection Hl as <-. specialize (A 0 ltac:(cbn; lia)). vm_compute in A. discriminate A.
  - intros (H & _). discriminate H.
  - intros (x & y & Hx & Hy & T). cbn in Hx, Hy. injection Hx as <-. injection Hy as <-. unfold too_close in T. cbn in T. lia.
Qed.
Print Assumptions c67_evaluated_refuted.
