(** Property theorems C27-C30 (the candidate queue of one support).
    Specification: OverlapsSpec.v, TopKSpec.v.  Model: TopK.v. *)
From Coq Require Import Floats.SpecFloat.
From Verif Require Import Base F64 Overlaps OverlapsSpec OverlapsProofs TopK TopKSpec TopKProofs.

(** the motiflet of extent [e] (a positive integer) *)
Definition ml (e : positive) (indices : list nat) : motiflet := Motiflet indices (S754_finite false e 0).

(** * C27: bounded, ordered, no abort *)
Theorem c27_queue_bounded :
  forall (k ez : nat) (ops : list tk_op),
    (forall m, In m (inserted ops) -> is_nan (ml_extent m) = false) ->
    exists queue returned,
      tk_run (tk_new k ez) ops = Ret (queue, returned) /\
      StronglySorted (fun x y => flt (ml_extent x) (ml_extent y) = true) (tk_top queue) /\
      length (tk_top queue) <= (k + 1) * (k + 1) /\
      (forall m, In m (tk_top queue) -> In m (inserted ops)).
Proof.
  intros k ez ops N. destruct (run_ok ops (tk_new k ez) (wf_new k ez) N) as (s & out & E & W & A & B & C).
  exists s, out. split; [exact E|]. destruct W as (_ & S & _ & _ & L & T). split; [exact S|].
  split; [rewrite T, A in L; exact L|]. intros m Hm. destruct (C m Hm) as [H|[]]. exact H.
Qed.
Print Assumptions c27_queue_bounded.
(** k = 1: the fifth candidate makes the queue overflow and be pruned *)
Definition ex_ops : list tk_op :=
  [OpInsert (ml 5 [0; 50]); OpInsert (ml 4 [10; 60]); OpInsert (ml 3 [20; 70]); OpEmit (fun _ => false);
   OpInsert (ml 2 [30; 80]); OpInsert (ml 1 [31; 81]); OpEmit (fun d => flt d (S754_finite false 2 0))].
Example c27_example :
  match tk_run (tk_new 1 5) ex_ops with
  | Ret (q, out) => tk_top q = [ml 1 [31; 81]; ml 3 [20; 70]; ml 4 [10; 60]; ml 5 [0; 50]] /\ out = [ml 1 [31; 81]]
  | _ => False
  end.
Proof. vm_compute. split; reflexivity. Qed.

(** * C28: at most k, disjoint *)
(** Two motiflets with the same extent (ml 20 [300; 1400] and ml 20 [1600; 1700]) and a queue that
    overflows between them: with k = 2, three motiflets come out, two of them the same. *)
Definition tie_ops : list tk_op :=
  [OpInsert (ml 20 [300; 1400]); OpEmit (fun _ => true)] ++
  map (fun e => OpInsert (ml e [301; 100 * Pos.to_nat e]))
      [1; 2; 3; 4; 5; 6; 7; 8; 9]%positive ++
  [OpInsert (ml 20 [1600; 1700]); OpEmit (fun _ => true); OpEmit (fun _ => true)].
Theorem c28_disjoint_refuted :
  exists (k ez : nat) (ops : list tk_op) (queue : topk) (returned : list motiflet) (a b : nat) (x y : motiflet),
    0 < ez /\ (forall m, In m (inserted ops) -> is_nan (ml_extent m) = false /\ ml_indices m <> []) /\
    tk_run (tk_new k ez) ops = Ret (queue, returned) /\
    k < length returned /\
    a < b /\ nth_error returned a = Some x /\ nth_error returned b = Some y /\ conflicting ez x y /\ x = y.
Proof.
  exists 2, 5, tie_ops.
  destruct (tk_run (tk_new 2 5) tie_ops) as [[q out]| |] eqn:E; vm_compute in E; try discriminate.
  apply Ret_inj in E. injection E as <- <-.
  eexists. eexists. exists 1, 2, (ml 20 [1600; 1700]), (ml 20 [1600; 1700]).
  split; [lia|]. split; [intros m Hm; repeat (destruct Hm as [<-|Hm]; [split; [reflexivity|discriminate]|]); destruct Hm|].
  split; [reflexivity|]. split; [cbn; lia|]. split; [lia|]. split; [reflexivity|]. split; [reflexivity|].
  split; [|reflexivity]. exists 1600, 1600. repeat split; try (left; reflexivity); lia.
Qed.
Print Assumptions c28_disjoint_refuted.

(** Holds when candidates with the same extent overlap (or are the same).  Missing: disjoint candidates with the same extent. *)
Theorem c28_disjoint_partial :
  forall (k ez : nat) (ops : list tk_op) (queue : topk) (returned : list motiflet),
    0 < ez ->
    (forall m, In m (inserted ops) -> is_nan (ml_extent m) = false /\ ml_indices m <> []) ->
    (forall x y, In x (inserted ops) -> In y (inserted ops) ->
       feq (ml_extent x) (ml_extent y) = true -> sets_conflict ez (ml_indices x) (ml_indices y)) ->
    tk_run (tk_new k ez) ops = Ret (queue, returned) ->
    length returned <= k /\
    (forall a b x y, a < b -> nth_error returned a = Some x -> nth_error returned b = Some y ->
       ~ sets_conflict ez (ml_indices x) (ml_indices y) /\ x <> y) /\
    (forall m, In m returned -> In m (inserted ops)).
Proof.
  intros k ez ops q out Hez Hm Htie E.
  assert (Hn : numbers (inserted ops)) by (intros m H; apply Hm, H).
  assert (Hne : forall m, In m (inserted ops) -> ml_indices m <> []) by (intros m H; apply Hm, H).
  pose proof (good_run k ez (fun m => In m (inserted ops)) Hez Hne Hn Htie ops (fun x H => H) (tk_new k ez) [] q out (good_new k ez _ Hez) E) as G.
  destruct G as (_ & _ & _ & _ & He & P & L & Pw). cbn [app] in P.
  split; [rewrite (Permutation_length P); exact L|].
  assert (In_U : forall m, In m out -> In m (inserted ops)) by (intros m H; apply He, (Permutation_in _ P), H).
  split; [|exact In_U].
  intros a b x y Lab Ea Eb.
  assert (Pw' : pairwise (fun x y => ~ conflicting ez x y) out).
  { eapply pairwise_perm; [|symmetry; exact P|exact Pw]. intros u v H C. apply H, conflicting_sym, C. }
  pose proof (pairwise_nth _ _ Pw' a b x y Lab Ea Eb) as N. split; [exact N|].
  intros ->. apply N. apply overlaps_lists_spec, overlaps_lists_refl; [exact Hez|]. apply Hne, In_U. eapply nth_error_In; eauto.
Qed.
Print Assumptions c28_disjoint_partial.
Example c28_example :
  (forall m, In m (inserted ex_ops) -> is_nan (ml_extent m) = false /\ ml_indices m <> []) /\
  (forall x y, In x (inserted ex_ops) -> In y (inserted ex_ops) ->
     feq (ml_extent x) (ml_extent y) = true -> sets_conflict 5 (ml_indices x) (ml_indices y)) /\
  match tk_run (tk_new 1 5) ex_ops with Ret (_, out) => out = [ml 1 [31; 81]] | _ => False end.
Proof.
  split; [intros m Hm; cbn in Hm; repeat (destruct Hm as [<-|Hm]; [split; [reflexivity|discriminate]|]); destruct Hm|].
  split; [|vm_compute; reflexivity].
  intros x y Hx Hy. cbn in Hx, Hy.
  repeat (destruct Hx as [<-|Hx]; [repeat (destruct Hy as [<-|Hy]; [intros Q; apply overlaps_lists_spec; try (vm_compute; reflexivity); vm_compute in Q; discriminate|]); destruct Hy|]).
  destruct Hx.
Qed.

(** * C29: pruning *)
(** k = 2.  Nine candidates overlapping each other fill the queue; a tenth one, disjoint from
    them but with a larger extent, is not stored, although it is the second of the answer. *)
Definition full_ops : list tk_op :=
  map (fun e => OpInsert (ml e [10; 40 + 10 * Pos.to_nat e])) [1; 2; 3; 4; 5; 6; 7; 8; 9]%positive ++
  [OpInsert (ml 10 [20; 30])].
Theorem c29_pruning_refuted :
  exists (k ez : nat) (ops : list tk_op) (queue : topk) (best other : motiflet),
    (forall m, In m (inserted ops) -> is_nan (ml_extent m) = false) /\
    (forall a b x y, a < b -> nth_error (inserted ops) a = Some x -> nth_error (inserted ops) b = Some y ->
       feq (ml_extent x) (ml_extent y) = false) /\
    (forall op, In op ops -> exists m, op = OpInsert m) /\
    tk_run (tk_new k ez) ops = Ret (queue, []) /\
    best_answer ez (inserted ops) k [best; other] /\
    best_answer ez (tk_top queue) k [best].
Proof.
  exists 2, 5, full_ops.
  destruct (tk_run (tk_new 2 5) full_ops) as [[q out]| |] eqn:E; vm_compute in E; try discriminate.
  apply Ret_inj in E. injection E as <- <-.
  eexists. exists (ml 1 [10; 50]), (ml 10 [20; 30]).
  split; [intros m Hm; repeat (destruct Hm as [<-|Hm]; [reflexivity|]); destruct Hm|].
  split.
  { assert (H : forallb (fun a => forallb (fun b => negb (a <? b) ||
        negb (feq (ml_extent (nth a (inserted full_ops) (ml 1 []))) (ml_extent (nth b (inserted full_ops) (ml 1 []))))) (seq 0 10)) (seq 0 10) = true) by reflexivity.
    rewrite forallb_forall in H. intros a b x y L Ea Eb.
    assert (La : a < 10) by (change 10 with (length (inserted full_ops)); apply nth_error_Some; congruence).
    assert (Lb : b < 10) by (change 10 with (length (inserted full_ops)); apply nth_error_Some; congruence).
    specialize (H a ltac:(apply in_seq; lia)). rewrite forallb_forall in H. specialize (H b ltac:(apply in_seq; lia)).
    rewrite (nth_error_nth _ _ _ Ea), (nth_error_nth _ _ _ Eb) in H. destruct (Nat.ltb_spec a b); [|lia].
    cbn [negb orb] in H. destruct (feq _ _); [discriminate|reflexivity]. }
  split; [intros op Hop; cbn in Hop; repeat (destruct Hop as [<-|Hop]; [eexists; reflexivity|]); destruct Hop|].
  split; [reflexivity|].
  assert (Over : forall x a b, In x (ml_indices a) -> In x (ml_indices b) -> conflicting 5 a b).
  { intros x a b Ha Hb. exists x, x. repeat split; auto; lia. }
  assert (First : forall cands, In (ml 1 [10; 50]) cands ->
      (forall c, In c cands -> fle (S754_finite false 1 0) (ml_extent c) = true) -> best_answer 5 cands 1 [ml 1 [10; 50]]).
  { intros cands Hin Hle. apply (ba_more 5 cands 0 [] (ml 1 [10; 50])).
    - constructor.
    - reflexivity.
    - exact Hin.
    - intros r [].
    - intros c Hc _. apply Hle, Hc. }
  split.
  - apply (ba_more 5 (inserted full_ops) 1 [ml 1 [10; 50]] (ml 10 [20; 30])).
    + apply First; [left; reflexivity|].
      intros c Hc. cbn in Hc. repeat (destruct Hc as [<-|Hc]; [reflexivity|]). destruct Hc.
    + reflexivity.
    + do 9 right. left. reflexivity.
    + intros r [<-|[]] (x & y & Hx & Hy & T). cbn in Hx, Hy. unfold too_close in T. lia.
    + intros c Hc Hd. cbn in Hc.
      do 9 (destruct Hc as [<-|Hc]; [exfalso; apply (Hd _ (or_introl eq_refl)); apply (Over 10); left; reflexivity|]).
      destruct Hc as [<-|[]]. reflexivity.
  - apply ba_end.
    + apply First; [left; reflexivity|].
      intros c Hc. cbn in Hc. repeat (destruct Hc as [<-|Hc]; [reflexivity|]). destruct Hc.
    + intros c Hc. exists (ml 1 [10; 50]). split; [left; reflexivity|]. cbn in Hc.
      repeat (destruct Hc as [<-|Hc]; [apply (Over 10); left; reflexivity|]). destruct Hc.
Qed.
Print Assumptions c29_pruning_refuted.

(** What holds for every k >= 1, in a queue that still accepts candidates: the best candidate is
    never lost, and nothing is lost while at most (k+1)^2 were inserted.  Missing: the rest of
    the answer once the queue overflows. *)
Theorem c29_pruning_partial :
  forall (k ez : nat) (ops : list tk_op) (queue : topk) (returned : list motiflet),
    1 <= k ->
    (forall m, In m (inserted ops) -> is_nan (ml_extent m) = false) ->
    tk_run (tk_new k ez) ops = Ret (queue, returned) ->
    tk_is_complete queue = false ->
    (forall m, In m (inserted ops) ->
       exists first rest, tk_top queue = first :: rest /\ In first (inserted ops) /\
         fle (ml_extent first) (ml_extent m) = true) /\
    (length (inserted ops) <= (k + 1) * (k + 1) ->
     forall m, In m (inserted ops) -> exists x, In x (tk_top queue) /\ feq (ml_extent x) (ml_extent m) = true).
Proof.
  intros k ez ops q out Hk N E H. split.
  - intros m Hm.
    assert (B := run_best ops (tk_new k ez) q out [] Hk (wf_new k ez) N ltac:(cbn; lia) ltac:(intros ? []) E H m).
    rewrite app_nil_r in B. destruct (B Hm) as (x & t & Ex & Hx). exists x, t. split; [exact Ex|]. split; [|exact Hx].
    destruct (run_ok ops (tk_new k ez) (wf_new k ez) N) as (s & o & E' & _ & _ & _ & C). rewrite E in E'.
    apply Ret_inj in E'. injection E' as <- <-. destruct (C x) as [Hi|[]]; [rewrite Ex; left; reflexivity|exact Hi].
  - intros L m Hm. refine (run_all ops (tk_new k ez) q out (wf_new k ez) N _ _ E H m (or_introl Hm)); cbn; lia.
Qed.
Print Assumptions c29_pruning_partial.
Example c29_example :
  match tk_run (tk_new 2 5) full_ops with
  | Ret (q, out) => tk_is_complete q = false /\ length (tk_top q) = 9 /\ hd_error (tk_top q) = Some (ml 1 [10; 50])
  | _ => False
  end.
Proof. vm_compute. repeat split; reflexivity. Qed.

(** * C30: the next distance to confirm *)
(** The only candidate is first rejected, then returned; its distance is still reported. *)
Theorem c30_next_distance_refuted :
  exists (k ez : nat) (ops : list tk_op) (queue : topk) (m : motiflet),
    tk_run (tk_new k ez) ops = Ret (queue, [m]) /\
    length (tk_emitted queue) < k /\
    tk_sned queue = Some (ml_extent m) /\
    (forall c, In c (tk_top queue) -> conflicting ez c m).
Proof.
  exists 2, 5, [OpInsert (ml 1 [0; 50]); OpEmit (fun _ => false); OpEmit (fun _ => true)].
  eexists. exists (ml 1 [0; 50]). split; [reflexivity|]. split; [cbn; lia|]. split; [reflexivity|].
  intros c [<-|[]]. exists 0, 0. repeat split; try (left; reflexivity); lia.
Qed.
Print Assumptions c30_next_distance_refuted.

(** Right after an emission that starts with no pending distance (as after every insertion that
    was stored), when candidates with the same extent overlap.  Missing: an emission that starts with a stale distance. *)
Theorem c30_next_distance_partial :
  forall (k ez : nat) (ops : list tk_op) (q0 queue : topk) (returned out : list motiflet) (predicate : f64 -> bool),
    0 < ez ->
    (forall m, In m (inserted ops) -> is_nan (ml_extent m) = false /\ ml_indices m <> []) ->
    (forall x y, In x (inserted ops) -> In y (inserted ops) ->
       feq (ml_extent x) (ml_extent y) = true -> sets_conflict ez (ml_indices x) (ml_indices y)) ->
    tk_run (tk_new k ez) ops = Ret (q0, returned) ->
    tk_sned q0 = None ->
    tk_emit q0 predicate = Ret (queue, out) ->
    length (returned ++ out) < k ->
    match tk_sned queue with
    | Some d =>
        exists c, In c (tk_top queue) /\ d = ml_extent c /\ predicate d = false /\
          (forall r, In r (returned ++ out) -> ~ sets_conflict ez (ml_indices c) (ml_indices r)) /\
          (forall c', In c' (tk_top queue) ->
             (forall r, In r (returned ++ out) -> ~ sets_conflict ez (ml_indices c') (ml_indices r)) ->
             fle d (ml_extent c') = true)
    | None => forall c, In c (tk_top queue) -> exists r, In r (returned ++ out) /\ sets_conflict ez (ml_indices c) (ml_indices r)
    end.
Proof.
  intros k ez ops q0 q ret out p Hez Hm Htie E Hs Em L.
  assert (Hn : numbers (inserted ops)) by (intros m H; apply Hm, H).
  assert (Hne : forall m, In m (inserted ops) -> ml_indices m <> []) by (intros m H; apply Hm, H).
  pose proof (good_run k ez (fun m => In m (inserted ops)) Hez Hne Hn Htie ops (fun x H => H) (tk_new k ez) [] q0 ret (good_new k ez _ Hez) E) as G.
  destruct G as (W & Hk & Hz & Ht & He & P & Le & Pw). cbn [app] in P.
  pose proof W as (N1 & S1 & _ & Se & _).
  unfold tk_emit in Em. destruct (emit_loop _ _ _ _ _ _ _) as [[[em' out'] sn']| |] eqn:El; cbn [bind] in Em; try discriminate.
  apply Ret_inj in Em. injection Em as <- <-. rewrite Hk, Hz, Hs in El. cbn [tk_sned tk_top].
  destruct (emit_loop_clean k ez (fun m => In m (inserted ops)) Hez Hne Hn Htie p (tk_top q0) Ht _ _ _ _ _ _ He Se Pw Le El)
    as (new & Eo & Pe & _ & _ & _ & _ & F & G).
  cbn [app] in Eo. subst out'.
  assert (Pem : Permutation (ret ++ new) em') by (rewrite P, Pe; reflexivity).
  assert (Lem : length em' < k) by (rewrite <- (Permutation_length Pem); exact L).
  assert (Iem : forall r, In r (ret ++ new) <-> In r em').
  { intros r. split; intros H; [apply (Permutation_in _ Pem), H|apply (Permutation_in _ (Permutation_sym Pem)), H]. }
  specialize (F Lem). destruct G as [G|(u & a & b & Eu & Es & Pu & Cu & Au)].
  - subst sn'. intros c Hc. destruct (F c Hc) as [(r & Hr & C)|(u & _ & Q & _)]; [|discriminate].
    exists r. split; [apply Iem, Hr|exact C].
  - subst sn'. exists u. split; [rewrite Eu; apply in_or_app; right; left; reflexivity|]. split; [reflexivity|]. split; [exact Pu|].
    split; [intros r Hr; apply Cu, Iem, Hr|].
    intros c' Hc' D. rewrite Eu in Hc', S1. apply in_app_or in Hc'. destruct Hc' as [Hc'|[<-|Hc']].
    + exfalso. destruct (Au c' Hc') as (r & Hr & C). exact (D r (proj2 (Iem r) Hr) C).
    + apply fle_refl, N1. rewrite Eu. apply in_or_app. right. left. reflexivity.
    + assert (S2 : by_extent (u :: b)).
      { clear - S1. induction a as [|x a IH]; [exact S1|]. apply StronglySorted_inv in S1. apply IH, S1. }
      apply StronglySorted_inv in S2. destruct S2 as [_ F2]. rewrite Forall_forall in F2. apply flt_fle, F2, Hc'.
Qed.
Print Assumptions c30_next_distance_partial.
Example c30_example :
  match tk_run (tk_new 2 5) [OpInsert (ml 1 [0; 50]); OpInsert (ml 3 [10; 60])] with
  | Ret (q0, _) => tk_sned q0 = None /\
      match tk_emit q0 (fun d => flt d (S754_finite false 2 0)) with
      | Ret (q, out) => out = [ml 1 [0; 50]] /\ tk_sned q = Some (S754_finite false 3 0)
      | _ => False
      end
  | _ => False
  end.
Proof. vm_compute. repeat split; reflexivity. Qed.
