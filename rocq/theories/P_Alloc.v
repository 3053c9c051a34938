(** C57, C58: the allocation counter and the memory gauge. *)
From Verif Require Import Base Alloc AllocProofs.
Local Open Scope N_scope.

(** bytes allocated from, and freed to, the system in a history *)
Definition bytes_allocated (events : list event) : N := sum (map (fun e => match e with SystemAlloc _ size => size | _ => 0 end) events).
Definition bytes_freed (events : list event) : N := sum (map (fun e => match e with SystemFree _ size => size | _ => 0 end) events).
Definition quiet (s : state) : Prop := Forall (eq Nothing) (threads s).

Lemma run_use events : forall s s', run s events = Some s' -> in_use s' + bytes_freed events = in_use s + bytes_allocated events.
Proof.
  unfold bytes_freed, bytes_allocated. induction events as [|e events IH]; intros s s' E; cbn [run] in E; [injection E as <-; reflexivity|]. destruct (step s e) as [s1|] eqn:E1; [|discriminate E].
  specialize (IH s1 s' E). cbn [map]. rewrite !sum_cons. enough (in_use s1 + match e with SystemFree _ size => size | _ => 0 end = in_use s + match e with SystemAlloc _ size => size | _ => 0 end) by lia.
  clear - E1. unfold in_use. destruct e as [t size|t|t size|t]; cbn [step] in E1.
  - destruct (nth_error (threads s) t) as [[| |]|] eqn:Et; try discriminate E1. destruct (in_use s + size <? word); [|discriminate E1].
    destruct (set_nth (threads s) t (Allocating size)) as [l|] eqn:El; [|discriminate E1]. cbn [option_map] in E1. apply some_inj in E1. subst s1. cbn [held threads]. pose proof (sum_set allocating _ _ _ _ _ Et El) as H1. cbn [allocating] in H1. lia.
  - destruct (nth_error (threads s) t) as [[|size|]|] eqn:Et; try discriminate E1.
    destruct (set_nth (threads s) t Nothing) as [l|] eqn:El; [|discriminate E1]. cbn [option_map] in E1. apply some_inj in E1. subst s1. cbn [held threads]. pose proof (sum_set allocating _ _ _ _ _ Et El) as H1. cbn [allocating] in H1. rewrite sum_cons. lia.
  - destruct (nth_error (threads s) t) as [[| |]|] eqn:Et; try discriminate E1. destruct (remove_one size (held s)) as [h|] eqn:Eh; [|discriminate E1].
    destruct (set_nth (threads s) t (Freeing size)) as [l|] eqn:El; [|discriminate E1]. cbn [option_map] in E1. apply some_inj in E1. subst s1. cbn [held threads]. pose proof (sum_set allocating _ _ _ _ _ Et El) as H1. pose proof (sum_remove _ _ _ Eh). cbn [allocating] in H1. lia.
  - destruct (nth_error (threads s) t) as [[| |size]|] eqn:Et; try discriminate E1.
    destruct (set_nth (threads s) t Nothing) as [l|] eqn:El; [|discriminate E1]. cbn [option_map] in E1. apply some_inj in E1. subst s1. cbn [held threads]. pose proof (sum_set allocating _ _ _ _ _ Et El) as H1. cbn [allocating] in H1. lia.
Qed.

(** * C57 *)
(** Whenever no thread is in the middle of an allocation or a deallocation, the counter is the
    number of bytes allocated so far less those freed so far, which is the total size of the
    blocks the program holds. *)
Theorem c57_quiet : forall n events s, run (start n) events = Some s -> quiet s ->
  bytes_allocated events = counter s + bytes_freed events /\ counter s = sum (held s).
Proof.
  intros n events s E Hq. destruct (run_inv _ _ _ E (start_inv n)) as (Hc & Hu). unfold accounted, in_use in *.
  rewrite (quiet_sum freeing) in Hc by (reflexivity || exact Hq). rewrite (quiet_sum allocating) in Hu by (reflexivity || exact Hq). rewrite N.add_0_r in *.
  rewrite N.mod_small in Hc by exact Hu. split; [|exact Hc]. pose proof (run_use _ _ _ E) as H. unfold in_use in H. rewrite (quiet_sum allocating) in H by (reflexivity || exact Hq).
  cbn [start held threads] in H. rewrite sum_nothing in H by reflexivity. cbn [sum fold_right] in H. lia.
Qed.
Print Assumptions c57_quiet.

(** At every moment it is off by what the threads are in the middle of (as long as the bytes
    held or being freed fit a machine word) *)
Theorem c57_any_moment : forall n events s, run (start n) events = Some s ->
  sum (held s) + sum (map freeing (threads s)) < 2 ^ 64 ->
  counter s + sum (map allocating (threads s)) = in_use s + sum (map freeing (threads s)).
Proof.
  intros n events s E L. change (2 ^ 64) with word in L. destruct (run_inv _ _ _ E (start_inv n)) as (Hc & _). unfold accounted, in_use in *. rewrite N.mod_small in Hc by exact L. lia.
Qed.
Print Assumptions c57_any_moment.

(** and the next subtraction does not take it below zero *)
Theorem c57_never_below_zero : forall n events s t size, run (start n) events = Some s ->
  sum (held s) + sum (map freeing (threads s)) < 2 ^ 64 ->
  nth_error (threads s) t = Some (Freeing size) ->
  exists s', step s (Uncount t) = Some s' /\ counter s' + size = counter s.
Proof.
  intros n events s t size E L Ht. change (2 ^ 64) with word in L. destruct (run_inv _ _ _ E (start_inv n)) as (Hc & _).
  destruct (set_nth (threads s) t Nothing) as [l|] eqn:El.
  - pose proof (sum_set freeing _ _ _ _ _ Ht El) as H2. cbn [freeing] in H2. unfold accounted in Hc. eexists. cbn [step]. rewrite Ht, El. cbn [option_map]. split; [reflexivity|]. cbn [counter].
    rewrite Hc, uncount_mod, !N.mod_small by lia. lia.
  - exfalso. clear L. revert t Ht El. induction (threads s) as [|d l IH]; intros [|t] Ht El; try discriminate Ht; try discriminate El. cbn [nth_error set_nth] in *. destruct (set_nth l t Nothing) eqn:E2; [discriminate El|]. exact (IH t Ht E2).
Qed.
Print Assumptions c57_never_below_zero.

(** Two threads; one frees the block the other allocated *)
Definition handover : list event := [SystemAlloc 0 100; SystemAlloc 1 50; Count 1; Count 0; SystemFree 1 100; Uncount 1].
Example c57_nonvacuous : run (start 2) handover = Some (State 50 [50] [Nothing; Nothing]) /\ quiet (State 50 [50] [Nothing; Nothing]).
Proof. split; [vm_compute; reflexivity|repeat constructor]. Qed.
Example c57_never_below_zero_nonvacuous : exists s, run (start 2) (firstn 5 handover) = Some s /\ nth_error (threads s) 1 = Some (Freeing 100) /\
  sum (held s) + sum (map freeing (threads s)) < 2 ^ 64 /\ counter s = 150 /\ in_use s = 50.
Proof. eexists. split; [vm_compute; reflexivity|]. vm_compute. repeat split. Qed.

(** * C58 *)
(** Freeing memory that was allocated before the gauge makes it abort, or report nonsense *)
Theorem c58_measure_refuted : exists n before after s s', run (start n) before = Some s /\ run s after = Some s' /\ quiet s /\ quiet s' /\
  measure true (counter s) (counter s') = Panic /\ measure false (counter s) (counter s') = Ret (2 ^ 64 - 10).
Proof.
  exists 1%nat, [SystemAlloc 0 10; Count 0], [SystemFree 0 10; Uncount 0], (State 10 [10] [Nothing]), (State 0 [] [Nothing]).
  split; [vm_compute; reflexivity|]. split; [vm_compute; reflexivity|]. split; [repeat constructor|]. split; [repeat constructor|]. split; vm_compute; reflexivity.
Qed.
Print Assumptions c58_measure_refuted.

(** If at least as much was allocated as was freed since, it reports the difference, in both builds *)
Theorem c58_measure_partial : forall checks n before after s s', run (start n) before = Some s -> run s after = Some s' -> quiet s -> quiet s' ->
  bytes_freed after <= bytes_allocated after ->
  measure checks (counter s) (counter s') = Ret (bytes_allocated after - bytes_freed after).
Proof.
  intros checks n before after s s' E E' Hq Hq' L. destruct (c57_quiet _ _ _ E Hq) as (_ & Hc). pose proof (run_inv _ _ _ E (start_inv n)) as I. pose proof (run_inv _ _ _ E' I) as (Hc' & Hu').
  pose proof (run_use _ _ _ E') as H. unfold accounted, in_use in *. rewrite (quiet_sum freeing) in Hc' by (reflexivity || exact Hq').
  rewrite !(quiet_sum allocating) in H by (reflexivity || assumption). rewrite (quiet_sum allocating) in Hu' by (reflexivity || assumption). rewrite ?N.add_0_r in *. rewrite N.mod_small in Hc' by exact Hu'.
  unfold measure. destruct (N.ltb_spec (counter s') (counter s)); [lia|]. rewrite andb_false_r. f_equal.
  replace (counter s' + (word - counter s)) with ((bytes_allocated after - bytes_freed after) + 1 * word) by lia. rewrite N.mod_add by discriminate. apply N.mod_small. lia.
Qed.
Print Assumptions c58_measure_partial.
Example c58_nonvacuous : exists s s', run (start 2) [SystemAlloc 0 10; Count 0] = Some s /\ run s [SystemAlloc 1 70; SystemFree 0 10; Count 1; Uncount 0] = Some s' /\ quiet s /\ quiet s' /\
  measure true (counter s) (counter s') = Ret 60.
Proof. eexists. eexists. split; [vm_compute; reflexivity|]. split; [vm_compute; reflexivity|]. split; [repeat constructor|]. split; [repeat constructor|]. vm_compute. reflexivity. Qed.

(** Otherwise it aborts in a debug build, and reports the difference modulo 2^64 in a release build *)
Theorem c58_measure_below : forall n before after s s', run (start n) before = Some s -> run s after = Some s' -> quiet s -> quiet s' ->
  bytes_allocated after < bytes_freed after ->
  measure true (counter s) (counter s') = Panic /\
  measure false (counter s) (counter s') = Ret (2 ^ 64 - (bytes_freed after - bytes_allocated after)).
Proof.
  intros n before after s s' E E' Hq Hq' L. destruct (c57_quiet _ _ _ E Hq) as (_ & Hc). pose proof (run_inv _ _ _ E (start_inv n)) as I. pose proof (run_inv _ _ _ E' I) as (Hc' & Hu').
  pose proof (proj2 I) as Hu. pose proof (run_use _ _ _ E') as H. unfold accounted, in_use in *. rewrite (quiet_sum freeing) in Hc' by (reflexivity || exact Hq').
  rewrite !(quiet_sum allocating) in H by (reflexivity || assumption). rewrite (quiet_sum allocating) in Hu' by (reflexivity || assumption).
  rewrite (quiet_sum allocating) in Hu by (reflexivity || assumption). rewrite ?N.add_0_r in *. rewrite N.mod_small in Hc' by exact Hu'.
  change (2 ^ 64) with word. unfold measure. destruct (N.ltb_spec (counter s') (counter s)) as [L'|]; [|lia]. cbn [andb]. split; [reflexivity|]. f_equal.
  rewrite N.mod_small by lia. lia.
Qed.
Print Assumptions c58_measure_below.
Example c58_below_case : exists s s', run (start 2) [SystemAlloc 0 70; Count 0] = Some s /\ run s [SystemAlloc 1 20; SystemFree 0 70; Count 1; Uncount 0] = Some s' /\ quiet s /\ quiet s' /\
  measure true (counter s) (counter s') = Panic /\ measure false (counter s) (counter s') = Ret 18446744073709551566.
Proof. eexists. eexists. split; [vm_compute; reflexivity|]. split; [vm_compute; reflexivity|]. split; [repeat constructor|]. split; [repeat constructor|]. split; vm_compute; reflexivity. Qed.
