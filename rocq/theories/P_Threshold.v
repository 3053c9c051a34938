(** C85: the extent used to cut off the search. *)
From Verif Require Import Base F64 Overlaps OverlapsSpec OverlapsProofs TopK TopKSpec TopKProofs.

Lemma best_answer_more ez l k ans : best_answer ez l k ans -> forall k', k <= k' -> (forall c, In c l -> exists r, In r ans /\ conflicting ez c r) ->
  best_answer ez l k' ans.
Proof.
  intros B k' Lk H. induction Lk as [|k' Lk IH]; [exact B|]. constructor; assumption.
Qed.

Lemma kth_loop_best k ez l : 0 < ez -> by_extent l -> numbers l -> (forall m, In m l -> ml_indices m <> []) ->
  forall t pre acc, l = pre ++ t -> length acc < k -> best_answer ez l (length acc) acc ->
    (forall c, In c pre -> exists r, In r acc /\ conflicting ez c r) ->
    match kth_loop k ez t acc with
    | Some d => exists ans m, best_answer ez l k (ans ++ [m]) /\ length (ans ++ [m]) = k /\ d = ml_extent m
    | None => exists ans, best_answer ez l k ans /\ length ans < k
    end.
Proof.
  intros Hez Hs Hn Hne. induction t as [|m t IH]; intros pre acc El La Ba Hp; cbn [kth_loop].
  - exists acc. rewrite app_nil_r in El. subst pre. split; [|exact La]. apply (best_answer_more _ _ _ _ Ba); [lia|exact Hp].
  - destruct (ml_overlaps_iter m acc ez) eqn:O.
    + destruct (length acc =? k) eqn:Ek; [apply Nat.eqb_eq in Ek; lia|].
      apply (IH (pre ++ [m])); auto; [rewrite El, <- app_assoc; reflexivity|].
      intros c Hc. apply in_app_or in Hc. destruct Hc as [Hc|[<-|[]]]; [auto|]. apply ml_overlaps_iter_true, O.
    + pose proof (proj1 (ml_overlaps_iter_false _ _ _) O) as O'.
      assert (Hm : In m l) by (rewrite El; apply in_or_app; right; left; reflexivity).
      assert (Ba' : best_answer ez l (length (acc ++ [m])) (acc ++ [m])).
      { rewrite app_length. cbn [length]. rewrite Nat.add_1_r. apply ba_more; auto.
        intros c Hc Nc. rewrite El in Hc. apply in_app_or in Hc. destruct Hc as [Hc|Hc].
        { destruct (Hp c Hc) as (r & Hr & C). destruct (Nc r Hr C). }
        destruct Hc as [<-|Hc]; [apply fle_refl, Hn, Hm|].
        apply flt_fle. rewrite El in Hs. clear - Hs Hc. induction pre as [|x pre IHp]; cbn in Hs; inversion Hs; subst; [|auto].
        rewrite Forall_forall in H2. auto. }
      destruct (length (acc ++ [m]) =? k) eqn:Ek.
      * apply Nat.eqb_eq in Ek. rewrite map_app. cbn [map]. rewrite last_last. cbn [option_map]. exists acc, m. rewrite <- Ek at 1. auto.
      * apply Nat.eqb_neq in Ek. apply (IH (pre ++ [m])); auto; [rewrite El, <- app_assoc; reflexivity|rewrite app_length in *; cbn in *; lia|].
        intros c Hc. apply in_app_or in Hc. destruct Hc as [Hc|[<-|[]]].
        { destruct (Hp c Hc) as (r & Hr & C). exists r. split; [apply in_or_app; auto|exact C]. }
        exists m. split; [apply in_or_app; right; left; reflexivity|].
        destruct (ml_indices m) as [|i q] eqn:Ei; [destruct (Hne m Hm Ei)|].
        exists i, i. rewrite Ei. repeat split; try (left; reflexivity); lia.
Qed.

(** * C85: the extent reported for cutting off the search *)
(** It is the extent of the last of the [k] best pairwise non-overlapping candidates held,
    and there is none if there are fewer than [k]. *)
Theorem c85_kth_extent :
  forall (k ez : nat) (ops : list tk_op) (queue : topk) (returned : list motiflet),
    0 < ez -> 1 <= k ->
    (forall m, In m (inserted ops) -> is_nan (ml_extent m) = false /\ ml_indices m <> []) ->
    tk_run (tk_new k ez) ops = Ret (queue, returned) ->
    match tk_kth_distance queue with
    | Some d => exists ans m, best_answer ez (tk_top queue) k (ans ++ [m]) /\ length (ans ++ [m]) = k /\ d = ml_extent m
    | None => exists ans, best_answer ez (tk_top queue) k ans /\ length ans < k
    end.
Proof.
  intros k ez ops q out Hez Hk Hm E.
  destruct (run_ok ops (tk_new k ez) (wf_new k ez) (fun m H => proj1 (Hm m H))) as (s & o & E' & W & A & B & C).
  rewrite E in E'. apply Ret_inj in E'. injection E' as <- <-. destruct W as (N & S & _).
  unfold tk_kth_distance. rewrite A, B. cbn [tk_new tk_k tk_ez].
  apply (kth_loop_best k ez (tk_top q) Hez S N) with (pre := []); auto; [|constructor|intros c []].
  intros m H. destruct (C m H) as [H'|[]]. apply Hm, H'.
Qed.
Print Assumptions c85_kth_extent.

(** two candidates, the second overlapping the first: no second extent until a third comes *)
Definition at_ (e : positive) (l : list nat) : motiflet := Motiflet l (SpecFloat.S754_finite false e 0).
Example c85_case :
  let ops := [OpInsert (at_ 1 [0; 50]); OpInsert (at_ 2 [1; 70]); OpInsert (at_ 3 [20; 90])] in
  (forall m, In m (inserted ops) -> is_nan (ml_extent m) = false /\ ml_indices m <> []) /\
  (exists queue, tk_run (tk_new 2 5) (firstn 2 ops) = Ret (queue, []) /\ length (tk_top queue) = 2 /\ tk_kth_distance queue = None) /\
  (exists queue, tk_run (tk_new 2 5) ops = Ret (queue, []) /\ tk_kth_distance queue = Some (SpecFloat.S754_finite false 3 0)).
Proof.
  split; [|split; eexists; (split; [vm_compute; reflexivity|]); [split; reflexivity|reflexivity]].
  intros m Hm. cbn in Hm. destruct Hm as [<-|[<-|[<-|[]]]]; (split; [reflexivity|discriminate]).
Qed.
