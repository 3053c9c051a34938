(** C66, C69: spilled repetitions and the observation log. *)
From Verif Require Import Base Files FilesSpec FilesProofs.

(** * C66 *)
(** The directory of a spilled repetition is left behind *)
Theorem c66_nothing_left_refuted : exists fs places fs1 reps fs2,
  add_repetitions fs [] places = Ret (fs1, reps) /\ drop_index fs1 reps = Ret fs2 /\ exists e, In e fs2 /\ ~ In e fs.
Proof.
  exists [], [None; Some 7%N]. eexists. eexists. eexists. split; [vm_compute; reflexivity|]. split; [vm_compute; reflexivity|]. exists (Directory 7). split; [left; reflexivity|intros []].
Qed.
Print Assumptions c66_nothing_left_refuted.

(** Dropping the index never aborts, removes every file it created and touches nothing else:
    exactly the directories remain, each of them empty. *)
Theorem c66_only_directories_partial : forall fs places fs1 reps, add_repetitions fs [] places = Ret (fs1, reps) ->
  exists fs2, drop_index fs1 reps = Ret fs2 /\
    Permutation fs2 (map Directory (flat_map (fun place => match place with Some name => [name] | None => [] end) places) ++ fs).
Proof.
  intros fs places fs1 reps E. destruct (add_inv _ _ _ _ _ E) as (-> & P). destruct (drop_ok places fs1 fs P) as (fs2 & E2 & P2). exists fs2. split; [exact E2|].
  rewrite P2. apply Permutation_app_tail. clear. induction places as [|[n|] l IH]; cbn [flat_map left_over map app]; [constructor|constructor; exact IH|exact IH].
Qed.
Print Assumptions c66_only_directories_partial.

(** Creating repetitions succeeds when the names drawn are new and distinct *)
Theorem c66_created : forall fs places,
  (forall name, In (Some name) places -> ~ In (Directory name) fs) ->
  NoDup (flat_map (fun place => match place with Some name => [name] | None => [] end) places) ->
  exists fs1 reps, add_repetitions fs [] places = Ret (fs1, reps) /\ length reps = length places.
Proof.
  intros fs places H Hn. enough (G : forall reps, exists fs1 reps1, add_repetitions fs reps places = Ret (fs1, reps1) /\ length reps1 = length reps + length places) by apply (G []).
  revert fs H Hn. induction places as [|pl places IH]; intros fs H Hn reps; unfold add_repetitions; cbn [foreach].
  - exists fs, reps. split; [reflexivity|cbn; lia].
  - destruct pl as [n|].
    + unfold from_pairs_to_disk at 1. rewrite (proj2 (existsb_dir n fs)) by (apply H; left; reflexivity). cbn [bind flat_map app] in *. inversion Hn as [|? ? Hi Hn']; subst.
      destruct (IH (IndicesFile n :: HashesFile n :: Directory n :: fs)) with (reps := reps ++ [OnDisk n]) as (fs1 & reps1 & E & L).
      * intros m I [X|[X|[X|X]]]; [discriminate X|discriminate X| |exact (H m (or_intror I) X)]. injection X as <-. apply Hi. apply in_flat_map. exists (Some n). split; [exact I|left; reflexivity].
      * exact Hn'.
      * exists fs1, reps1. split; [exact E|]. rewrite L, app_length. cbn. lia.
    + cbn [bind]. destruct (IH fs) with (reps := reps ++ [InMemory]) as (fs1 & reps1 & E & L); [intros m I; apply H; right; exact I|exact Hn|].
      exists fs1, reps1. split; [exact E|]. rewrite L, app_length. cbn. lia.
Qed.
Print Assumptions c66_created.
Example c66_nonvacuous : exists fs1 reps fs2, add_repetitions [Directory 1] [] [None; Some 7%N; Some 9%N] = Ret (fs1, reps) /\ length fs1 = 7 /\ drop_index fs1 reps = Ret fs2 /\ fs2 = [Directory 9; Directory 7; Directory 1].
Proof. eexists. eexists. eexists. split; [vm_compute; reflexivity|]. split; [vm_compute; reflexivity|]. split; vm_compute; reflexivity. Qed.

(** * C69 *)
(** Switching to a path that was used before: the old writer, whose file has just been
    truncated, hands its buffer over at its old position.  The file then has zero bytes
    between the header and what remains of the old lines. *)
Definition row (n : N) : list N := [n; 10]%N.
Definition reuse : list event :=
  [Acquire 0 (Append [row 65]); Act 0; Release 0; Acquire 0 Flush; Act 0; Release 0;
   Acquire 0 (Append [row 66]); Act 0; Release 0; Acquire 0 (Reset 0); Act 0; Act 0; Act 0; Release 0].
Theorem c69_log_refuted : exists first events s, run (start first (fun _ => None)) events = Some s /\ lock s = None /\
  content s first = Some (columns ++ [0; 0; 66; 10]%N) /\ forall pieces, In (Append pieces) (operations events) -> ~ In 0%N (concat pieces).
Proof.
  exists 0, reuse. eexists. split; [vm_compute; reflexivity|]. split; [vm_compute; reflexivity|]. split; [vm_compute; reflexivity|].
  intros pieces I. cbn in I. destruct I as [X|[X|[X|[X|[]]]]]; try discriminate X; injection X as <-; cbn; intuition discriminate.
Qed.
Print Assumptions c69_log_refuted.

(** If no path is used twice: whenever no operation is in progress, every file that was
    switched away from is complete on disk, and the current one is complete once its buffer is
    handed over.  Each has the header and then the lines observed while it was current, in the
    order in which the observing threads got the lock. *)
Theorem c69_log_partial : forall first d events s, run (start first d) events = Some s -> lock s = None ->
  NoDup (first :: resets (operations events)) ->
  path (current s) = last_file first (operations events) /\
  (forall p, In p (first :: resets (operations events)) -> content s p = Some (columns ++ observed first (operations events) p)) /\
  (forall p, In p (first :: resets (operations events)) -> p <> last_file first (operations events) -> files s p = Some (columns ++ observed first (operations events) p)).
Proof.
  change columns with header. intros first d events s E El Hn. pose proof (good_run first d events s E Hn) as G. unfold good, rest_of in G. rewrite El in G.
  destruct G as [(_ & Hf & Hc & (b & Hw & Hb) & Ho)|([(X & _)|[(X & _)|(X & _)]] & _)]; [|discriminate X..]. cbn [pending flat_map] in Hb. rewrite app_nil_r in Hb.
  split; [exact Hc|]. split; [|exact Ho]. intros p Ip. unfold content. destruct (Nat.eqb_spec p (path (current s))) as [->|Np]; [|apply Ho; [exact Ip|congruence]].
  destruct (hand_over_ok _ _ (length (buffer (current s))) _ Hw) as (d' & h' & Eh & _ & _ & _ & Hfl). rewrite Eh. cbn [fst]. rewrite Hfl by lia. rewrite Hb, Hc. reflexivity.
Qed.
Print Assumptions c69_log_partial.

(** After a flush the current file is complete on disk, too *)
Theorem c69_flush_partial : forall first d events thread s, run (start first d) (events ++ [Acquire thread Flush; Act thread; Release thread]) = Some s ->
  NoDup (first :: resets (operations events)) ->
  files s (last_file first (operations events)) = Some (columns ++ observed first (operations events) (last_file first (operations events))).
Proof.
  change columns with header. intros first d events t s E Hn. replace (events ++ [Acquire t Flush; Act t; Release t]) with (((events ++ [Acquire t Flush]) ++ [Act t]) ++ [Release t]) in E by (rewrite <- !app_assoc; reflexivity).
  destruct (run_snoc _ _ _ _ E) as (s3 & E3 & R). destruct (run_snoc _ _ _ _ E3) as (s2 & E2 & A).
  assert (Hn2 : NoDup (first :: resets (operations (events ++ [Acquire t Flush])))) by (rewrite operations_snoc, resets_app, app_nil_r; exact Hn).
  pose proof (good_run first d _ s2 E2 Hn2) as G. destruct (run_snoc _ _ _ _ E2) as (s1 & _ & Q). cbn [step] in Q. destruct (lock s1) as [|]; [discriminate Q|]. injection Q as <-.
  rewrite operations_snoc in G. unfold good, rest_of in G. cbn [lock files current fresh] in G. rewrite last_file_snoc in G.
  destruct G as [(_ & _ & Hc & (b & Hw & Hb) & _)|([(X & _)|[(X & _)|(X & _)]] & _)]; [|discriminate X..]. rewrite observed_snoc in Hb. cbn [actions pending flat_map] in Hb. rewrite !app_nil_r in Hb.
  cbn [step lock actions] in A. rewrite Nat.eqb_refl in A. cbn [act files current fresh lock] in A. destruct (hand_over_ok _ _ (length (buffer (current s1))) _ Hw) as (d' & h' & Eh & _ & _ & _ & Hfl). rewrite Eh in A. injection A as <-.
  cbn [step lock] in R. rewrite Nat.eqb_refl in R. injection R as <-. cbn [files]. rewrite <- Hc at 1. rewrite Hfl by lia. rewrite Hb. reflexivity.
Qed.
Print Assumptions c69_flush_partial.

(** Two threads observe, one of them switches files in between *)
Definition switch : list event :=
  [Acquire 1 (Append [[65]; [10]]%N); Act 1; Spill 1 3; Act 1; Release 1; Acquire 0 (Reset 5); Act 0; Act 0; Act 0; Release 0; Acquire 1 (Append [row 66]); Act 1; Release 1].
Example c69_nonvacuous : exists s, run (start 0 (fun _ => None)) switch = Some s /\ lock s = None /\ NoDup (0 :: resets (operations switch)) /\
  files s 0 = Some (columns ++ [65; 10]%N) /\ content s 5 = Some (columns ++ [66; 10]%N) /\ files s 5 = Some [].
Proof.
  eexists. split; [vm_compute; reflexivity|]. split; [vm_compute; reflexivity|]. split; [repeat constructor; cbn; intuition discriminate|]. split; [vm_compute; reflexivity|]. split; vm_compute; reflexivity.
Qed.
