(** Property C61, first half: values of the windows of a motiflet seen from Python. *)
From Coq Require Import Reals Lra.
From Verif Require Import Base RSpec Series SeriesProofs PythonReal P_Series.
Local Open Scope R_scope.

Lemma nth_error_skip {A} (l : list A) : forall a k, nth_error (skipn a l) k = nth_error l (a + k).
Proof. induction l as [|x l IH]; intros [|a] k; cbn; auto. destruct k; reflexivity. Qed.

(** C61. For every position of a motiflet (all of them windows of the series) the values are
    the [w] consecutive values of the series from there, and the z-normalised values are
    [w] values: those shifted by their mean and divided by their standard deviation.  Asking
    for the values of a position the motiflet does not have aborts. *)
Theorem c61_values :
  forall (ts : list R) (w : nat) (precise : bool) (s : series) (indices : list nat) (i : nat),
  (1 <= w)%nat ->
  series_new ts w precise = Ret s ->
  Forall (fun p => (p < num_subsequences s)%nat) indices ->
  (forall p, nth_error indices i = Some p ->
     exists v z, values s indices i = Ret v /\ zvalues s indices i = Ret z /\
       length v = w /\ length z = w /\ (p + w <= length ts)%nat /\
       (forall k, (k < w)%nat -> nth_error v k = nth_error ts (p + k)) /\
       (forall k x, nth_error v k = Some x -> nth_error z k = Some ((x - mean_of v) / sd_of v))) /\
  (nth_error indices i = None -> values s indices i = Panic /\ zvalues s indices i = Panic).
Proof.
  intros ts w precise s indices i Lw E F. pose proof (series_new_made _ _ _ _ Lw E) as M. split.
  - intros p G. assert (Lp : (p < num_subsequences s)%nat) by (rewrite Forall_forall in F; apply F; apply nth_error_In with i; exact G).
    exists (window ts w p), (znorm (window ts w p)). unfold values, zvalues. rewrite (get_some _ _ _ G). cbn [bind].
    rewrite (made_sub _ _ _ M), (made_znorm _ _ _ M), (made_len _ _ _ M) by exact Lp.
    pose proof (made_num _ _ _ M) as En. repeat split.
    + unfold znorm. rewrite map_length. apply (made_len _ _ _ M); exact Lp.
    + lia.
    + intros k Lk. unfold window. rewrite nth_error_firstn by exact Lk. rewrite nth_error_skip. reflexivity.
    + intros k x H. unfold znorm. rewrite nth_error_map, H. reflexivity.
  - intros G. unfold values, zvalues, get. rewrite G. split; reflexivity.
Qed.
Print Assumptions c61_values.

Example c61_case : exists s, series_new wave 2 false = Ret s /\ Forall (fun p => (p < num_subsequences s)%nat) [0; 1]%nat /\
  values s [0; 1]%nat 1 = Ret [1; 3].
Proof.
  destruct (wave_made false) as (s & E & N & _). exists s. split; [exact E|]. rewrite N. split; [repeat constructor|].
  pose proof (series_new_made wave 2 false s ltac:(lia) E) as M. unfold values. cbn [get nth_error bind].
  rewrite (made_sub _ _ _ M) by lia. reflexivity.
Qed.
