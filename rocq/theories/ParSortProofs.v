From Verif Require Import Base HashValue HashSpec HashProofs RadixSort SortSpec SortProofs.

(** ** From positions to [StronglySorted] and back *)
Lemma StronglySorted_nth {A} (R : A -> A -> Prop) l :
  StronglySorted R l <->
  (forall i j x y, i < j -> nth_error l i = Some x -> nth_error l j = Some y -> R x y).
Proof.
  split.
  - induction 1 as [|a l HS IH HF]; intros i j x y Hij Hx Hy.
    + destruct i; discriminate.
    + destruct j as [|j]; [lia|]. cbn in Hy. destruct i as [|i]; cbn in Hx.
      * injection Hx as <-. rewrite Forall_forall in HF. apply HF. eapply nth_error_In; eauto.
      * apply (IH i j); auto; lia.
  - induction l as [|a l IH]; intros H; constructor.
    + apply IH. intros i j x y Hij Hx Hy. apply (H (S i) (S j)); cbn; auto; lia.
    + rewrite Forall_forall. intros y Hy. apply In_nth_error in Hy. destruct Hy as (j & Hj).
      apply (H 0 (S j)); cbn; auto; lia.
Qed.

Lemma StronglySorted_firstn {A} (R : A -> A -> Prop) n l :
  StronglySorted R l -> StronglySorted R (firstn n l).
Proof.
  intros H. revert n. induction H as [|a l HS IH HF]; intros [|n]; cbn; try constructor; auto.
  rewrite Forall_forall in *. intros y Hy. apply HF.
  rewrite <- (firstn_skipn n l). apply in_or_app. left. exact Hy.
Qed.
Lemma StronglySorted_skipn {A} (R : A -> A -> Prop) n l :
  StronglySorted R l -> StronglySorted R (skipn n l).
Proof.
  intros H. revert n. induction H as [|a l HS IH HF]; intros [|n]; cbn; try constructor; auto.
Qed.

(** ** Chunks *)
Definition chunk {A} (s k : nat) (l : list A) : list A := firstn s (skipn (k * s) l).

Lemma chunks_nil {A} s : @chunks A s [] = [].
Proof. reflexivity. Qed.
Lemma chunks_aux_fuel {A} s (l : list A) n m :
  0 < s -> length l <= n -> length l <= m -> chunks_aux n s l = chunks_aux m s l.
Proof.
  intros Hs. revert m l. induction n as [|n IH]; intros m l Hn Hm.
  - destruct l; [|cbn in Hn; lia]. destruct m; reflexivity.
  - destruct m as [|m]; [destruct l; [reflexivity|cbn in Hm; lia]|].
    cbn [chunks_aux]. destruct l as [|a l]; [reflexivity|]. f_equal.
    apply IH; rewrite skipn_length; cbn [length] in *; lia.
Qed.
Lemma chunks_cons {A} s (l : list A) :
  0 < s -> l <> [] -> chunks s l = firstn s l :: chunks s (skipn s l).
Proof.
  intros Hs Hl. unfold chunks. destruct l as [|a l]; [congruence|].
  cbn [length chunks_aux]. f_equal. apply chunks_aux_fuel; [exact Hs| |lia].
  rewrite skipn_length. cbn [length]. lia.
Qed.

Lemma list_strong_ind {A} (P : list A -> Prop) :
  (forall l, (forall l', length l' < length l -> P l') -> P l) -> forall l, P l.
Proof.
  intros H l. remember (length l) as n eqn:E. revert l E.
  induction n as [n IH] using lt_wf_ind. intros l ->. apply H. intros l' Hl'. eapply IH; eauto.
Qed.

Lemma chunks_concat {A} s (l : list A) : 0 < s -> concat (chunks s l) = l.
Proof.
  intros Hs. induction l as [l IH] using list_strong_ind.
  destruct l as [|a l]; [reflexivity|].
  rewrite chunks_cons by (auto; discriminate). cbn [concat].
  rewrite IH; [apply firstn_skipn|]. rewrite skipn_length. cbn [length]. lia.
Qed.

Lemma chunks_same_shape {A B} s (l : list A) (l' : list B) : 0 < s -> length l = length l' ->
  Forall2 (fun c c' => length c = length c') (chunks s l) (chunks s l').
Proof.
  intros Hs. revert l'. induction l as [l IH] using list_strong_ind. intros l' HL.
  destruct l as [|a l], l' as [|a' l']; try discriminate; [constructor|].
  rewrite (chunks_cons s (a :: l)), (chunks_cons s (a' :: l')) by (auto; discriminate). constructor.
  - rewrite !firstn_length. lia.
  - refine (IH (skipn s (a :: l)) _ (skipn s (a' :: l')) _); rewrite !skipn_length; [cbn [length]; lia|lia].
Qed.

Lemma Forall2_chunk {A} s (P : list A -> list A -> Prop) (l : list A) outs :
  0 < s -> P [] [] ->
  Forall2 (fun c o => length o = length c /\ P c o) (chunks s l) outs ->
  forall k, P (chunk s k l) (chunk s k (concat outs)).
Proof.
  intros Hs HP. revert outs. induction l as [l IH] using list_strong_ind. intros outs HF k.
  destruct l as [|a l].
  - inversion HF; subst. unfold chunk. rewrite !skipn_nil, !firstn_nil. exact HP.
  - rewrite chunks_cons in HF by (auto; discriminate).
    inversion HF as [|c o cs os [HL Hco] HF' E1 E2]; subst. cbn [concat].
    set (L := a :: l) in *.
    destruct (Nat.le_gt_cases (length L) s) as [Hle|Hgt].
    + assert (Hsk : skipn s L = []) by (apply skipn_all2; exact Hle).
      rewrite Hsk in HF'. inversion HF'; subst. cbn [concat]. rewrite app_nil_r.
      rewrite (firstn_all2 L Hle) in HL, Hco.
      unfold chunk. destruct k as [|k].
      * cbn [Nat.mul skipn]. rewrite !firstn_all2 by lia. exact Hco.
      * rewrite !skipn_all2 by (cbn [Nat.mul]; lia). rewrite !firstn_nil. exact HP.
    + assert (Ho : length o = s) by (rewrite HL, firstn_length; lia).
      destruct k as [|k].
      * unfold chunk. cbn [Nat.mul skipn]. rewrite firstn_app, Ho, Nat.sub_diag, firstn_O, app_nil_r.
        rewrite (firstn_all2 o) by lia. exact Hco.
      * specialize (IH (skipn s L)).
        assert (length (skipn s L) < length L) as Hlt by (rewrite skipn_length; lia).
        specialize (IH Hlt os HF' k). unfold chunk in *.
        replace (S k * s) with (s + k * s) by lia.
        rewrite skipn_app, Ho.
        replace (s + k * s - s) with (k * s) by lia.
        rewrite (skipn_all2 o) by lia. cbn [app].
        rewrite skipn_skipn in IH. replace (k * s + s) with (s + k * s) in IH by lia. exact IH.
Qed.

Lemma chunk_all {A} s (l : list A) : length l <= s -> chunk s 0 l = l.
Proof. intros H. unfold chunk. cbn. apply firstn_all2, H. Qed.

Lemma firstn_skipn_swap {A} n m (l : list A) : skipn n (firstn (n + m) l) = firstn m (skipn n l).
Proof.
  revert l. induction n as [|n IH]; intros l; cbn; [reflexivity|].
  destruct l; [rewrite firstn_nil; reflexivity|]. apply IH.
Qed.

(** ** Merging *)
Lemma merge_perm l1 l2 : Permutation (merge l1 l2) (l1 ++ l2).
Proof.
  revert l2. induction l1 as [|a l1 IH1]; intros l2; [apply Permutation_refl|].
  induction l2 as [|b l2 IH2].
  - cbn. rewrite app_nil_r. apply Permutation_refl.
  - cbn. destruct (pair_lt a b).
    + constructor. apply IH1.
    + change ((fix merge_in2 (in2 : list hpair) : list hpair :=
             match in2 with
             | [] => a :: l1
             | b0 :: t2 => if pair_lt a b0 then a :: merge l1 in2 else b0 :: merge_in2 t2
             end) l2) with (merge (a :: l1) l2).
      eapply Permutation_trans; [constructor; exact IH2|].
      apply (Permutation_middle (a :: l1) l2 b).
Qed.
Lemma merge_cons a l1 b l2 :
  merge (a :: l1) (b :: l2) = if pair_lt a b then a :: merge l1 (b :: l2) else b :: merge (a :: l1) l2.
Proof. reflexivity. Qed.

Lemma merge_sorted (R : hpair -> hpair -> Prop) :
  (forall x y z, R x y -> R y z -> R x z) ->
  (forall a b, pair_lt a b = true -> R a b) ->
  (forall a b, pair_lt a b = false -> R b a) ->
  forall l1 l2, StronglySorted R l1 -> StronglySorted R l2 -> StronglySorted R (merge l1 l2).
Proof.
  intros HT Hlt Hge. induction l1 as [|a l1 IH1]; intros l2 H1 H2; [exact H2|].
  induction l2 as [|b l2 IH2]; [exact H1|].
  rewrite merge_cons. inversion H1 as [|? ? HS1 HF1]; subst. inversion H2 as [|? ? HS2 HF2]; subst.
  rewrite Forall_forall in HF1, HF2.
  destruct (pair_lt a b) eqn:E; constructor.
  - apply IH1; assumption.
  - rewrite Forall_forall. intros y Hy.
    apply (Permutation_in _ (merge_perm _ _)), in_app_or in Hy. destruct Hy as [Hy|Hy].
    + apply HF1, Hy.
    + destruct Hy as [<-|Hy]; [apply Hlt, E|]. eapply HT; [apply Hlt, E|apply HF2, Hy].
  - apply IH2; assumption.
  - rewrite Forall_forall. intros y Hy.
    apply (Permutation_in _ (merge_perm _ _)), in_app_or in Hy. destruct Hy as [Hy|Hy].
    + destruct Hy as [<-|Hy]; [apply Hge, E|]. eapply HT; [apply Hge, E|apply HF1, Hy].
    + apply HF2, Hy.
Qed.

Lemma merge_length l1 l2 : length (merge l1 l2) = length l1 + length l2.
Proof. rewrite (Permutation_length (merge_perm l1 l2)). apply app_length. Qed.

Definition csorted (R : hpair -> hpair -> Prop) (s : nat) (l : list hpair) : Prop :=
  forall k, StronglySorted R (chunk s k l).

Lemma merge_chunk_length s c : length (merge_chunk s c) = length c.
Proof.
  unfold merge_chunk. destruct (length c <? s); [reflexivity|].
  rewrite merge_length, firstn_length, skipn_length. lia.
Qed.
Lemma merge_chunk_perm s c : Permutation (merge_chunk s c) c.
Proof.
  unfold merge_chunk. destruct (length c <? s); [apply Permutation_refl|].
  eapply Permutation_trans; [apply merge_perm|]. rewrite firstn_skipn. apply Permutation_refl.
Qed.

Lemma Forall2_map_r {A B} (P : A -> B -> Prop) (f : A -> B) l :
  (forall a, In a l -> P a (f a)) -> Forall2 P l (map f l).
Proof.
  induction l as [|a l IH]; intros H; cbn; constructor; [apply H; left; reflexivity|].
  apply IH. intros; apply H; right; assumption.
Qed.

Lemma merge_chunks_ok (R : hpair -> hpair -> Prop) s l :
  (forall x y z, R x y -> R y z -> R x z) ->
  (forall a b, pair_lt a b = true -> R a b) ->
  (forall a b, pair_lt a b = false -> R b a) ->
  0 < s -> csorted R s l ->
  exists l', merge_chunks l s = Ret l' /\ Permutation l' l /\ csorted R (2 * s) l'.
Proof.
  intros HT Hlt Hge Hs HC. unfold merge_chunks. destruct (Nat.eqb_spec s 0); [lia|].
  eexists. split; [reflexivity|]. split.
  - rewrite <- (chunks_concat (2 * s) l) at 2 by lia.
    generalize (chunks (2 * s) l). intros cl. induction cl as [|c cl IH]; cbn; [constructor|].
    apply Permutation_app; [apply merge_chunk_perm|exact IH].
  - intros k.
    pose proof (Forall2_chunk (2 * s) (fun c o => o = merge_chunk s c) l
      (map (merge_chunk s) (chunks (2 * s) l)) ltac:(lia)) as HK.
    cbn beta in HK. rewrite HK.
    + unfold merge_chunk. destruct (Nat.ltb_spec (length (chunk (2 * s) k l)) s) as [L|L].
      * specialize (HC (2 * k)). unfold chunk in *.
        replace (k * (2 * s)) with (2 * k * s) in * by lia.
        rewrite firstn_all2 in HC.
        -- rewrite firstn_all2; [exact HC|]. rewrite firstn_length in L. lia.
        -- rewrite firstn_length in L. lia.
      * apply merge_sorted; auto.
        -- specialize (HC (2 * k)). unfold chunk in *.
           replace (k * (2 * s)) with (2 * k * s) by lia.
           rewrite firstn_firstn. replace (Nat.min s (2 * s)) with s by lia. exact HC.
        -- specialize (HC (2 * k + 1)). unfold chunk in *.
           replace (2 * s) with (s + s) by lia. rewrite firstn_skipn_swap, skipn_skipn.
           replace (s + k * (s + s)) with ((2 * k + 1) * s) by lia. exact HC.
    + unfold merge_chunk. rewrite firstn_nil, skipn_nil. destruct (length (@nil hpair) <? s); reflexivity.
    + apply Forall2_map_r. intros c _. split; [apply merge_chunk_length|reflexivity].
Qed.

(** ** Sorting the chunks *)
Definition good_sort (c o : list hpair) : Prop :=
  Permutation o c /\
  StronglySorted (fun x y => (fst x <= fst y)%N) o /\
  forall h, filter (fun e => N.eqb (fst e) h) o = filter (fun e => N.eqb (fst e) h) c.

Lemma sort_chunks_ok data scratch s :
  0 < s -> length scratch = length data -> (forall e, In e data -> is_u64 (fst e)) ->
  exists outs, sort_chunks data scratch s = Ret (concat outs) /\
    Forall2 (fun c o => length o = length c /\ good_sort c o) (chunks s data) outs.
Proof.
  intros Hs HL HU. unfold sort_chunks. destruct (Nat.eqb_spec s 0); [lia|].
  assert (HC : Forall2 (fun c c' => length c = length c') (chunks s data) (chunks s scratch))
    by (apply chunks_same_shape; auto).
  assert (HUc : forall c, In c (chunks s data) -> forall e, In e c -> is_u64 (fst e)).
  { intros c Hc e He. apply HU. rewrite <- (chunks_concat s data Hs). apply in_concat. eauto. }
  assert (G : forall acc, exists outs,
    foreach (combine (chunks s data) (chunks s scratch))
      (fun cs acc => let! '(c, _) := sort_hash_pairs (fst cs) (snd cs) in Ret (acc ++ c)) acc
      = Ret (acc ++ concat outs) /\
    Forall2 (fun c o => length o = length c /\ good_sort c o) (chunks s data) outs).
  { induction HC as [|c c' cl cl' Hcc HC IH]; intros acc.
    - exists []. cbn. rewrite app_nil_r. split; [reflexivity|constructor].
    - cbn [combine foreach fst snd].
      destruct (sort_hash_pairs_ok c c') as (o & sc & E & _ & HP & HS & HF).
      + auto.
      + apply HUc. left; reflexivity.
      + rewrite E. cbn [bind].
        destruct IH with (acc := acc ++ o) as (outs & E2 & F2).
        * intros; eapply HUc; [right|]; eassumption.
        * exists (o :: outs). rewrite E2. cbn [concat]. rewrite app_assoc. split; [reflexivity|].
          constructor; [|exact F2]. split; [apply Permutation_length, HP|].
          split; [exact HP|]. split; assumption. }
  destruct (G []) as (outs & E & F). exists outs. split; [exact E|exact F].
Qed.

Lemma Forall2_good_perm data s outs : 0 < s ->
  Forall2 (fun c o => length o = length c /\ good_sort c o) (chunks s data) outs ->
  Permutation (concat outs) data.
Proof.
  intros Hs HF. rewrite <- (chunks_concat s data Hs).
  induction HF as [|c o cl ol [_ [HP _]] HF IH]; cbn; [constructor|].
  apply Permutation_app; assumption.
Qed.

Definition le_hash (x y : hpair) : Prop := (fst x <= fst y)%N.
Definition le_tuple (x y : hpair) : Prop := (fst x < fst y)%N \/ (fst x = fst y /\ (snd x <= snd y)%N).

Lemma filter_classes_sorted (R : hpair -> hpair -> Prop) l :
  (forall h, StronglySorted R (filter (fun e => N.eqb (fst e) h) l)) ->
  StronglySorted (fun x y => fst x = fst y -> R x y) l.
Proof.
  induction l as [|a l IH]; intros H; constructor.
  - apply IH. intros h. specialize (H h). cbn in H. destruct (N.eqb (fst a) h); [|exact H].
    inversion H; assumption.
  - rewrite Forall_forall. intros y Hy E. specialize (H (fst a)). cbn in H.
    rewrite N.eqb_refl in H. inversion H as [|? ? _ HF]; subst.
    rewrite Forall_forall in HF. apply HF. apply filter_In. split; [exact Hy|].
    apply N.eqb_eq. congruence.
Qed.

Lemma good_sort_tuple c o :
  StronglySorted (fun x y => fst x = fst y -> (snd x <= snd y)%N) c ->
  good_sort c o -> StronglySorted le_tuple o.
Proof.
  intros HC (HP & HS & HF).
  assert (H2 : StronglySorted (fun x y => fst x = fst y -> (snd x <= snd y)%N) o).
  { apply filter_classes_sorted. intros h. rewrite HF.
    apply (StronglySorted_filter _ (fun e => N.eqb (fst e) h)) in HC.
    revert HC. apply StronglySorted_weaken. intros x y Hx Hy Hxy. apply Hxy.
    apply filter_In in Hx, Hy. destruct Hx as [_ Hx], Hy as [_ Hy].
    apply N.eqb_eq in Hx, Hy. congruence. }
  clear HC HP HF. induction o as [|a o IH]; constructor.
  - inversion HS; inversion H2; auto.
  - inversion HS as [|? ? _ F1]; inversion H2 as [|? ? _ F2]; subst.
    rewrite Forall_forall in *. intros y Hy. specialize (F1 y Hy). specialize (F2 y Hy).
    cbn in F1, F2. unfold le_tuple.
    destruct (N.lt_ge_cases (fst a) (fst y)); [left; assumption|right].
    assert (fst a = fst y) by lia. split; auto.
Qed.

Lemma par_loop_ok (R : hpair -> hpair -> Prop) s l fuel :
  (forall x y z, R x y -> R y z -> R x z) ->
  (forall a b, pair_lt a b = true -> R a b) ->
  (forall a b, pair_lt a b = false -> R b a) ->
  0 < s -> csorted R s l -> length l < fuel ->
  exists l',
    loop fuel
       (fun (st : list hpair * nat) =>
          let '(data, chunk_size) := st in
          if chunk_size <? length data then
            let! data := merge_chunks data chunk_size in
            Ret (inl (data, chunk_size * 2))
          else Ret (inr data)) (l, s) = Ret l' /\
    (Permutation l' l /\ StronglySorted R l').
Proof.
  intros HT Hlt Hge Hs HC Hf.
  apply (loop_measure _
    (fun st => 0 < snd st /\ csorted R (snd st) (fst st) /\ Permutation (fst st) l)
    (fun l' => Permutation l' l /\ StronglySorted R l')
    (fun st => length l - snd st)).
  - intros [d c] (Hc & HCc & HPc). cbn [fst snd] in *.
    destruct (Nat.ltb_spec c (length d)) as [L|L].
    + left. destruct (merge_chunks_ok R c d HT Hlt Hge Hc HCc) as (d' & E & HP & HC').
      rewrite E. cbn [bind]. eexists. split; [reflexivity|]. cbn [fst snd].
      replace (c * 2) with (2 * c) by lia. repeat split; auto; try lia.
      * eapply Permutation_trans; eauto.
      * apply Permutation_length in HPc. lia.
    + right. eexists. split; [reflexivity|]. split; [exact HPc|].
      specialize (HCc 0). rewrite chunk_all in HCc by lia. exact HCc.
  - cbn [fst snd]. repeat split; auto.
  - cbn [snd]. lia.
Qed.

Lemma le_hash_merge : (forall x y z, le_hash x y -> le_hash y z -> le_hash x z) /\
  (forall a b, pair_lt a b = true -> le_hash a b) /\ (forall a b, pair_lt a b = false -> le_hash b a).
Proof.
  unfold le_hash, pair_lt. repeat split; intros; lia.
Qed.
Lemma le_tuple_merge : (forall x y z, le_tuple x y -> le_tuple y z -> le_tuple x z) /\
  (forall a b, pair_lt a b = true -> le_tuple a b) /\ (forall a b, pair_lt a b = false -> le_tuple b a).
Proof.
  unfold le_tuple, pair_lt. repeat split; intros; lia.
Qed.

Lemma par_sort_ok threads data scratch fuel :
  0 < threads -> data <> [] -> length scratch = length data ->
  (forall e, In e data -> is_u64 (fst e)) -> length data < fuel ->
  exists out, par_sort_hash_pairs threads data scratch fuel = Ret out /\
    Permutation out data /\ StronglySorted le_hash out /\
    (StronglySorted (fun x y => fst x = fst y -> (snd x <= snd y)%N) data -> StronglySorted le_tuple out).
Proof.
  intros Ht Hne HL HU Hf. unfold par_sort_hash_pairs, assert_. rewrite HL, Nat.eqb_refl.
  set (s := (length data + threads - 1) / threads).
  assert (Hs : 0 < s).
  { unfold s. apply Nat.div_str_pos. destruct data; [congruence|cbn [length]; lia]. }
  destruct (sort_chunks_ok data scratch s Hs HL HU) as (outs & E & HF). rewrite E. cbn [bind].
  assert (HPo : Permutation (concat outs) data) by (eapply Forall2_good_perm; eauto).
  assert (HLo : length (concat outs) = length data) by (apply Permutation_length, HPo).
  assert (HG : forall k, good_sort (chunk s k data) (chunk s k (concat outs))).
  { apply Forall2_chunk; auto. split; [constructor|]. split; [constructor|reflexivity]. }
  destruct le_hash_merge as (A1 & A2 & A3). destruct le_tuple_merge as (B1 & B2 & B3).
  destruct (par_loop_ok le_hash s (concat outs) fuel A1 A2 A3 Hs) as (l' & El & HP & HS).
  - intros k. apply HG.
  - lia.
  - exists l'. split; [exact El|]. split; [eapply Permutation_trans; eauto|]. split; [exact HS|].
    intros HI.
    destruct (par_loop_ok le_tuple s (concat outs) fuel B1 B2 B3 Hs) as (l2 & El2 & _ & HS2).
    + intros k. eapply good_sort_tuple; [|apply HG].
      unfold chunk. apply StronglySorted_firstn, StronglySorted_skipn. exact HI.
    + lia.
    + rewrite El in El2. injection El2 as <-. exact HS2.
Qed.

(** ** Statements in terms of [SortSpec] *)
Lemma sort_hash_pairs_spec data scratch :
  length scratch = length data -> (forall e, In e data -> is_u64 (fst e)) ->
  exists out scratch',
    sort_hash_pairs data scratch = Ret (out, scratch') /\
    Permutation out data /\ sorted_by_hash out /\ same_hash_same_order out data.
Proof.
  intros HL HU. destruct (sort_hash_pairs_ok data scratch HL HU) as (out & sc & E & _ & HP & HS & HF).
  exists out, sc. split; [exact E|]. split; [exact HP|]. split; [|exact HF].
  unfold sorted_by_hash. apply (StronglySorted_nth (fun x y => (fst x <= fst y)%N)). exact HS.
Qed.

Lemma par_sort_spec threads data scratch :
  0 < threads -> data <> [] -> length scratch = length data ->
  (forall e, In e data -> is_u64 (fst e)) ->
  exists out, returns (par_sort_hash_pairs threads data scratch) out /\
    Permutation out data /\ sorted_by_hash out /\
    (equal_hashes_increasing data -> sorted_as_tuples out).
Proof.
  intros Ht Hne HL HU.
  destruct (par_sort_ok threads data scratch (S (length data)) Ht Hne HL HU ltac:(lia))
    as (out & E & HP & HS & HT).
  exists out. split; [|split; [exact HP|split]].
  - exists (S (length data)). intros n Hn.
    destruct (par_sort_ok threads data scratch n Ht Hne HL HU ltac:(lia)) as (out' & E' & _).
    rewrite E'. f_equal.
    unfold par_sort_hash_pairs, assert_ in *. rewrite HL, Nat.eqb_refl in *.
    destruct (sort_chunks data scratch _) as [d| |]; try discriminate. cbn [bind] in *.
    rewrite (loop_mono _ (S (length data)) n) in E' by (lia || congruence). congruence.
  - unfold sorted_by_hash. apply (StronglySorted_nth le_hash). exact HS.
  - intros HI. unfold sorted_as_tuples. apply (StronglySorted_nth le_tuple). apply HT.
    apply StronglySorted_nth. exact HI.
Qed.

Lemma tuple_sorted_unique l l' :
  sorted_as_tuples l -> sorted_as_tuples l' -> Permutation l l' -> l = l'.
Proof.
  intros H1 H2. apply (StronglySorted_nth le_tuple) in H1, H2. revert l' H2.
  induction H1 as [|a l HS IH HF]; intros l' H2 HP.
  - apply Permutation_nil in HP. congruence.
  - destruct l' as [|b l']; [apply Permutation_sym, Permutation_nil in HP; congruence|].
    inversion H2 as [|? ? HS2 HF2]; subst. rewrite Forall_forall in *.
    assert (a = b).
    { assert (Ha : In a (b :: l')) by (eapply Permutation_in; [exact HP|left; reflexivity]).
      assert (Hb : In b (a :: l)) by (eapply Permutation_in; [apply Permutation_sym; exact HP|left; reflexivity]).
      destruct Ha as [|Ha]; [congruence|]. destruct Hb as [|Hb]; [congruence|].
      apply HF2 in Ha. apply HF in Hb. unfold le_tuple in *.
      destruct a, b; cbn in *. f_equal; lia. }
    subst b. f_equal. apply IH; [exact HS2|]. eapply Permutation_cons_inv; eauto.
Qed.

Lemma par_sort_empty threads fuel : 0 < threads -> par_sort_hash_pairs threads [] [] fuel = Panic.
Proof.
  intros Ht. unfold par_sort_hash_pairs, assert_. cbn [length Nat.eqb].
  rewrite Nat.div_small by lia. reflexivity.
Qed.
