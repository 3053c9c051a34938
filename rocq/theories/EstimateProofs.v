(** The estimate of the number of collisions, compared with their enumeration. *)
From Verif Require Import Base HashValue HashSpec HashProofs EnumSpec Enumerator EnumProofs.

Section Estimate.
  Variables (hashes indices : list N) (p ez : nat).
  Hypothesis tab : table_ok hashes indices.
  Hypothesis Hp : 1 <= p <= 8.
  Notation n := (length hashes).
  Notation HV x := (nth x hashes 0%N).
  Notation IX x := (nth x indices 0%N).
  Notation cond := (cond hashes indices p None false ez).
  Notation row := (row hashes indices p None false ez).
  Notation rows := (rows hashes indices p None false ez).
  Notation bucket := (bucket hashes p).
  Notation emit := (emit hashes indices p None false ez).
  Lemma none_prev : forall pp, @None nat = Some pp -> 1 <= pp <= 8.
  Proof. discriminate. Qed.

  Lemma cond_bucket s e x y : bucket s e -> e < n -> s <= x < e -> s <= y < e -> cond x y = negb (overlapsN (IX x) (IX y) ez).
  Proof.
    intros B He Hx Hy. unfold EnumProofs.cond, seenb. rewrite (not_last hashes indices p None tab Hp none_prev s e x B He Hx).
    assert (same p (HV x) (HV y) = true) as ->.
    { destruct B as (B1 & B2 & B3). eapply same_trans; [rewrite same_sym; apply B2|apply B2]; lia. }
    reflexivity.
  Qed.
  Lemma row_bucket s e x : bucket s e -> s <= x < e -> row x (S x) = flat_map (emit x) (seq (S x) (e - S x)).
  Proof.
    intros B Hx. assert (e <= n) by apply B. pose proof (row_past hashes indices p None false ez tab Hp none_prev s e x e B Hx ltac:(lia)) as P.
    unfold EnumProofs.row in *. replace (n - S x) with ((e - S x) + (n - e)) by lia.
    rewrite seq_app, flat_map_app. replace (S x + (e - S x)) with e by lia. rewrite P, app_nil_r. reflexivity.
  Qed.
  Lemma emit_le x l : length (flat_map (emit x) l) <= length l.
  Proof.
    induction l as [|y l IH]; [reflexivity|]. cbn [flat_map]. rewrite app_length. unfold EnumProofs.emit at 1.
    destruct (cond x y); cbn [length]; lia.
  Qed.
  Lemma inner_count s e x : bucket s e -> e < n -> s <= x < e -> forall l cnt, (forall y, In y l -> s <= y < e) ->
    foreach l (fun j cnt => let! a := get indices x in let! b := get indices j in if negb (overlapsN a b ez) then Ret (cnt + 1) else Ret cnt) cnt
    = Ret (cnt + length (flat_map (emit x) l)).
  Proof.
    intros B He Hx. assert (Hlen : n = length indices) by apply tab.
    induction l as [|y l IH]; intros cnt Hl; cbn [foreach flat_map]; [cbn; rewrite Nat.add_0_r; reflexivity|].
    assert (s <= y < e) by (apply Hl; left; reflexivity).
    match goal with |- context [foreach l ?b] => set (body := b) in * end.
    rewrite (get_ret indices x 0%N), (get_ret indices y 0%N) by lia. cbn [bind]. unfold EnumProofs.emit at 1. rewrite (cond_bucket s e) by assumption.
    destruct (overlapsN _ _ _); cbn [negb bind app length]; rewrite IH by (intros; apply Hl; right; assumption); rewrite ?app_length; cbn [length]; f_equal; lia.
  Qed.
  (** the pairs of the rows [s..] *)
  Fixpoint some_rows (s k : nat) : list (N * N) := match k with O => [] | S k => row s (S s) ++ some_rows (S s) k end.
  Lemma rows_split s k : s + k <= n -> rows s = some_rows s k ++ rows (s + k).
  Proof.
    revert s. induction k as [|k IH]; intros s L; cbn [some_rows app]; [rewrite Nat.add_0_r; reflexivity|].
    rewrite rows_step, <- app_assoc by (try exact none_prev; lia). f_equal. rewrite IH by lia. do 2 f_equal; lia.
  Qed.
  Lemma outer_count s e : bucket s e -> e < n -> forall k x cnt, s <= x -> x + k <= e ->
    foreach (seq x k) (fun i cnt => foreach (seq (i + 1) (e - (i + 1)))
      (fun j cnt => let! a := get indices i in let! b := get indices j in if negb (overlapsN a b ez) then Ret (cnt + 1) else Ret cnt) cnt) cnt
    = Ret (cnt + length (some_rows x k)).
  Proof.
    intros B He. induction k as [|k IH]; intros x cnt Lx Lk; cbn [seq foreach some_rows]; [cbn; rewrite Nat.add_0_r; reflexivity|].
    rewrite (inner_count s e x B He ltac:(lia)).
    - cbn [bind]. rewrite IH by lia. rewrite app_length, (row_bucket s e x B) by lia. replace (x + 1) with (S x) by lia. f_equal. lia.
    - intros y Hy. apply in_seq in Hy. lia.
  Qed.
  Lemma some_rows_le s e : bucket s e -> forall k x, s <= x -> x + k <= e -> length (some_rows x k) <= k * (e - s).
  Proof.
    intros B. induction k as [|k IH]; intros x Lx Lk; cbn [some_rows length]; [lia|]. rewrite app_length, (row_bucket s e x B) by lia.
    pose proof (emit_le x (seq (S x) (e - S x))) as L. rewrite seq_length in L. pose proof (IH (S x) ltac:(lia) ltac:(lia)). lia.
  Qed.

  (** a bucket with more than [sqrt n] entries, other than the last one *)
  Definition crowded : Prop := exists s e, bucket s e /\ e < n /\ n < (e - s) * (e - s).
  Lemma estimate_runs : hashes <> [] -> exists c,
    (forall fuel, n < fuel -> (let! s := enum_new fuel hashes indices p None in estimate_num_collisions fuel ez s) = Ret c) /\
    length (rows 0) <= c /\ (~ crowded -> c = length (rows 0)).
  Proof.
    intros Hne.
    assert (Hn0 : 0 < n) by (destruct hashes; [congruence|cbn; lia]).
    assert (G : exists c, (let! s := enum_new (S n) hashes indices p None in estimate_num_collisions (S n) ez s) = Ret c /\
       length (rows 0) <= c /\ (~ crowded -> c = length (rows 0))).
    { unfold enum_new, K. assert (Hb : (0 <? p) && (p <=? 8) = true) by lia. rewrite Hb. cbn [assert_].
      destruct (next_range_ok hashes indices p None tab Hp none_prev (S n) 0 0 0 1 Hn0 ltac:(lia)) as (e0 & En & B0). rewrite En. cbn [bind].
      unfold estimate_num_collisions.
      match goal with |- context [loop (S n) ?b ?s0] =>
        destruct (loop_measure b
          (fun a : enumerator * nat => let '(st, cnt) := a in
             exists s e i j, st = Enum p None hashes indices s e i j /\ bucket s e /\
               length (rows 0) <= cnt + length (rows s) /\ (~ crowded -> cnt + length (rows s) = length (rows 0)))
          (fun c => length (rows 0) <= c /\ (~ crowded -> c = length (rows 0)))
          (fun a => n - e_end (fst a))) with (s := s0) (fuel := S n) as (c & E & Q)
      end.
      - intros (st & cnt) (s & e & i & j & -> & B & I1 & I2). cbn [fst e_end e_start e_hashes e_indices].
        assert (Hse : s < e <= n) by apply B.
        destruct (Nat.ltb_spec e n) as [L|L].
        + destruct (next_range_ok hashes indices p None tab Hp none_prev (S n) s e i j L ltac:(lia)) as (e' & En' & B').
          assert (Hee : e < e' <= n) by apply B'.
          pose proof (some_rows_le s e B (e - s) s ltac:(lia) ltac:(lia)) as Le.
          pose proof (rows_split s (e - s) ltac:(lia)) as Sp. replace (s + (e - s)) with e in Sp by lia.
          rewrite Sp, app_length in I1, I2.
          destruct (Nat.ltb_spec n ((e - s) * (e - s))) as [Lg|Lg]; cbn [bind].
          * rewrite En'. cbn [bind]. left. eexists. split; [reflexivity|]. split; [|cbn [fst e_end]; lia].
            exists e, e', e, (e + 1). split; [reflexivity|]. split; [exact B'|]. split; [lia|].
            intros C. exfalso. apply C. exists s, e. auto.
          * rewrite (outer_count s e B L (e - s) s cnt) by lia. cbn [bind]. rewrite En'. cbn [bind]. left. eexists. split; [reflexivity|].
            split; [|cbn [fst e_end]; lia]. exists e, e', e, (e + 1). split; [reflexivity|]. split; [exact B'|]. split; [lia|].
            intros C. specialize (I2 C). lia.
        + assert (e = n) by lia. subst e. right. eexists. split; [reflexivity|].
          rewrite (rows_last hashes indices p None false ez Hp none_prev s B s) in I1, I2 by lia. cbn [length] in I1, I2. split; [lia|].
          intros C. specialize (I2 C). lia.
      - exists 0, e0, 0, 1. split; [reflexivity|]. split; [exact B0|]. split; [lia|]. intros _. lia.
      - cbn [fst e_end]. lia.
      - exists c. auto. }
    destruct G as (c & E & Q). exists c. split; [|exact Q]. intros fuel Lf.
    assert (FM : fmono (fun f => let! s := enum_new f hashes indices p None in estimate_num_collisions f ez s)).
    { apply (fmono_bind (fun f => enum_new f hashes indices p None) (fun f s => estimate_num_collisions f ez s)).
      - apply enum_new_mono.
      - intros s. unfold estimate_num_collisions. fmono_tac; auto using next_range_mono. }
    rewrite <- E. apply FM; [lia|]. rewrite E. discriminate.
  Qed.
  (** a crowded bucket is counted *)
  Lemma estimate_crowded c : hashes <> [] -> crowded ->
    returns (fun fuel => let! s := enum_new fuel hashes indices p None in estimate_num_collisions fuel ez s) c -> 0 < c.
  Proof.
    intros Hne (s1 & e1 & B1 & L1 & Lg1) (n0 & R).
    assert (Hn0 : 0 < n) by (destruct hashes; [congruence|cbn; lia]).
    set (F := S n + n0). specialize (R F ltac:(unfold F; lia)). revert R.
    unfold enum_new, K. assert (Hb : (0 <? p) && (p <=? 8) = true) by lia. rewrite Hb. cbn [assert_].
    destruct (next_range_ok hashes indices p None tab Hp none_prev F 0 0 0 1 Hn0 ltac:(unfold F; lia)) as (e0 & En & B0). rewrite En. cbn [bind].
    unfold estimate_num_collisions.
    match goal with |- context [loop F ?b ?s0] =>
      destruct (loop_measure b
        (fun a : enumerator * nat => let '(st, cnt) := a in
           exists s e i j, st = Enum p None hashes indices s e i j /\ bucket s e /\ (s <= s1 \/ 0 < cnt))
        (fun c => 0 < c)
        (fun a => n - e_end (fst a))) with (s := s0) (fuel := F) as (c' & E & Q)
    end.
    - intros (st & cnt) (s & e & i & j & -> & B & I1). cbn [fst e_end e_start e_hashes e_indices].
      assert (Hse : s < e <= n) by apply B.
      assert (Hm : s <= s1 -> s1 < e -> e = e1).
      { intros L2 L3. destruct B as (B_1 & B_2 & B_3). destruct B1 as (C1 & C2 & C3).
        assert (S1 : same p (HV s) (HV s1) = true) by (apply B_2; lia).
        destruct (Nat.lt_trichotomy e e1) as [Lt|[Eq|Gt]]; [exfalso|exact Eq|exfalso].
        - assert (same p (HV s) (HV e) = true) as X by (eapply same_trans; [exact S1|apply C2; lia]). rewrite B_3 in X by lia. discriminate.
        - assert (same p (HV s1) (HV e1) = true) as X by (eapply same_trans; [rewrite same_sym; exact S1|apply B_2; lia]). rewrite C3 in X by lia. discriminate. }
      assert (Hs1 : s1 < e1) by apply B1.
      destruct (Nat.ltb_spec e n) as [L|L].
      + destruct (next_range_ok hashes indices p None tab Hp none_prev F s e i j L ltac:(unfold F; lia)) as (e' & En' & B').
        assert (Hee : e < e' <= n) by apply B'. left.
        destruct (Nat.ltb_spec n ((e - s) * (e - s))) as [Lg|Lg]; cbn [bind].
        * rewrite En'. cbn [bind]. eexists. split; [reflexivity|]. split; [|cbn [fst e_end]; lia].
          exists e, e', e, (e + 1). split; [reflexivity|]. split; [exact B'|]. right. lia.
        * rewrite (outer_count s e B L (e - s) s cnt) by lia. cbn [bind]. rewrite En'. cbn [bind]. eexists. split; [reflexivity|].
          split; [|cbn [fst e_end]; lia]. exists e, e', e, (e + 1). split; [reflexivity|]. split; [exact B'|].
          destruct I1 as [I1|I1]; [|right; lia]. destruct (Nat.lt_ge_cases s1 e) as [L2|L2]; [|left; exact L2].
          exfalso. pose proof (Hm I1 L2). subst e1. pose proof (Nat.mul_le_mono (e - s1) (e - s) (e - s1) (e - s) ltac:(lia) ltac:(lia)). lia.
      + right. eexists. split; [reflexivity|]. destruct I1 as [I1|I1]; [|exact I1]. pose proof (Hm I1 ltac:(lia)). lia.
    - exists 0, e0, 0, 1. split; [reflexivity|]. split; [exact B0|]. left. lia.
    - cbn [fst e_end]. unfold F. lia.
    - rewrite E. intros R. apply Ret_inj in R. subst c'. exact Q.
  Qed.
End Estimate.
