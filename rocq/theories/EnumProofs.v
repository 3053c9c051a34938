(** Proofs about the collision enumerator. *)
From Verif Require Import Base HashValue HashSpec HashProofs OverlapsSpec Enumerator EnumSpec.

(** ** partition_point *)
Section PartitionPoint.
  Context {A : Type} (l : list A) (f : A -> bool) (d : A).
  Hypothesis part : forall i j, i <= j -> j < length l -> f (nth j l d) = true -> f (nth i l d) = true.

  Lemma partition_search_ok n base size :
    1 <= size -> size <= n -> base + size <= length l ->
    (base = 0 \/ f (nth base l d) = true) ->
    (forall j, base + size <= j -> j < length l -> f (nth j l d) = false) ->
    exists base', partition_search n l (fun x => Ret (f x)) base size = Ret base' /\
      base' < length l /\ (base' = 0 \/ f (nth base' l d) = true) /\
      (forall j, base' < j -> j < length l -> f (nth j l d) = false).
  Proof.
    revert base size. induction n as [|n IH]; intros base size H1 H2 H3 H4 H5; [lia|].
    cbn [partition_search]. destruct (Nat.leb_spec size 1) as [L|L].
    - exists base. repeat split; auto; try lia. intros j Hj Hl. apply H5; lia.
    - assert (Hh : 1 <= size / 2 < size).
      { split; [apply (Nat.div_le_lower_bound size 2 1); lia|apply Nat.div_lt; lia]. }
      rewrite (get_ret l _ d) by lia. cbn [bind].
      destruct (f (nth (base + size / 2) l d)) eqn:E.
      + apply IH; try lia; auto. intros j Hj Hl. apply H5; lia.
      + apply IH; try lia; auto.
        intros j Hj Hl. destruct (f (nth j l d)) eqn:F; [|reflexivity].
        assert (2 * (size / 2) <= size) by (apply Nat.mul_div_le; lia).
        assert (size < 2 * (size / 2) + 2).
        { pose proof (Nat.div_mod size 2 ltac:(lia)).
          pose proof (Nat.mod_upper_bound size 2 ltac:(lia)). lia. }
        rewrite (part (base + size / 2) j) in E; auto; lia.
  Qed.

End PartitionPoint.

Lemma partition_point_ok {A} (l : list A) (f : A -> bool) (d : A) :
  (forall i j, i <= j -> j < length l -> f (nth j l d) = true -> f (nth i l d) = true) ->
  exists k, partition_point l (fun x => Ret (f x)) = Ret k /\ k <= length l /\
    (forall i, i < k -> f (nth i l d) = true) /\
    (forall i, k <= i -> i < length l -> f (nth i l d) = false).
Proof.
  intros part. unfold partition_point.
  destruct (Nat.eq_dec (length l) 0) as [Z|Z].
  - destruct l; [|discriminate]. exists 0. repeat split; cbn; intros; lia.
  - destruct (partition_search_ok l f d part (length l) 0 (length l)) as (b & E & Hb & H1 & H2);
      try lia; auto.
    assert (G : match l with [] => Ret 0 | _ =>
      let! base := partition_search (length l) l (fun x => Ret (f x)) 0 (length l) in
      let! x := get l base in let! b := Ret (f x) in Ret (base + if b then 1 else 0) end =
      Ret (b + if f (nth b l d) then 1 else 0)).
    { destruct l as [|a t]; [cbn in Z; lia|].
      rewrite E. cbn [bind]. rewrite (get_ret _ _ d) by exact Hb. reflexivity. }
    rewrite G. clear G. eexists. split; [reflexivity|].
    destruct (f (nth b l d)) eqn:Fb.
    + repeat split; try lia.
      * intros i Hi. apply (part i b); auto; lia.
      * intros i Hi Hl. apply H2; lia.
    + assert (b = 0) as -> by (destruct H1; congruence).
      repeat split; try lia.
      intros i Hi Hl. destruct (Nat.eq_dec i 0) as [->|]; [exact Fb|]. apply H2; lia.
Qed.

Lemma nth_slice {A} (l : list A) a b i d : i < b - a -> nth i (firstn (b - a) (skipn a l)) d = nth (a + i) l d.
Proof.
  intros H. rewrite <- (firstn_skipn a l) at 2.
  destruct (Nat.le_gt_cases (length l) a) as [L|L].
  - rewrite skipn_all2 by lia. rewrite firstn_nil, app_nil_r.
    rewrite (nth_overflow (firstn a l)); [destruct i; reflexivity|].
    rewrite firstn_length. lia.
  - rewrite app_nth2; rewrite firstn_length, Nat.min_l by lia; [|lia].
    replace (a + i - a) with i by lia.
    set (m := skipn a l). rewrite <- (firstn_skipn (b - a) m) at 2.
    destruct (Nat.le_gt_cases (length m) i) as [M|M].
    + rewrite (nth_overflow (firstn _ m)); [|rewrite firstn_length; lia].
      rewrite nth_overflow; [reflexivity|]. rewrite firstn_skipn. lia.
    + rewrite app_nth1; [reflexivity|]. rewrite firstn_length. lia.
Qed.

Section Enum.
  Variables (hashes indices : list N) (p : nat) (prev : option nat) (check : bool) (ez : nat).
  Hypothesis tab : table_ok hashes indices.
  Hypothesis Hp : 1 <= p <= 8.
  Hypothesis Hprev : forall pp, prev = Some pp -> 1 <= pp <= 8.
  Notation n := (length hashes).
  Notation HV x := (nth x hashes 0%N).
  Notation IX x := (nth x indices 0%N).

  Lemma H_u64 x : is_u64 (HV x).
  Proof.
    destruct tab as (_ & Hu & _).
    destruct (Nat.lt_ge_cases x n) as [L|L].
    - apply Hu, nth_In, L.
    - rewrite nth_overflow by exact L. unfold is_u64. lia.
  Qed.
  Lemma H_le x y : x <= y -> y < n -> (HV x <= HV y)%N.
  Proof.
    destruct tab as (_ & _ & Hs). intros L1 L2.
    apply (Hs x y); auto; apply nth_error_nth'; lia.
  Qed.
  Lemma prefix_eq_H q x y : 1 <= q <= 8 -> prefix_eq (HV x) (HV y) q = Ret (same q (HV x) (HV y)).
  Proof. intros Hq. apply prefix_eq_same; auto using H_u64. Qed.
  Lemma same_mid x y z : x <= y <= z -> z < n -> same p (HV x) (HV z) = true ->
    same p (HV x) (HV y) = true /\ same p (HV y) (HV z) = true.
  Proof. intros L Lz E. apply same_between; auto; apply H_le; lia. Qed.

  (** [s..e] is a bucket *)
  Definition bucket (s e : nat) : Prop :=
    s < e <= n /\ (forall x, s <= x -> x < e -> same p (HV s) (HV x) = true) /\
    (e < n -> same p (HV s) (HV e) = false).

  Lemma next_range_ok fuel st e i j :
    e < n -> n < fuel ->
    exists e', next_range fuel (Enum p prev hashes indices st e i j) =
      Ret (Enum p prev hashes indices e e' e (e + 1)) /\ bucket e e'.
  Proof.
    intros He Hf. unfold next_range. cbn [e_hashes e_end e_prefix e_prev e_indices e_i e_j].
    rewrite (get_ret hashes e 0%N) by exact He. cbn [bind].
    destruct (Nat.leb_spec n e) as [L|_]; [lia|].
    match goal with |- context [loop fuel ?b ?s0] =>
      destruct (loop_measure b
        (fun st : nat * nat => let '(low, offset) := st in
           1 <= offset /\ e <= low < n /\ low < e + offset /\ same p (HV e) (HV low) = true)
        (fun st : nat * nat => let '(low, offset) := st in
           1 <= offset /\ e <= low < n /\ low < e + offset /\ same p (HV e) (HV low) = true /\
           (e + offset < n -> same p (HV e) (HV (e + offset)) = false))
        (fun st => n - (e + snd st)) ) with (s := s0) (fuel := fuel) as ((low, offset) & E & I)
    end.
    - intros (low, offset) (I1 & I2 & I3 & I4). cbn [snd].
      destruct (Nat.ltb_spec (e + offset) n) as [L|L].
      + rewrite (get_ret hashes _ 0%N) by exact L. cbn [bind].
        rewrite prefix_eq_H by exact Hp. cbn [bind].
        destruct (same p (HV (e + offset)) (HV e)) eqn:S.
        * left. eexists. split; [reflexivity|]. split; [|cbn; lia].
          rewrite same_sym. repeat split; try lia.
        * right. eexists. split; [reflexivity|]. repeat split; try lia; auto.
          intros _. rewrite same_sym. exact S.
      + right. eexists. split; [reflexivity|]. repeat split; try lia; auto.
    - repeat split; try lia. apply same_refl.
    - cbn [snd]. lia.
    - rewrite E. cbn [bind]. destruct I as (I1 & I2 & I3 & I4 & I5).
      unfold slice. set (high := Nat.min (e + offset) n).
      assert (Hh : low < high <= n) by lia.
      destruct (Nat.leb_spec low high); [|lia]. destruct (Nat.leb_spec high n); [|lia].
      cbn [andb bind].
      set (sl := firstn (high - low) (skipn low hashes)).
      assert (Lsl : length sl = high - low).
      { unfold sl. rewrite firstn_length, skipn_length. lia. }
      assert (Nsl : forall i, i < high - low -> nth i sl 0%N = HV (low + i)).
      { intros i0 Hi. apply nth_slice, Hi. }
      destruct (partition_point_ok sl (fun hv => same p (HV e) hv) 0%N) as (k & Ek & K1 & K2 & K3).
      { intros a b L1 L2 S. rewrite Nsl in * by lia.
        apply (same_mid e (low + a) (low + b)); try lia; auto. }
      assert (EQ : partition_point sl (fun hv => prefix_eq (HV e) hv p) = Ret k).
      { assert (EXT : forall l, incl l hashes ->
          partition_point l (fun hv => prefix_eq (HV e) hv p) =
          partition_point l (fun hv => Ret (same p (HV e) hv))).
        { assert (PS : forall m l b s, incl l hashes ->
             partition_search m l (fun hv => prefix_eq (HV e) hv p) b s =
             partition_search m l (fun hv => Ret (same p (HV e) hv)) b s).
          { induction m as [|m IHm]; intros l b s Hl; cbn [partition_search];
              destruct (s <=? 1); try reflexivity.
            unfold get. destruct (nth_error l (b + s / 2)) eqn:En; cbn [bind]; [|reflexivity].
            rewrite prefix_eq_same; auto using H_u64.
            2:{ apply tab, Hl. eapply nth_error_In; eauto. }
            cbn [bind]. apply IHm, Hl. }
          intros l Hl. unfold partition_point. destruct l as [|a t]; [reflexivity|].
          rewrite PS by exact Hl.
          destruct (partition_search _ _ _ _ _); cbn [bind]; try reflexivity.
          unfold get. destruct (nth_error _ _) eqn:En; cbn [bind]; [|reflexivity].
          rewrite prefix_eq_same; auto using H_u64.
          apply tab, Hl. eapply nth_error_In; eauto. }
        rewrite EXT; [exact Ek|].
        unfold sl. intros x Hx. rewrite <- (firstn_skipn low hashes).
        apply in_or_app. right. rewrite <- (firstn_skipn (high - low) (skipn low hashes)).
        apply in_or_app. left. exact Hx. }
      rewrite EQ. cbn [bind]. exists (low + k). split; [reflexivity|].
      assert (Kpos : 0 < k).
      { destruct k; [|lia]. specialize (K3 0 ltac:(lia) ltac:(lia)).
        rewrite Nsl in K3 by lia. rewrite Nat.add_0_r in K3. congruence. }
      unfold bucket. repeat split; try lia.
      + intros x Lx1 Lx2. apply (same_mid e x (low + (k - 1))); try lia.
        rewrite <- Nsl by lia. apply K2. lia.
      + intros Ln. destruct (Nat.lt_ge_cases k (high - low)) as [L|L].
        * rewrite <- Nsl by lia. apply K3; lia.
        * assert (Hlk : low + k = high) by lia. rewrite Hlk.
          unfold high. rewrite Nat.min_l by lia. apply I5. lia.
  Qed.

  (** ** The pairs to report, in order *)
  Definition seenb (x y : nat) : bool :=
    check && match prev with Some pp => same pp (HV x) (HV y) | None => false end.
  Definition cond (x y : nat) : bool :=
    same p (HV x) (HV y) && negb (same p (HV x) (HV (n - 1))) &&
    (negb (seenb x y) && negb (overlapsN (IX x) (IX y) ez)).
  Definition pr (x y : nat) : N * N := (N.min (IX x) (IX y), N.max (IX x) (IX y)).
  Definition emit (x y : nat) : list (N * N) := if cond x y then [pr x y] else [].
  Definition row (x y : nat) : list (N * N) := flat_map (emit x) (seq y (n - y)).
  Definition rows (x : nat) : list (N * N) := flat_map (fun x => row x (S x)) (seq x (n - x)).
  Definition rest (x y : nat) : list (N * N) := row x y ++ rows (S x).

  Lemma row_step x y : y < n -> row x y = emit x y ++ row x (S y).
  Proof. intros L. unfold row. replace (n - y) with (S (n - S y)) by lia. reflexivity. Qed.
  Lemma rows_step x : x < n -> rows x = row x (S x) ++ rows (S x).
  Proof. intros L. unfold rows. replace (n - x) with (S (n - S x)) by lia. reflexivity. Qed.
  Lemma flat_map_nil {A B} (g : A -> list B) l : (forall a, In a l -> g a = []) -> flat_map g l = [].
  Proof.
    intros Hg. induction l as [|a l IH]; [reflexivity|].
    cbn. rewrite Hg by (left; reflexivity). apply IH. intros; apply Hg; right; assumption.
  Qed.

  Lemma row_past s e x y : bucket s e -> s <= x < e -> e <= y -> row x y = [].
  Proof.
    intros (B1 & B2 & B3) Hx Hy. apply flat_map_nil. intros z Hz. apply in_seq in Hz.
    unfold emit, cond.
    destruct (same p (HV x) (HV z)) eqn:E; [|reflexivity]. exfalso.
    assert (same p (HV s) (HV z) = true).
    { eapply same_trans; [apply B2|exact E]; lia. }
    assert (same p (HV s) (HV e) = true) by (apply (same_mid s e z); try lia; auto).
    rewrite B3 in * by lia. discriminate.
  Qed.

  Lemma rows_last s : bucket s n -> forall x, s <= x -> rows x = [].
  Proof.
    intros (B1 & B2 & B3) x Hx. apply flat_map_nil. intros z Hz. apply in_seq in Hz.
    apply flat_map_nil. intros y Hy. apply in_seq in Hy.
    unfold emit, cond.
    assert (same p (HV z) (HV (n - 1)) = true) as ->.
    { eapply same_trans; [rewrite same_sym; apply B2|apply B2]; lia. }
    rewrite andb_false_r. reflexivity.
  Qed.

  Lemma not_last s e x : bucket s e -> e < n -> s <= x < e -> same p (HV x) (HV (n - 1)) = false.
  Proof.
    intros (B1 & B2 & B3) He Hx. destruct (same p (HV x) (HV (n - 1))) eqn:E; [exfalso|reflexivity].
    assert (same p (HV s) (HV (n - 1)) = true).
    { eapply same_trans; [apply B2|exact E]; lia. }
    assert (same p (HV s) (HV e) = true) by (apply (same_mid s e (n - 1)); try lia; auto).
    rewrite B3 in *; auto; discriminate.
  Qed.

  Definition st s e i j := Enum p prev hashes indices s e i j.

  Lemma reportable_ok s e x y i j :
    bucket s e -> e < n -> s <= x < e -> s <= y < e ->
    reportable (st s e i j) ez check x y =
      Ret (if cond x y then Some (pr x y) else None).
  Proof.
    intros B He Hx Hy. unfold reportable. cbn [e_indices e_hashes e_prev st].
    destruct tab as (Hlen & _).
    rewrite (get_ret indices x 0%N), (get_ret indices y 0%N), (get_ret hashes x 0%N),
      (get_ret hashes y 0%N) by lia. cbn [bind].
    assert (E : (if check then match prev with Some pp => prefix_eq (HV x) (HV y) pp | None => Ret false end
                 else Ret false) = Ret (seenb x y)).
    { assert (G : forall (c : bool) (o : option nat), (forall pp, o = Some pp -> 1 <= pp <= 8) ->
        (if c then match o with Some pp => prefix_eq (HV x) (HV y) pp | None => Ret false end else Ret false)
        = Ret (c && match o with Some pp => same pp (HV x) (HV y) | None => false end)).
      { intros [] [pp|] Ho; cbn [andb]; try reflexivity.
        apply prefix_eq_H, Ho. reflexivity. }
      apply G, Hprev. }
    rewrite E. cbn [bind]. unfold cond.
    rewrite (not_last s e x B He Hx).
    assert (same p (HV x) (HV y) = true) as ->.
    { destruct B as (B1 & B2 & B3). eapply same_trans; [rewrite same_sym; apply B2|apply B2]; lia. }
    cbn [andb negb]. destruct (negb (seenb x y) && _); reflexivity.
  Qed.

  Lemma loop_j_ok fuel cap s e i0 j0 i j out :
    bucket s e -> e < n -> s <= i < e -> i < j <= e -> length out < cap -> n < fuel ->
    exists r, loop_j fuel cap ez check (st s e i0 j0) i j out = Ret r /\
      match r with
      | inl out' => out' = out ++ row i j /\ length out' < cap
      | inr (j', out') => out' ++ row i j' = out ++ row i j /\ length out' = cap /\ i < j' <= e
      end.
  Proof.
    intros B He Hi Hj Hc Hf. unfold loop_j.
    match goal with |- context [loop fuel ?b ?s0] =>
      destruct (loop_measure b
        (fun a : nat * list (N * N) => let '(j', out') := a in
           i < j' <= e /\ out' ++ row i j' = out ++ row i j /\ length out' < cap)
        (fun r => match r with
          | inl out' => out' = out ++ row i j /\ length out' < cap
          | inr (j', out') => out' ++ row i j' = out ++ row i j /\ length out' = cap /\ i < j' <= e
          end)
        (fun a => e - fst a)) with (s := s0) (fuel := fuel) as (r & E & Q)
    end.
    - intros (j', out') (I1 & I2 & I3). cbn [fst]. cbn [e_end e_start st].
      destruct (Nat.ltb_spec j' e) as [L|L].
      + assert (Bs : (s <=? i) && (i <? e) = true) by lia.
        assert (Bs' : (s <=? j') && true = true) by lia. rewrite Bs, Bs'. cbn [assert_].
        rewrite (reportable_ok s e i j') by (auto; lia). cbn [bind].
        rewrite (row_step i j') in I2 by lia. unfold emit in I2.
        replace (j' + 1) with (S j') by lia.
        destruct (cond i j').
        * destruct (Nat.ltb_spec (length out') cap) as [_|]; [|lia]. cbn [bind].
          rewrite app_assoc in I2.
          destruct (Nat.leb_spec cap (length (out' ++ [pr i j']))) as [L2|L2].
          -- right. eexists. split; [reflexivity|]. split; [exact I2|]. rewrite app_length in *. cbn in *. lia.
          -- left. eexists. split; [reflexivity|]. split; [|cbn; lia]. repeat split; auto; try lia.
        * cbn [bind]. destruct (Nat.leb_spec cap (length out')) as [L2|L2]; [lia|].
          left. eexists. split; [reflexivity|]. split; [|cbn; lia]. repeat split; auto; try lia.
      + right. eexists. split; [reflexivity|].
        rewrite (row_past s e i j') in I2 by (auto; lia). rewrite app_nil_r in I2. cbn. split; assumption.
    - repeat split; auto; lia.
    - cbn [fst]. lia.
    - exists r. auto.
  Qed.

  Lemma loop_i_ok fuel cap s e i j out :
    bucket s e -> e < n -> s <= i < e -> i < j <= e -> length out < cap -> n < fuel ->
    exists r, loop_i fuel cap ez check (st s e i j) out = Ret r /\
      match r with
      | inl out' => out' ++ rows e = out ++ rest i j /\ length out' < cap
      | inr (s', out') => exists i' j', s' = st s e i' j' /\ s <= i' < e /\ i' < j' <= e /\
          out' ++ rest i' j' = out ++ rest i j /\ length out' = cap
      end.
  Proof.
    intros B He Hi Hj Hc Hf. unfold loop_i.
    match goal with |- context [loop fuel ?b ?s0] =>
      destruct (loop_measure b
        (fun a : nat * nat * list (N * N) => let '(i', j', out') := a in
           s <= i' <= e /\ i' < j' /\ (i' < e -> j' <= e) /\ (i' = e -> j' = S e) /\
           out' ++ rest i' j' = out ++ rest i j /\ length out' < cap)
        (fun r => match r with
      | inl out' => out' ++ rows e = out ++ rest i j /\ length out' < cap
      | inr (s', out') => exists i' j', s' = st s e i' j' /\ s <= i' < e /\ i' < j' <= e /\
          out' ++ rest i' j' = out ++ rest i j /\ length out' = cap
          end)
        (fun a => e - fst (fst a))) with (s := s0) (fuel := fuel) as (r & E & Q)
    end.
    - intros ((i', j'), out') (I1 & I2 & I3 & I4 & I5 & I6). cbn [fst e_end st].
      destruct (Nat.ltb_spec i' e) as [L|L].
      + destruct (loop_j_ok fuel cap s e (e_i (st s e i j)) (e_j (st s e i j)) i' j' out')
          as (r & Er & Qr); auto; try lia.
        unfold st in *. cbn [e_i e_j] in Er. rewrite Er. cbn [bind].
        destruct r as [out2|(j2, out2)].
        * destruct Qr as [Q1 Q2]. left. eexists. split; [reflexivity|]. split; [|cbn; lia].
          repeat split; try lia.
          rewrite <- I5. rewrite Q1. rewrite <- app_assoc. f_equal.
          unfold rest at 2. f_equal. replace (i' + 1) with (S i') by lia.
          replace (S i' + 1) with (S (S i')) by lia.
          unfold rest. symmetry. apply rows_step. lia.
        * destruct Qr as (Q1 & Q2 & Q3). right. eexists. split; [reflexivity|].
          exists i', j2. repeat split; auto; try lia.
          rewrite <- I5. unfold rest. rewrite !app_assoc. f_equal. exact Q1.
      + right. eexists. split; [reflexivity|]. split; [|exact I6].
        rewrite <- I5. f_equal. assert (i' = e) by lia. subst i'.
        rewrite I4 by lia. unfold rest. apply rows_step. lia.
    - cbn [e_i e_j st]. repeat split; auto; lia.
    - cbn [fst e_i st]. lia.
    - exists r. auto.
  Qed.

  (** Reachable states of the enumerator between calls. *)
  Definition inv (s : enumerator) : Prop :=
    exists b e i j, s = st b e i j /\ bucket b e /\ b <= i < e /\ i < j <= e.
  Definition todo (s : enumerator) : list (N * N) :=
    if e_end s <? n then rest (e_i s) (e_j s) else [].

  Lemma enum_next_ok fuel cap s :
    inv s -> 0 < cap -> n < fuel ->
    exists s' r, enum_next fuel cap ez check s = Ret (s', r) /\ inv s' /\
      match r with
      | None => todo s = [] /\ todo s' = []
      | Some out => todo s = out ++ todo s' /\ 1 <= length out <= cap /\ (todo s' = [] \/ length out = cap)
      end.
  Proof.
    intros Is Hc Hf. unfold enum_next.
    match goal with |- context [loop fuel ?b ?s0] =>
      destruct (loop_measure b
        (fun a : enumerator * list (N * N) => let '(s', out) := a in
           inv s' /\ out ++ todo s' = todo s /\ length out < cap)
        (fun r : enumerator * option (list (N * N)) => let '(s', r) := r in
          inv s' /\
          match r with
          | None => todo s = [] /\ todo s' = []
          | Some out => todo s = out ++ todo s' /\ 1 <= length out <= cap /\ (todo s' = [] \/ length out = cap)
          end)
        (fun a => n - e_end (fst a))) with (s := s0) (fuel := fuel) as ((s', r) & E & Q)
    end.
    - intros (s', out) ((b & e & i & j & -> & B & Hi & Hj) & I2 & I3).
      cbn [fst]. unfold todo at 1 in I2. unfold st in *. cbn [e_end e_hashes e_i e_j] in *.
      destruct (Nat.ltb_spec e n) as [L|L].
      + destruct (loop_i_ok fuel cap b e i j out) as (r & Er & Qr); auto.
        unfold st in *. rewrite Er. cbn [bind].
        destruct r as [out2|(s2, out2)].
        * destruct Qr as [Q1 Q2].
          destruct (next_range_ok fuel b e i j L Hf) as (e' & En & B').
          rewrite En. cbn [bind]. left. eexists. split; [reflexivity|].
          assert (Be : e < e' <= n) by apply B'.
          split; [|cbn [fst e_end]; lia].
          split; [|split; [|exact Q2]].
          -- exists e, e', e, (e + 1). repeat split; auto; try lia; apply B'.
          -- unfold todo at 1. cbn [e_end e_i e_j].
             destruct (Nat.ltb_spec e' n) as [L'|L'].
             ++ unfold rest at 1. replace (e + 1) with (S e) by lia.
                rewrite <- rows_step by lia. rewrite Q1. exact I2.
             ++ assert (e' = n) by lia. subst e'.
                rewrite (rows_last e B') in Q1 by lia. rewrite Q1. exact I2.
        * destruct Qr as (i' & j' & -> & Hi' & Hj' & Q1 & Q2).
          right. eexists. split; [reflexivity|]. split.
          -- exists b, e, i', j'. auto.
          -- unfold todo at 2 3. unfold st. cbn [e_end e_i e_j].
             destruct (Nat.ltb_spec e n); [|lia].
             rewrite Q1, I2. repeat split; try lia.
      + right. eexists. split; [reflexivity|]. split.
        * exists b, e, i, j. auto.
        * unfold todo at 2 3 5. cbn [e_end].
          destruct (Nat.ltb_spec e n); [lia|]. rewrite app_nil_r in I2. subst out.
          destruct (todo s) eqn:Et.
          -- unfold todo; cbn [e_end]. destruct (Nat.ltb_spec e n); [lia|]. auto.
          -- rewrite app_nil_r. cbn in *. repeat split; auto; lia.
    - split; [exact Is|]. split; [reflexivity|]. exact Hc.
    - cbn [fst]. lia.
    - exists s', r. split; [exact E|]. exact Q.
  Qed.

  Lemma enum_new_ok fuel : hashes <> [] -> n < fuel ->
    exists s, enum_new fuel hashes indices p prev = Ret s /\ inv s /\ todo s = rows 0.
  Proof.
    intros Hne Hf. assert (Hn0 : 0 < n) by (destruct hashes; [congruence|cbn; lia]).
    unfold enum_new, K. assert (Hb : (0 <? p) && (p <=? 8) = true) by lia. rewrite Hb. cbn [assert_].
    destruct (next_range_ok fuel 0 0 0 1 Hn0 Hf) as (e' & En & B'). rewrite En.
    eexists. split; [reflexivity|]. split.
    - exists 0, e', 0, 1. repeat split; auto; try lia; apply B'.
    - unfold todo. cbn [e_end e_i e_j]. destruct (Nat.ltb_spec e' n) as [L|L].
      + unfold rest. rewrite <- rows_step by lia. reflexivity.
      + assert (e' = n) by (destruct B' as [? _]; lia). subst e'.
        symmetry. apply (rows_last 0 B'). lia.
  Qed.

  (** Any sequence of calls *)
  Lemma enum_batches_ok fuel caps s :
    inv s -> (forall c, In c caps -> 0 < c) -> n < fuel ->
    exists bs fin, enum_batches fuel caps ez check s = Ret (bs, fin) /\
      (exists tl, todo s = concat bs ++ tl /\ (fin = true -> tl = [])) /\
      length bs <= length caps /\
      (forall k b c, nth_error bs k = Some b -> nth_error caps k = Some c ->
         1 <= length b <= c /\ (S k < length bs -> length b = c)) /\
      (length (todo s) < length caps -> fin = true).
  Proof.
    revert s. induction caps as [|c caps IH]; intros s Is Hc Hf; cbn [enum_batches].
    - exists [], false. split; [reflexivity|]. split; [exists (todo s); split; [reflexivity|discriminate]|].
      split; [cbn; lia|]. split; [|cbn; lia].
      intros k b c Hk. destruct k; discriminate.
    - destruct (enum_next_ok fuel c s Is) as (s' & r & E & Is' & Q); auto.
      { apply Hc. left. reflexivity. }
      rewrite E. cbn [bind]. destruct r as [b|].
      + destruct (IH s' Is') as (bs & fin & Eb & (tl & T1 & T2) & L & B & F); auto.
        { intros; apply Hc; right; assumption. }
        rewrite Eb. cbn [bind]. exists (b :: bs), fin. split; [reflexivity|].
        destruct Q as (Q1 & Q2 & Q3).
        split; [exists tl; split; [cbn [concat]; rewrite <- app_assoc, <- T1; exact Q1|exact T2]|].
        split; [cbn; lia|]. split.
        * intros [|k] b' c' Hb Hc'; cbn [nth_error] in Hb, Hc'.
          -- injection Hb as <-. injection Hc' as <-. split; [exact Q2|].
             intros Lk. destruct Q3 as [Q3|Q3]; [|exact Q3]. exfalso.
             rewrite Q3 in T1. destruct bs as [|b2 bs]; [cbn in Lk; lia|].
             destruct caps as [|c2 caps]; [cbn in L; lia|].
             destruct (B 0 b2 c2 eq_refl eq_refl) as [B1 _].
             symmetry in T1. apply app_eq_nil in T1. destruct T1 as [T1 _].
             cbn in T1. apply app_eq_nil in T1. destruct T1 as [-> _]. cbn in B1. lia.
          -- destruct (B k b' c' Hb Hc') as [B1 B2]. split; [exact B1|].
             intros Lk. apply B2. cbn in Lk. lia.
        * intros Lk. apply F. rewrite Q1, app_length in Lk. cbn in Lk. lia.
      + exists [], true. split; [reflexivity|].
        split; [exists []; split; [cbn; apply Q|reflexivity]|].
        split; [cbn; lia|]. split; [|reflexivity].
        intros k b c' Hk. destruct k; discriminate.
  Qed.

  (** ** The positions behind the reported pairs *)
  Definition all_pos : list (nat * nat) :=
    flat_map (fun x => map (pair x) (seq (S x) (n - S x))) (seq 0 n).
  Definition positions : list (nat * nat) := filter (fun xy => cond (fst xy) (snd xy)) all_pos.

  Lemma in_all_pos x y : In (x, y) all_pos <-> x < y < n.
  Proof.
    unfold all_pos. rewrite in_flat_map. split.
    - intros (z & Hz & Hy). apply in_map_iff in Hy. destruct Hy as (w & E & Hw).
      injection E as <- <-. apply in_seq in Hw. apply in_seq in Hz. lia.
    - intros L. exists x. split; [apply in_seq; lia|]. apply in_map, in_seq. lia.
  Qed.
  Lemma nodup_all_pos : NoDup all_pos.
  Proof.
    assert (G : forall l, NoDup l -> NoDup (flat_map (fun x => map (pair x) (seq (S x) (n - S x))) l)).
    { induction l as [|x l IH]; intros Hl; cbn; [constructor|].
      inversion_clear Hl as [|? ? Hx Hl'].
      assert (D : forall (A : Type) (l1 l2 : list A), NoDup l1 -> NoDup l2 ->
        (forall a, In a l1 -> ~ In a l2) -> NoDup (l1 ++ l2)).
      { induction l1 as [|a l1 IH1]; intros l2 N1 N2 D; cbn; [exact N2|].
        inversion_clear N1 as [|? ? Na N1']. constructor.
        - intros C. apply in_app_or in C. destruct C as [C|C]; [auto|]. apply (D a); [left; reflexivity|exact C].
        - apply IH1; auto. intros b Hb. apply D. right. exact Hb. }
      apply D.
      - apply FinFun.Injective_map_NoDup; [|apply seq_NoDup]. intros a b E. injection E as <-. reflexivity.
      - apply IH, Hl'.
      - intros (a, b) Ha Hb. apply in_map_iff in Ha. destruct Ha as (? & E & _). injection E as <- _.
        apply in_flat_map in Hb. destruct Hb as (z & Hz & Hb). apply in_map_iff in Hb.
        destruct Hb as (? & E & _). injection E as -> _. auto. }
    apply G, seq_NoDup.
  Qed.

  Lemma rows_positions : rows 0 = map (fun xy => pr (fst xy) (snd xy)) positions.
  Proof.
    unfold positions, all_pos, rows, row. rewrite Nat.sub_0_r.
    induction (seq 0 n) as [|x l IH]; [reflexivity|].
    cbn [flat_map]. rewrite filter_app, map_app, <- IH. f_equal.
    induction (seq (S x) (n - S x)) as [|y m IHm]; [reflexivity|].
    cbn [flat_map map filter fst snd]. rewrite IHm. unfold emit at 1.
    destruct (cond x y); reflexivity.
  Qed.

  Lemma overlapsN_spec a b : overlapsN a b ez = true <-> too_close ez (N.to_nat a) (N.to_nat b).
  Proof. unfold overlapsN, too_close. lia. Qed.

  Lemma same_collide q x y : 1 <= q <= 8 -> x < y < n ->
    same q (HV x) (HV y) = true <-> collide hashes q x y.
  Proof.
    intros Hq L. rewrite same_agree by (auto using H_u64; lia). unfold collide. split.
    - intros A. split; [lia|]. exists (HV x), (HV y).
      rewrite !(nth_error_nth' hashes 0%N) by lia. auto.
    - intros (_ & hx & hy & Ex & Ey & A).
      rewrite (nth_error_nth' hashes 0%N) in Ex by lia.
      rewrite (nth_error_nth' hashes 0%N) in Ey by lia. injection Ex as <-. injection Ey as <-. exact A.
  Qed.

  Lemma in_positions x y :
    In (x, y) positions <->
    collide hashes p x y /\ ~ in_last_bucket hashes p x /\
    ~ seen_before hashes prev check x y /\ ~ trivial indices ez x y.
  Proof.
    unfold positions. rewrite filter_In, in_all_pos. cbn [fst snd].
    assert (Hlen : n = length indices) by apply tab.
    assert (E : x < y < n -> cond x y = true <->
      collide hashes p x y /\ ~ in_last_bucket hashes p x /\
      ~ seen_before hashes prev check x y /\ ~ trivial indices ez x y).
    { intros L. unfold cond. rewrite !andb_true_iff, !negb_true_iff.
      rewrite same_collide by auto.
      assert (E1 : same p (HV x) (HV (n - 1)) = false <-> ~ in_last_bucket hashes p x).
      { rewrite <- not_true_iff_false. apply not_iff_compat.
        rewrite same_agree by (auto using H_u64; lia). unfold in_last_bucket. split.
        - intros A. exists (HV x), (HV (n - 1)).
          rewrite !(nth_error_nth' hashes 0%N) by lia. auto.
        - intros (hx & hy & Ex & Ey & A).
          rewrite (nth_error_nth' hashes 0%N) in Ex by lia.
          rewrite (nth_error_nth' hashes 0%N) in Ey by lia. injection Ex as <-. injection Ey as <-. exact A. }
      assert (E2 : seenb x y = false <-> ~ seen_before hashes prev check x y).
      { rewrite <- not_true_iff_false. apply not_iff_compat. unfold seenb, seen_before.
        rewrite andb_true_iff.
        assert (G : match prev with Some pp => same pp (HV x) (HV y) | None => false end = true <->
          exists pp, prev = Some pp /\ collide hashes pp x y).
        { generalize Hprev. generalize prev. intros [pp|] Ho.
          - rewrite same_collide by (auto; apply Ho; reflexivity). split; [eauto|].
            intros (q & E & C). injection E as <-. exact C.
          - split; [discriminate|]. intros (q & E & _). discriminate. }
        rewrite G. reflexivity. }
      assert (E3 : overlapsN (IX x) (IX y) ez = false <-> ~ trivial indices ez x y).
      { rewrite <- not_true_iff_false. apply not_iff_compat. rewrite overlapsN_spec. unfold trivial. split.
        - intros A. exists (IX x), (IX y).
          rewrite !(nth_error_nth' indices 0%N) by lia. auto.
        - intros (hx & hy & Ex & Ey & A).
          rewrite (nth_error_nth' indices 0%N) in Ex by lia.
          rewrite (nth_error_nth' indices 0%N) in Ey by lia. injection Ex as <-. injection Ey as <-. exact A. }
      rewrite E1, E2, E3. tauto. }
    split.
    - intros [L C]. apply E; auto.
    - intros C. assert (L : x < y < n).
      { destruct C as ((L & hx & hy & _ & Ey & _) & _). split; [exact L|].
        apply nth_error_Some. congruence. }
      split; [exact L|]. apply E; auto.
  Qed.

  Lemma report_pr x y : x < n -> y < n -> report_of indices (x, y) (pr x y).
  Proof.
    intros Lx Ly. assert (Hlen : n = length indices) by apply tab.
    exists (IX x), (IX y). cbn [fst snd].
    rewrite !(nth_error_nth' indices 0%N) by lia. repeat split; unfold pr; cbn [fst snd]; [lia|].
    destruct (N.le_gt_cases (IX x) (IX y)); [left|right]; f_equal; lia.
  Qed.

  Lemma positions_ok :
    NoDup positions /\
    Forall2 (report_of indices) positions (map (fun xy => pr (fst xy) (snd xy)) positions).
  Proof.
    split; [apply NoDup_filter, nodup_all_pos|].
    assert (G : forall l, (forall x y, In (x, y) l -> x < n /\ y < n) ->
      Forall2 (report_of indices) l (map (fun xy => pr (fst xy) (snd xy)) l)).
    { induction l as [|(x, y) l IH]; intros Hl; cbn [map]; constructor.
      - destruct (Hl x y) as [L1 L2]; [left; reflexivity|]. apply report_pr; assumption.
      - apply IH. intros; apply Hl; right; assumption. }
    apply G. intros x y Hxy. apply filter_In in Hxy. destruct Hxy as [Hxy _].
    apply in_all_pos in Hxy. lia.
  Qed.
End Enum.

Lemma next_range_mono s : fmono (fun f => next_range f s).
Proof. unfold next_range. fmono_tac. Qed.
Lemma enum_new_mono hs ix p prev : fmono (fun f => enum_new f hs ix p prev).
Proof. unfold enum_new. fmono_tac. apply next_range_mono. Qed.
Lemma loop_j_mono cap ez check s i j out : fmono (fun f => loop_j f cap ez check s i j out).
Proof. unfold loop_j. fmono_tac. Qed.
Lemma loop_i_mono cap ez check s out : fmono (fun f => loop_i f cap ez check s out).
Proof. unfold loop_i. fmono_tac. apply loop_j_mono. Qed.
Lemma enum_next_mono cap ez check s : fmono (fun f => enum_next f cap ez check s).
Proof. unfold enum_next. fmono_tac; auto using loop_i_mono, next_range_mono. Qed.
Lemma enum_batches_mono caps ez check s : fmono (fun f => enum_batches f caps ez check s).
Proof.
  revert s. induction caps as [|c caps IH]; intros s; cbn [enum_batches]; fmono_tac; auto using enum_next_mono.
Qed.
Lemma enumerate_mono hs ix p prev check ez caps : fmono (enumerate hs ix p prev check ez caps).
Proof.
  unfold enumerate. apply (fmono_bind (fun f => enum_new f hs ix p prev) (fun f s => enum_batches f caps ez check s));
  auto using enum_new_mono, enum_batches_mono.
Qed.

Lemma enumerate_ok hashes indices p prev check ez :
  table_ok hashes indices -> hashes <> [] -> 1 <= p <= 8 -> (forall pp, prev = Some pp -> 1 <= pp <= 8) ->
  exists (positions : list (nat * nat)) (pairs : list (N * N)),
    NoDup positions /\
    (forall x y, In (x, y) positions <->
       collide hashes p x y /\ ~ in_last_bucket hashes p x /\
       ~ seen_before hashes prev check x y /\ ~ trivial indices ez x y) /\
    Forall2 (report_of indices) positions pairs /\
    forall caps, (forall c, In c caps -> 0 < c) ->
      exists batches fin,
        returns (enumerate hashes indices p prev check ez caps) (batches, fin) /\
        (exists rest, pairs = concat batches ++ rest /\ (fin = true -> rest = [])) /\
        length batches <= length caps /\
        (forall k b c, nth_error batches k = Some b -> nth_error caps k = Some c ->
           1 <= length b <= c /\ (S k < length batches -> length b = c)) /\
        (length pairs < length caps -> fin = true).
Proof.
  intros tab Hne Hp Hprev.
  exists (positions hashes indices p prev check ez), (rows hashes indices p prev check ez 0).
  rewrite rows_positions by assumption.
  split; [apply positions_ok; assumption|].
  split; [intros; apply in_positions; assumption|].
  split; [apply positions_ok; assumption|].
  rewrite <- rows_positions by assumption. intros caps Hc.
  destruct (enum_new_ok hashes indices p prev check ez tab Hp Hprev (S (length hashes)) Hne ltac:(lia))
    as (s & En & Is & Et).
  destruct (enum_batches_ok hashes indices p prev check ez tab Hp Hprev (S (length hashes)) caps s Is Hc ltac:(lia))
    as (bs & fin & Eb & (tl & T1 & T2) & L & B & F).
  exists bs, fin. rewrite Et in *. split; [|split; [exists tl; auto|auto]].
  apply (fmono_returns _ (S (length hashes))); [apply enumerate_mono|].
  unfold enumerate. rewrite En. exact Eb.
Qed.
