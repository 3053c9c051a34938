From Coq Require Import Floats.SpecFloat.
From Verif Require Import Base HashValue HashSpec HashProofs OverlapsSpec Enumerator EnumSpec EnumProofs F64.
From Verif Require Import Profile ProfileSpec.

(** pairs [(j, i)] with [j < i < m] *)
Definition tri (m : nat) : list (nat * nat) :=
  flat_map (fun i => map (fun j => (j, i)) (seq 0 i)) (seq 0 m).
Definition cntf (f : nat -> nat -> bool) (l : list (nat * nat)) : nat :=
  length (filter (fun xy => f (fst xy) (snd xy)) l).
Definition rowf (f : nat -> nat -> bool) (i s : nat) : nat :=
  length (filter (fun j => f j i) (seq s (i - s))).

Lemma in_tri m x y : In (x, y) (tri m) <-> x < y < m.
Proof.
  unfold tri. rewrite in_flat_map. split.
  - intros (z & Hz & Hy). apply in_map_iff in Hy. destruct Hy as (w & E & Hw).
    injection E as <- <-. apply in_seq in Hw. apply in_seq in Hz. lia.
  - intros L. exists y. split; [apply in_seq; lia|]. apply (in_map (fun j => (j, y))), in_seq. lia.
Qed.
Lemma NoDup_app {A} (l1 l2 : list A) : NoDup l1 -> NoDup l2 ->
  (forall a, In a l1 -> ~ In a l2) -> NoDup (l1 ++ l2).
Proof.
  revert l2. induction l1 as [|a l1 IH1]; intros l2 N1 N2 D; cbn; [exact N2|].
  inversion_clear N1 as [|? ? Na N1']. constructor.
  - intros C. apply in_app_or in C. destruct C as [C|C]; [auto|]. apply (D a); [left; reflexivity|exact C].
  - apply IH1; auto. intros b Hb. apply D. right. exact Hb.
Qed.
Lemma nodup_tri m : NoDup (tri m).
Proof.
  unfold tri. assert (G : forall l, NoDup l -> NoDup (flat_map (fun i => map (fun j => (j, i)) (seq 0 i)) l)).
  { induction l as [|x l IH]; intros Hl; cbn; [constructor|].
    inversion_clear Hl as [|? ? Hx Hl']. apply NoDup_app.
    - apply FinFun.Injective_map_NoDup; [|apply seq_NoDup]. intros a b E. injection E as <-. reflexivity.
    - apply IH, Hl'.
    - intros (a, b) Ha Hb. apply in_map_iff in Ha. destruct Ha as (? & E & _). injection E as _ <-.
      apply in_flat_map in Hb. destruct Hb as (z & Hz & Hb). apply in_map_iff in Hb.
      destruct Hb as (? & E & _). injection E as _ ->. auto. }
  apply G, seq_NoDup.
Qed.
Lemma tri_S m : tri (S m) = tri m ++ map (fun j => (j, m)) (seq 0 m).
Proof. unfold tri. rewrite seq_S, flat_map_app. cbn. rewrite app_nil_r. reflexivity. Qed.
Lemma cntf_app f l1 l2 : cntf f (l1 ++ l2) = cntf f l1 + cntf f l2.
Proof. unfold cntf. rewrite filter_app, app_length. reflexivity. Qed.
Lemma cntf_row f i : cntf f (map (fun j => (j, i)) (seq 0 i)) = rowf f i 0.
Proof.
  unfold cntf, rowf. rewrite Nat.sub_0_r. induction (seq 0 i) as [|j l IH]; [reflexivity|].
  cbn. destruct (f j i); cbn; rewrite IH; reflexivity.
Qed.
Lemma rowf_skip f i s : s <= i -> (forall j, j < s -> f j i = false) -> rowf f i 0 = rowf f i s.
Proof.
  intros L H. unfold rowf. rewrite Nat.sub_0_r.
  replace i with (s + (i - s)) at 1 by lia. rewrite seq_app, filter_app, app_length. cbn [Nat.add].
  replace (filter (fun j => f j i) (seq 0 s)) with (@nil nat); [reflexivity|].
  symmetry. assert (G : forall l, (forall j, In j l -> f j i = false) -> filter (fun j => f j i) l = []).
  { induction l as [|a l IH]; intros Hl; [reflexivity|]. cbn. rewrite Hl by (left; reflexivity).
    apply IH. intros; apply Hl; right; assumption. }
  apply G. intros j Hj. apply in_seq in Hj. apply H. lia.
Qed.
Lemma cntf_card f m (P : nat -> nat -> Prop) :
  (forall x y, x < y < m /\ f x y = true <-> P x y) -> card P (cntf f (tri m)).
Proof.
  intros H. exists (filter (fun xy => f (fst xy) (snd xy)) (tri m)).
  split; [apply NoDup_filter, nodup_tri|]. split; [|reflexivity].
  intros x y. rewrite filter_In, in_tri. cbn [fst snd]. apply H.
Qed.
Lemma cntf_le f g l : (forall x y, In (x, y) l -> f x y = true -> g x y = true) -> cntf f l <= cntf g l.
Proof.
  unfold cntf. induction l as [|(x, y) l IH]; intros H; [reflexivity|].
  cbn [filter fst snd]. assert (IH' : length (filter (fun xy => f (fst xy) (snd xy)) l) <= length (filter (fun xy => g (fst xy) (snd xy)) l)).
  { apply IH. intros; apply H; auto. right; assumption. }
  destruct (f x y) eqn:F.
  - rewrite (H x y) by (auto; left; reflexivity). cbn. lia.
  - destruct (g x y); cbn; lia.
Qed.

Section Scan.
  Variables (hashes indices : list N) (ez : nat).
  Hypothesis tab : table_ok hashes indices.
  Notation n := (length hashes).
  Notation HV x := (nth x hashes 0%N).
  Notation IX x := (nth x indices 0%N).
  Definition ovb (x y : nat) : bool := overlapsN (IX y) (IX x) ez.

  Definition tri_sum (f : nat -> nat -> bool) (s e : nat) : nat :=
    list_sum (map (fun i => rowf f i s) (seq s (e - s))).

  Lemma cntf_tri_bucket f s e : s <= e ->
    (forall i j, s <= i -> j < s -> f j i = false) ->
    cntf f (tri e) = cntf f (tri s) + tri_sum f s e.
  Proof.
    intros L H. unfold tri_sum. remember (e - s) as k eqn:Ek. revert e L Ek.
    induction k as [|k IH]; intros e L Ek.
    - replace e with s by lia. cbn. lia.
    - replace e with (S (s + k)) by lia. rewrite tri_S, cntf_app, cntf_row.
      rewrite (IH (s + k)) by lia. rewrite seq_S, map_app. cbn [map].
      rewrite list_sum_app. cbn [list_sum fold_right].
      rewrite (rowf_skip f (s + k) s) by (try lia; intros; apply H; lia).
      cbn. lia.
  Qed.

  Lemma count_bucket_ok s e c t : e <= n ->
    count_bucket indices ez s e (c, t) =
    Ret (c + tri_sum (fun x y => negb (ovb x y)) s e, t + tri_sum ovb s e).
  Proof.
    intros Le. assert (Hlen : n = length indices) by apply tab.
    unfold count_bucket.
    set (body := fun i j (s : nat * nat) =>
            let '(cnt, triv) := s in
            let! a := get indices i in
            let! b := get indices j in
            if negb (overlapsN a b ez) then Ret (cnt + 1, triv) else Ret (cnt, triv + 1)).
    assert (Bd : forall i j c t, i < n -> j < n ->
       body i j (c, t) = Ret (if ovb j i then (c, t + 1) else (c + 1, t))).
    { intros i j c0 t0 Hi Hj. unfold body, ovb.
      rewrite (get_ret indices i 0%N), (get_ret indices j 0%N) by lia. cbn [bind].
      destruct (overlapsN _ _ _); reflexivity. }
    assert (Inner : forall i l c t, i < n -> (forall j, In j l -> j < n) ->
      foreach l (body i) (c, t)
      = Ret (c + length (filter (fun j => negb (ovb j i)) l), t + length (filter (fun j => ovb j i) l))).
    { intros i l. induction l as [|j l IH]; intros c0 t0 Hi Hl; cbn [foreach].
      - cbn. rewrite !Nat.add_0_r. reflexivity.
      - rewrite Bd by (try assumption; apply Hl; left; reflexivity).
        cbn [bind]. assert (Hl' : forall j, In j l -> j < n) by (intros; apply Hl; right; assumption).
        cbn [filter]. destruct (ovb j i); cbn [negb].
        + rewrite IH by assumption. cbn [length]. do 2 f_equal; lia.
        + rewrite IH by assumption. cbn [length]. do 2 f_equal; lia. }
    assert (Outer : forall l c t, (forall i, In i l -> i < n) ->
      foreach l (fun i s0 => foreach (seq s (i - s)) (body i) s0) (c, t)
      = Ret (c + list_sum (map (fun i => rowf (fun x y => negb (ovb x y)) i s) l),
             t + list_sum (map (fun i => rowf ovb i s) l))).
    { induction l as [|i l IH]; intros c0 t0 Hl; cbn [foreach].
      - cbn. rewrite !Nat.add_0_r. reflexivity.
      - rewrite Inner.
        + cbn [bind]. rewrite IH by (intros; apply Hl; right; assumption).
          cbn [map list_sum fold_right]. unfold rowf. do 2 f_equal; unfold list_sum; lia.
        + apply Hl; left; reflexivity.
        + intros j Hj. apply in_seq in Hj. assert (i < n) by (apply Hl; left; reflexivity). lia. }
    apply Outer. intros i Hi. apply in_seq in Hi. lia.
  Qed.

  Lemma noprev : forall pp, @None nat = Some pp -> 1 <= pp <= 8.
  Proof. discriminate. Qed.
  Lemma u64_H x : is_u64 (HV x).
  Proof. destruct (nth_in_or_default x hashes 0%N) as [Hx| ->]; [apply tab, Hx|]. unfold is_u64. lia. Qed.
  Lemma mid p x y z : 1 <= p <= 8 -> x <= y <= z -> z < n -> same p (HV x) (HV z) = true -> same p (HV x) (HV y) = true.
  Proof.
    intros Hp L Lz S. destruct tab as (_ & _ & Hs).
    destruct (same_between p (HV x) (HV y) (HV z)); auto.
    - apply (Hs x y); [lia| |]; apply nth_error_nth'; lia.
    - apply (Hs y z); [lia| |]; apply nth_error_nth'; lia.
  Qed.
  Lemma skip_bucket p s : 1 <= p <= 8 -> s < n ->
    exists off, partition_point (skipn s hashes) (fun h => prefix_eq h (HV s) p) = Ret off /\
      bucket hashes p s (s + off).
  Proof.
    intros Hp Hs.
    assert (Nsk : forall i, nth i (skipn s hashes) 0%N = HV (s + i)).
    { intros i. rewrite <- (firstn_skipn s hashes) at 2.
      rewrite app_nth2; rewrite firstn_length, Nat.min_l by lia; [|lia]. f_equal. lia. }
    destruct (partition_point_ok (skipn s hashes) (fun hv => same p hv (HV s)) 0%N) as (k & Ek & K1 & K2 & K3).
    { intros a b L1 L2 Sm. rewrite skipn_length in L2. rewrite Nsk in *.
      rewrite same_sym in *. apply (mid p s (s + a) (s + b)); try lia; auto. }
    rewrite skipn_length in K1, K3.
    exists k. split.
    - etransitivity; [|exact Ek].
      assert (PS : forall m l b s0, incl l hashes ->
           partition_search m l (fun hv => prefix_eq hv (HV s) p) b s0 =
           partition_search m l (fun hv => Ret (same p hv (HV s))) b s0).
      { induction m as [|m IHm]; intros l b s0 Hl; cbn [partition_search];
          destruct (s0 <=? 1); try reflexivity.
        unfold get. destruct (nth_error l (b + s0 / 2)) eqn:En; cbn [bind]; [|reflexivity].
        rewrite prefix_eq_same by (solve [lia|apply u64_H|apply tab, Hl; eapply nth_error_In; eauto]).
        cbn [bind]. apply IHm, Hl. }
      assert (Hin : incl (skipn s hashes) hashes).
      { intros x Hx. rewrite <- (firstn_skipn s hashes). apply in_or_app; auto. }
      revert Hin. generalize (skipn s hashes). intros l Hl. unfold partition_point.
      destruct l as [|a t]; [reflexivity|]. rewrite PS by exact Hl.
      destruct (partition_search _ _ _ _ _); cbn [bind]; try reflexivity.
      unfold get. destruct (nth_error _ _) eqn:En; cbn [bind]; [|reflexivity].
      rewrite prefix_eq_same by (solve [lia|apply u64_H|apply tab, Hl; eapply nth_error_In; eauto]).
      reflexivity.
    - assert (Kpos : 0 < k).
      { destruct k; [|lia]. specialize (K3 0 ltac:(lia) ltac:(lia)). rewrite Nsk, Nat.add_0_r in K3.
        rewrite same_refl in K3. discriminate. }
      split; [lia|]. split.
      + intros x L1 L2. specialize (K2 (x - s) ltac:(lia)). rewrite Nsk in K2.
        replace (s + (x - s)) with x in K2 by lia. rewrite same_sym. exact K2.
      + intros L. specialize (K3 k ltac:(lia) ltac:(lia)). rewrite Nsk in K3. rewrite same_sym. exact K3.
  Qed.

  Lemma bucket_sep p s e : 1 <= p <= 8 -> bucket hashes p s e ->
    forall i j, e <= i -> i < n -> s <= j < e -> same p (HV j) (HV i) = false.
  Proof.
    intros Hp (B1 & B2 & B3) i j Li Ln Lj. destruct (same p (HV j) (HV i)) eqn:E; [exfalso|reflexivity].
    assert (same p (HV s) (HV i) = true) by (eapply same_trans; [apply B2|exact E]; lia).
    assert (same p (HV s) (HV e) = true) by (apply (mid p s e i); try lia; auto).
    rewrite B3 in * by lia. discriminate.
  Qed.
  Lemma bucket_in p s e : bucket hashes p s e ->
    forall i j, s <= i < e -> s <= j < e -> same p (HV j) (HV i) = true.
  Proof.
    intros (B1 & B2 & B3) i j Li Lj. eapply same_trans; [rewrite same_sym; apply B2|apply B2]; lia.
  Qed.

  Lemma cntf_ext f g l : (forall x y, In (x, y) l -> f x y = g x y) -> cntf f l = cntf g l.
  Proof.
    intros H. apply Nat.le_antisymm; apply cntf_le; intros x y Hxy E; [rewrite <- H|rewrite H]; auto.
  Qed.
  Lemma tri_sum_ext f g s e : (forall i j, s <= j < i -> i < e -> f j i = g j i) -> tri_sum f s e = tri_sum g s e.
  Proof.
    intros H. unfold tri_sum. f_equal. apply map_ext_in. intros i Hi. apply in_seq in Hi.
    unfold rowf. f_equal. apply filter_ext_in. intros j Hj. apply in_seq in Hj. apply H; lia.
  Qed.
  Lemma tri_sum_all s e : s <= e -> tri_sum (fun _ _ => true) s e = (e - s) * (e - s - 1) / 2.
  Proof.
    intros L. unfold tri_sum.
    assert (R : forall i, rowf (fun _ _ => true) i s = i - s).
    { intros i. unfold rowf. rewrite <- (seq_length (i - s) s) at 2.
      f_equal. induction (seq s (i - s)); cbn; congruence. }
    rewrite (map_ext _ _ R). remember (e - s) as k. clear Heqk L e.
    assert (G : 2 * list_sum (map (fun i => i - s) (seq s k)) = k * (k - 1)).
    { induction k as [|k IH]; [reflexivity|].
      rewrite seq_S, map_app, list_sum_app. cbn [map list_sum fold_right].
      rewrite Nat.mul_add_distr_l, IH. destruct k; cbn; lia. }
    rewrite <- G. rewrite Nat.mul_comm, Nat.div_mul by lia. reflexivity.
  Qed.

  (** counts outside the previous buckets *)
  Lemma step_count p f s e :
    1 <= p <= 8 -> bucket hashes p s e ->
    (forall i j, i < n -> j < s -> s <= i -> same p (HV j) (HV i) = false) ->
    cntf (fun x y => same p (HV x) (HV y) && f x y) (tri e) =
    cntf (fun x y => same p (HV x) (HV y) && f x y) (tri s) + tri_sum f s e.
  Proof.
    intros Hp B Sep. pose proof B as (B1 & _).
    set (g := fun x y => (y <? n) && (same p (HV x) (HV y) && f x y)).
    rewrite (cntf_ext _ g (tri e)), (cntf_ext _ g (tri s)).
    2,3: intros x y Hxy; apply in_tri in Hxy; unfold g; destruct (Nat.ltb_spec y n); [reflexivity|lia].
    rewrite (cntf_tri_bucket g s e); [|lia|].
    2:{ intros i j Hi Hj. unfold g. destruct (Nat.ltb_spec i n); [|reflexivity]. cbn [andb].
        rewrite Sep by lia. reflexivity. }
    f_equal. apply tri_sum_ext. intros i j Hj Hi. unfold g.
    destruct (Nat.ltb_spec i n); [|lia]. rewrite (bucket_in p s e B) by lia. reflexivity.
  Qed.

  Lemma scan_prefix_ok p fuel : 1 <= p <= 8 -> n < fuel ->
    exists t, scan_prefix hashes indices ez p fuel =
      Ret (cntf (fun x y => same p (HV x) (HV y) && (if p =? 8 then negb (ovb x y) else true)) (tri n), t) /\
      (p = 8 -> t = cntf (fun x y => same p (HV x) (HV y) && ovb x y) (tri n)).
  Proof.
    intros Hp Hf. unfold scan_prefix.
    set (f := fun x y => if p =? 8 then negb (ovb x y) else true).
    match goal with |- context [loop fuel ?b ?s0] =>
      destruct (loop_measure b
        (fun a : nat * nat * nat => let '(s, c, t) := a in
           s <= n /\ (forall i j, i < n -> j < s -> s <= i -> same p (HV j) (HV i) = false) /\
           c = cntf (fun x y => same p (HV x) (HV y) && f x y) (tri s) /\
           (p = 8 -> t = cntf (fun x y => same p (HV x) (HV y) && ovb x y) (tri s)))
        (fun r : nat * nat => let '(c, t) := r in
           c = cntf (fun x y => same p (HV x) (HV y) && f x y) (tri n) /\
           (p = 8 -> t = cntf (fun x y => same p (HV x) (HV y) && ovb x y) (tri n)))
        (fun a => n - fst (fst a))) with (s := s0) (fuel := fuel) as ((c, t) & E & Q)
    end.
    - intros ((s, c), t) (I1 & I2 & I3 & I4). cbn [fst].
      destruct (Nat.ltb_spec s n) as [L|L].
      + rewrite (get_ret hashes s 0%N) by exact L. cbn [bind].
        destruct (skip_bucket p s Hp L) as (off & Eo & B). rewrite Eo. cbn [bind].
        pose proof B as ((B1 & B1') & B2 & B3).
        destruct (Nat.ltb_spec s (s + off)) as [_|]; [|lia]. cbn [assert_].
        assert (Sep : forall i j, i < n -> j < s + off -> s + off <= i -> same p (HV j) (HV i) = false).
        { intros i j Hi Hj Hij. destruct (Nat.lt_ge_cases j s) as [Ljs|Ljs].
          - apply I2; lia.
          - apply (bucket_sep p s (s + off) Hp B); lia. }
        unfold K. left. destruct (Nat.eqb_spec p 8) as [P8|P8].
        * rewrite count_bucket_ok by lia. cbn [bind].
          eexists. split; [reflexivity|]. cbn [fst]. split; [|lia].
          split; [lia|]. split; [exact Sep|]. split.
          -- rewrite (step_count p f s (s + off)) by auto. rewrite I3. cbn [Nat.add].
             reflexivity.
          -- intros _. rewrite (step_count p ovb s (s + off)) by auto. rewrite I4 by exact P8. reflexivity.
        * eexists. split; [reflexivity|]. cbn [fst]. split; [|lia].
          split; [lia|]. split; [exact Sep|]. split; [|congruence].
          rewrite (step_count p f s (s + off)) by auto. rewrite <- I3. f_equal.
          rewrite <- tri_sum_all by lia. apply tri_sum_ext. intros. unfold f.
          destruct (Nat.eqb_spec p 8); [congruence|reflexivity].
      + right. eexists. split; [reflexivity|]. replace s with n in * by lia. split; assumption.
    - split; [lia|]. split; [intros; lia|]. split; [reflexivity|]. intros; reflexivity.
    - cbn [fst]. lia.
    - exists t. destruct Q as [Q1 Q2]. rewrite E, Q1. auto.
  Qed.

  Definition cnt_at (p : nat) : nat := cntf (fun x y => same p (HV x) (HV y)) (tri n).
  Definition cnt8 : nat := cntf (fun x y => same 8 (HV x) (HV y) && negb (ovb x y)) (tri n).
  Definition triv8 : nat := cntf (fun x y => same 8 (HV x) (HV y) && ovb x y) (tri n).

  Lemma same_mono p q x y : p <= q -> q <= 8 -> same q (HV x) (HV y) = true -> same p (HV x) (HV y) = true.
  Proof.
    intros L Lq S. assert (Ux := u64_H x). assert (Uy := u64_H y).
    apply same_agree in S; auto.
    apply same_agree; auto; [lia|]. eapply agree_shorter; eauto.
  Qed.
  Lemma cnt_at_mono p q : p <= q -> q <= 8 -> cnt_at q <= cnt_at p.
  Proof. intros L Lq. apply cntf_le. intros x y _. apply same_mono; auto. Qed.
  Lemma triv8_le p : p <= 8 -> triv8 <= cnt_at p.
  Proof.
    intros L. apply cntf_le. intros x y _ E. apply andb_true_iff in E. eapply same_mono; [exact L|lia|apply E].
  Qed.

  Lemma collision_profile_ok fuel : n < fuel ->
    collision_profile_at hashes indices ez fuel =
    Ret (map (fun p => (Z.of_nat (cnt_at p) - Z.of_nat triv8)%Z) (seq 1 7) ++ [Z.of_nat cnt8]).
  Proof.
    intros Hf. unfold collision_profile_at.
    assert (S1 : forall p, 1 <= p < 8 -> exists t, scan_prefix hashes indices ez p fuel = Ret (cnt_at p, t)).
    { intros p Hp. destruct (scan_prefix_ok p fuel ltac:(lia) Hf) as (t & E & _). exists t. rewrite E.
      do 2 f_equal. apply cntf_ext. intros x y _. destruct (Nat.eqb_spec p 8); [lia|]. apply andb_true_r. }
    assert (S8 : scan_prefix hashes indices ez 8 fuel = Ret (cnt8, triv8)).
    { destruct (scan_prefix_ok 8 fuel ltac:(lia) Hf) as (t & E & T). rewrite E, T by reflexivity. reflexivity. }
    destruct (S1 1) as (t1 & E1); [lia|]. destruct (S1 2) as (t2 & E2); [lia|].
    destruct (S1 3) as (t3 & E3); [lia|]. destruct (S1 4) as (t4 & E4); [lia|].
    destruct (S1 5) as (t5 & E5); [lia|]. destruct (S1 6) as (t6 & E6); [lia|].
    destruct (S1 7) as (t7 & E7); [lia|].
    unfold K. change (seq 1 8) with [1; 2; 3; 4; 5; 6; 7; 8]. cbn [foreach].
    rewrite E1; cbn [bind app]. rewrite E2; cbn [bind app]. rewrite E3; cbn [bind app].
    rewrite E4; cbn [bind app]. rewrite E5; cbn [bind app]. rewrite E6; cbn [bind app].
    rewrite E7; cbn [bind app]. rewrite S8; cbn [bind app].
    unfold get. cbn [Nat.sub nth_error bind firstn foreach fst].
    assert (A : forall p, p <= 8 -> (0 <=? Z.of_nat (cnt_at p) - Z.of_nat triv8)%Z = true).
    { intros p L. pose proof (triv8_le p L). lia. }
    rewrite !A by lia. cbn [assert_ bind app]. reflexivity.
  Qed.

  Lemma card_cnt_at p : 1 <= p <= 8 -> card (collide hashes p) (cnt_at p).
  Proof.
    intros Hp. apply cntf_card. intros x y. split.
    - intros [L S]. apply (same_collide hashes indices p None tab Hp noprev p x y Hp L). exact S.
    - intros C. assert (L : x < y < n).
      { destruct C as (L & hx & hy & _ & Ey & _). split; [exact L|]. apply nth_error_Some. congruence. }
      split; [exact L|]. apply (same_collide hashes indices p None tab Hp noprev p x y Hp L). exact C.
  Qed.
  Lemma ovb_trivial x y : x < y < n -> ovb x y = true <-> trivial indices ez x y.
  Proof.
    intros L. assert (Hlen : n = length indices) by apply tab. unfold ovb. rewrite (overlapsN_spec 1 None ez ltac:(lia) noprev). unfold trivial. split.
    - intros A. exists (IX x), (IX y). rewrite !(nth_error_nth' indices 0%N) by lia.
      split; [reflexivity|]. split; [reflexivity|]. unfold too_close in *. lia.
    - intros (a & b & Ea & Eb & A).
      rewrite (nth_error_nth' indices 0%N) in Ea by lia.
      rewrite (nth_error_nth' indices 0%N) in Eb by lia. injection Ea as <-. injection Eb as <-.
      unfold too_close in *. lia.
  Qed.
  Lemma collide_lt p x y : collide hashes p x y -> x < y < n.
  Proof.
    intros (L & hx & hy & _ & Ey & _). split; [exact L|]. apply nth_error_Some. congruence.
  Qed.
  Lemma card_cnt8 : card (fun x y => collide hashes 8 x y /\ ~ trivial indices ez x y) cnt8.
  Proof.
    apply cntf_card. intros x y. split.
    - intros [L S]. apply andb_true_iff in S. destruct S as [S1 S2]. split.
      + apply (same_collide hashes indices 8 None tab ltac:(lia) noprev 8 x y ltac:(lia) L). exact S1.
      + rewrite <- ovb_trivial by exact L. destruct (ovb x y); cbn in S2; congruence.
    - intros [C T]. pose proof (collide_lt _ _ _ C) as L. split; [exact L|]. apply andb_true_iff. split.
      + apply (same_collide hashes indices 8 None tab ltac:(lia) noprev 8 x y ltac:(lia) L). exact C.
      + rewrite <- ovb_trivial in T by exact L. destruct (ovb x y); cbn; congruence.
  Qed.
  Lemma card_triv8 : card (fun x y => collide hashes 8 x y /\ trivial indices ez x y) triv8.
  Proof.
    apply cntf_card. intros x y. split.
    - intros [L S]. apply andb_true_iff in S. destruct S as [S1 S2]. split.
      + apply (same_collide hashes indices 8 None tab ltac:(lia) noprev 8 x y ltac:(lia) L). exact S1.
      + apply ovb_trivial; auto.
    - intros [C T]. pose proof (collide_lt _ _ _ C) as L. split; [exact L|]. apply andb_true_iff. split.
      + apply (same_collide hashes indices 8 None tab ltac:(lia) noprev 8 x y ltac:(lia) L). exact C.
      + apply ovb_trivial; auto.
  Qed.
End Scan.

(** ** Starting prefix *)
Lemma rfind_ge1_spec l i r : rfind_ge1 i l = Some r ->
  exists k, r = i + k /\ (exists c, nth_error l k = Some c /\ fle f_one c = true) /\
    forall k' c, k < k' -> nth_error l k' = Some c -> fle f_one c = false.
Proof.
  revert i r. induction l as [|c l IH]; intros i r E; cbn in E; [discriminate|].
  destruct (rfind_ge1 (S i) l) as [r'|] eqn:F.
  - injection E as <-. destruct (IH _ _ F) as (k & -> & A & B). exists (S k). split; [lia|].
    split; [exact A|]. intros k' c' L H. destruct k'; [lia|]. apply (B k' c'); [lia|exact H].
  - destruct (fle f_one c) eqn:G; [|discriminate]. injection E as <-. exists 0. split; [lia|].
    split; [exists c; auto|]. intros k' c' L H. destruct k' as [|k']; [lia|]. cbn in H.
    clear - F H. revert i k' F H. induction l as [|a l IH]; intros i k' F H; [destruct k'; discriminate|].
    cbn in F. destruct (rfind_ge1 (S (S i)) l) eqn:F2; [discriminate|].
    destruct k' as [|k']; cbn in H.
    + injection H as ->. destruct (fle f_one c'); [discriminate|reflexivity].
    + eapply IH; eauto.
Qed.
Lemma rfind_ge1_none l i : rfind_ge1 i l = None -> forall c, In c l -> fle f_one c = false.
Proof.
  revert i. induction l as [|a l IH]; intros i F c H; [destruct H|]. cbn in F.
  destruct (rfind_ge1 (S i) l) eqn:F2; [discriminate|].
  destruct H as [->|H]; [|eauto]. destruct (fle f_one c); [discriminate|reflexivity].
Qed.

(** ** Memory *)
Lemma max_repetitions_ok n reps mem : (0 < n)%N ->
  exists m, returns (max_repetitions n reps mem) m /\
    (N.min 4 reps <= m)%N /\
    (required_memory n (m + 1) > mem)%N /\
    ((required_memory n m <= mem)%N \/ m = N.min 4 reps).
Proof.
  intros Hn.
  assert (G : exists m, max_repetitions n reps mem (S (N.to_nat (mem + 1))) = Ret m /\
    ((N.min 4 reps <= m)%N /\
    (required_memory n (m + 1) > mem)%N /\
    ((required_memory n m <= mem)%N \/ m = N.min 4 reps))).
  { unfold max_repetitions. apply loop_measure with
      (I := fun m => (N.min 4 reps <= m)%N /\ ((required_memory n m <= mem)%N \/ m = N.min 4 reps))
      (m := fun m => N.to_nat (mem + 1 - m)).
    - intros m (I1 & I2). destruct (N.leb_spec (required_memory n (1 + m)) mem) as [L|L].
      + left. eexists. split; [reflexivity|]. unfold required_memory in *.
        split; [split; [lia|left; replace (m + 1)%N with (1 + m)%N by lia; exact L]|].
        assert (1 + m <= mem)%N by nia. lia.
      + right. eexists. split; [reflexivity|]. split; [exact I1|]. split; [|exact I2].
        replace (m + 1)%N with (1 + m)%N by lia. lia.
    - split; [lia|right; reflexivity].
    - lia. }
  destruct G as (m & E & Q). exists m. split; [|exact Q].
  eapply fmono_returns; [|exact E]. unfold max_repetitions. fmono_tac.
Qed.

Lemma max_repetitions_zero reps mem : diverges (max_repetitions 0 reps mem).
Proof.
  intros f. unfold max_repetitions. apply loop_diverges with (I := fun _ => True); [|exact I].
  intros m _. exists (m + 1)%N. split; [|exact I].
  unfold required_memory. destruct (N.leb_spec ((1 + m) * 0 * 8 + (1 + m) * 0 * 4) mem); [reflexivity|lia].
Qed.

Lemma max_in_memory_ok n sys : (0 < n)%N ->
  exists m, returns (max_repetitions_in_memory n sys) m /\
    (required_memory n m >= sys / 2)%N /\
    (forall m', (m' < m)%N -> (required_memory n m' < sys / 2)%N).
Proof.
  intros Hn. set (cap := (sys / 2)%N).
  assert (G : exists m, max_repetitions_in_memory n sys (S (N.to_nat (cap + 1))) = Ret m /\
    ((required_memory n m >= cap)%N /\ (forall m', (m' < m)%N -> (required_memory n m' < cap)%N))).
  { unfold max_repetitions_in_memory. fold cap. apply loop_measure with
      (I := fun m => (forall m', (m' < m)%N -> (required_memory n m' < cap)%N))
      (m := fun m => N.to_nat (cap + 1 - m)).
    - intros m I1. destruct (N.ltb_spec (required_memory n m) cap) as [L|L].
      + left. eexists. split; [reflexivity|]. split.
        * intros m' Lm. destruct (N.eq_dec m' m) as [->|]; [exact L|]. apply I1. lia.
        * unfold required_memory in L. assert (m <= cap)%N by nia. lia.
      + right. eexists. split; [reflexivity|]. split; [lia|exact I1].
    - intros m' Lm. lia.
    - lia. }
  destruct G as (m & E & Q). exists m. split; [|exact Q].
  eapply fmono_returns; [|exact E]. unfold max_repetitions_in_memory. fmono_tac.
Qed.

(** the placement of the tables after any sequence of growths *)
Fixpoint grow (cap : N) (pl : list bool) (totals : list nat) : res (list bool) :=
  match totals with
  | [] => Ret pl
  | t :: ts => let! pl := add_placements cap pl t in grow cap pl ts
  end.
Definition placement (cap : N) (r : nat) : bool := negb (cap <? N.of_nat r)%N.
Lemma grow_ok cap totals k pl :
  grow cap (map (placement cap) (seq 0 k)) totals = Ret pl ->
  pl = map (placement cap) (seq 0 (length pl)).
Proof.
  revert k. induction totals as [|t ts IH]; intros k E; cbn [grow] in E.
  - apply Ret_inj in E. subst. rewrite map_length, seq_length. reflexivity.
  - unfold add_placements in E. rewrite map_length, seq_length in E.
    destruct (Nat.ltb_spec k t) as [L|L]; cbn [assert_ bind] in E; [|discriminate].
    assert (Q : map (placement cap) (seq 0 k) ++ map (fun i => negb (cap <? N.of_nat (k + i))%N) (seq 0 (t - k))
        = map (placement cap) (seq 0 t)).
    { replace t with (k + (t - k)) at 2 by lia. rewrite seq_app, map_app. f_equal.
      cbn [Nat.add]. clear. revert k. assert (G : forall m s k, map (fun i => negb (cap <? N.of_nat (k + i))%N) (seq s m) = map (placement cap) (seq (k + s) m)).
      { induction m as [|m IH]; intros s k; [reflexivity|]. cbn [seq map]. rewrite IH.
        replace (k + S s) with (S (k + s)) by lia. reflexivity. }
      intros k. rewrite G, Nat.add_0_r. reflexivity. }
    rewrite Q in E. apply (IH t E).
Qed.
Lemma count_placements cap k :
  length (filter (fun b => b) (map (placement cap) (seq 0 k))) = Nat.min k (N.to_nat cap + 1).
Proof.
  induction k as [|k IH]; [reflexivity|].
  rewrite seq_S, map_app, filter_app, app_length, IH. cbn [map filter Nat.add].
  unfold placement. destruct (N.ltb_spec cap (N.of_nat k)); cbn [negb length]; lia.
Qed.
