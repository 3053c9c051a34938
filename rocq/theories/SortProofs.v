From Verif Require Import Base HashValue HashSpec HashProofs RadixSort SortSpec.

(** ** Prefix sums *)
Fixpoint psum (f : nat -> nat) (n : nat) : nat :=
  match n with
  | O => 0
  | S n => psum f n + f n
  end.
Lemma psum_ext f g n : (forall i, i < n -> f i = g i) -> psum f n = psum g n.
Proof.
  induction n as [|n IH]; intros H; cbn; [reflexivity|].
  rewrite IH, H by (intros; try apply H; lia). reflexivity.
Qed.
Lemma psum_mono f n m : n <= m -> psum f n <= psum f m.
Proof. induction 1; cbn; lia. Qed.
Lemma psum_block f n m : n < m -> psum f n + f n <= psum f m.
Proof. intros H. change (psum f (S n) <= psum f m). apply psum_mono; lia. Qed.

Lemma psum_locate f n k : k < psum f n -> exists v j, v < n /\ j < f v /\ k = psum f v + j.
Proof.
  induction n as [|n IH]; cbn; intros H; [lia|].
  destruct (Nat.lt_ge_cases k (psum f n)) as [L|L].
  - destruct (IH L) as (v & j & Hv & Hj & E). exists v, j. lia.
  - exists n, (k - psum f n). lia.
Qed.

Lemma concat_length_psum {A} (F : nat -> list A) n :
  length (concat (map F (seq 0 n))) = psum (fun v => length (F v)) n.
Proof.
  induction n as [|n IH]; [reflexivity|].
  rewrite seq_S, map_app, concat_app, app_length, IH. cbn. rewrite app_nil_r. reflexivity.
Qed.
Lemma nth_error_concat {A} (F : nat -> list A) n v j :
  v < n -> j < length (F v) ->
  nth_error (concat (map F (seq 0 n))) (psum (fun v => length (F v)) v + j) = nth_error (F v) j.
Proof.
  induction n as [|n IH]; intros Hv Hj; [lia|].
  rewrite seq_S, map_app, concat_app. cbn [map concat]. rewrite app_nil_r.
  destruct (Nat.eq_dec v n) as [->|Hne].
  - rewrite nth_error_app2; rewrite concat_length_psum; [|lia]. f_equal. lia.
  - rewrite nth_error_app1; [apply IH; lia|].
    rewrite concat_length_psum.
    pose proof (psum_block (fun v => length (F v)) v n ltac:(lia)). cbn in *. lia.
Qed.

Lemma seq_split_at s n pre a post : seq s n = pre ++ a :: post -> a = s + length pre /\ length pre < n.
Proof.
  revert s pre. induction n as [|n IH]; intros s pre E; cbn in E.
  - destruct pre; discriminate.
  - destruct pre as [|p pre]; cbn in E; injection E as E1 E2.
    + subst. cbn. lia.
    + apply IH in E2. cbn. lia.
Qed.

(** ** Histogram arrays *)
Definition hist_ok (b : list (list nat)) (f : nat -> nat -> nat) : Prop :=
  length b = 8 /\
  forall i, i < 8 -> exists row, nth_error b i = Some row /\ length row = 256 /\
    forall v, v < 256 -> nth_error row v = Some (f i v).

Lemma hist_ok_ext b f g :
  hist_ok b f -> (forall i v, i < 8 -> v < 256 -> f i v = g i v) -> hist_ok b g.
Proof.
  intros [HL H] E. split; [exact HL|]. intros i Hi. destruct (H i Hi) as (row & H1 & H2 & H3).
  exists row. repeat split; auto. intros v Hv. rewrite H3, E by auto. reflexivity.
Qed.
Lemma get2_ok b f i v : hist_ok b f -> i < 8 -> v < 256 -> get2 b i v = Ret (f i v).
Proof.
  intros [HL H] Hi Hv. destruct (H i Hi) as (row & H1 & H2 & H3).
  unfold get2. rewrite (get_some _ _ _ H1). cbn [bind]. apply get_some, H3, Hv.
Qed.
Lemma put2_ok b f i v x : hist_ok b f -> i < 8 -> v < 256 ->
  exists b', put2 b i v x = Ret b' /\
    hist_ok b' (fun i' v' => if (i' =? i) && (v' =? v) then x else f i' v').
Proof.
  intros [HL H] Hi Hv. destruct (H i Hi) as (row & H1 & H2 & H3).
  unfold put2. rewrite (get_some _ _ _ H1). cbn [bind]. unfold put.
  destruct (set_nth_some row v x ltac:(lia)) as (row' & E1). rewrite E1. cbn [bind].
  destruct (set_nth_some b i row' ltac:(lia)) as (b' & E2). rewrite E2.
  exists b'. split; [reflexivity|]. split; [rewrite (set_nth_length _ _ _ _ E2); exact HL|].
  intros i' Hi'. rewrite (set_nth_nth _ _ _ _ i' E2).
  destruct (Nat.eqb_spec i' i) as [->|Hne]; cbn [andb].
  - exists row'. repeat split; [rewrite (set_nth_length _ _ _ _ E1); exact H2|].
    intros v' Hv'. rewrite (set_nth_nth _ _ _ _ v' E1).
    destruct (v' =? v); [reflexivity|]. apply H3, Hv'.
  - destruct (H i' Hi') as (r & R1 & R2 & R3). exists r. auto.
Qed.
Lemma get_row_ok b f i : hist_ok b f -> i < 8 ->
  exists row, get b i = Ret row /\ length row = 256 /\ forall v, v < 256 -> nth_error row v = Some (f i v).
Proof.
  intros [HL H] Hi. destruct (H i Hi) as (row & H1 & H2 & H3). exists row.
  rewrite (get_some _ _ _ H1). auto.
Qed.

Lemma getbyte_eq h i : getbyte h i = N.to_nat ((h / 2 ^ (8 * N.of_nat i)) mod 256)%N.
Proof.
  unfold getbyte. change 0xff%N with (N.ones 8). rewrite N.land_ones, N.shiftr_div_pow2. reflexivity.
Qed.
Lemma getbyte_lt h i : getbyte h i < 256.
Proof.
  rewrite getbyte_eq. pose proof (N.mod_lt (h / 2 ^ (8 * N.of_nat i)) 256 ltac:(lia)). lia.
Qed.

Definition isb (i v : nat) (e : hpair) : bool := getbyte (fst e) i =? v.
Definition cnt (data : list hpair) (i v : nat) : nat := length (filter (isb i v) data).

Lemma cnt_app l1 l2 i v : cnt (l1 ++ l2) i v = cnt l1 i v + cnt l2 i v.
Proof. unfold cnt. rewrite filter_app, app_length. reflexivity. Qed.
Lemma cnt_perm l l' i v : Permutation l l' -> cnt l i v = cnt l' i v.
Proof.
  intros H. unfold cnt.
  induction H as [|x l l' H IH|x y l|l1 l2 l3 H1 IH1 H2 IH2]; cbn.
  - reflexivity.
  - destruct (isb i v x); cbn; lia.
  - destruct (isb i v x), (isb i v y); reflexivity.
  - lia.
Qed.

Lemma histograms_ok data : exists b, histograms data = Ret b /\ hist_ok b (cnt data).
Proof.
  unfold histograms.
  apply (foreach_inv _ (fun pre b => hist_ok b (cnt pre))).
  - split; [reflexivity|]. intros i Hi.
    exists (repeat 0 256). split; [|split].
    + do 8 (destruct i as [|i]; [reflexivity|]). lia.
    + apply repeat_length.
    + intros v Hv. rewrite (nth_error_nth' _ 0) by (rewrite repeat_length; exact Hv).
      rewrite nth_repeat. reflexivity.
  - intros pre e post b E HI.
    destruct (foreach_inv
      (fun i b => let! c := get2 b i (getbyte (fst e) i) in put2 b i (getbyte (fst e) i) (c + 1))
      (fun done b => hist_ok b (fun i v => cnt pre i v +
           if (i <? length done) && (getbyte (fst e) i =? v) then 1 else 0))
      (seq 0 BYTES) b) as (b' & E' & HI').
    + eapply hist_ok_ext; [exact HI|]. cbn. intros; lia.
    + intros done a todo b1 Es HI1. apply seq_split_at in Es. destruct Es as [Ea Hlt].
      cbn in Ea. subst a. change BYTES with 8 in Hlt.
      rewrite (get2_ok _ _ _ _ HI1 Hlt (getbyte_lt _ _)). cbn [bind].
      destruct (put2_ok b1 _ (length done) (getbyte (fst e) (length done))
        (cnt pre (length done) (getbyte (fst e) (length done)) +
          (if (length done <? length done) &&
              (getbyte (fst e) (length done) =? getbyte (fst e) (length done)) then 1 else 0) + 1)
         HI1 Hlt (getbyte_lt _ _))
        as (b2 & E2 & HI2).
      exists b2. split; [exact E2|].
      eapply hist_ok_ext; [exact HI2|].
      intros i v Hi Hv. cbn beta. rewrite app_length. cbn [length].
      destruct (Nat.eqb_spec i (length done)) as [->|Hne]; cbn [andb].
      * rewrite Nat.ltb_irrefl. cbn [andb].
        destruct (Nat.ltb_spec (length done) (length done + 1)); [|lia]. cbn [andb].
        destruct (Nat.eqb_spec v (getbyte (fst e) (length done))) as [->|Hv2].
        -- rewrite Nat.eqb_refl. lia.
        -- destruct (Nat.eqb_spec (getbyte (fst e) (length done)) v); [congruence|lia].
      * destruct (Nat.ltb_spec i (length done)), (Nat.ltb_spec i (length done + 1)); try lia; reflexivity.
    + exists b'. split; [exact E'|]. eapply hist_ok_ext; [exact HI'|].
      intros i v Hi Hv. rewrite cnt_app. cbn beta. f_equal.
      rewrite seq_length. destruct (Nat.ltb_spec i BYTES); [|unfold BYTES in *; lia]. cbn [andb].
      unfold cnt. cbn [filter]. unfold isb at 1. destruct (getbyte (fst e) i =? v); reflexivity.
Qed.

Lemma write_heads_ok b c : hist_ok b c ->
  exists b', write_heads b = Ret b' /\ hist_ok b' (fun j v => psum (c j) v).
Proof.
  intros HI0. unfold write_heads.
  set (body := fun i (s : list (list nat) * list nat) => foreach (seq 0 BYTES)
           (fun j (s : list (list nat) * list nat) =>
              let '(b, sum) := s in
              let! sj := get sum j in
              let! bji := get2 b j i in
              let! b := put2 b j i sj in
              let! sum := put sum j (sj + bji) in
              Ret (b, sum)) s).
  destruct (foreach_inv body
    (fun pre s => hist_ok (fst s) (fun j v => if v <? length pre then psum (c j) v else c j v) /\
       length (snd s) = 8 /\
       forall j, j < 8 -> nth_error (snd s) j = Some (psum (c j) (length pre)))
    (seq 0 256) (b, repeat 0 BYTES)) as ([b' sum'] & E & HI & _ & _).
  - cbn [fst snd length]. split; [|split].
    + eapply hist_ok_ext; [exact HI0|]. cbn. reflexivity.
    + reflexivity.
    + intros j Hj. cbn [psum]. do 8 (destruct j as [|j]; [reflexivity|]). lia.
  - intros pre i post [b1 sum1] Es (HI1 & HL1 & HS1). apply seq_split_at in Es.
    destruct Es as [Ei Hi]. cbn in Ei. subst i. cbn [fst snd] in *.
    unfold body at 1.
    destruct (foreach_inv
      (fun j (s : list (list nat) * list nat) =>
              let '(b, sum) := s in
              let! sj := get sum j in
              let! bji := get2 b j (length pre) in
              let! b := put2 b j (length pre) sj in
              let! sum := put sum j (sj + bji) in
              Ret (b, sum))
      (fun done s =>
         hist_ok (fst s) (fun j v => if v <? (if j <? length done then S (length pre) else length pre)
                                     then psum (c j) v else c j v) /\
         length (snd s) = 8 /\
         forall j, j < 8 -> nth_error (snd s) j =
           Some (psum (c j) (if j <? length done then S (length pre) else length pre)))
      (seq 0 BYTES) (b1, sum1)) as ([b2 sum2] & E2 & HI2 & HL2 & HS2).
    + cbn [fst snd length]. split; [|split].
      * eapply hist_ok_ext; [exact HI1|]. intros j v _ _. cbn beta. reflexivity.
      * exact HL1.
      * intros j Hj. cbn [Nat.ltb Nat.leb]. apply HS1, Hj.
    + intros done j todo [b3 sum3] Es (HI3 & HL3 & HS3). apply seq_split_at in Es.
      destruct Es as [Ej Hj]. cbn in Ej. subst j. change BYTES with 8 in Hj.
      cbn [fst snd] in *.
      rewrite (get_some _ _ _ (HS3 _ Hj)). cbn [bind].
      rewrite (get2_ok _ _ _ _ HI3 Hj Hi). cbn [bind].
      rewrite Nat.ltb_irrefl. rewrite Nat.ltb_irrefl.
      destruct (put2_ok b3 _ (length done) (length pre) (psum (c (length done)) (length pre)) HI3 Hj Hi)
        as (b4 & E4 & HI4). rewrite E4. cbn [bind]. unfold put.
      destruct (set_nth_some sum3 (length done)
        (psum (c (length done)) (length pre) + c (length done) (length pre)) ltac:(lia)) as (sum4 & E5).
      rewrite E5. cbn [bind]. exists (b4, sum4). split; [reflexivity|]. cbn [fst snd].
      rewrite app_length. cbn [length]. split; [|split].
      * eapply hist_ok_ext; [exact HI4|]. intros j v Hj' Hv. cbn beta.
        destruct (Nat.eqb_spec j (length done)) as [->|Hne]; cbn [andb].
        -- rewrite Nat.ltb_irrefl. destruct (Nat.ltb_spec (length done) (length done + 1)); [|lia].
           destruct (Nat.eqb_spec v (length pre)) as [->|Hne].
           ++ destruct (Nat.ltb_spec (length pre) (S (length pre))); [reflexivity|lia].
           ++ destruct (Nat.ltb_spec v (length pre)), (Nat.ltb_spec v (S (length pre))); try lia; reflexivity.
        -- destruct (Nat.ltb_spec j (length done)), (Nat.ltb_spec j (length done + 1)); try lia; reflexivity.
      * rewrite (set_nth_length _ _ _ _ E5). exact HL3.
      * intros j Hj'. rewrite (set_nth_nth _ _ _ _ j E5).
        destruct (Nat.eqb_spec j (length done)) as [->|Hne].
        -- destruct (Nat.ltb_spec (length done) (length done + 1)); [|lia]. reflexivity.
        -- rewrite HS3 by exact Hj'.
           destruct (Nat.ltb_spec j (length done)), (Nat.ltb_spec j (length done + 1)); try lia; reflexivity.
    + exists (b2, sum2). split; [exact E2|]. cbn [fst snd] in *.
      rewrite seq_length in HI2, HS2. rewrite app_length. cbn [length].
      rewrite Nat.add_1_r. split; [|split].
      * eapply hist_ok_ext; [exact HI2|]. intros j v Hj Hv. cbn beta.
        destruct (Nat.ltb_spec j BYTES) as [_|Hc]; [reflexivity|unfold BYTES in Hc; lia].
      * exact HL2.
      * intros j Hj. rewrite HS2 by exact Hj.
        destruct (Nat.ltb_spec j BYTES) as [_|Hc]; [reflexivity|unfold BYTES in Hc; lia].
  - fold body. rewrite E. cbn [bind]. exists b'. split; [reflexivity|].
    cbn [fst] in HI. eapply hist_ok_ext; [exact HI|]. intros j v Hj Hv. cbn beta.
    rewrite seq_length. destruct (Nat.ltb_spec v 256); [reflexivity|lia].
Qed.

(** ** One pass *)
Definition counting (i : nat) (data : list hpair) : list hpair :=
  concat (map (fun v => filter (isb i v) data) (seq 0 256)).

Lemma filter_perm {A} (f : A -> bool) l l' : Permutation l l' -> Permutation (filter f l) (filter f l').
Proof.
  induction 1 as [|x l l' H IH|x y l|l1 l2 l3 H1 IH1 H2 IH2]; cbn.
  - constructor.
  - destruct (f x); [constructor|]; exact IH.
  - destruct (f x), (f y); try apply Permutation_refl. constructor.
  - eapply Permutation_trans; eauto.
Qed.

Lemma psum_cnt_length data i : psum (cnt data i) 256 = length data.
Proof.
  assert (G : forall m, m <= 256 ->
     psum (cnt data i) m = length (filter (fun e => getbyte (fst e) i <? m) data)).
  { induction m as [|m IH]; intros Hm; cbn [psum].
    - induction data as [|e data IH]; cbn; [reflexivity|exact IH].
    - rewrite IH by lia. unfold cnt. clear.
      induction data as [|e data IH]; [reflexivity|]. cbn [filter].
      unfold isb at 1.
      destruct (Nat.ltb_spec (getbyte (fst e) i) m), (Nat.eqb_spec (getbyte (fst e) i) m),
        (Nat.ltb_spec (getbyte (fst e) i) (S m)); cbn [length]; lia. }
  rewrite G by lia. clear G. induction data as [|e data IH]; [reflexivity|].
  cbn [filter]. destruct (Nat.ltb_spec (getbyte (fst e) i) 256) as [H|H].
  - cbn [length]. rewrite IH. reflexivity.
  - pose proof (getbyte_lt (fst e) i). lia.
Qed.

Lemma pass_ok data scratch i hist :
  i < 8 -> length scratch = length data -> length hist = 256 ->
  (forall v, v < 256 -> nth_error hist v = Some (psum (cnt data i) v)) ->
  exists hist', pass data scratch i hist = Ret (counting i data, hist').
Proof.
  intros Hi HL HH HS. unfold pass.
  set (c := cnt data i) in *.
  destruct (foreach_inv
    (fun e (s : list hpair * list nat) =>
       let '(scratch, hist) := s in
       let b := getbyte (fst e) i in
       let! t := get hist b in
       let! hist := put hist b (t + 1) in
       let! scratch := put scratch t e in
       Ret (scratch, hist))
    (fun pre s =>
       length (fst s) = length data /\ length (snd s) = 256 /\
       (forall v, v < 256 -> nth_error (snd s) v = Some (psum c v + cnt pre i v)) /\
       (forall v j e, v < 256 -> nth_error (filter (isb i v) pre) j = Some e ->
          nth_error (fst s) (psum c v + j) = Some e))
    data (scratch, hist)) as ([sc hs] & E & H1 & H2 & H3 & H4).
  - cbn [fst snd]. split; [exact HL|]. split; [exact HH|]. split.
    + intros v Hv. rewrite HS by exact Hv. unfold cnt. cbn. f_equal. lia.
    + intros v j e Hv Hj. destruct j; discriminate.
  - intros pre e post [sc hs] Ed (H1 & H2 & H3 & H4). cbn [fst snd] in *.
    set (b := getbyte (fst e) i) in *.
    assert (Hb : b < 256) by apply getbyte_lt.
    rewrite (get_some _ _ _ (H3 b Hb)). cbn [bind]. unfold put.
    set (t := psum c b + cnt pre i b).
    assert (Hcb : cnt pre i b < c b).
    { unfold c. rewrite Ed, cnt_app. unfold cnt at 3. cbn [filter].
      unfold isb at 1. fold b. rewrite Nat.eqb_refl. cbn [length]. lia. }
    assert (Ht : t < length data).
    { rewrite <- (psum_cnt_length data i). fold c.
      pose proof (psum_block c b 256 Hb). unfold t. lia. }
    destruct (set_nth_some hs b (t + 1) ltac:(lia)) as (hs' & E1). rewrite E1. cbn [bind].
    destruct (set_nth_some sc t e ltac:(lia)) as (sc' & E2). rewrite E2. cbn [bind].
    exists (sc', hs'). split; [reflexivity|]. cbn [fst snd].
    split; [rewrite (set_nth_length _ _ _ _ E2); exact H1|].
    split; [rewrite (set_nth_length _ _ _ _ E1); exact H2|].
    split.
    + intros v Hv. rewrite (set_nth_nth _ _ _ _ v E1), cnt_app. unfold cnt at 2. cbn [filter].
      unfold isb at 1. fold b.
      destruct (Nat.eqb_spec v b) as [->|Hne].
      * rewrite Nat.eqb_refl. cbn [length]. f_equal. unfold t. lia.
      * destruct (Nat.eqb_spec b v); [congruence|]. cbn [length]. rewrite H3 by exact Hv. f_equal. lia.
    + intros v j e' Hv Hj. rewrite (set_nth_nth _ _ _ _ _ E2).
      rewrite filter_app in Hj. cbn [filter] in Hj. unfold isb at 2 in Hj. fold b in Hj.
      assert (Hcv : cnt pre i v <= c v).
      { unfold c. rewrite Ed, cnt_app. lia. }
      destruct (Nat.lt_ge_cases j (length (filter (isb i v) pre))) as [Lj|Lj].
      * rewrite nth_error_app1 in Hj by exact Lj.
        fold (cnt pre i v) in Lj.
        destruct (Nat.eqb_spec (psum c v + j) t) as [Ex|Ex].
        -- exfalso. unfold t in Ex.
           destruct (Nat.lt_trichotomy v b) as [L|[->|L]].
           ++ pose proof (psum_block c v b L). lia.
           ++ lia.
           ++ pose proof (psum_block c b v L). lia.
        -- apply H4; auto.
      * rewrite nth_error_app2 in Hj by exact Lj.
        fold (cnt pre i v) in Lj.
        change (length (filter (isb i v) pre)) with (cnt pre i v) in Hj.
        revert Hj. destruct (Nat.eqb_spec b v) as [Ebv|Ne]; intros Hj.
        -- subst v. destruct (j - cnt pre i b) as [|k] eqn:Ek; [|destruct k; discriminate].
           cbn in Hj. injection Hj as <-.
           destruct (Nat.eqb_spec (psum c b + j) t) as [Ex|Ex]; [reflexivity|].
           exfalso. unfold t in Ex. lia.
        -- destruct (j - cnt pre i v); discriminate.
  - exists hs. etransitivity; [exact E|]. f_equal. f_equal. cbn [fst snd] in *.
    apply nth_error_ext. intros k.
    destruct (Nat.lt_ge_cases k (length data)) as [Lk|Lk].
    + rewrite <- (psum_cnt_length data i) in Lk. fold c in Lk.
      destruct (psum_locate c 256 k Lk) as (v & j & Hv & Hj & ->).
      unfold counting.
      assert (HN : nth_error (concat (map (fun v => filter (isb i v) data) (seq 0 256))) (psum c v + j)
                   = nth_error (filter (isb i v) data) j)
        by exact (nth_error_concat (fun v => filter (isb i v) data) 256 v j Hv Hj).
      rewrite HN.
      destruct (nth_error (filter (isb i v) data) j) as [e|] eqn:Ee.
      * apply H4; auto.
      * apply nth_error_None in Ee. unfold c, cnt in Hj. lia.
    + rewrite (proj2 (nth_error_None sc k)) by lia. symmetry. apply nth_error_None.
      unfold counting. rewrite concat_length_psum.
      change (psum (fun v => length (filter (isb i v) data)) 256) with (psum (cnt data i) 256).
      rewrite psum_cnt_length. exact Lk.
Qed.

(** ** Counting sort is a stable sort *)
Lemma counting_length i l : length (counting i l) = length l.
Proof.
  unfold counting. rewrite concat_length_psum.
  change (psum (fun v => length (filter (isb i v) l)) 256) with (psum (cnt l i) 256).
  apply psum_cnt_length.
Qed.

Lemma filter_filter {A} (f g : A -> bool) l : filter f (filter g l) = filter (fun x => g x && f x) l.
Proof.
  induction l as [|x l IH]; cbn; [reflexivity|].
  destruct (g x); cbn; [destruct (f x); rewrite IH; reflexivity|exact IH].
Qed.
Lemma filter_false {A} (f : A -> bool) l : (forall x, In x l -> f x = false) -> filter f l = [].
Proof.
  induction l as [|x l IH]; intros H; cbn; [reflexivity|].
  rewrite (H x) by (left; reflexivity). apply IH. intros; apply H; right; assumption.
Qed.
Lemma filter_concat {A} (f : A -> bool) ll : filter f (concat ll) = concat (map (filter f) ll).
Proof. induction ll as [|l ll IH]; cbn; [reflexivity|]. rewrite filter_app, IH. reflexivity. Qed.

Lemma concat_single {A} (F : nat -> list A) n v :
  v < n -> (forall u, u < n -> u <> v -> F u = []) -> concat (map F (seq 0 n)) = F v.
Proof.
  induction n as [|n IH]; intros Hv H; [lia|].
  rewrite seq_S, map_app, concat_app. cbn. rewrite app_nil_r.
  destruct (Nat.eq_dec v n) as [->|Hne].
  - assert (concat (map F (seq 0 n)) = []) as ->; [|reflexivity].
    assert (G : forall m, m <= n -> concat (map F (seq 0 m)) = []).
    { induction m as [|m IHm]; intros Hm; [reflexivity|].
      rewrite seq_S, map_app, concat_app. cbn. rewrite app_nil_r, IHm by lia.
      rewrite H by lia. reflexivity. }
    apply G. lia.
  - rewrite IH by (try lia; intros; apply H; lia). rewrite (H n) by lia. apply app_nil_r.
Qed.

(** a class that fixes the byte is kept in order by the counting sort *)
Lemma counting_stable i l (f : hpair -> bool) v :
  v < 256 -> (forall e, f e = true -> getbyte (fst e) i = v) ->
  filter f (counting i l) = filter f l.
Proof.
  intros Hv Hf. unfold counting. rewrite filter_concat, map_map.
  rewrite (concat_single (fun v => filter f (filter (isb i v) l)) 256 v Hv).
  - rewrite filter_filter. apply filter_ext. intros e. unfold isb.
    destruct (f e) eqn:E; [|apply andb_false_r].
    rewrite (Hf e E), Nat.eqb_refl. reflexivity.
  - intros u Hu Huv. rewrite filter_filter. apply filter_false. intros e _. unfold isb.
    destruct (f e) eqn:E; [|apply andb_false_r].
    rewrite (Hf e E). destruct (Nat.eqb_spec v u); [congruence|reflexivity].
Qed.

Definition low (i : nat) (e : hpair) : N := (fst e mod 256 ^ N.of_nat i)%N.
Definition le_low (i : nat) (x y : hpair) : Prop := (low i x <= low i y)%N.

Lemma low_S i e : low (S i) e = (low i e + N.of_nat (getbyte (fst e) i) * 256 ^ N.of_nat i)%N.
Proof.
  unfold low. rewrite getbyte_eq, N2Nat.id.
  replace (2 ^ (8 * N.of_nat i))%N with (256 ^ N.of_nat i)%N
    by (change 256%N with (2 ^ 8)%N; rewrite <- N.pow_mul_r; reflexivity).
  assert (Hz : (256 ^ N.of_nat i <> 0)%N) by (apply N.pow_nonzero; lia).
  replace (256 ^ N.of_nat (S i))%N with (256 ^ N.of_nat i * 256)%N
    by (rewrite Nat2N.inj_succ, N.pow_succ_r'; lia).
  rewrite N.mod_mul_r by (exact Hz || lia). lia.
Qed.
Lemma low_lt i e : (low i e < 256 ^ N.of_nat i)%N.
Proof. unfold low. apply N.mod_lt, N.pow_nonzero. lia. Qed.
Lemma low_8 e : is_u64 (fst e) -> low 8 e = fst e.
Proof. unfold low, is_u64. intros H. apply N.mod_small. exact H. Qed.

Lemma StronglySorted_filter {A} (R : A -> A -> Prop) f l :
  StronglySorted R l -> StronglySorted R (filter f l).
Proof.
  induction 1 as [|x l H IH HF]; cbn; [constructor|].
  destruct (f x); [|exact IH]. constructor; [exact IH|].
  rewrite Forall_forall in *. intros y Hy. apply HF. apply filter_In in Hy. apply Hy.
Qed.
Lemma StronglySorted_app {A} (R : A -> A -> Prop) l1 l2 :
  StronglySorted R l1 -> StronglySorted R l2 -> (forall x y, In x l1 -> In y l2 -> R x y) ->
  StronglySorted R (l1 ++ l2).
Proof.
  induction 1 as [|x l H IH HF]; cbn; intros H2 Hc; [exact H2|].
  constructor.
  - apply IH; [exact H2|]. intros; apply Hc; auto.
  - rewrite Forall_forall in *. intros y Hy. apply in_app_or in Hy. destruct Hy; auto.
Qed.
Lemma StronglySorted_weaken {A} (R R' : A -> A -> Prop) l :
  (forall x y, In x l -> In y l -> R x y -> R' x y) -> StronglySorted R l -> StronglySorted R' l.
Proof.
  intros H. induction 1 as [|x l HS IH HF]; [constructor|].
  constructor.
  - apply IH. intros; apply H; cbn; auto.
  - rewrite Forall_forall in *. intros y Hy. apply H; cbn; auto.
Qed.

Lemma counting_sorted i l :
  StronglySorted (le_low i) l -> StronglySorted (le_low (S i)) (counting i l).
Proof.
  intros HS. unfold counting.
  assert (G : forall m, StronglySorted (le_low (S i)) (concat (map (fun v => filter (isb i v) l) (seq 0 m))) /\
     forall e, In e (concat (map (fun v => filter (isb i v) l) (seq 0 m))) -> getbyte (fst e) i < m).
  { induction m as [|m [IH1 IH2]]; [split; [constructor|intros e []]|].
    rewrite seq_S, map_app, concat_app. cbn [map concat]. rewrite app_nil_r. cbn [Nat.add].
    assert (B : forall e, In e (filter (isb i m) l) -> getbyte (fst e) i = m).
    { intros e He. apply filter_In in He. destruct He as [_ He]. unfold isb in He. lia. }
    split.
    - apply StronglySorted_app; [exact IH1| |].
      + apply (StronglySorted_weaken (le_low i)); [|apply StronglySorted_filter; exact HS].
        intros x y Hx Hy Hxy. unfold le_low in *. rewrite !low_S, (B x Hx), (B y Hy). lia.
      + intros x y Hx Hy. apply IH2 in Hx. apply B in Hy. unfold le_low.
        rewrite !low_S, Hy. pose proof (low_lt i x).
        set (P := (256 ^ N.of_nat i)%N) in *.
        assert ((N.of_nat (getbyte (fst x) i) + 1) * P <= N.of_nat m * P)%N
          by (apply N.mul_le_mono_r; lia). lia.
    - intros e He. apply in_app_or in He. destruct He as [He|He].
      + apply IH2 in He. lia.
      + apply B in He. lia. }
  apply G.
Qed.

(** ** The eight passes *)
Lemma counting_perm i l : Permutation (counting i l) l.
Proof.
  unfold counting.
  assert (G : forall m, Permutation (concat (map (fun v => filter (isb i v) l) (seq 0 m)))
                          (filter (fun e => getbyte (fst e) i <? m) l)).
  { induction m as [|m IH]; [cbn; rewrite filter_false; [constructor|]; intros e _; reflexivity|].
    rewrite seq_S, map_app, concat_app. cbn [map concat]. rewrite app_nil_r. cbn [Nat.add].
    eapply Permutation_trans; [apply Permutation_app_tail; exact IH|]. clear IH.
    induction l as [|e l IH]; [constructor|]. cbn [filter]. unfold isb at 1.
    destruct (Nat.ltb_spec (getbyte (fst e) i) m), (Nat.eqb_spec (getbyte (fst e) i) m),
      (Nat.ltb_spec (getbyte (fst e) i) (S m)); try lia; cbn [app].
    - constructor. exact IH.
    - eapply Permutation_trans; [apply Permutation_sym, Permutation_middle|]. constructor. exact IH.
    - exact IH. }
  eapply Permutation_trans; [apply G|].
  rewrite (filter_ext_in _ (fun _ => true)).
  - clear. induction l; cbn; [constructor|]. constructor; assumption.
  - intros e _. pose proof (getbyte_lt (fst e) i). lia.
Qed.

Lemma sort_hash_pairs_ok data scratch :
  length scratch = length data -> (forall e, In e data -> is_u64 (fst e)) ->
  exists out scratch',
    sort_hash_pairs data scratch = Ret (out, scratch') /\
    length scratch' = length data /\
    Permutation out data /\
    StronglySorted (fun x y => (fst x <= fst y)%N) out /\
    (forall h, filter (fun e => N.eqb (fst e) h) out = filter (fun e => N.eqb (fst e) h) data).
Proof.
  intros HL HU. unfold sort_hash_pairs, assert_. rewrite HL, Nat.eqb_refl.
  destruct (histograms_ok data) as (b0 & E0 & HI0). rewrite E0. cbn [bind].
  destruct (write_heads_ok b0 _ HI0) as (b & E1 & HI). rewrite E1. cbn [bind].
  destruct (foreach_inv
    (fun i (s : list hpair * list hpair) =>
          let '(data, scratch) := s in
          let! hist := get b i in
          let! '(scratch', _) := pass data scratch i hist in
          Ret (scratch', data))
    (fun pre s =>
       length (snd s) = length data /\ Permutation (fst s) data /\
       StronglySorted (le_low (length pre)) (fst s) /\
       forall m, filter (fun e => N.eqb (low (length pre) e) m) (fst s) =
                 filter (fun e => N.eqb (low (length pre) e) m) data)
    (seq 0 BYTES) (data, scratch)) as ([out sc] & E & H1 & H2 & H3 & H4).
  - cbn [fst snd length]. split; [exact HL|]. split; [apply Permutation_refl|]. split; [|reflexivity].
    clear. induction data as [|e data IH]; constructor; [exact IH|].
    rewrite Forall_forall. intros y _. unfold le_low, low. cbn. rewrite !N.mod_1_r. lia.
  - intros pre i post [d sc] Es (H1 & H2 & H3 & H4). apply seq_split_at in Es.
    destruct Es as [Ei Hi]. cbn in Ei. subst i. change BYTES with 8 in Hi. cbn [fst snd] in *.
    destruct (get_row_ok _ _ _ HI Hi) as (hist & Eh & HLh & HSh).
    rewrite Eh. cbn [bind].
    destruct (pass_ok d sc (length pre) hist Hi) as (hist' & Ep).
    + rewrite H1. symmetry. apply Permutation_length. exact H2.
    + exact HLh.
    + intros v Hv. rewrite HSh by exact Hv. f_equal. apply psum_ext. intros u _.
      symmetry. apply cnt_perm. exact H2.
    + rewrite Ep. cbn [bind]. eexists. split; [reflexivity|]. cbn [fst snd].
      rewrite app_length. cbn [length]. rewrite Nat.add_1_r.
      split; [apply Permutation_length; exact H2|].
      split; [eapply Permutation_trans; [apply counting_perm|exact H2]|].
      split; [apply counting_sorted; exact H3|].
      intros m.
      set (P := (256 ^ N.of_nat (length pre))%N).
      assert (HP : (P <> 0)%N) by (apply N.pow_nonzero; lia).
      destruct (N.lt_ge_cases (m / P) 256) as [Hm|Hm].
      * rewrite (counting_stable (length pre) d _ (N.to_nat (m / P))).
        -- assert (X : forall l, filter (fun e => N.eqb (low (S (length pre)) e) m) l =
              filter (fun e => N.eqb (low (S (length pre)) e) m)
                (filter (fun e => N.eqb (low (length pre) e) (m mod P)) l)).
           { intros l. rewrite filter_filter. apply filter_ext. intros e.
             destruct (N.eqb_spec (low (S (length pre)) e) m) as [Em|Em]; [|rewrite andb_false_r; reflexivity].
             rewrite andb_true_r. symmetry. apply N.eqb_eq.
             rewrite low_S in Em. fold P in Em. rewrite <- Em.
             pose proof (low_lt (length pre) e) as Hl. fold P in Hl.
             rewrite N.mod_add by exact HP. symmetry. apply N.mod_small. exact Hl. }
           rewrite X, (X data), H4. reflexivity.
        -- lia.
        -- intros e He. apply N.eqb_eq in He. rewrite low_S in He. fold P in He.
           pose proof (low_lt (length pre) e) as Hl. fold P in Hl.
           rewrite <- He. rewrite N.div_add by exact HP. rewrite N.div_small by exact Hl. lia.
      * rewrite !filter_false; [reflexivity| |]; intros e _; apply N.eqb_neq; intros Em;
          rewrite low_S in Em; fold P in Em;
          pose proof (low_lt (length pre) e) as Hl; fold P in Hl;
          pose proof (getbyte_lt (fst e) (length pre)) as Hg;
          rewrite <- Em, N.div_add, N.div_small in Hm by (exact HP || exact Hl); lia.
  - exists out, sc. split; [exact E|]. cbn [fst snd] in *. rewrite seq_length in *.
    split; [exact H1|]. split; [exact H2|].
    assert (HUo : forall e, In e out -> is_u64 (fst e)).
    { intros e He. apply HU. eapply Permutation_in; eauto. }
    split.
    + apply (StronglySorted_weaken (le_low 8)); [|exact H3].
      intros x y Hx Hy Hxy. unfold le_low in Hxy. rewrite !low_8 in Hxy by auto. exact Hxy.
    + intros h. specialize (H4 h).
      rewrite (filter_ext_in _ (fun e => N.eqb (low BYTES e) h)), H4.
      * apply filter_ext_in. intros e He. change BYTES with 8. rewrite low_8 by auto. reflexivity.
      * intros e He. change BYTES with 8. rewrite low_8 by auto. reflexivity.
Qed.
