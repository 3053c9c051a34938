(** Property theorems C08-C12 (collision enumeration).  Specification: EnumSpec.v.
    Model: Enumerator.v, Moves.v. *)
From Verif Require Import Base HashValue HashSpec HashProofs OverlapsSpec.
From Verif Require Import Enumerator EnumSpec EnumProofs Moves MovesProofs HistoryProofs.

(** * C08: reported pairs are genuine *)
Theorem c08_enumerated_pairs_genuine :
  forall (hashes indices : list N) (p : nat) (prev : option nat) (check : bool) (ez : nat)
         (caps : list nat) (batches : list (list (N * N))) (fin : bool),
    table_ok hashes indices -> hashes <> [] -> 1 <= p <= 8 ->
    (forall pp, prev = Some pp -> 1 <= pp <= 8) ->
    (forall c, In c caps -> 0 < c) ->
    returns (enumerate hashes indices p prev check ez caps) (batches, fin) ->
    exists positions : list (nat * nat),
      NoDup positions /\
      Forall2 (report_of indices) positions (concat batches) /\
      forall x y, In (x, y) positions ->
        collide hashes p x y /\ ~ trivial indices ez x y /\ ~ seen_before hashes prev check x y.
Proof.
  intros hashes indices p prev check ez caps batches fin T Hne Hp Hpp Hc R.
  destruct (enumerate_ok hashes indices p prev check ez T Hne Hp Hpp) as (pos & pairs & ND & Char & F2 & Run).
  destruct (Run caps Hc) as (b' & f' & R' & (rest & E & _) & _).
  pose proof (returns_det _ _ _ R R') as ED. injection ED as -> ->.
  rewrite E in F2. apply Forall2_app_inv_r in F2. destruct F2 as (p1 & p2 & F1 & _ & ->).
  exists p1. split; [|split; [exact F1|]].
  - clear - ND. induction p1 as [|a p1 IH]; [constructor|]. inversion_clear ND as [|? ? Ha ND'].
    constructor; [intros C; apply Ha, in_or_app; auto|auto].
  - intros x y Hxy. destruct (proj1 (Char x y)) as (A & B & C & D); [apply in_or_app; auto|]. auto.
Qed.
Print Assumptions c08_enumerated_pairs_genuine.

(** * C09: completeness.  The last bucket of the table is never enumerated, so the
    full property is false; all the other buckets are enumerated completely. *)
Theorem c09_complete_but_last_bucket_partial :
  forall (hashes indices : list N) (p : nat) (ez : nat) (caps : list nat) (batches : list (list (N * N))),
    table_ok hashes indices -> hashes <> [] -> 1 <= p <= 8 ->
    (forall c, In c caps -> 0 < c) ->
    returns (enumerate hashes indices p None false ez caps) (batches, true) ->
    exists positions : list (nat * nat),
      Forall2 (report_of indices) positions (concat batches) /\
      forall x y, collide hashes p x y -> ~ trivial indices ez x y -> ~ in_last_bucket hashes p x ->
        In (x, y) positions.
Proof.
  intros hashes indices p ez caps batches T Hne Hp Hc R.
  destruct (enumerate_ok hashes indices p None false ez T Hne Hp ltac:(discriminate))
    as (pos & pairs & ND & Char & F2 & Run).
  destruct (Run caps Hc) as (b' & f' & R' & (rest & E & Fin) & _).
  pose proof (returns_det _ _ _ R R') as ED. injection ED as -> <-.
  rewrite Fin, app_nil_r in E by reflexivity. subst pairs.
  exists pos. split; [exact F2|]. intros x y A B C. apply Char. repeat split; auto; try apply A.
  intros [D _]. discriminate.
Qed.
Print Assumptions c09_complete_but_last_bucket_partial.

(** What is enumerated, exactly: the collisions outside the last bucket that are no trivial
    matches and were not seen at the previous prefix (if that is to be checked), each once. *)
Theorem c09_exactly_partial :
  forall (hashes indices : list N) (p : nat) (prev : option nat) (check : bool) (ez : nat) (caps : list nat) (batches : list (list (N * N))),
    table_ok hashes indices -> hashes <> [] -> 1 <= p <= 8 ->
    (forall pp, prev = Some pp -> 1 <= pp <= 8) -> (forall c, In c caps -> 0 < c) ->
    returns (enumerate hashes indices p prev check ez caps) (batches, true) ->
    exists positions : list (nat * nat),
      Forall2 (report_of indices) positions (concat batches) /\ NoDup positions /\
      forall x y, In (x, y) positions <->
        collide hashes p x y /\ ~ in_last_bucket hashes p x /\
        ~ seen_before hashes prev check x y /\ ~ trivial indices ez x y.
Proof.
  intros hashes indices p prev check ez caps batches T Hne Hp Hpp Hc R.
  destruct (enumerate_ok hashes indices p prev check ez T Hne Hp Hpp) as (pos & pairs & ND & Char & F2 & Run).
  destruct (Run caps Hc) as (b' & f' & R' & (rest & E & Fin) & _).
  pose proof (returns_det _ _ _ R R') as ED. injection ED as -> <-.
  rewrite Fin, app_nil_r in E by reflexivity. subst pairs. exists pos. auto.
Qed.
Print Assumptions c09_exactly_partial.

(** a table of three windows with the same hash: nothing is reported *)
Theorem c09_complete_refuted :
  exists (hashes indices : list N) (p ez : nat) (caps : list nat) (x y : nat),
    table_ok hashes indices /\ hashes <> [] /\ 1 <= p <= 8 /\ (forall c, In c caps -> 0 < c) /\
    collide hashes p x y /\ ~ trivial indices ez x y /\
    returns (enumerate hashes indices p None false ez caps) ([], true).
Proof.
  exists [5; 5; 5]%N, [0; 10; 20]%N, 8, 3, [100], 0, 1.
  split; [|split; [discriminate|]].
  - split; [reflexivity|]. split.
    + intros h Hh. unfold is_u64. cbn in Hh. destruct Hh as [<-|[<-|[<-|[]]]]; reflexivity.
    + intros i j a b _ Hi Hj.
      apply nth_error_In in Hi. apply nth_error_In in Hj. cbn in Hi, Hj.
      destruct Hi as [<-|[<-|[<-|[]]]], Hj as [<-|[<-|[<-|[]]]]; reflexivity.
  - split; [lia|]. split; [intros c [<-|[]]; lia|]. split; [|split].
    + split; [lia|]. exists 5%N, 5%N. repeat split. 
    + intros (a & b & Ea & Eb & H). cbn in Ea, Eb. injection Ea as <-. injection Eb as <-.
      unfold too_close in H. vm_compute in H. lia.
    + apply (fmono_returns _ 10); [apply enumerate_mono|]. vm_compute. reflexivity.
Qed.
Print Assumptions c09_complete_refuted.

(** * C10: independence of the buffer size, and termination *)
Theorem c10_buffer_size_irrelevant :
  forall (hashes indices : list N) (p : nat) (prev : option nat) (check : bool) (ez : nat),
    table_ok hashes indices -> hashes <> [] -> 1 <= p <= 8 ->
    (forall pp, prev = Some pp -> 1 <= pp <= 8) ->
    exists all : list (N * N),
    forall caps, (forall c, In c caps -> 0 < c) ->
      exists batches fin,
        returns (enumerate hashes indices p prev check ez caps) (batches, fin) /\
        (* each batch is non-empty, fits its buffer, and fills it unless it is the last *)
        length batches <= length caps /\
        (forall k b c, nth_error batches k = Some b -> nth_error caps k = Some c ->
           1 <= length b <= c /\ (S k < length batches -> length b = c)) /\
        (* the batches are a prefix of the same list, and all of it at exhaustion *)
        (exists rest, all = concat batches ++ rest /\ (fin = true -> rest = [])) /\
        (* exhaustion is reached after at most one call per pair plus one *)
        (length all < length caps -> fin = true).
Proof.
  intros hashes indices p prev check ez T Hne Hp Hpp.
  destruct (enumerate_ok hashes indices p prev check ez T Hne Hp Hpp) as (pos & pairs & ND & Char & F2 & Run).
  exists pairs. intros caps Hc. destruct (Run caps Hc) as (b & f & A & B & C & D & E).
  exists b, f. auto.
Qed.
Print Assumptions c10_buffer_size_irrelevant.

(** a concrete table that meets the hypotheses of C08-C10 *)
Example c08_c10_case :
  table_ok [1; 1; 1; 2; 2; 2; 3; 256; 256]%N [10; 20; 30; 40; 41; 50; 60; 70; 80]%N /\
  enumerate [1; 1; 1; 2; 2; 2; 3; 256; 256]%N [10; 20; 30; 40; 41; 50; 60; 70; 80]%N
    8 None true 5 [2; 2; 2; 2] 20 =
  Ret ([[(10, 20); (10, 30)]; [(20, 30); (40, 50)]; [(41, 50)]]%N, true) /\
  enumerate [1; 1; 1; 2; 2; 2; 3; 256; 256]%N [10; 20; 30; 40; 41; 50; 60; 70; 80]%N
    7 (Some 8) true 25 [100; 100] 20 =
  Ret ([[(10, 40); (10, 41); (10, 50); (10, 60); (20, 50); (20, 60); (30, 60)]]%N, true).
Proof.
  split; [|vm_compute; auto]. split; [reflexivity|]. split.
  - intros h Hh. unfold is_u64. cbn in Hh. intuition (subst; reflexivity).
  - intros i j a b L Hi Hj.
    do 9 (destruct i as [|i]; [do 9 (destruct j as [|j]; [cbn in *; injection Hi as <-; injection Hj as <-; lia|]); destruct j; discriminate|]).
    destruct i; discriminate.
Qed.

(** * C11: flat subsequences never take part in a collision *)
Theorem c11_flat_never_collide :
  forall (hashes indices : list N) (p : nat) (prev : option nat) (check : bool) (ez : nat)
         (caps : list nat) (batches : list (list (N * N))) (fin : bool),
    table_ok hashes indices -> hashes <> [] -> 1 <= p <= 8 ->
    (forall pp, prev = Some pp -> 1 <= pp <= 8) ->
    (forall c, In c caps -> 0 < c) ->
    (* flat windows, and only they, carry the index sentinel, and they carry the hash sentinel *)
    (forall x, nth_error indices x = Some u32_max -> nth_error hashes x = Some u64_max) ->
    returns (enumerate hashes indices p prev check ez caps) (batches, fin) ->
    forall a b, In (a, b) (concat batches) -> a <> u32_max /\ b <> u32_max.
Proof.
  intros hashes indices p prev check ez caps batches fin T Hne Hp Hpp Hc Hflat R a b Hab.
  destruct (enumerate_ok hashes indices p prev check ez T Hne Hp Hpp) as (pos & pairs & ND & Char & F2 & Run).
  destruct (Run caps Hc) as (b' & f' & R' & (rest & E & _) & _).
  pose proof (returns_det _ _ _ R R') as ED. injection ED as -> ->.
  assert (Hin : In (a, b) pairs) by (rewrite E; apply in_or_app; auto).
  assert (G : exists xy, In xy pos /\ report_of indices xy (a, b)).
  { clear - F2 Hin. induction F2 as [|xy ab l l' H F IH]; [destruct Hin|].
    destruct Hin as [->|Hin]; [exists xy; split; [left; reflexivity|exact H]|].
    destruct (IH Hin) as (z & Hz & Rz). exists z. split; [right; exact Hz|exact Rz]. }
  destruct G as ((x, y) & Hxy & (ix & iy & Ex & Ey & _ & EQ)). cbn [fst snd] in Ex, Ey.
  apply Char in Hxy. destruct Hxy as ((Lx & hx & hy & Hx & Hy & A) & NL & _).
  destruct T as (Hlen & Hu & Hs).
  assert (LN : forall z hz, nth_error hashes z = Some hz -> agree p hx hz -> hz <> u64_max).
  { intros z hz Hz Az ->. apply NL.
    assert (Lz : z < length hashes) by (apply nth_error_Some; congruence).
    destruct (nth_error hashes (length hashes - 1)) as [hl|] eqn:El.
    - assert (hl = u64_max) as ->.
      { assert (u64_max <= hl)%N by (apply (Hs z (length hashes - 1)); auto; lia).
        assert (is_u64 hl) by (apply Hu; eapply nth_error_In; eauto).
        unfold is_u64, u64_max in *. lia. }
      exists hx, u64_max. auto.
    - apply nth_error_None in El. lia. }
  assert (Nx : ix <> u32_max).
  { intros ->. apply Hflat in Ex. apply (LN x hx Hx); [intros k _; reflexivity|congruence]. }
  assert (Ny : iy <> u32_max).
  { intros ->. apply Hflat in Ey. apply (LN y hy Hy A). congruence. }
  destruct EQ as [EQ|EQ]; injection EQ as -> ->; auto.
Qed.
Print Assumptions c11_flat_never_collide.
Example c11_case :
  enumerate [7; 7; 0xFFFFFFFFFFFFFFFF; 0xFFFFFFFFFFFFFFFF]%N [3; 90; u32_max; u32_max]%N 2 None false 5 [10; 10] 20
  = Ret ([[(3, 90)]]%N, true).
Proof. vm_compute. reflexivity. Qed.

(** * C12: histories *)
Theorem c12_history :
  forall (hashes indices : nat -> list N) (ez p0 : nat) (choices : list nat) (cs : list config),
    (forall r, table_ok (hashes r) (indices r) /\ hashes r <> []) ->
    1 <= p0 <= 8 ->
    visit (config_start p0) choices = Ret cs ->
    exists positions : nat -> list (nat * nat),
      (* [positions k] are the table positions behind the pairs enumerated at step [k] *)
      (forall k c caps batches,
         nth_error cs k = Some c -> (forall s, In s caps -> 0 < s) ->
         returns (enumerate (hashes (c_rep c)) (indices (c_rep c)) (c_prefix c) (c_prev c) (c_check c) ez caps)
           (batches, true) ->
         NoDup (positions k) /\ Forall2 (report_of (indices (c_rep c))) (positions k) (concat batches)) /\
      (* no pair of a repetition is reported at two different steps *)
      (forall k k' c c' x y,
         nth_error cs k = Some c -> nth_error cs k' = Some c' -> c_rep c = c_rep c' ->
         In (x, y) (positions k) -> In (x, y) (positions k') -> k = k') /\
      (* every pair that collides in a repetition that was run has been reported by then *)
      (forall k c x y,
         nth_error cs k = Some c ->
         collide (hashes (c_rep c)) (c_prefix c) x y ->
         ~ in_last_bucket (hashes (c_rep c)) (c_prefix c) x ->
         ~ trivial (indices (c_rep c)) ez x y ->
         exists k' c', k' <= k /\ nth_error cs k' = Some c' /\ c_rep c' = c_rep c /\ In (x, y) (positions k')) /\
      (* when a repetition is run again at a shorter prefix, exactly the new collisions are reported *)
      (forall k c, nth_error cs k = Some c ->
         (exists k' c', k' < k /\ nth_error cs k' = Some c' /\ c_rep c' = c_rep c) ->
         forall x y, In (x, y) (positions k) <->
           collide (hashes (c_rep c)) (c_prefix c) x y /\
           ~ collide (hashes (c_rep c)) (S (c_prefix c)) x y /\
           ~ in_last_bucket (hashes (c_rep c)) (c_prefix c) x /\
           ~ trivial (indices (c_rep c)) ez x y).
Proof.
  intros hashes indices ez p0 choices cs T Hp V.
  set (pos := fun c => positions (hashes (c_rep c)) (indices (c_rep c)) (c_prefix c) (c_prev c) (c_check c) ez).
  assert (Char : forall c, In c cs -> forall x y, In (x, y) (pos c) <-> reported_in hashes indices ez c x y).
  { intros c Hc x y. destruct (visit_bounds p0 choices cs ltac:(lia) V c Hc) as [B1 B2].
    unfold pos. rewrite in_positions; [reflexivity|apply T|lia|]. intros pp E. apply B2 in E. lia. }
  exists (fun k => match nth_error cs k with Some c => pos c | None => [] end).
  split; [|split; [|split]].
  - intros k c caps batches Hk Hc R. rewrite Hk.
    pose proof (nth_error_In _ _ Hk) as Hin.
    destruct (visit_bounds p0 choices cs ltac:(lia) V c Hin) as [B1 B2].
    destruct (T (c_rep c)) as [T1 T2].
    assert (B2' : forall pp, c_prev c = Some pp -> 1 <= pp <= 8) by (intros pp E; apply B2 in E; lia).
    destruct (positions_ok (hashes (c_rep c)) (indices (c_rep c)) (c_prefix c) (c_prev c) (c_check c) ez T1
        ltac:(lia) B2') as [ND F2].
    split; [exact ND|].
    destruct (enum_new_ok (hashes (c_rep c)) (indices (c_rep c)) (c_prefix c) (c_prev c) (c_check c) ez T1
       ltac:(lia) B2' (S (length (hashes (c_rep c)))) T2 ltac:(lia)) as (s & En & Is & Et).
    destruct (enum_batches_ok (hashes (c_rep c)) (indices (c_rep c)) (c_prefix c) (c_prev c) (c_check c) ez T1
       ltac:(lia) B2' (S (length (hashes (c_rep c)))) caps s Is Hc ltac:(lia))
      as (bs & fin & Eb & (tl & T3 & T4) & _).
    assert (R' : returns (enumerate (hashes (c_rep c)) (indices (c_rep c)) (c_prefix c) (c_prev c) (c_check c) ez caps)
       (bs, fin)).
    { apply (fmono_returns _ (S (length (hashes (c_rep c))))); [apply enumerate_mono|].
      unfold enumerate. rewrite En. exact Eb. }
    pose proof (returns_det _ _ _ R R') as ED. injection ED as -> <-.
    rewrite T4, app_nil_r in T3 by reflexivity. rewrite <- T3, Et.
    rewrite rows_positions; auto.
  - intros k k' c c' x y Hk Hk' Er. rewrite Hk, Hk'.
    rewrite Char, Char by (eapply nth_error_In; eauto). intros R R'.
    eapply (history_once hashes indices ez p0 choices cs k k' c c'); eauto. lia.
  - intros k c x y Hk C NL NT.
    destruct (history_complete hashes indices ez p0 choices cs k c x y ltac:(lia) V Hk C NL NT)
      as (i & a & Li & Ha & Er & R).
    exists i, a. repeat split; auto. rewrite Ha. apply Char; [eapply nth_error_In; eauto|exact R].
  - intros k c Hk Ex x y. rewrite Hk. rewrite Char by (eapply nth_error_In; eauto).
    apply (history_new hashes indices ez p0 choices cs k c x y); auto. lia.
Qed.
Print Assumptions c12_history.
(** a history that shortens the prefix twice *)
Example c12_case :
  exists cs, visit (config_start 8) (repeat 8 7 ++ [7] ++ repeat 7 8 ++ [6] ++ [6]) = Ret cs /\
    length cs = 19 /\
    nth_error cs 18 = Some (Config 1 6 (Some 7) (Some 9)) /\
    nth_error cs 9 = Some (Config 1 7 (Some 8) (Some 8)).
Proof. eexists. vm_compute. repeat split. Qed.
