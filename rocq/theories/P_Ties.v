(** C73, C39, C41: motiflets of the same extent that do not overlap. *)
From Coq Require Import Floats.SpecFloat Permutation.
From Verif Require Import Base F64 HashValue HashSpec Overlaps OverlapsSpec OverlapsProofs Enumerator EnumSpec Moves Profile Brute BruteSpec
  TopK TopKSpec TopKProofs Graph GraphSpec GraphProofs Iterator IteratorSpec IteratorProofs IteratorLoop IteratorCalls P_Iterator.

(** * A search with two pairs at the same distance *)
(** The pair found by sampling, 0 and 20, is at distance 20, as are 60 and 75.  Window 1,
    which overlaps window 0, is closer to each of the windows 40 ... 48. *)
Definition tied_distance (i j : nat) : f64 :=
  match Nat.min i j, Nat.max i j with
  | 0, 20 => fl 20
  | 1, m => if (40 <=? m) && (m <=? 48) then fl (m - 39) else fl 50
  | 60, 75 => fl 20
  | _, _ => fl 50
  end.
Definition low : N := 0x0100000000000000%N.
Definition high : N := 0x0200000000000000%N.
(** nothing collides in the first repetition; window 1 collides with 40 ... 48 in the second;
    60 and 75 collide in the others *)
Definition tied_table (r : nat) : list N * list N :=
  match r with
  | 0 => ([low; high], [0; 20]%N)
  | 1 => (repeat low 10 ++ [high], [1; 40; 41; 42; 43; 44; 45; 46; 47; 48; 20]%N)
  | _ => ([low; low; high], [60; 75; 20]%N)
  end.
(** two motiflets of two windows; any extent is confirmed at once *)
Definition tied (stop : bool) : problem := {|
  p_n := 80; p_ez := 10; p_max_k := 2; p_top_k := 2;
  p_zeucl := tied_distance; p_zeucl_threshold := below tied_distance;
  p_table := fun r _ => tied_table r;
  p_failure := fun _ _ _ _ _ => S754_finite false 4503599627370496 (-60);
  p_delta := half; p_coin := fun _ _ _ => true;
  p_expected := toy_expected; p_setup_cost := fl 1; p_collision_cost := fl 1; p_max_repetitions := 100;
  p_buffer := 10; p_threshold := 9; p_stop := stop; p_nan_first := true |}.
Definition first_pair : motiflet := Motiflet [0; 20] (fl 20).
Definition second_pair : motiflet := Motiflet [60; 75] (fl 20).

Lemma table_ok_check (hs is : list N) :
  length hs = length is ->
  forallb (fun h => (h <? 2 ^ 64)%N) hs = true ->
  forallb (fun i => forallb (fun j => implb (i <? j) (nth i hs 0%N <=? nth j hs 0%N)%N) (seq 0 (length hs))) (seq 0 (length hs)) = true ->
  table_ok hs is.
Proof.
  intros L B S. split; [exact L|]. split.
  - intros h Hh. rewrite forallb_forall in B. apply N.ltb_lt. exact (B h Hh).
  - intros i j a b Lij Ei Ej.
    assert (Li : i < length hs) by (apply nth_error_Some; congruence).
    assert (Lj : j < length hs) by (apply nth_error_Some; congruence).
    rewrite forallb_forall in S. specialize (S i ltac:(apply in_seq; lia)).
    rewrite forallb_forall in S. specialize (S j ltac:(apply in_seq; lia)). cbv beta in S.
    rewrite (nth_error_nth _ _ 0%N Ei), (nth_error_nth _ _ 0%N Ej) in S.
    destruct (Nat.leb_spec i j) as [_|]; [|lia].
    destruct (Nat.ltb_spec i j) as [_|]; cbn [implb] in S; [apply N.leb_le in S; lia|].
    assert (i = j) by lia. subst. rewrite Ei in Ej. injection Ej as <-. lia.
Qed.
Lemma tied_tables r : table_ok (fst (tied_table r)) (snd (tied_table r)) /\ fst (tied_table r) <> [].
Proof. destruct r as [|[|r]]; (split; [apply table_ok_check; vm_compute; reflexivity|discriminate]). Qed.
Lemma tied_distance_cases i j : exists n, 1 <= n <= 50 /\ tied_distance i j = fl n.
Proof.
  assert (D : exists n, 1 <= n <= 50 /\ fl 50 = fl n) by (exists 50; split; [lia|reflexivity]).
  assert (T : exists n, 1 <= n <= 50 /\ fl 20 = fl n) by (exists 20; split; [lia|reflexivity]).
  unfold tied_distance. generalize (Nat.max i j) as m. intros m.
  destruct (Nat.min i j) as [|[|k]].
  - do 20 (destruct m as [|m]; [exact D|]). destruct m; [exact T|exact D].
  - destruct m as [|m]; [exact D|]. destruct (Nat.leb_spec 40 (S m)); cbn [andb]; [|exact D].
    destruct (Nat.leb_spec (S m) 48); [|exact D]. exists (S m - 39). split; [lia|reflexivity].
  - do 58 (destruct k as [|k]; [exact D|]). destruct k as [|k]; [|exact D].
    do 75 (destruct m as [|m]; [exact D|]). destruct m; [exact T|exact D].
Qed.
Lemma fl_check (P : f64 -> bool) : forallb (fun n => P (fl n)) (seq 1 50) = true -> forall i j, P (tied_distance i j) = true.
Proof.
  intros H i j. destruct (tied_distance_cases i j) as (n & B & ->). rewrite forallb_forall in H. apply H, in_seq. lia.
Qed.
Lemma tied_sound stop : sound (tied stop).
Proof.
  split.
  - cbn. lia.
  - cbn. lia.
  - intros r k _. apply tied_tables.
  - intros r k x i _ H. left. cbn [p_table tied snd] in H. apply nth_error_In in H.
    destruct r as [|[|r]]; cbn in H; intuition (subst; reflexivity).
  - intros a b t d. apply below_sign. intros i j. apply negb_true_iff.
    apply (fl_check (fun x => negb (is_sign_negative x))). vm_compute. reflexivity.
  - intros i j _. apply (fl_check (fle f_zero)). vm_compute. reflexivity.
  - intros i j _ _ _. apply negb_true_iff. apply (fl_check (fun x => negb (is_nan x))). vm_compute. reflexivity.
  - reflexivity.
Qed.
Lemma tied_seed stop : seed_ok (tied stop) 0 20 (fl 20).
Proof. repeat split; cbn; try lia. unfold too_close. lia. Qed.

(** * The second pair is returned for ever *)
(** the parts of the state that no longer change after two calls *)
Definition tied_state : iter :=
  match session (tied false) 0 20 (fl 20) [always; always] 30 with
  | Ret (s, _) => s
  | _ => Iter [] None (g_new 0 0) [] [] [] (config_start 0) 0
  end.
Definition steady_at (s : iter) (r cnt : nat) (tables : list table) : Prop :=
  s = Iter (it_top tied_state) None (it_graph tied_state) [] tables (it_buffer tied_state) (Config r 6 None None) cnt.
Definition tables_good (r : nat) (tables : list table) : Prop :=
  2 <= r < length tables /\ forall i t, 2 <= i -> nth_error tables i = Some t -> t = tied_table 2.
Lemma tied_first :
  exists s r cnt tables, session (tied false) 0 20 (fl 20) [always; always] 30 = Ret (s, [Item first_pair; Item second_pair]) /\
    steady_at s r cnt tables /\ tables_good r tables.
Proof.
  exists tied_state, 3, 10, (map tied_table (seq 0 8)).
  split; [vm_compute; reflexivity|]. split; [vm_compute; reflexivity|].
  split; [cbn; lia|]. intros i t L E. do 8 (destruct i as [|i]; [try lia; cbn in E; injection E as <-; reflexivity|]). destruct i; discriminate.
Qed.
Lemma tied_turn r cnt tables : tables_good r tables ->
  exists tables', tables_good (r + 1) tables' /\
    turn (tied false) (Iter (it_top tied_state) None (it_graph tied_state) [] tables (it_buffer tied_state) (Config r 6 None None) cnt) 30 =
    Ret (Iter (it_top tied_state) None (it_graph tied_state) [second_pair] tables' (it_buffer tied_state) (Config (r + 1) 6 None None) (cnt + 1)).
Proof.
  intros ((L2 & L) & T).
  assert (Et : nth_error tables r = Some (tied_table 2)).
  { destruct (nth_error tables r) as [t|] eqn:E; [rewrite (T r t L2 E); reflexivity|]. apply nth_error_None in E. lia. }
  set (tables' := if length tables <=? r + 1 then tables ++ [tied_table 2] else tables).
  exists tables'. split.
  { unfold tables'. destruct (Nat.leb_spec (length tables) (r + 1)).
    - split; [rewrite app_length; cbn; lia|]. intros i t Li E.
      destruct (Nat.lt_ge_cases i (length tables)); [rewrite nth_error_app1 in E by auto; exact (T i t Li E)|].
      rewrite nth_error_app2 in E by auto. destruct (i - length tables) as [|[|x]]; cbn in E; [injection E as <-; reflexivity|discriminate|discriminate].
    - split; [lia|exact T]. }
  assert (U : exists g, update_graph (tied false) (Iter (it_top tied_state) None (it_graph tied_state) [] tables (it_buffer tied_state) (Config r 6 None None) cnt) 30 =
    Ret (Iter (it_top tied_state) None g [] tables (it_buffer tied_state) (Config r 6 None None) (cnt + 1)) /\
    emit_confirmed (tied false) (Iter (it_top tied_state) None g [] tables (it_buffer tied_state) (Config r 6 None None) (cnt + 1)) =
    Ret (Iter (it_top tied_state) None (it_graph tied_state) [second_pair] tables (it_buffer tied_state) (Config r 6 None None) (cnt + 1))).
  { eexists. split.
    - unfold update_graph. cbn [it_conf c_rep it_tables it_graph it_top it_next it_return it_buffer it_candidates].
      destruct (Nat.ltb_spec r (length tables)) as [_|]; [|lia]. cbn [assert_].
      replace (get tables r) with (Ret (tied_table 2)) by (unfold get; rewrite Et; reflexivity). cbn [bind].
      replace (all_batches (tied false) (tied_table 2) (Config r 6 None None) 30) with (@Ret (list (list (N * N))) [[(60, 75)%N]]) by (vm_compute; reflexivity).
      vm_compute. reflexivity.
    - vm_compute. reflexivity. }
  destruct U as (g & U & V). unfold turn. rewrite U. cbn [bind]. rewrite V. cbn [bind]. cbn [p_n tied Nat.ltb Nat.leb assert_].
  unfold advance, next_prefix. cbn [it_conf it_next c_prefix it_tables c_rep].
  replace (if must_stay (Config r 6 None None) then Ret 6 else Ret 6) with (Ret 6) by (destruct (must_stay _); reflexivity).
  cbn [bind Nat.leb].
  replace (if length tables <=? r + 1 then add_repetitions (tied false) tables (r + 1 + 1) (6 + 1) else Ret tables) with (Ret tables').
  2:{ unfold tables'. destruct (Nat.leb_spec (length tables) (r + 1)); [|reflexivity]. unfold add_repetitions.
      assert (E : length tables = r + 1) by lia. rewrite E. destruct (Nat.ltb_spec (r + 1) (r + 1 + 1)) as [_|]; [|lia]. cbn [assert_].
      replace (r + 1 + 1 - (r + 1)) with 1 by lia. replace (r + 1) with (S (S (r - 1))) by lia. reflexivity. }
  cbn [bind]. unfold config_move. cbn [c_prefix c_rep c_prev c_prev_reps Nat.leb Nat.ltb assert_ bind it_top it_next it_graph it_return it_buffer it_candidates]. reflexivity.
Qed.
Lemma tied_call r cnt tables : tables_good r tables ->
  exists tables', tables_good (r + 1) tables' /\
    next_interruptible (tied false) always (Iter (it_top tied_state) None (it_graph tied_state) [] tables (it_buffer tied_state) (Config r 6 None None) cnt) 30 =
    Ret (Iter (it_top tied_state) None (it_graph tied_state) [] tables' (it_buffer tied_state) (Config (r + 1) 6 None None) (cnt + 1), Item second_pair).
Proof.
  intros G. destruct (tied_turn r cnt tables G) as (tables' & G' & E). exists tables'. split; [exact G'|].
  unfold next_interruptible. cbn [loop]. unfold loop_body at 1. cbn [it_return always negb it_top].
  replace (forallb tk_is_complete (it_top tied_state)) with false by (vm_compute; reflexivity).
  cbn [p_stop tied]. rewrite andb_false_r, E. cbn [bind]. unfold loop_body at 1. cbn [it_return]. reflexivity.
Qed.
Lemma tied_calls n : forall r cnt tables, tables_good r tables ->
  exists s, calls (tied false) (repeat always n) (Iter (it_top tied_state) None (it_graph tied_state) [] tables (it_buffer tied_state) (Config r 6 None None) cnt) 30 =
    Ret (s, repeat (Item second_pair) n).
Proof.
  induction n as [|n IH]; intros r cnt tables G; [eexists; reflexivity|].
  destruct (tied_call r cnt tables G) as (tables' & G' & E). destruct (IH (r + 1) (cnt + 1) tables' G') as (s & Es).
  exists s. cbn [repeat calls]. rewrite E. cbn [bind]. rewrite Es. reflexivity.
Qed.

Lemma c73_run :
  (forall n, exists s, session (tied false) 0 20 (fl 20) (repeat (fun _ => true) (S n)) 30 = Ret (s, Item first_pair :: repeat (Item second_pair) n)) /\
  session (tied false) 0 20 (fl 20) (repeat (fun _ => true) 0) 30 =
    Ret (match iter_new (tied false) 0 20 (fl 20) with Ret s => s | _ => tied_state end, []).
Proof.
  split; [|vm_compute; reflexivity].
  intros [|n].
  - eexists. vm_compute. reflexivity.
  - destruct tied_first as (s & r & cnt & tables & E & St & G). unfold steady_at in St. subst s.
    destruct (tied_calls n r cnt tables G) as (s' & E'). exists s'.
    cbn [repeat]. change (fun _ : nat => true) with always.
    unfold session in *. destruct (iter_new (tied false) 0 20 (fl 20)) as [s0| |]; cbn [bind] in *; try discriminate.
    cbn [calls] in E |- *.
    destruct (next_interruptible (tied false) always s0 30) as [[s1 a1]| |]; cbn [bind] in *; try discriminate.
    destruct (next_interruptible (tied false) always s1 30) as [[s2 a2]| |]; cbn [bind] in *; try discriminate.
    apply Ret_inj in E. pose proof (f_equal fst E) as E1. pose proof (f_equal snd E) as E2. cbn [fst snd] in E1, E2.
    injection E2 as -> ->. rewrite E1, E'. reflexivity.
Qed.

(** * C73: at most [top_k] motiflets per support, which do not overlap: false *)
(** Two motiflets are asked for.  The same one is returned as often as one likes. *)
Theorem c73_disjoint_answers_refuted :
  exists (p : problem) (a b : nat) (d : f64) (m first : motiflet) (fuel : nat),
    sound p /\ seed_ok p a b d /\ p_top_k p = 2 /\ ml_indices m <> [] /\
    forall n, exists s, session p a b d (repeat (fun _ => true) (S n)) fuel = Ret (s, Item first :: repeat (Item m) n).
Proof.
  exists (tied false), 0, 20, (fl 20), second_pair, first_pair, 30.
  split; [apply tied_sound|]. split; [apply tied_seed|]. split; [reflexivity|]. split; [discriminate|].
  apply c73_run.
Qed.
Print Assumptions c73_disjoint_answers_refuted.

(** * C39: stopping on too many collisions: false *)
(** More pairs than the threshold were evaluated and the second pair was just returned: what is
    returned on stopping is the second pair once more. *)
Theorem c39_stop_refuted :
  exists (p : problem) (a b : nat) (d : f64) (m : motiflet) (fuel : nat) (s s' : iter) (answers : list answer),
    sound p /\ seed_ok p a b d /\ ml_indices m <> [] /\
    session p a b d (repeat (fun _ => true) 2) fuel = Ret (s, answers) /\
    it_return s = [] /\ p_stop p = true /\ p_threshold p < it_candidates s /\
    In (Item m) answers /\ length (items answers) = p_top_k p /\
    calls p (repeat (fun _ => true) 2) s fuel = Ret (s', [Item m; End]).
Proof.
  exists (tied true), 0, 20, (fl 20), second_pair, 30.
  destruct (session (tied true) 0 20 (fl 20) (repeat (fun _ => true) 2) 30) as [[s answers]| |] eqn:E; vm_compute in E; try discriminate.
  apply Ret_inj in E. injection E as <- <-. do 3 eexists.
  split; [apply tied_sound|]. split; [apply tied_seed|]. split; [discriminate|]. split; [reflexivity|].
  split; [reflexivity|]. split; [reflexivity|]. split; [cbn; lia|]. split; [right; left; reflexivity|]. split; [reflexivity|].
  vm_compute. reflexivity.
Qed.
Print Assumptions c39_stop_refuted.

(** * C41: the iterator terminates: false for several motiflets per support *)
(** Every call returns, but the end is never reached, although the series has room for all
    the motiflets asked for. *)
Theorem c41_several_refuted :
  exists (p : problem) (a b : nat) (d : f64) (fuel : nat) (x y : motiflet),
    sound p /\ seed_ok p a b d /\ p_max_k p = 2 /\ p_top_k p = 2 /\
    valid_motiflet p x /\ valid_motiflet p y /\ ~ sets_conflict (p_ez p) (ml_indices x) (ml_indices y) /\
    (forall e reps prefix prev prev_reps, flt (p_failure p e reps prefix prev prev_reps) (p_delta p) = true) /\
    (forall n s answers, session p a b d (repeat (fun _ => true) n) fuel = Ret (s, answers) -> ~ In End answers) /\
    forall n, exists s answers, session p a b d (repeat (fun _ => true) n) fuel = Ret (s, answers) /\ length (items answers) = n.
Proof.
  exists (tied false), 0, 20, (fl 20), 30, (Motiflet [1; 40] (fl 1)), second_pair.
  assert (V : forall i j, i < j -> 10 <= j - i -> indexed (tied false) i -> indexed (tied false) j -> fle (tied_distance j i) (tied_distance j i) = true ->
     valid_motiflet (tied false) (Motiflet [i; j] (tied_distance j i))).
  { intros i j L Z Ii Ij Re. split; [cbn; lia|]. split; [intros x [<-|[<-|[]]]; assumption|]. cbn [ml_indices ml_extent]. split.
    - intros x y u v Lxy Hx Hy. destruct y as [|[|[|y]]]; cbn in Hy; try discriminate; destruct x as [|[|x]]; cbn in Hx; try discriminate; try lia.
      injection Hx as <-. injection Hy as <-. unfold too_close. cbn. lia.
    - split; [cbn; lia|]. split.
      + intros x y u v Lxy Hx Hy. destruct y as [|[|[|y]]]; cbn in Hy; try discriminate; destruct x as [|[|x]]; cbn in Hx; try discriminate; try lia.
        injection Hx as <-. injection Hy as <-. exact Re.
      + intros _. exists 0, 1, i, j. repeat split; auto. }
  split; [apply tied_sound|]. split; [apply tied_seed|]. split; [reflexivity|]. split; [reflexivity|].
  split; [|split; [|split; [|split; [|split]]]].
  - apply (V 1 40); try lia; [| |reflexivity]; (split; [cbn; lia|]; exists 1, 1; split; [unfold K; lia|]; cbn; auto).
  - apply (V 60 75); try lia; [| |reflexivity]; (split; [cbn; lia|]; exists 2, 1; split; [unfold K; lia|]; cbn; auto).
  - intros (i & j & Hi & Hj & T). cbn in Hi, Hj. unfold too_close in T. cbn [p_ez tied] in T. lia.
  - intros. reflexivity.
  - intros n s answers E He. destruct c73_run as (H & H0). destruct n as [|n]; [rewrite H0 in E|destruct (H n) as (s' & E'); rewrite E' in E].
    + apply Ret_inj, (f_equal snd) in E. cbn [snd] in E. subst answers. exact He.
    + apply Ret_inj, (f_equal snd) in E. cbn [snd] in E. subst answers. clear E' H H0. destruct He as [He|He]; [discriminate He|]. apply repeat_spec in He. discriminate He.
  - intros n. destruct c73_run as (H & H0). destruct n as [|n]; [eexists; eexists; split; [exact H0|reflexivity]|].
    destruct (H n) as (s' & E'). eexists. eexists. split; [exact E'|].
    cbn [items flat_map app length]. f_equal. clear. induction n as [|n IH]; [reflexivity|]. cbn. f_equal. exact IH.
Qed.
Print Assumptions c41_several_refuted.
