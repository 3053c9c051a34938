(** Proofs about the command-line program. *)
From Coq Require Import String.
From Verif Require Import Base F64 Overlaps OverlapsSpec BruteSpec Brute TopK Iterator IteratorSpec IteratorProofs IteratorSteps IteratorCalls IteratorEnd Text TextSpec Python Main MainSpec.
Local Open Scope N_scope.
Local Open Scope list_scope.

(** ** Reading the file back *)
Lemma pieces_none sep s : ~ In sep s -> pieces sep s = [s].
Proof.
  induction s as [|c s IH]; intros H; [reflexivity|]. cbn [pieces].
  destruct (N.eqb_spec c sep) as [->|_]; [destruct H; left; reflexivity|]. rewrite IH; [reflexivity|]. intros I. apply H. right. exact I.
Qed.
Lemma pieces_cut sep a b : ~ In sep a -> pieces sep (a ++ sep :: b) = a :: pieces sep b.
Proof.
  induction a as [|c a IH]; intros H; cbn [app pieces].
  - rewrite N.eqb_refl. reflexivity.
  - destruct (N.eqb_spec c sep) as [->|_]; [destruct H; left; reflexivity|]. rewrite IH; [reflexivity|]. intros I. apply H. right. exact I.
Qed.
Lemma pieces_lines lines : Forall (fun l => ~ In 10 l) lines -> pieces 10 (concat (map (fun l => l ++ [10]) lines)) = lines ++ [[]].
Proof.
  induction 1 as [|l lines H F IH]; [reflexivity|]. cbn [map concat]. rewrite <- app_assoc. cbn [app]. rewrite pieces_cut by exact H. rewrite IH. reflexivity.
Qed.
Lemma pieces_join sep s l : ~ In sep s -> Forall (fun t => ~ In sep t) l -> sep <> 32 ->
  pieces sep (s ++ concat (map (fun t => sep :: 32 :: t) l)) = s :: map (cons 32) l.
Proof.
  intros Hs F Hne. revert s Hs. induction F as [|t l H F IH]; intros s Hs; cbn [map concat].
  - rewrite app_nil_r. apply pieces_none. exact Hs.
  - cbn [app]. rewrite pieces_cut by exact Hs. f_equal.
    change (32 :: t ++ concat (map (fun t0 => sep :: 32 :: t0) l)) with ((32 :: t) ++ concat (map (fun t0 => sep :: 32 :: t0) l)).
    apply IH. intros [E|I]; [congruence|exact (H I)].
Qed.
Lemma join_concat s l : codes ", " ++ join (codes ", ") (s :: l) = concat (map (fun t => 44 :: 32 :: t) (s :: l)).
Proof.
  revert s. induction l as [|t l IH]; intros s.
  - cbn. rewrite app_nil_r. reflexivity.
  - specialize (IH t). change (join (codes ", ") (s :: t :: l)) with (s ++ codes ", " ++ join (codes ", ") (t :: l)). rewrite IH. reflexivity.
Qed.

(** ** Printing an index *)
Lemma decimal_snoc ds x : decimal (ds ++ [x]) = 10 * decimal ds + x.
Proof. unfold decimal. rewrite fold_left_app. reflexivity. Qed.
Lemma show_loop_digits fuel : forall n acc, n < 2 ^ N.of_nat fuel ->
  exists ds, show_loop (S fuel) n acc = written ds ++ acc /\ is_digits ds /\ decimal ds = n /\ (hd 0 ds = 0 -> n = 0 /\ ds = [0]).
Proof.
  induction fuel as [|f IH]; intros n acc L; cbn [show_loop].
  - change (2 ^ N.of_nat 0) with 1 in L. assert (n = 0) by lia. subst n. exists [0]. repeat split. discriminate. constructor; [lia|constructor].
  - pose proof (N.div_mod n 10 ltac:(lia)) as D. pose proof (N.mod_lt n 10 ltac:(lia)) as Lm.
    destruct (N.eqb_spec (n / 10) 0) as [E|E].
    + exists [n mod 10]. rewrite E in D. split; [reflexivity|]. split; [split; [discriminate|constructor; [lia|constructor]]|]. split; [cbn; lia|].
      cbn [hd]. intros Z. rewrite Z. split; [lia|reflexivity].
    + destruct (IH (n / 10) ((48 + n mod 10) :: acc)) as (ds & Eq & (Hn & Hd) & V & Z).
      { rewrite Nat2N.inj_succ, N.pow_succ_r' in L. apply N.div_lt_upper_bound; lia. }
      exists (ds ++ [n mod 10]). cbn [show_loop] in Eq. rewrite Eq. split; [unfold written; rewrite map_app, <- app_assoc; reflexivity|].
      split; [split; [destruct ds; discriminate|apply Forall_app; split; [exact Hd|constructor; [lia|constructor]]]|].
      split; [rewrite decimal_snoc, V; lia|].
      destruct ds as [|x ds]; [destruct Hn; reflexivity|]. cbn [app hd] in *. intros E0. destruct (Z E0) as (E1 & _). lia.
Qed.
Lemma show_number_digits n : exists ds, show_number n = written ds /\ is_digits ds /\ decimal ds = n /\ (hd 0 ds = 0 -> n = 0 /\ ds = [0]).
Proof.
  destruct (show_loop_digits (N.to_nat (N.size n)) n []) as (ds & E & D & V & Z).
  - rewrite N2Nat.id. apply N.size_gt.
  - exists ds. unfold show_number. rewrite E, app_nil_r. auto.
Qed.
Lemma show_index_digits i : exists ds, show_index i = written ds /\ is_digits ds /\ decimal ds = N.of_nat i /\ (hd 0 ds = 0 -> i = 0%nat /\ ds = [0]).
Proof.
  destruct (show_number_digits (N.of_nat i)) as (ds & E & D & V & Z). exists ds. unfold show_index. rewrite E.
  split; [reflexivity|]. split; [exact D|]. split; [exact V|]. intros H. destruct (Z H). split; [lia|assumption].
Qed.
Lemma written_chars ds c : Forall (fun d => d < 10) ds -> In c (written ds) -> 48 <= c <= 57.
Proof. intros F I. apply in_map_iff in I. destruct I as (d & <- & I). rewrite Forall_forall in F. specialize (F d I). lia. Qed.
Lemma show_index_plain i c : In c (show_index i) -> 48 <= c <= 57.
Proof. destruct (show_index_digits i) as (ds & -> & (_ & F) & _). apply written_chars. exact F. Qed.
Lemma show_number_plain n c : In c (show_number n) -> 48 <= c <= 57.
Proof. destruct (show_number_digits n) as (ds & -> & (_ & F) & _). apply written_chars. exact F. Qed.
Lemma show_index_natural i : natural (show_index i) = Some (N.of_nat i).
Proof.
  destruct (show_index_digits i) as (ds & E & (Hn & F) & V & _). rewrite E. destruct ds as [|x ds]; [destruct Hn; reflexivity|].
  unfold natural. cbn [written map]. change ((48 + x) :: map (fun d => 48 + d) ds) with (written (x :: ds)).
  replace (forallb _ (written (x :: ds))) with true.
  - f_equal. rewrite <- V. f_equal. unfold written. rewrite map_map. cbn [map]. f_equal; [lia|]. transitivity (map (fun d => d) ds); [|apply map_id]. apply map_ext. intros a. lia.
  - symmetry. apply forallb_forall. intros c I. pose proof (written_chars (x :: ds) c F I). lia.
Qed.

(** ** The whole file *)
Definition line_of (show : f64 -> list N) (m : contrasted) : list N :=
  show (cm_extent m) ++ concat (map (fun t => 44 :: 32 :: t) (map show_index (cm_indices m))).
Lemma csv_lines show ms : Forall (fun m => cm_indices m <> []) ms -> output_csv show ms = concat (map (fun l => l ++ [10]) (map (line_of show) ms)).
Proof.
  intros F. unfold output_csv. rewrite map_map. f_equal. apply map_ext_in. intros m I. rewrite Forall_forall in F. specialize (F m I).
  unfold line_of. destruct (cm_indices m) as [|i l]; [destruct F; reflexivity|]. rewrite <- app_assoc. f_equal. cbn [map].
  rewrite app_assoc, join_concat. reflexivity.
Qed.
Lemma line_newline show m : plain show -> ~ In 10 (line_of show m).
Proof.
  intros P I. unfold line_of in I. apply in_app_or in I. destruct I as [I|I]; [exact (proj2 (P _) I)|].
  apply in_concat in I. destruct I as (x & I1 & I2). apply in_map_iff in I1. destruct I1 as (t & <- & I1). apply in_map_iff in I1. destruct I1 as (i & <- & _).
  destruct I2 as [E|[E|I2]]; [discriminate|discriminate|]. apply show_index_plain in I2. lia.
Qed.
Lemma line_row show m : plain show -> row (line_of show m) = Some (show (cm_extent m), map N.of_nat (cm_indices m)).
Proof.
  intros P. unfold row, line_of. rewrite pieces_join; [| exact (proj1 (P _)) | |discriminate].
  - rewrite !map_map.
    assert (E : forall l, all_some (map (fun i => match 32 :: show_index i with 32 :: s => natural s | _ => None end) l) = Some (map N.of_nat l)).
    { induction l as [|i l IH]; [reflexivity|]. cbn [map all_some]. rewrite show_index_natural, IH. reflexivity. }
    specialize (E (cm_indices m)). cbn beta iota in E |- *. rewrite E. reflexivity.
  - rewrite Forall_map. apply Forall_forall. intros i _ I. apply show_index_plain in I. lia.
Qed.
Lemma csv_rows show ms : plain show -> Forall (fun m => cm_indices m <> []) ms ->
  rows (output_csv show ms) = Some (map (fun m => (show (cm_extent m), map N.of_nat (cm_indices m))) ms).
Proof.
  intros P F. unfold rows. rewrite (csv_lines show ms F), pieces_lines.
  - rewrite rev_app_distr. cbn [rev app]. rewrite rev_involutive. clear F. induction ms as [|m ms IH]; [reflexivity|].
    cbn [map all_some]. rewrite line_row by exact P. rewrite IH. reflexivity.
  - rewrite Forall_map. apply Forall_forall. intros m _. apply line_newline. exact P.
Qed.

(** ** Collecting *)
Local Open Scope nat_scope.
Lemma collect_calls p fuel0 : forall fuel s acc l,
  loop fuel (fun st : iter * list motiflet =>
       let '(s, acc) := st in
       let! '(s, answer) := next p s fuel0 in
       match answer with
       | Item m => Ret (inl (s, acc ++ [m]))
       | End => Ret (inr acc)
       | Interrupted => Panic
       end) (s, acc) = Ret l ->
  exists n s' l', calls p (repeat (fun _ => true) n) s fuel0 = Ret (s', map Item l' ++ [End]) /\ l = acc ++ l'.
Proof.
  induction fuel as [|f IH]; intros s acc l E; cbn [loop] in E; [discriminate|]. unfold next in E at 1.
  destruct (next_interruptible p (fun _ => true) s fuel0) as [(s1 & a)| |] eqn:E1; cbn [bind] in E; try discriminate.
  destruct a as [|m|]; try discriminate.
  - destruct (IH s1 (acc ++ [m]) l E) as (n & s' & l' & C & ->). exists (S n), s', (m :: l'). split; [|rewrite <- app_assoc; reflexivity].
    cbn [repeat calls]. rewrite E1. cbn [bind]. rewrite C. reflexivity.
  - injection E as <-. exists 1, s1, []. split; [|rewrite app_nil_r; reflexivity]. cbn [repeat calls]. rewrite E1. reflexivity.
Qed.
Lemma collect_session p a b d s0 fuel l : iter_new p a b d = Ret s0 -> collect p s0 fuel = Ret l ->
  exists n s', session p a b d (repeat (fun _ => true) n) fuel = Ret (s', map Item l ++ [End]).
Proof.
  intros E0 E. destruct (collect_calls p fuel fuel s0 [] l E) as (n & s' & l' & C & ->). exists n, s'. unfold session. rewrite E0. exact C.
Qed.

Lemma collect_panic p fuel0 : forall fuel s acc,
  loop fuel (fun st : iter * list motiflet =>
       let '(s, acc) := st in
       let! '(s, answer) := next p s fuel0 in
       match answer with
       | Item m => Ret (inl (s, acc ++ [m]))
       | End => Ret (inr acc)
       | Interrupted => Panic
       end) (s, acc) = Panic ->
  exists n, calls p (repeat (fun _ => true) n) s fuel0 = Panic \/ exists s' l, calls p (repeat (fun _ => true) n) s fuel0 = Ret (s', l) /\ In Interrupted l.
Proof.
  induction fuel as [|f IH]; intros s acc E; cbn [loop] in E; [discriminate|]. unfold next in E at 1.
  destruct (next_interruptible p (fun _ => true) s fuel0) as [(s1 & a)| |] eqn:E1; cbn [bind] in E; try discriminate.
  - destruct a as [|m|]; try discriminate.
    + exists 1. right. exists s1, [Interrupted]. cbn [repeat calls]. rewrite E1. split; [reflexivity|left; reflexivity].
    + destruct (IH s1 (acc ++ [m]) E) as (n & [C|(s' & l & C & I)]).
      * exists (S n). left. cbn [repeat calls]. rewrite E1. cbn [bind]. rewrite C. reflexivity.
      * exists (S n). right. exists s', (Item m :: l). cbn [repeat calls]. rewrite E1. cbn [bind]. rewrite C. split; [reflexivity|right; exact I].
  - exists 1. left. cbn [repeat calls]. rewrite E1. reflexivity.
Qed.

(** ** The end *)
Lemma next_end p cb s fuel s' a : p_stop p = false -> next_interruptible p cb s fuel = Ret (s', a) -> a = End ->
  it_return s' = [] /\ forallb tk_is_complete (it_top s') = true.
Proof.
  intros Hs E. unfold next_interruptible in E.
  refine (loop_inv _ (fun _ => True) (fun r : iter * answer => snd r = End -> it_return (fst r) = [] /\ forallb tk_is_complete (it_top (fst r)) = true) _ fuel (s, 0) (s', a) Logic.I E).
  intros (t & i) _ x Ex. destruct (loop_body p t (cb i) fuel) as [[t'|(t' & b)]| |] eqn:B; cbn [bind] in Ex; try discriminate; apply Ret_inj in Ex; subst x; [exact Logic.I|].
  cbn [fst snd]. intros ->. unfold loop_body in B. destruct (it_return t) as [|m r] eqn:R.
  - destruct (negb (cb i)); [discriminate|]. destruct (forallb tk_is_complete (it_top t)) eqn:C.
    + apply Ret_inj in B. injection B as <-. auto.
    + rewrite Hs, andb_false_r in B. destruct (turn p t fuel); cbn [bind] in B; discriminate.
  - unfold pop in B. rewrite R in B. cbn [rev] in B. destruct (rev r ++ [m]) as [|y q] eqn:Er; [destruct (rev r); discriminate|]. apply Ret_inj in B. discriminate.
Qed.
Lemma calls_last p cbs : forall s fuel s' l, calls p cbs s fuel = Ret (s', l ++ [End]) -> exists s1 cb, next_interruptible p cb s1 fuel = Ret (s', End).
Proof.
  induction cbs as [|cb cbs IH]; intros s fuel s' l E; cbn [calls] in E.
  - apply Ret_inj in E. destruct l; discriminate.
  - destruct (next_interruptible p cb s fuel) as [(s1 & a)| |] eqn:E1; cbn [bind] in E; try discriminate.
    destruct (calls p cbs s1 fuel) as [(s2 & l2)| |] eqn:E2; cbn [bind] in E; try discriminate.
    apply Ret_inj in E. injection E as <- E. destruct l2 as [|y l2].
    + destruct l as [|x l]; [|destruct l; discriminate]. injection E as ->.
      destruct cbs as [|cb2 cbs]; [|cbn [calls] in E2; destruct (next_interruptible p cb2 s1 fuel) as [(s3 & a3)| |]; cbn [bind] in E2; try discriminate; destruct (calls p cbs s3 fuel) as [(s4 & l4)| |]; cbn [bind] in E2; discriminate].
      cbn [calls] in E2. apply Ret_inj in E2. injection E2 as <-. exists s, cb. exact E1.
    + destruct l as [|x l]; [discriminate|]. injection E as -> E. rewrite E in E2. exact (IH s1 fuel s2 l E2).
Qed.
Lemma enabled p a b d h k : p_stop p = false -> 2 <= k -> trace p a b d h ->
  exists s l, h = s :: l /\ forall t, nth_error (it_top s) k = Some t -> tk_disabled t = false.
Proof.
  intros Hs Lk T. induction T as [s E|s s' l T IH St].
  - exists s, []. split; [reflexivity|]. intros t. apply (new_disabled p a b d s E). lia.
  - destruct IH as (s0 & l0 & Eq & H). injection Eq as <- <-. exists s', (s :: l). split; [reflexivity|]. intros t Ht.
    pose proof (step_disabled p s s' Hs St) as M.
    assert (E : nth_error (map tk_disabled (it_top s)) k = Some (tk_disabled t)) by (rewrite <- M, nth_error_map, Ht; reflexivity).
    rewrite nth_error_map in E. destruct (nth_error (it_top s) k) as [t0|] eqn:E0; [|discriminate]. cbn in E. injection E as <-. apply H. reflexivity.
Qed.
Lemma fits n ez l : 0 < ez -> (forall x, In x l -> x < n) -> pairwise_apart ez l -> length l <= (n - 1) / ez + 1.
Proof.
  intros Hz Hn A. rewrite <- (map_length (fun x => x / ez) l), <- (seq_length ((n - 1) / ez + 1) 0). apply NoDup_incl_length.
  - apply NoDup_nth_error. intros i j Li E. rewrite map_length in Li. rewrite !nth_error_map in E.
    destruct (nth_error l i) as [x|] eqn:Ei; [|apply nth_error_None in Ei; lia]. destruct (nth_error l j) as [y|] eqn:Ej; [|discriminate].
    cbn in E. injection E as E. pose proof (Nat.div_mod x ez ltac:(lia)). pose proof (Nat.div_mod y ez ltac:(lia)).
    pose proof (Nat.mod_upper_bound x ez ltac:(lia)). pose proof (Nat.mod_upper_bound y ez ltac:(lia)). rewrite E in H.
    destruct (Nat.lt_trichotomy i j) as [L|[L|L]]; [exfalso; apply (A i j x y L Ei Ej)|exact L|exfalso; apply (A j i y x L Ej Ei)]; unfold too_close; lia.
  - intros q I. apply in_map_iff in I. destruct I as (x & <- & I). apply in_seq. specialize (Hn x I).
    assert (D : x / ez <= (n - 1) / ez) by (apply Nat.div_le_mono; lia). split; [apply Nat.le_0_l|]. rewrite Nat.add_0_l. apply (Nat.le_lt_trans _ _ _ D). rewrite Nat.add_1_r. apply Nat.lt_succ_diag_r.
Qed.
