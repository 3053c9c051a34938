(** Proofs about text input. *)
From Coq Require Import String.
From Verif Require Import Base Text TextSpec TextForms.
Local Open Scope N_scope.
Local Open Scope list_scope.

(** ** Trimming *)
Lemma strip_spec p s s' : strip p s = Some s' <-> s = p ++ s'.
Proof.
  revert s; induction p as [|a p IH]; intros [|b s]; cbn [strip app].
  - split; [intros E; injection E as <-; reflexivity|intros <-; reflexivity].
  - split; [intros E; injection E as <-; reflexivity|intros <-; reflexivity].
  - split; discriminate.
  - destruct (N.eqb_spec a b) as [->|N].
    + rewrite IH. split; [intros ->; reflexivity|intros E; injection E as ->; reflexivity].
    + split; [discriminate|]. intros E. injection E as E _. congruence.
Qed.
Lemma times_comm n p : times n p ++ p = p ++ times n p.
Proof. induction n as [|n IH]; cbn [times]; [rewrite app_nil_r; reflexivity|]. rewrite <- app_assoc, IH. reflexivity. Qed.
Lemma rev_times n p : rev (times n p) = times n (rev p).
Proof. induction n as [|n IH]; [reflexivity|]. cbn [times]. rewrite rev_app_distr, IH. apply times_comm. Qed.
Lemma trim_loop_spec n p s : p <> [] -> (length s <= n)%nat ->
  exists i, s = times i p ++ trim_loop n p s /\ strip p (trim_loop n p s) = None.
Proof.
  intros Hp. revert s; induction n as [|n IH]; intros s L; cbn [trim_loop].
  - destruct s as [|]; [|cbn in L; lia]. exists 0%nat. split; [reflexivity|]. destruct p; [congruence|reflexivity].
  - destruct (strip p s) as [s'|] eqn:E.
    + apply strip_spec in E. assert (length s' <= n)%nat by (subst s; rewrite app_length in L; destruct p; [congruence|cbn in L; lia]).
      destruct (IH s' H) as (i & Ei & Es). exists (S i). split; [|exact Es]. cbn [times]. rewrite <- app_assoc, <- Ei. exact E.
    + exists 0%nat. split; [reflexivity|exact E].
Qed.
(** [s] does not end with [p] *)
Definition no_end (p s : list N) : Prop := forall s', s <> s' ++ p.
Lemma strip_none p s : strip (rev p) (rev s) = None <-> no_end p s.
Proof.
  unfold no_end. split.
  - intros E s' ->. rewrite rev_app_distr in E. rewrite (proj2 (strip_spec (rev p) (rev p ++ rev s') (rev s')) eq_refl) in E. discriminate E.
  - intros H. destruct (strip (rev p) (rev s)) as [s'|] eqn:E; [|reflexivity]. apply strip_spec in E. exfalso. apply (H (rev s')).
    rewrite <- (rev_involutive s), E, rev_app_distr, rev_involutive. reflexivity.
Qed.
Lemma trim_end_matches_spec p s : p <> [] -> exists i, s = trim_end_matches p s ++ times i p /\ no_end p (trim_end_matches p s).
Proof.
  intros Hp. unfold trim_end_matches. destruct (trim_loop_spec (length s) (rev p) (rev s)) as (i & E & H).
  - intros E. apply Hp. rewrite <- (rev_involutive p), E. reflexivity.
  - rewrite rev_length. lia.
  - set (x := trim_loop (length s) (rev p) (rev s)) in *. exists i. split.
    + rewrite <- (rev_involutive s), E, rev_app_distr, rev_times, rev_involutive. reflexivity.
    + apply strip_none. rewrite rev_involutive. exact H.
Qed.
Lemma no_end_unique p a b i j : p <> [] -> a ++ times i p = b ++ times j p -> no_end p a -> no_end p b -> a = b.
Proof.
  intros Hp. revert j. induction i as [|i IH]; intros [|j] E Ha Hb; cbn [times] in E; rewrite ?app_nil_r in E.
  - exact E.
  - exfalso. apply (Ha (b ++ times j p)). rewrite E, <- times_comm, app_assoc. reflexivity.
  - exfalso. apply (Hb (a ++ times i p)). rewrite <- E, <- times_comm, app_assoc. reflexivity.
  - apply (IH j); [|exact Ha|exact Hb]. rewrite <- !times_comm, !app_assoc in E. apply app_inv_tail in E. exact E.
Qed.
Lemma trim_end_matches_eq p s i : p <> [] -> no_end p s -> trim_end_matches p (s ++ times i p) = s.
Proof.
  intros Hp H. destruct (trim_end_matches_spec p (s ++ times i p) Hp) as (j & E & H'). symmetry. apply (no_end_unique p s _ i j Hp E H H').
Qed.
Lemma trim_start_spec s : exists front, blanks front /\ s = front ++ trim_start s /\ (forall c t, trim_start s = c :: t -> is_space c = false).
Proof.
  induction s as [|c s IH]; cbn [trim_start].
  - exists []. split; [constructor|]. split; [reflexivity|discriminate].
  - destruct (is_space c) eqn:E.
    + destruct IH as (front & H1 & H2 & H3). exists (c :: front). split; [constructor; assumption|]. split; [cbn [app]; congruence|exact H3].
    + exists []. split; [constructor|]. split; [reflexivity|]. intros c' t E'. injection E' as <- <-. exact E.
Qed.
Lemma trim_start_app front s : blanks front -> (forall c t, s = c :: t -> is_space c = false) -> trim_start (front ++ s) = s.
Proof.
  intros H Hs. induction H as [|c front Hc _ IH]; cbn [app trim_start]; [|rewrite Hc; exact IH].
  destruct s as [|c t]; [reflexivity|]. cbn [trim_start]. rewrite (Hs c t eq_refl). reflexivity.
Qed.
Lemma blanks_rev s : blanks s -> blanks (rev s).
Proof. intros H. apply Forall_forall. intros c I. apply in_rev in I. apply (proj1 (Forall_forall _ _) H c I). Qed.
Lemma trim_spec s : exists front back, blanks front /\ blanks back /\ s = front ++ trim s ++ back /\
  (forall c t, trim s = c :: t -> is_space c = false) /\ (forall c t, trim s = t ++ [c] -> is_space c = false).
Proof.
  destruct (trim_start_spec s) as (front & H1 & H2 & H3). set (x := trim_start s) in *. unfold trim, trim_end. fold x.
  destruct (trim_start_spec (rev x)) as (back & B1 & B2 & B3). set (y := trim_start (rev x)) in *.
  assert (Ex : x = rev y ++ rev back) by (rewrite <- (rev_involutive x), B2, rev_app_distr; reflexivity).
  exists front, (rev back). split; [exact H1|]. split; [apply blanks_rev; exact B1|]. split; [rewrite <- Ex; exact H2|]. split.
  - intros c t E. apply (H3 c (t ++ rev back)). rewrite Ex, E. reflexivity.
  - intros c t E. apply (B3 c (rev t)). rewrite <- (rev_involutive y), E, rev_app_distr. reflexivity.
Qed.
Lemma trim_eq front s back : blanks front -> blanks back -> s <> [] ->
  (forall c t, s = c :: t -> is_space c = false) -> (forall c t, s = t ++ [c] -> is_space c = false) -> trim (front ++ s ++ back) = s.
Proof.
  intros H1 H2 Hne Hf Hb. unfold trim, trim_end. rewrite trim_start_app; [|exact H1|].
  - rewrite rev_app_distr, trim_start_app; [apply rev_involutive|apply blanks_rev; exact H2|]. intros c t E. apply (Hb c (rev t)). rewrite <- (rev_involutive s), E. reflexivity.
  - intros c t E. destruct s as [|c' s]; [congruence|]. injection E as <- _. apply (Hf c' s). reflexivity.
Qed.
Lemma trim_end_nil s : trim_end s = [] <-> blank s = true.
Proof.
  unfold trim_end, blank. destruct (trim_start_spec (rev s)) as (front & H1 & H2 & H3). split.
  - intros E. apply (f_equal (@rev N)) in E. rewrite rev_involutive in E. cbn [rev] in E. rewrite E, app_nil_r in H2. apply forallb_forall. intros c I.
    apply in_rev in I. rewrite H2 in I. exact (proj1 (Forall_forall _ _) H1 c I).
  - intros H. destruct (trim_start (rev s)) as [|c t] eqn:E; [reflexivity|]. exfalso. specialize (H3 c t eq_refl). rewrite forallb_forall in H.
    rewrite H in H3; [discriminate H3|]. apply in_rev. rewrite H2. apply in_or_app. right. left. reflexivity.
Qed.

(** ** Numbers *)
Lemma digit_char c : (48 <=? c) && (c <=? 57) = true <-> exists d, d < 10 /\ c = 48 + d.
Proof.
  split.
  - intros H. exists (c - 48). lia.
  - intros (d & H & ->). lia.
Qed.
Lemma decimal_from acc digits : acc <= fold_left (fun acc d => 10 * acc + d) digits acc.
Proof. revert acc; induction digits as [|d l IH]; intros acc; cbn [fold_left]; [lia|]. specialize (IH (10 * acc + d)). lia. Qed.
Lemma parse_digits_ok acc digits : Forall (fun d => d < 10) digits -> fold_left (fun acc d => 10 * acc + d) digits acc < 2 ^ 64 ->
  parse_digits acc (written digits) = Some (fold_left (fun acc d => 10 * acc + d) digits acc).
Proof.
  intros H. revert acc; induction H as [|d l Hd _ IH]; intros acc L; cbn [written map parse_digits fold_left]; [reflexivity|].
  rewrite (proj2 (digit_char (48 + d)) (ex_intro _ d (conj Hd eq_refl))). cbn [fold_left] in L. pose proof (decimal_from (10 * acc + d) l).
  replace (acc * 10 + (48 + d - 48)) with (10 * acc + d) by lia. destruct (N.ltb_spec (10 * acc + d) (2 ^ 64)); [|lia]. apply IH. exact L.
Qed.
Lemma parse_digits_inv acc s v : parse_digits acc s = Some v -> acc < 2 ^ 64 -> exists digits, Forall (fun d => d < 10) digits /\ s = written digits /\
  v = fold_left (fun acc d => 10 * acc + d) digits acc /\ v < 2 ^ 64.
Proof.
  revert acc; induction s as [|c s IH]; intros acc; cbn [parse_digits].
  - intros E La. injection E as <-. exists []. split; [constructor|]. split; [reflexivity|]. split; [reflexivity|exact La].
  - destruct ((48 <=? c) && (c <=? 57)) eqn:Ec; [|discriminate]. apply digit_char in Ec. destruct Ec as (d & Hd & ->).
    replace (acc * 10 + (48 + d - 48)) with (10 * acc + d) by lia. destruct (N.ltb_spec (10 * acc + d) (2 ^ 64)); [|discriminate]. intros E _.
    destruct (IH _ E H) as (l & H1 & H2 & H3 & H4). exists (d :: l). split; [constructor; assumption|]. split; [cbn [written map]; f_equal; exact H2|]. split; assumption.
Qed.
Lemma parse_usize_inv s v : parse_usize s = Some v -> exists plus digits, (plus = [] \/ plus = codes "+") /\ is_digits digits /\ s = plus ++ written digits /\ v = decimal digits /\ v < 2 ^ 64.
Proof.
  unfold parse_usize. intros E.
  assert (G : exists plus t, (plus = [] \/ plus = codes "+") /\ s = plus ++ t /\ match t with [] => None | _ => parse_digits 0 t end = Some v).
  { destruct s as [|c t]; [discriminate E|]. destruct (N.eq_dec c 43) as [->|N].
    - exists (codes "+"), t. split; [right; reflexivity|]. split; [reflexivity|exact E].
    - exists [], (c :: t). split; [left; reflexivity|]. split; [reflexivity|]. destruct c as [|q]; [exact E|]. do 6 (destruct q as [q|q|]; try exact E). congruence. }
  destruct G as (plus & t & Hp & -> & Et). exists plus. destruct t as [|c t]; [discriminate Et|]. destruct (parse_digits_inv 0 _ _ Et) as (l & H1 & H2 & H3 & H4); [reflexivity|].
  exists l. split; [exact Hp|]. split; [split; [destruct l; [discriminate H2|discriminate]|exact H1]|]. split; [rewrite H2; reflexivity|]. split; assumption.
Qed.
Lemma parse_usize_ok plus digits : (plus = [] \/ plus = codes "+") -> is_digits digits -> decimal digits < 2 ^ 64 -> parse_usize (plus ++ written digits) = Some (decimal digits).
Proof.
  intros Hp (Hne & Hd) L. destruct digits as [|d l]; [congruence|].
  assert (E : parse_digits 0 (written (d :: l)) = Some (decimal (d :: l))) by (apply parse_digits_ok; assumption).
  unfold parse_usize. destruct Hp as [->| ->]; cbn [app codes written map] in *.
  - assert (Hd' : d < 10) by (inversion Hd; assumption). assert (N : 48 + d <> 43) by lia. destruct (48 + d) as [|q] eqn:Eq; [exact E|]. do 6 (destruct q as [q|q|]; try exact E). congruence.
  - exact E.
Qed.
Lemma parse_usize_big plus digits : (plus = [] \/ plus = codes "+") -> is_digits digits -> 2 ^ 64 <= decimal digits -> parse_usize (plus ++ written digits) = None.
Proof.
  intros Hp Hd L. destruct (parse_usize (plus ++ written digits)) as [v|] eqn:E; [|reflexivity]. exfalso.
  destruct (parse_usize_inv _ _ E) as (plus' & digits' & Hp' & Hd' & E' & -> & Lv).
  assert (H0 : forall l c t, is_digits l -> written l = c :: t -> c <> 43).
  { intros l c t (_ & Hl) El. destruct l as [|d l]; [discriminate El|]. apply (f_equal (hd 0)) in El. cbn [written map hd] in El. lia. }
  assert (Ew : written digits = written digits').
  { destruct Hp as [->| ->], Hp' as [->| ->]; cbn [app codes] in E'.
    - exact E'.
    - exfalso. exact (H0 _ _ _ Hd E' eq_refl).
    - exfalso. symmetry in E'. exact (H0 _ _ _ Hd' E' eq_refl).
    - injection E' as E'. exact E'. }
  assert (digits = digits').
  { clear - Ew. revert digits' Ew; induction digits as [|d l IH]; intros [|d' l'] E; try discriminate E; [reflexivity|]. apply (f_equal (fun l => (hd 0 l, tl l))) in E. cbn [written map hd tl] in E. apply pair_equal_spec in E. destruct E as (E1 & E2). f_equal; [lia|apply IH; exact E2]. }
  subst digits'. lia.
Qed.

(** ** Sizes *)
Definition scale (checks : bool) (num m : N) : res (option N) := if checks && (2 ^ 64 <=? num * m) then Panic else Ret (Some (num * m mod 2 ^ 64)).
Definition scan (checks : bool) (s : list N) : res (option N) :=
  match rev s with
  | [] => Panic
  | last :: before =>
      let suffix := if is_letter last then Some last else None in
      let num := match suffix with Some _ => rev before | None => s end in
      match parse_usize (trim num) with
      | None => Ret None
      | Some num =>
          match suffix with
          | None => scale checks num 1
          | Some c => if c =? 107 then scale checks num 1024 else if c =? 109 then scale checks num (1024 * 1024) else if c =? 103 then scale checks num (1024 * 1024 * 1024) else Panic
          end
      end
  end.
Definition core (text : list N) : list N := trim_end_matches (codes "b") (trim_end_matches (codes "bytes") (map lower text)).
Lemma from_scan checks text : text <> [] -> from_str checks text = scan checks (core text).
Proof. destruct text; [congruence|reflexivity]. Qed.
Lemma no_end_last p d s c : c <> d -> no_end (p ++ [d]) (s ++ [c]).
Proof. intros N s' E. rewrite app_assoc in E. apply app_inj_tail in E. destruct E as (_ & E). congruence. Qed.
Lemma times_last n p : n <> 0%nat -> times n p = times (n - 1) p ++ p.
Proof. intros N. destruct n; [congruence|]. cbn [times Nat.sub]. rewrite Nat.sub_0_r. symmetry. apply times_comm. Qed.
Lemma core_spec text : exists i j, map lower text = core text ++ times i (codes "b") ++ times j (codes "bytes") /\ no_end (codes "b") (core text).
Proof.
  unfold core. destruct (trim_end_matches_spec (codes "bytes") (map lower text)) as (j & E & _); [discriminate|]. set (x := trim_end_matches _ (map lower text)) in *.
  destruct (trim_end_matches_spec (codes "b") x) as (i & E' & H'); [discriminate|]. exists i, j. split; [|exact H']. rewrite app_assoc, <- E'. exact E.
Qed.
Lemma core_eq text c i j : map lower text = c ++ times i (codes "b") ++ times j (codes "bytes") -> no_end (codes "b") c -> (i = 0%nat -> no_end (codes "bytes") c) -> core text = c.
Proof.
  intros E H1 H2. unfold core. rewrite E, app_assoc. rewrite trim_end_matches_eq; [apply trim_end_matches_eq; [discriminate|exact H1]|discriminate|].
  destruct (Nat.eq_dec i 0) as [->|N]; [cbn [times]; rewrite app_nil_r; apply H2; reflexivity|].
  rewrite (times_last i _ N), app_assoc. change (codes "b") with [98]. change (codes "bytes") with ([98; 121; 116; 101] ++ [115]). apply no_end_last. discriminate.
Qed.
(** a number with spaces around it *)
Definition plain front plus digits gap : Prop := blanks front /\ (plus = [] \/ plus = codes "+") /\ is_digits digits /\ blanks gap.
Lemma digits_last digits : is_digits digits -> exists ds d, digits = ds ++ [d] /\ d < 10.
Proof.
  intros (Hne & Hd). destruct (exists_last Hne) as (ds & d & ->). exists ds, d. split; [reflexivity|]. apply (proj1 (Forall_forall _ _) Hd d). apply in_or_app. right. left. reflexivity.
Qed.
Lemma plain_trim front plus digits gap : plain front plus digits gap -> trim (front ++ plus ++ written digits ++ gap) = plus ++ written digits.
Proof.
  intros (H1 & H2 & H3 & H4). rewrite (app_assoc plus). destruct (digits_last digits H3) as (ds & d & Ed & Ld). apply trim_eq; try assumption.
  - rewrite Ed. unfold written. rewrite map_app. destruct plus; [destruct (map (fun d0 => 48 + d0) ds)|]; discriminate.
  - intros c t E. destruct H2 as [->| ->].
    + destruct digits as [|d0 l]; [destruct ds; discriminate Ed|]. apply (f_equal (hd 0)) in E. cbn [written map hd app] in E. subst c. assert (d0 < 10) by (destruct H3 as (_ & H3); inversion H3; assumption). unfold is_space. lia.
    + apply (f_equal (hd 0)) in E. cbn in E. subst c. reflexivity.
  - intros c t E. rewrite Ed in E. unfold written in E. rewrite map_app, app_assoc in E. apply app_inj_tail in E. destruct E as (_ & <-). unfold is_space. lia.
Qed.
(** the last character of a number with spaces around it *)
Lemma plain_last front plus digits gap : plain front plus digits gap -> exists s c, front ++ plus ++ written digits ++ gap = s ++ [c] /\ is_letter c = false.
Proof.
  intros (H1 & H2 & H3 & H4). destruct (list_eq_dec N.eq_dec gap []) as [Eg|Eg].
  - destruct (digits_last digits H3) as (ds & d & Ed & Ld). exists (front ++ plus ++ written ds), (48 + d). split.
    + rewrite Ed, Eg. unfold written. rewrite map_app, app_nil_r, <- !app_assoc. reflexivity.
    + unfold is_letter. lia.
  - destruct (exists_last Eg) as (gs & c & E). exists (front ++ plus ++ written digits ++ gs), c. split.
    + rewrite E, <- !app_assoc. reflexivity.
    + assert (Hc : is_space c = true) by (apply (proj1 (Forall_forall _ _) H4 c); rewrite E; apply in_or_app; right; left; reflexivity). revert Hc. unfold is_space, is_letter. lia.
Qed.
Lemma scan_plain checks front plus digits gap : plain front plus digits gap ->
  scan checks (front ++ plus ++ written digits ++ gap) = match parse_usize (plus ++ written digits) with None => Ret None | Some n => scale checks n 1 end.
Proof.
  intros H. destruct (plain_last _ _ _ _ H) as (s & c & E & Hc). unfold scan. replace (rev (front ++ plus ++ written digits ++ gap)) with (c :: rev s) by (rewrite E, rev_app_distr; reflexivity).
  rewrite Hc. rewrite (plain_trim _ _ _ _ H). reflexivity.
Qed.
Lemma scan_unit checks front plus digits gap x : plain front plus digits gap -> is_letter x = true ->
  scan checks (front ++ plus ++ written digits ++ gap ++ [x]) =
  match parse_usize (plus ++ written digits) with
  | None => Ret None
  | Some n => if x =? 107 then scale checks n 1024 else if x =? 109 then scale checks n (1024 * 1024) else if x =? 103 then scale checks n (1024 * 1024 * 1024) else Panic
  end.
Proof.
  intros H Hx. replace (front ++ plus ++ written digits ++ gap ++ [x]) with ((front ++ plus ++ written digits ++ gap) ++ [x]) by (rewrite <- !app_assoc; reflexivity).
  unfold scan. rewrite rev_app_distr. cbn [rev app]. rewrite Hx, rev_involutive, (plain_trim _ _ _ _ H). reflexivity.
Qed.
Lemma core_plain text front plus digits gap i j : plain front plus digits gap ->
  map lower text = front ++ plus ++ written digits ++ gap ++ [] ++ times i (codes "b") ++ times j (codes "bytes") -> core text = front ++ plus ++ written digits ++ gap.
Proof.
  intros H E. destruct (plain_last _ _ _ _ H) as (s & c & Es & Hc). apply (core_eq _ _ i j); [rewrite E; cbn [app]; rewrite <- !app_assoc; reflexivity| |]; rewrite Es.
  - change (codes "b") with ([] ++ [98]). apply no_end_last. intros ->. discriminate Hc.
  - intros _. change (codes "bytes") with ([98; 121; 116; 101] ++ [115]). apply no_end_last. intros ->. discriminate Hc.
Qed.
Lemma core_unit text front plus digits gap x i j : plain front plus digits gap -> x <> 98 ->
  map lower text = front ++ plus ++ written digits ++ gap ++ [x] ++ times i (codes "b") ++ times j (codes "bytes") -> core text = front ++ plus ++ written digits ++ gap ++ [x].
Proof.
  intros H Hx E. destruct (plain_last _ _ _ _ H) as (s & c & Es & Hc).
  assert (Es' : front ++ plus ++ written digits ++ gap ++ [x] = (s ++ [c]) ++ [x]) by (rewrite <- Es, <- !app_assoc; reflexivity).
  apply (core_eq _ _ i j); [rewrite E, <- !app_assoc; reflexivity| |]; rewrite Es'.
  - change (codes "b") with ([] ++ [98]). apply no_end_last. exact Hx.
  - intros _ s' F. change (codes "bytes") with ([98; 121; 116; 101] ++ [115]) in F. rewrite app_assoc in F. apply app_inj_tail in F. destruct F as (F & _).
    change ([98; 121; 116; 101]) with ([98; 121; 116] ++ [101]) in F. rewrite app_assoc in F. apply app_inj_tail in F. destruct F as (_ & ->). discriminate Hc.
Qed.
Lemma text_ne text s i j : map lower text = s ++ times i (codes "b") ++ times j (codes "bytes") -> s <> [] -> text <> [].
Proof. intros E Hs ->. destruct s; [congruence|discriminate E]. Qed.
Lemma plain_ne front plus digits gap s : plain front plus digits gap -> front ++ plus ++ written digits ++ gap ++ s <> [].
Proof.
  intros (_ & _ & (Hne & _) & _) E. apply app_eq_nil in E. destruct E as (_ & E). apply app_eq_nil in E. destruct E as (_ & E). apply app_eq_nil in E. destruct E as (E & _). destruct digits; [congruence|discriminate E].
Qed.
(** what the parser does, on everything that looks like a number *)
Lemma from_plain checks text front plus digits gap i j : plain front plus digits gap ->
  map lower text = front ++ plus ++ written digits ++ gap ++ [] ++ times i (codes "b") ++ times j (codes "bytes") ->
  from_str checks text = match parse_usize (plus ++ written digits) with None => Ret None | Some n => scale checks n 1 end.
Proof.
  intros H E. rewrite from_scan; [rewrite (core_plain _ _ _ _ _ _ _ H E); apply scan_plain; exact H|].
  intros ->. symmetry in E. exact (plain_ne _ _ _ _ _ H E).
Qed.
Lemma from_unit checks text front plus digits gap x i j : plain front plus digits gap -> is_letter x = true -> x <> 98 ->
  map lower text = front ++ plus ++ written digits ++ gap ++ [x] ++ times i (codes "b") ++ times j (codes "bytes") ->
  from_str checks text =
  match parse_usize (plus ++ written digits) with
  | None => Ret None
  | Some n => if x =? 107 then scale checks n 1024 else if x =? 109 then scale checks n (1024 * 1024) else if x =? 103 then scale checks n (1024 * 1024 * 1024) else Panic
  end.
Proof.
  intros H Hx Hb E. rewrite from_scan; [rewrite (core_unit _ _ _ _ _ _ _ _ H Hb E); apply scan_unit; assumption|].
  intros ->. symmetry in E. exact (plain_ne _ _ _ _ _ H E).
Qed.
Lemma from_loose checks text digits unit m : loose_text text digits unit -> unit_is unit m ->
  from_str checks text = if decimal digits <? 2 ^ 64 then scale checks (decimal digits) m else Ret None.
Proof.
  intros (front & plus & gap & i & j & Hd & Hf & Hg & Hp & E) Hu. assert (H : plain front plus digits gap) by (repeat split; try assumption; apply Hd).
  assert (G : parse_usize (plus ++ written digits) = if decimal digits <? 2 ^ 64 then Some (decimal digits) else None).
  { destruct (N.ltb_spec (decimal digits) (2 ^ 64)); [apply parse_usize_ok|apply parse_usize_big]; assumption. }
  destruct Hu.
  - rewrite (from_plain checks text _ _ _ _ i j H E), G. destruct (decimal digits <? 2 ^ 64); reflexivity.
  - rewrite (from_unit checks text _ _ _ _ 107 i j H eq_refl ltac:(discriminate) E), G. destruct (decimal digits <? 2 ^ 64); reflexivity.
  - rewrite (from_unit checks text _ _ _ _ 109 i j H eq_refl ltac:(discriminate) E), G. destruct (decimal digits <? 2 ^ 64); reflexivity.
  - rewrite (from_unit checks text _ _ _ _ 103 i j H eq_refl ltac:(discriminate) E), G. destruct (decimal digits <? 2 ^ 64); reflexivity.
Qed.
(** whenever the number is read, the text has one of the two forms *)
Lemma scan_forms checks text : text <> [] -> (forall v, from_str checks text <> Ret (Some v)) /\ (from_str checks text = Ret None \/ (from_str checks text = Panic /\ core text = [])) \/
  exists digits unit, loose_text text digits unit /\ decimal digits < 2 ^ 64 /\ (unit = [] \/ exists x, unit = [x] /\ is_letter x = true /\ x <> 98).
Proof.
  intros Hne. rewrite (from_scan checks text Hne). unfold scan. destruct (core_spec text) as (i & j & E & Hb).
  destruct (rev (core text)) as [|last before] eqn:Er.
  - left. split; [discriminate|]. right. split; [reflexivity|]. rewrite <- (rev_involutive (core text)), Er. reflexivity.
  - assert (Ec : core text = rev before ++ [last]) by (rewrite <- (rev_involutive (core text)), Er; reflexivity). destruct (is_letter last) eqn:El.
    + destruct (parse_usize (trim (rev before))) as [v|] eqn:Ep; [|left; split; [discriminate|left; reflexivity]].
      right. destruct (parse_usize_inv _ _ Ep) as (plus & digits & Hp & Hd & Et & -> & Lv). destruct (trim_spec (rev before)) as (front & gap & Hf & Hg & Eb & _).
      exists digits, [last]. split; [|split; [exact Lv|]].
      * exists front, plus, gap, i, j. repeat split; try assumption; try apply Hd. rewrite E, Ec, Eb, Et, <- !app_assoc. reflexivity.
      * right. exists last. split; [reflexivity|]. split; [exact El|]. intros ->. apply (Hb (rev before)). exact Ec.
    + destruct (parse_usize (trim (core text))) as [v|] eqn:Ep; [|left; split; [discriminate|left; reflexivity]].
      right. destruct (parse_usize_inv _ _ Ep) as (plus & digits & Hp & Hd & Et & -> & Lv). destruct (trim_spec (core text)) as (front & gap & Hf & Hg & Eb & _).
      exists digits, []. split; [|split; [exact Lv|left; reflexivity]].
      exists front, plus, gap, i, j. repeat split; try assumption; try apply Hd. rewrite E, Eb, Et, <- !app_assoc. reflexivity.
Qed.

(** ** Files *)
Fixpoint wf_lines (ls : list (list N)) : Prop :=
  match ls with
  | [] => True
  | l :: ls => ((exists b, ~ In 10 b /\ l = b ++ [10]) \/ (l <> [] /\ ~ In 10 l /\ ls = [])) /\ wf_lines ls
  end.
Lemma lines_wf file lines : lines_are file lines -> wf_lines lines /\ file = List.concat lines.
Proof.
  intros (complete & last & Hl & Hc & E & Ef). split; [|exact Ef]. subst lines. clear Ef. induction Hc as [|b complete Hb _ IH]; cbn [map app].
  - destruct last as [|c t]; cbn [wf_lines]; [exact I|]. split; [|exact I]. right. split; [discriminate|]. split; [exact Hl|reflexivity].
  - split; [|exact IH]. left. exists b. split; [exact Hb|reflexivity].
Qed.
Lemma read_line_end b rest : ~ In 10 b -> read_line ((b ++ [10]) ++ rest) = (b ++ [10], rest).
Proof.
  induction b as [|c b IH]; intros H; [reflexivity|]. cbn [app read_line]. destruct (N.eqb_spec c 10) as [->|N]; [exfalso; apply H; left; reflexivity|].
  rewrite IH; [reflexivity|]. intros I. apply H. right. exact I.
Qed.
Lemma read_line_last b : ~ In 10 b -> read_line b = (b, []).
Proof.
  induction b as [|c b IH]; intros H; [reflexivity|]. cbn [read_line]. destruct (N.eqb_spec c 10) as [->|N]; [exfalso; apply H; left; reflexivity|].
  rewrite IH; [reflexivity|]. intros I. apply H. right. exact I.
Qed.
Lemma read_line_concat l ls : wf_lines (l :: ls) -> read_line (List.concat (l :: ls)) = (l, List.concat ls) /\ l <> [].
Proof.
  cbn [wf_lines List.concat]. intros ([(b & Hb & ->)|(Hne & Hl & ->)] & _).
  - split; [apply read_line_end; exact Hb|]. intros E. apply app_eq_nil in E. destruct E as (_ & E). discriminate E.
  - cbn [List.concat]. rewrite app_nil_r. split; [apply read_line_last; exact Hl|exact Hne].
Qed.
Definition cut {A} (limit : option nat) (cnt : nat) (l : list A) : list A := match limit with Some n => firstn (n - cnt) l | None => l end.
Section Load.
  Context {X : Type} (parse : list N -> option (X * nat)).
  Hypothesis consumed : forall s x n, parse s = Some (x, n) -> (n <= length s)%nat.
  Lemma numbers_cons l ls : numbers parse (l :: ls) =
    if blank l then numbers parse ls else match number parse l with Some x => option_map (cons x) (numbers parse ls) | None => None end.
  Proof. unfold numbers. cbn [filter]. destruct (blank l); cbn [negb]; [reflexivity|]. cbn [map all_some]. destruct (number parse l); reflexivity. Qed.
  Lemma load_ok limit ls : wf_lines ls -> forall fuel cnt out, (length ls < fuel)%nat ->
    loop fuel
    (fun '(reader, cnt, out) =>
       if match limit with Some n => (cnt <? n)%nat | None => true end then
         let '(buf, reader) := read_line reader in
         match buf with
         | [] => Ret (inr (Some out))
         | _ =>
             match trim_end buf with
             | [] => Ret (inl (reader, S cnt, out))
             | _ =>
                 match parse buf with
                 | None => Ret (inr None)
                 | Some (x, rest) =>
                     if (length buf <? rest)%nat then Panic
                     else
                       match trim_end (skipn rest buf) with
                       | [] => Ret (inl (reader, S cnt, out ++ [x]))
                       | _ => Ret (inr None)
                       end
                 end
             end
         end
       else Ret (inr (Some out))) (List.concat ls, cnt, out) = Ret (option_map (fun l => out ++ l) (numbers parse (cut limit cnt ls))).
  Proof.
    induction ls as [|l ls IH]; intros Hw fuel cnt out Lf; (destruct fuel as [|fuel]; [lia|]); cbn [loop].
    - cbn [List.concat read_line]. replace (cut limit cnt []) with (@nil (list N)) by (destruct limit; [symmetry; apply firstn_nil|reflexivity]). cbn [numbers filter map all_some option_map]. rewrite app_nil_r.
      destruct (match limit with Some n => (cnt <? n)%nat | None => true end); reflexivity.
    - destruct (read_line_concat l ls Hw) as (El & Hne). destruct Hw as (_ & Hw). specialize (IH Hw fuel).
      destruct (match limit with Some n => (cnt <? n)%nat | None => true end) eqn:Elim.
      + assert (Ec : cut limit cnt (l :: ls) = l :: cut limit (S cnt) ls).
        { destruct limit as [n|]; [|reflexivity]. cbn [cut]. destruct (Nat.ltb_spec cnt n); [|discriminate Elim]. replace (n - cnt)%nat with (S (n - S cnt)) by lia. reflexivity. }
        rewrite El, Ec, numbers_cons. destruct l as [|c t] eqn:Ect; [congruence|]. rewrite <- Ect in *.
        destruct (blank l) eqn:Eb.
        * rewrite (proj2 (trim_end_nil l) Eb). rewrite (IH (S cnt) out) by (cbn [length] in Lf; lia). reflexivity.
        * destruct (trim_end l) as [|c0 t0] eqn:Et; [apply trim_end_nil in Et; congruence|]. unfold number. destruct (parse l) as [(x, rest)|] eqn:Ep; [|reflexivity].
          pose proof (consumed _ _ _ Ep). destruct (Nat.ltb_spec (length l) rest); [lia|]. destruct (blank (skipn rest l)) eqn:Es.
          -- rewrite (proj2 (trim_end_nil _) Es). rewrite (IH (S cnt) (out ++ [x])) by (cbn [length] in Lf; lia). destruct (numbers parse (cut limit (S cnt) ls)); cbn [option_map]; [rewrite <- app_assoc|]; reflexivity.
          -- destruct (trim_end (skipn rest l)) eqn:Ets; [apply trim_end_nil in Ets; congruence|reflexivity].
      + destruct limit as [n|]; [|discriminate Elim]. cbn [cut]. destruct (Nat.ltb_spec cnt n); [discriminate Elim|]. replace (n - cnt)%nat with 0%nat by lia. cbn [firstn numbers filter map all_some option_map]. rewrite app_nil_r. reflexivity.
  Qed.
End Load.
Lemma lines_exist file : exists lines, lines_are file lines.
Proof.
  assert (G : exists complete last, ~ In 10 last /\ Forall (fun l => ~ In 10 l) complete /\ file = List.concat (map (fun l => l ++ [10]) complete) ++ last).
  { induction file as [|c file (complete & last & H1 & H2 & H3)]; [exists [], []; split; [intros []|]; split; [constructor|reflexivity]|]. destruct (N.eq_dec c 10) as [->|Nc].
    - exists ([] :: complete), last. split; [exact H1|]. split; [constructor; [intros []|exact H2]|]. rewrite H3. reflexivity.
    - destruct complete as [|b complete].
      + exists [], (c :: last). split; [intros [E|I]; [congruence|exact (H1 I)]|]. split; [constructor|]. rewrite H3. reflexivity.
      + inversion H2 as [|? ? Hb Hc]; subst. exists ((c :: b) :: complete), last. split; [exact H1|]. split; [constructor; [intros [E|I]; [congruence|exact (Hb I)]|exact Hc]|]. reflexivity. }
  destruct G as (complete & last & H1 & H2 & ->). eexists. exists complete, last. split; [exact H1|]. split; [exact H2|]. split; [reflexivity|].
  rewrite concat_app. f_equal. destruct last; [reflexivity|]. cbn [List.concat]. rewrite app_nil_r. reflexivity.
Qed.
Lemma all_some_firstn {X} (l : list (option X)) xs n : all_some l = Some xs -> all_some (firstn n l) = Some (firstn n xs).
Proof.
  revert xs n; induction l as [|[x|] l IH]; intros xs [|n]; cbn [all_some firstn]; try discriminate; try reflexivity.
  - intros E. injection E as <-. reflexivity.
  - destruct (all_some l) as [ys|]; [|discriminate]. intros E. injection E as <-. cbn [firstn]. rewrite (IH ys n eq_refl). reflexivity.
Qed.
