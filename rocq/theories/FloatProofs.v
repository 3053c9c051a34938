(** Algebra of the rounded operations: what is exact whatever the rounding. *)
From Coq Require Import Floats.SpecFloat.
From Verif Require Import Base F64 Iterator F64Arith FpOps FloatSeries.

Lemma fmul_comm a b : fmul a b = fmul b a.
Proof.
  unfold fmul. destruct a as [s|s| |s m e], b as [s'|s'| |s' m' e']; cbn [SFmul]; try rewrite (xorb_comm s s'); try reflexivity.
  rewrite Pos.mul_comm, Z.add_comm. reflexivity.
Qed.

Lemma round_aux_opp s m e l : binary_round_aux prec emax (negb s) m e l = SFopp (binary_round_aux prec emax s m e l).
Proof.
  unfold binary_round_aux. destruct (shr_fexp _ _ _ _ _) as [m1 e1]. destruct (shr_fexp _ _ _ _ _) as [m2 e2].
  destruct (shr_m m2); try reflexivity. destruct (e2 <=? emax - prec)%Z; reflexivity.
Qed.
Lemma round_opp s m e : binary_round prec emax (negb s) m e = SFopp (binary_round prec emax s m e).
Proof. unfold binary_round. destruct (shl_align _ _ _). apply round_aux_opp. Qed.
Lemma normalize_opp m e : binary_normalize prec emax (- m) e false = SFopp (binary_normalize prec emax m e false) \/ m = 0%Z.
Proof. destruct m as [|p|p]; [auto| |]; left; [apply (round_opp false)|apply (round_opp true)]. Qed.
Lemma fmul_opp x : fmul (SFopp x) (SFopp x) = fmul x x.
Proof. unfold fmul. destruct x as [[]|[]| |[] m e]; reflexivity. Qed.
Lemma cond_opp_negb s m : cond_Zopp (negb s) m = (- cond_Zopp s m)%Z.
Proof. destruct s; cbn [cond_Zopp negb]; lia. Qed.
(** the two differences have the same square *)
Lemma fsub_square a b : fmul (fsub a b) (fsub a b) = fmul (fsub b a) (fsub b a).
Proof.
  unfold fsub. destruct a as [[]|[]| |s m e], b as [[]|[]| |s' m' e']; try reflexivity.
  - cbn [SFsub negb]. destruct s'; reflexivity.
  - cbn [SFsub negb]. destruct s'; reflexivity.
  - cbn [SFsub negb]. destruct s; reflexivity.
  - cbn [SFsub negb]. destruct s; reflexivity.
  - cbn [SFsub]. rewrite (Z.min_comm e' e).
    set (x := cond_Zopp s (Zpos (fst (shl_align m e (Z.min e e'))))).
    set (y := cond_Zopp s' (Zpos (fst (shl_align m' e' (Z.min e e'))))).
    replace (y - x)%Z with (- (x - y))%Z by lia.
    destruct (normalize_opp (x - y) (Z.min e e')) as [-> | ->]; [|reflexivity]. symmetry. apply fmul_opp.
Qed.

(** ** Symmetry *)
Lemma combine_swap {A B} (a : list A) (b : list B) : combine b a = map (fun ab => (snd ab, fst ab)) (combine a b).
Proof. revert b. induction a as [|x a IH]; intros [|y b]; cbn; try reflexivity. rewrite IH. reflexivity. Qed.
Lemma zip_with_swap {A B} (f g : A -> A -> B) a b : (forall x y, f x y = g y x) -> zip_with f a b = zip_with g b a.
Proof.
  intros H. unfold zip_with. rewrite (combine_swap a b), map_map. apply map_ext. intros [x y]. cbn. apply H.
Qed.
Lemma fold_swap {A} (f : A -> f64 * f64 -> A) l acc : (forall acc x y, f acc (x, y) = f acc (y, x)) ->
  fold_left f (map (fun ab => (snd ab, fst ab)) l) acc = fold_left f l acc.
Proof. intros H. revert acc. induction l as [|[x y] l IH]; intros acc; cbn; [reflexivity|]. rewrite IH, H. reflexivity. Qed.

Lemma fzdot_sym z a ma sa b mb sb : fzdot z a ma sa b mb sb = fzdot z b mb sb a ma sa.
Proof.
  unfold fzdot. rewrite orb_comm, (fmul_comm sa sb).
  rewrite (zip_with_swap _ (fun x y => fmul (fsub x mb) (fsub y ma)) (rest 4 a)) by (intros; apply fmul_comm).
  rewrite (zip_with_swap (zip_with (fun x y => fmul (fsub x ma) (fsub y mb))) (zip_with (fun x y => fmul (fsub x mb) (fsub y ma))) (whole_chunks 4 a))
    by (intros; apply zip_with_swap; intros; apply fmul_comm).
  reflexivity.
Qed.
Lemma get_res {A} (l : list A) i : (exists a, get l i = Ret a) \/ get l i = Panic.
Proof. unfold get. destruct (nth_error l i); eauto. Qed.
Lemma cut_res {A} (l : list A) i j : (exists a, cut l i j = Ret a) \/ cut l i j = Panic.
Proof. unfold cut, assert_. destruct (_ && _); eauto. Qed.

Lemma fzeucl_slow_sym s i j : fzeucl_slow s i j = fzeucl_slow s j i.
Proof.
  unfold fzeucl_slow, fmean, fsd, fsubsequence.
  destruct (get_res (fs_avg s) i) as [[mi ->]| ->], (get_res (fs_avg s) j) as [[mj ->]| ->]; cbn [bind]; try reflexivity.
  destruct (get_res (fs_sd s) i) as [[si ->]| ->], (get_res (fs_sd s) j) as [[sj ->]| ->]; cbn [bind]; try reflexivity.
  destruct (cut_res (fs_data s) i (i + fs_w s)) as [[a ->]| ->], (cut_res (fs_data s) j (j + fs_w s)) as [[b ->]| ->]; cbn [bind]; try reflexivity.
  rewrite (combine_swap a b). do 2 f_equal.
  transitivity (fold_left (fun acc (xy : f64 * f64) => fadd acc (let d := fsub (fdiv (fsub (snd xy) mj) sj) (fdiv (fsub (fst xy) mi) si) in fmul d d)) (combine a b) f_zero).
  - generalize f_zero. induction (combine a b) as [|[x y] l IH]; intros acc; cbn [fold_left]; [reflexivity|]. rewrite IH. cbn [fst snd].
    do 2 f_equal. apply fsub_square.
  - generalize f_zero. induction (combine a b) as [|[x y] l IH]; intros acc; cbn [fold_left map]; [reflexivity|]. rewrite IH. reflexivity.
Qed.

Lemma fzeucl_sym z s i j : fzeucl z s i j = fzeucl z s j i.
Proof.
  unfold fzeucl. rewrite (Nat.eqb_sym j i). destruct (i =? j); [reflexivity|]. rewrite (fzeucl_slow_sym s j i).
  unfold fmean, fsd, fsubsequence.
  destruct (cut_res (fs_data s) i (i + fs_w s)) as [[a E1]|E1], (cut_res (fs_data s) j (j + fs_w s)) as [[b E2]|E2],
    (get_res (fs_avg s) i) as [[mi E3]|E3], (get_res (fs_avg s) j) as [[mj E4]|E4],
    (get_res (fs_sd s) i) as [[si E5]|E5], (get_res (fs_sd s) j) as [[sj E6]|E6];
    repeat progress (rewrite ?E1, ?E2, ?E3, ?E4, ?E5, ?E6; cbn [bind]); try reflexivity.
  rewrite (fzdot_sym z b). reflexivity.
Qed.

(** ** Signs *)
Lemma sqrt_sign x : is_nan (fsqrt64 x) = false -> fle f_zero (fsqrt64 x) = true.
Proof.
  unfold fsqrt64. destruct x as [[]|[]| |[] m e]; cbn [SFsqrt is_nan]; intros H; try discriminate H; try reflexivity.
  destruct (SFsqrt_core_binary _ _ _ _) as [[m' e'] l] eqn:E.
  assert (P : (0 <= m')%Z).
  { unfold SFsqrt_core_binary in E. cbv zeta in E;
      match type of E with (let (_, _) := Z.sqrtrem ?n in _) = _ => pose proof (Z.sqrt_nonneg n) as Q; rewrite <- Z.sqrtrem_sqrt in Q; destruct (Z.sqrtrem n) end;
      injection E as <- _ _; exact Q. }
  destruct (round_aux_sign false m' e' l P) as [-> |[-> |(a & b & ->)]]; reflexivity.
Qed.
Lemma mul_self_sign x : is_sign_negative (fmul x x) = false.
Proof.
  unfold fmul. destruct x as [[]|[]| |[] m e]; cbn [SFmul xorb]; try reflexivity;
    match goal with |- context [binary_round_aux _ _ false (Zpos ?n) ?k loc_Exact] =>
      destruct (round_aux_sign false (Zpos n) k loc_Exact) as [-> |[-> |(a & b & ->)]]; [lia|reflexivity..] end.
Qed.
Lemma normalize_sign m e s : (0 <= m)%Z -> (m = 0%Z -> s = false) -> is_sign_negative (binary_normalize prec emax m e s) = false.
Proof.
  intros P Z. destruct m as [|m|m]; cbn [binary_normalize]; [cbn; auto| |lia].
  unfold binary_round. destruct (shl_align _ _ _) as [m' e'].
  destruct (round_aux_sign false (Zpos m') e' loc_Exact ltac:(lia)) as [-> |[-> |(a & b & ->)]]; reflexivity.
Qed.
(** the sum of two values of which neither is negative, and of which at most one is -0.0 *)
Lemma fadd_sign a b : is_sign_negative b = false -> (is_sign_negative a = false \/ a = S754_zero true) -> is_sign_negative (fadd a b) = false.
Proof.
  unfold fadd. destruct a as [[]|[]| |[] m e], b as [[]|[]| |[] m' e']; cbn [SFadd is_sign_negative Bool.eqb]; intros Hb [Ha|Ha]; try discriminate; try reflexivity.
  apply normalize_sign; cbn [cond_Zopp]; lia.
Qed.
Lemma fdiv_core_sign m e m' e' q k l : SFdiv_core_binary prec emax (Zpos m) e (Zpos m') e' = (q, k, l) -> (0 <= q)%Z.
Proof.
  unfold SFdiv_core_binary. cbv zeta.
  match goal with |- (let '(_, _) := Z.div_eucl ?x _ in _) = _ -> _ => set (n := x) end.
  assert (N : (0 <= n)%Z).
  { subst n. match goal with |- (0 <= match ?d with _ => _ end)%Z => destruct d as [|p|p] end; try lia. apply Z.shiftl_nonneg. lia. }
  pose proof (Z_div_pos n (Zpos m')) as D. unfold Z.div in D. destruct (Z.div_eucl n (Zpos m')) as [q' r']. intros [= <- _ _].
  apply D; lia.
Qed.
Lemma fdiv_sign a b : is_sign_negative a = false -> is_sign_negative b = false -> is_sign_negative (fdiv a b) = false.
Proof.
  unfold fdiv. destruct a as [[]|[]| |[] m e], b as [[]|[]| |[] m' e']; cbn [SFdiv is_sign_negative xorb]; intros Ha Hb; try discriminate; try reflexivity.
  destruct (SFdiv_core_binary _ _ _ _ _ _) as [[q k] l] eqn:E. apply fdiv_core_sign in E.
  destruct (round_aux_sign false q k l E) as [-> |[-> |(x & y & ->)]]; reflexivity.
Qed.
Lemma fmul_sign a b : is_nan (fmul a b) = false -> is_sign_negative (fmul a b) = xorb (is_sign_negative a) (is_sign_negative b).
Proof.
  unfold fmul. destruct a as [s|s| |s m e], b as [s'|s'| |s' m' e']; cbn [SFmul is_sign_negative is_nan]; intros H; try discriminate; try reflexivity.
  destruct (round_aux_sign (xorb s s') (Zpos (m * m')) (e + e') loc_Exact ltac:(lia)) as [-> |[-> |(x & y & ->)]]; reflexivity.
Qed.
Lemma fmul_nan a b : is_nan (fmul a b) = false -> is_nan a = false /\ is_nan b = false.
Proof. unfold fmul. destruct a, b; cbn [SFmul is_nan]; auto; discriminate. Qed.
Lemma nan_sign x : is_nan x = true -> is_sign_negative x = false.
Proof. destruct x; try discriminate; reflexivity. Qed.
(** [si * sj * si * sj] is never negative *)
Lemma fourth_sign a b : is_sign_negative (fmul (fmul (fmul a b) a) b) = false.
Proof.
  destruct (is_nan (fmul (fmul (fmul a b) a) b)) eqn:E; [apply nan_sign, E|]. rewrite fmul_sign by exact E.
  apply fmul_nan in E as (E & _). rewrite fmul_sign by exact E. apply fmul_nan in E as (E & _). rewrite fmul_sign by exact E.
  destruct (is_sign_negative a), (is_sign_negative b); reflexivity.
Qed.
Lemma fsum_sign z l : l <> [] -> (forall x, In x l -> is_sign_negative x = false) -> is_sign_negative (fsum z l) = false.
Proof.
  intros N H. unfold fsum.
  assert (G : forall l acc, (is_sign_negative acc = false \/ l <> [] /\ acc = S754_zero true) -> (forall x, In x l -> is_sign_negative x = false) -> is_sign_negative (fold_left fadd l acc) = false).
  { clear. induction l as [|x l IH]; intros acc A H; cbn [fold_left]; [destruct A as [A|(A & _)]; [exact A|congruence]|].
    apply IH; [left|intros; apply H; right; assumption]. apply fadd_sign; [apply H; left; reflexivity|]. destruct A as [A|(_ & A)]; auto. }
  apply G; [|exact H]. destruct (z_scalar z); auto.
Qed.

(** ** The threshold *)
Lemma faccumulate_value l : forall t acc s, faccumulate l t acc = Some s -> s = fold_left fadd l acc.
Proof.
  induction l as [|x l IH]; intros t acc s; cbn [faccumulate fold_left]; [intros [= ->]; reflexivity|].
  destruct (flt t (fadd acc x)); [discriminate|]. apply IH.
Qed.
Lemma flt_inf x : flt f_inf x = false.
Proof. destruct x as [[]|[]| |[]]; reflexivity. Qed.
Lemma faccumulate_inf l : forall acc, faccumulate l f_inf acc = Some (fold_left fadd l acc).
Proof. induction l as [|x l IH]; intros acc; cbn [faccumulate fold_left]; [reflexivity|]. rewrite flt_inf. apply IH. Qed.
Lemma fold_sign l : forall acc, is_sign_negative acc = false -> (forall x, In x l -> is_sign_negative x = false) -> is_sign_negative (fold_left fadd l acc) = false.
Proof.
  induction l as [|x l IH]; intros acc A H; cbn [fold_left]; [exact A|]. apply IH; [|intros; apply H; right; assumption].
  apply fadd_sign; [apply H; left; reflexivity|auto].
Qed.
Lemma in_zip_with {A B} (f : A -> A -> B) a b x : In x (zip_with f a b) -> exists y z, In y a /\ In z b /\ x = f y z.
Proof.
  unfold zip_with. intros H. apply in_map_iff in H as ([y z] & <- & H). exists y, z. cbn.
  split; [eapply in_combine_l; eauto|split; [eapply in_combine_r; eauto|reflexivity]].
Qed.
Lemma in_chunk {A} k (l c : list A) : 0 < k -> In c (whole_chunks k l) -> length c = k /\ incl c l.
Proof.
  intros K H. unfold whole_chunks in H. apply in_map_iff in H as (n & <- & H). apply in_seq in H.
  assert (L : (n + 1) * k <= length l).
  { pose proof (Nat.mul_div_le (length l) k ltac:(lia)). assert (n + 1 <= length l / k) by lia. nia. }
  split; [rewrite firstn_length, skipn_length; nia|]. intros x Hx.
  rewrite <- (firstn_skipn (n * k) l). apply in_or_app. right.
  rewrite <- (firstn_skipn k (skipn (n * k) l)). apply in_or_app. left. exact Hx.
Qed.
Lemma in_rest {A} k (l : list A) : incl (rest k l) l.
Proof. intros x H. unfold rest in H. rewrite <- (firstn_skipn (length l / k * k) l). apply in_or_app. right. exact H. Qed.

Lemma fterm_sign mi si mj sj x y : is_sign_negative (fterm mi si mj sj x y) = false.
Proof. apply mul_self_sign. Qed.
Lemma fchunk_term_sign z mi si mj sj x y : length x = 4 -> length y = 4 -> is_sign_negative (fchunk_term z mi si mj sj x y) = false.
Proof.
  intros Lx Ly. unfold fchunk_term. cbv zeta. apply fdiv_sign; [|apply fourth_sign]. apply fsum_sign.
  - intros E. apply map_eq_nil in E. unfold zip_with in E. apply map_eq_nil in E. destruct x, y; try discriminate.
  - intros d H. apply in_map_iff in H as (c & <- & _). apply mul_self_sign.
Qed.

(** all the terms of [zeucl_threshold], in the order in which they are added *)
Definition fterms (z : zeros) (mi si mj sj : f64) (a b : list f64) : list f64 :=
  zip_with (fterm mi si mj sj) (rest 4 a) (rest 4 b) ++
  zip_with (fchunk_term z mi si mj sj) (whole_chunks 4 a) (whole_chunks 4 b).
Lemma faccumulate_app l l' t acc : faccumulate (l ++ l') t acc = match faccumulate l t acc with None => None | Some s => faccumulate l' t s end.
Proof. revert acc. induction l as [|x l IH]; intros acc; cbn [app faccumulate]; [reflexivity|]. destruct (flt _ _); [reflexivity|]. apply IH. Qed.
Lemma fterms_sign z mi si mj sj a b x : In x (fterms z mi si mj sj a b) -> is_sign_negative x = false.
Proof.
  unfold fterms. intros H. apply in_app_or in H as [H|H]; apply in_zip_with in H as (u & v & Hu & Hv & ->); [apply fterm_sign|].
  apply fchunk_term_sign; eapply in_chunk; eauto; lia.
Qed.
(** what there is to the windows of two positions *)
Definition fwindow (s : fseries) (i : nat) (m sd : f64) (a : list f64) : Prop :=
  fmean s i = Ret m /\ fsd s i = Ret sd /\ fsubsequence s i = Ret a.
Lemma fzeucl_threshold_eq z s i j mi si a mj sj b t : fwindow s i mi si a -> fwindow s j mj sj b ->
  fzeucl_threshold z s i j t = Ret (option_map fsqrt64 (faccumulate (fterms z mi si mj sj a b) (fmul t t) f_zero)).
Proof.
  intros (Mi & Si & A) (Mj & Sj & B). unfold fzeucl_threshold. rewrite Mi, Mj, Si, Sj, A, B. cbn [bind]. unfold fterms. rewrite faccumulate_app.
  destruct (faccumulate _ _ f_zero) as [acc|]; [|reflexivity]. destruct (faccumulate _ _ acc); reflexivity.
Qed.
Lemma fzeucl_threshold_windows z s i j t o : fzeucl_threshold z s i j t = Ret o ->
  exists mi si a mj sj b, fwindow s i mi si a /\ fwindow s j mj sj b.
Proof.
  unfold fzeucl_threshold, fwindow. intros H.
  destruct (fmean s i) as [mi| |] eqn:E1; try discriminate H. cbn [bind] in H. destruct (fmean s j) as [mj| |] eqn:E2; try discriminate H. cbn [bind] in H.
  destruct (fsd s i) as [si| |] eqn:E3; try discriminate H. cbn [bind] in H. destruct (fsd s j) as [sj| |] eqn:E4; try discriminate H. cbn [bind] in H.
  destruct (fsubsequence s i) as [a| |] eqn:E5; try discriminate H. cbn [bind] in H. destruct (fsubsequence s j) as [b| |] eqn:E6; try discriminate H.
  exists mi, si, a, mj, sj, b. auto 10.
Qed.
Lemma fsqrt_sign x : is_sign_negative x = false -> is_sign_negative (fsqrt64 x) = false.
Proof.
  intros H. destruct (is_nan (fsqrt64 x)) eqn:E; [apply nan_sign, E|]. unfold fsqrt64 in *.
  destruct x as [[]|[]| |[] m e]; try discriminate H; try reflexivity. cbn [SFsqrt] in *.
  destruct (SFsqrt_core_binary _ _ _ _) as [[m' e'] l] eqn:F.
  assert (P : (0 <= m')%Z).
  { unfold SFsqrt_core_binary in F. cbv zeta in F;
      match type of F with (let (_, _) := Z.sqrtrem ?n in _) = _ => pose proof (Z.sqrt_nonneg n) as Q; rewrite <- Z.sqrtrem_sqrt in Q; destruct (Z.sqrtrem n) end;
      injection F as <- _ _; exact Q. }
  destruct (round_aux_sign false m' e' l P) as [-> |[-> |(a & b & ->)]]; reflexivity.
Qed.
Lemma fzeucl_threshold_sign z s i j t d : fzeucl_threshold z s i j t = Ret (Some d) -> is_sign_negative d = false.
Proof.
  intros H. destruct (fzeucl_threshold_windows _ _ _ _ _ _ H) as (mi & si & a & mj & sj & b & Wi & Wj).
  rewrite (fzeucl_threshold_eq z s i j _ _ _ _ _ _ t Wi Wj) in H. injection H as H.
  destruct (faccumulate _ _ _) as [acc|] eqn:E; [|discriminate]. injection H as <-. apply faccumulate_value in E. subst acc.
  apply fsqrt_sign, fold_sign; [reflexivity|apply fterms_sign].
Qed.
Lemma fzeucl_sign z s i j d : fzeucl z s i j = Ret d -> is_nan d = false /\ fle f_zero d = true.
Proof.
  unfold fzeucl. destruct (i =? j); [intros [= <-]; auto|].
  destruct (fsubsequence s i) as [a| |]; cbn [bind]; try discriminate. destruct (fmean s i) as [ma| |]; cbn [bind]; try discriminate.
  destruct (fsd s i) as [sa| |]; cbn [bind]; try discriminate. destruct (fsubsequence s j) as [b| |]; cbn [bind]; try discriminate.
  destruct (fmean s j) as [mb| |]; cbn [bind]; try discriminate. destruct (fsd s j) as [sb| |]; cbn [bind]; try discriminate.
  set (r := if flt _ _ then _ else _). intros H. assert (R : exists x, r = Ret (fsqrt64 x)).
  { subst r. destruct (flt _ _); [|eauto]. destruct (fzeucl_slow s i j) as [y| |] eqn:E; try discriminate H. unfold fzeucl_slow in E.
    repeat (match type of E with (let! _ := ?e in _) = _ => destruct e as [?| |]; cbn [bind] in E; try discriminate E end). injection E as <-. eauto. }
  destruct R as (x & R). rewrite R in H. cbn [bind] in H. unfold assert_ in H. destruct (is_nan (fsqrt64 x)) eqn:N; [discriminate H|]. cbn [negb] in H.
  injection H as <-. split; [exact N|apply sqrt_sign, N].
Qed.
