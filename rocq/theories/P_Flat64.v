(** C142: the exact search in floating point on a series with an idle stretch. *)
From Coq Require Import String.
From Coq Require Import Reals Lra Lia Permutation Floats.SpecFloat.
From Flocq Require Import Core BinarySingleNaN.
From Verif Require Import Base Overlaps OverlapsSpec F64 RSpec SamplingSpec TopK Iterator Brute BruteSpec BruteProofs Text Python Main MainSpec P_Main P_Brute
  FpOps FloatSeries FloatSpec FloatProofs FloatBound FloatErr FloatRoll FloatZero P_Float P_Float2 P_Acc FloatHash P_Proj FloatBrute BruteAccSpec P_Brute64 FloatSample FloatStart FloatMain P_Whole FloatPython P_Python64 P_Motifs64.
Import FpOps.
Local Open Scope list_scope.
Local Open Scope R_scope.

(** the [w] values from position [i] on are all [x] *)
Definition idle (ts : list f64) (w i : nat) (x : f64) : Prop :=
  forall k, (k < w)%nat -> nth_error ts (i + k) = Some x.
(** [x] is a whole number times a power of two, and [w] times the whole number is at most
    [2^53]: for instance every whole number up to [2^53 / w] *)
Definition short (x : f64) (w : nat) : Prop :=
  exists k p : Z, fval x = IZR k * powerRZ 2 p /\ (Z.abs k * Z.of_nat w <= 2 ^ 53)%Z /\ (-1074 <= p)%Z.

Lemma map_same {A B} (f : A -> B) x n : map f (repeat x n) = repeat (f x) n.
Proof. induction n as [|n IH]; cbn [repeat map]; congruence. Qed.
Lemma root_nan y : is_nan (fsqrt64 (fsub (fmul f_two y) (fmul f_two f_nan))) = true.
Proof. change (fmul f_two f_nan) with f_nan. destruct (fmul f_two y); reflexivity. Qed.
(** ** Statistics of a constant window *)
Lemma idle_win ts w i x : idle ts w i x -> win ts w i = repeat x w.
Proof.
  revert i. induction w as [|w IH]; intros i H; [reflexivity|]. unfold win in *. pose proof (H 0%nat ltac:(lia)) as H0. rewrite Nat.add_0_r in H0.
  destruct (skipn i ts) as [|y l] eqn:E.
  { exfalso. assert (nth_error (skipn i ts) 0 = Some x) by (rewrite P_PythonReal.nth_error_skip, Nat.add_0_r; exact H0). rewrite E in H1. discriminate H1. }
  assert (y = x). { assert (nth_error (skipn i ts) 0 = Some x) by (rewrite P_PythonReal.nth_error_skip, Nat.add_0_r; exact H0). rewrite E in H1. injection H1 as ->. reflexivity. } subst y.
  cbn [firstn repeat]. f_equal. rewrite <- (IH (S i)); [|intros k Lk; replace (S i + k)%nat with (i + S k)%nat by lia; apply H; lia].
  f_equal. replace (S i) with (1 + i)%nat by lia. rewrite <- skipn_skipn, E. reflexivity.
Qed.
Lemma sum_repeat x k p w : number x -> fval x = IZR k * bp p -> (-1074 <= p)%Z -> (Z.abs k * Z.of_nat w <= 2 ^ 53)%Z -> Rabs (fval x) <= bp 200 -> (Z.of_nat w <= 2 ^ 52)%Z ->
  forall j i acc, (i + j <= w)%nat -> number acc -> fval acc = INR i * fval x ->
  number (fold_left fadd (repeat x j) acc) /\ fval (fold_left fadd (repeat x j) acc) = INR (i + j) * fval x.
Proof.
  intros Nx Ex Hp Hk Bx Hw. induction j as [|j IH]; intros i acc L Na Ea; cbn [repeat fold_left]; [rewrite Nat.add_0_r; split; assumption|].
  assert (Es : rnd (fval acc + fval x) = INR (S i) * fval x).
  { rewrite Ea, S_INR. replace (INR i * fval x + fval x) with ((INR i + 1) * fval x) by ring. rewrite <- S_INR. apply rnd_id.
    rewrite Ex, INR_IZR_INZ, <- Rmult_assoc, <- mult_IZR. apply fmt_int; [|exact Hp]. rewrite Z.abs_mul. nia. }
  assert (Bi : INR (S i) <= bp 52). { change (bp 52) with (IZR (2 ^ 52)). rewrite INR_IZR_INZ. apply IZR_le. lia. }
  destruct (fadd_val acc x Na Nx) as (N1 & E1).
  { rewrite Es, Rabs_mult, (Rabs_pos_eq (INR (S i))) by apply pos_INR. apply Rle_lt_trans with (bp 52 * bp 200); [apply Rmult_le_compat; [apply pos_INR|apply Rabs_pos|exact Bi|exact Bx]|].
    rewrite <- bpow_plus. apply bpow_lt. vm_compute. reflexivity. }
  replace (i + S j)%nat with (S i + j)%nat by lia. apply IH; [lia|exact N1|]. rewrite E1. exact Es.
Qed.
Lemma zero_is x : zero_like x -> exists s, x = S754_zero s.
Proof.
  intros ((V & F) & E). destruct x as [s|s| |s m e]; try discriminate F; [exists s; reflexivity|]. exfalso. unfold fval in E. cbn [SF2R] in E.
  apply eq_0_F2R in E. destruct s; discriminate E.
Qed.
Lemma idle_stats z x w : (1 <= w)%nat -> (Z.of_nat w <= 2 ^ 52)%Z -> number x -> Rabs (fval x) <= bp 200 -> short x w ->
  let m := fdiv (fsum z (repeat x w)) (f_of_nat w) in
  number m /\ fval m = fval x /\ zero_like (fsqrt64 (fdiv (squares z (repeat x w) m) (f_of_nat w))).
Proof.
  intros Lw Hw Nx Bx (k & p & Ex & Hk & Hp) m. rewrite power_bp in Ex.
  destruct (of_nat_exact w ltac:(lia)) as (Nw & Ew). assert (Pw : 1 <= INR w) by (change 1 with (INR 1); apply le_INR, Lw).
  destruct (sum_repeat x k p w Nx Ex Hp Hk Bx Hw w 0 (S754_zero (z_scalar z)) ltac:(lia) (zero_number _)) as (Ns & Es); [change (INR 0) with 0; change (fval (S754_zero (z_scalar z))) with 0; ring|].
  change (fold_left fadd (repeat x w) (S754_zero (z_scalar z))) with (fsum z (repeat x w)) in Ns, Es. cbn [Nat.add] in Es.
  assert (Em : rnd (fval (fsum z (repeat x w)) / fval (f_of_nat w)) = fval x).
  { rewrite Es, Ew. replace (INR w * fval x / INR w) with (fval x) by (field; lra). apply rnd_id, fmt_val, Nx. }
  destruct (fdiv_val (fsum z (repeat x w)) (f_of_nat w) Ns Nw) as (Nm & Vm); [rewrite Ew; lra|rewrite Em; eapply Rle_lt_trans; [exact Bx|apply bpow_lt; vm_compute; reflexivity]|].
  fold m in Nm, Vm. rewrite Em in Vm. split; [exact Nm|]. split; [exact Vm|].
  assert (Zd : zero_like (fsub x m)).
  { destruct (fsub_val x m Nx Nm) as (A & B); rewrite Vm in *; replace (fval x - fval x) with 0 in * by ring; rewrite rnd0 in *; [apply small_top|split; assumption]. }
  assert (Zs : zero_like (squares z (repeat x w) m)).
  { unfold squares, fsum. apply sum_zero; [apply zero_zero|]. intros y Hy. apply in_map_iff in Hy. destruct Hy as (x' & <- & Hx). apply repeat_spec in Hx. subst x'. apply mul_zero, Zd. }
  destruct (zero_is _ (div_zero _ _ Zs Nw ltac:(rewrite Ew; lra))) as (b & ->). destruct b; apply zero_zero.
Qed.

(** ** What happens next *)
Section Idle.
  Variables (z : zeros) (ts : list f64) (w : nat) (precise : bool) (s : fseries) (i : nat) (x : f64).
  Hypothesis Mo : moderate ts.
  Hypothesis U : usable ts w.
  Hypothesis E : fseries_new z ts w precise = Ret s.
  Hypothesis Pr : precise = true \/ (Z.of_nat i mod 1000000 = 0)%Z.
  Hypothesis Li : (i < length ts - w)%nat.
  Hypothesis Id : idle ts w i x.
  Hypothesis Sh : short x w.

  Lemma idle_record : exists m sd, fmean s i = Ret m /\ fsd s i = Ret sd /\ number m /\ fval m = fval x /\ zero_like sd.
  Proof.
    destruct U as ((Lw & L) & Hw). pose proof (Id 0%nat ltac:(lia)) as Hx. apply nth_error_In in Hx. destruct (Mo x Hx) as (Nx & Bx).
    assert (Bx' : Rabs (fval x) <= bp 200) by (rewrite <- power_bp; exact Bx).
    destruct (idle_stats z x w Lw Hw Nx Bx' Sh) as (Nm & Em & Zs).
    assert (G : nth_error (fs_avg s) i = Some (mean0 z ts w i) /\ nth_error (fs_sd s) i = Some (sd_from w (squares0 z ts w i))).
    { destruct precise; [apply (precise_record z ts w s i Mo U E Li)|]. destruct Pr as [X|X]; [discriminate X|].
      destruct (default_record z ts w s i Mo U E Li) as (a & r & Ea & Er & H1 & H2). rewrite X in Er. assert (r = 0)%nat by lia. subst r. rewrite Nat.add_0_r in Ea. subst a. split; [exact H1|exact H2]. }
    destruct G as (G1 & G2). unfold fmean, fsd, get. rewrite G1, G2. unfold sd_from, squares0, mean0. rewrite (idle_win ts w i x Id).
    eexists; eexists. split; [reflexivity|]. split; [reflexivity|]. split; [exact Nm|]. split; [exact Em|exact Zs].
  Qed.
  Lemma idle_flat : fis_flat s i = Ret true.
  Proof.
    destruct idle_record as (m & sd & _ & Es & _ & _ & Zs). unfold fis_flat. rewrite Es. cbn [bind]. destruct (zero_is _ Zs) as (b & ->). destruct b; reflexivity.
  Qed.
  Lemma idle_normal : fznormalized s i = Ret (repeat f_nan w).
  Proof.
    destruct U as ((Lw & L) & Hw). pose proof (Id 0%nat ltac:(lia)) as Hx. apply nth_error_In in Hx. destruct (Mo x Hx) as (Nx & Bx).
    destruct idle_record as (m & sd & Em & Es & Nm & Vm & Zs). destruct (made z ts w precise s Mo U E) as (Ed & Ew & _). unfold fznormalized. rewrite Em, Es. cbn [bind].
    unfold fsubsequence. rewrite Ed, Ew, cut_win by lia. cbn [bind]. rewrite (idle_win ts w i x Id). f_equal. rewrite map_same. f_equal.
    assert (Zd : zero_like (fsub x m)).
    { destruct (fsub_val x m Nx Nm) as (A & B); rewrite Vm in *; replace (fval x - fval x) with 0 in * by ring; rewrite rnd0 in *; [apply small_top|split; assumption]. }
    destruct (zero_is _ Zs) as (b & ->). destruct (zero_is _ Zd) as (b' & ->). reflexivity.
  Qed.
  Lemma idle_raw sdp j : lively s j -> is_nan (brute_raw z s sdp i j) = true.
  Proof.
    intros Fj. destruct U as ((Lw & L) & Hw). unfold brute_raw. rewrite idle_normal. cbn [bind].
    assert (Es : fsum z (repeat f_nan w) = f_nan).
    { destruct w as [|w']; [lia|]. unfold fsum. cbn [repeat fold_left]. replace (fadd (S754_zero (z_scalar z)) f_nan) with f_nan by (destruct (z_scalar z); reflexivity). apply FloatDist2.fold_nan. }
    rewrite Es. unfold fznormalized_value. destruct (fsd s j) as [sd| |]; cbn [bind]; try reflexivity. destruct (flt sd fflat_threshold); cbn [bind]; [apply root_nan|].
    destruct (fmean s j) as [m| |]; cbn [bind]; try reflexivity. unfold assert_. destruct (flt f_zero sd); cbn [bind]; [|reflexivity].
    replace (fmul f_nan m) with f_nan by (destruct m; reflexivity). replace (fdiv f_nan sd) with f_nan by (destruct sd; reflexivity).
    replace (fsub (fdiv (sdp (repeat f_nan w) j) sd) f_nan) with f_nan by (destruct (fdiv _ _); reflexivity). apply root_nan.
  Qed.
End Idle.

(** * C142: a constant window makes the exact search abort *)
(** If the values of some window are all equal to a number that is not too long, then it is
    on record with deviation 0, its z-normalised values are not numbers, and the exact search
    aborts as soon as there is a single window that is not flat: whatever its dot products,
    the order of its sorts and the schedule are, and whatever is asked for.  In the default
    mode of the statistics this is said of the first window (and those at multiples of 10^6). *)
Theorem c142_aborts :
  forall (z : zeros) (ts : list f64) (w : nat) (precise : bool) (s : fseries) (sdp : list f64 -> nat -> f64) (i j : nat) (x : f64)
         (order : nat -> option (list nat)) (k ez : nat) (t : split),
    moderate ts -> usable ts w -> fseries_new z ts w precise = Ret s ->
    precise = true \/ (Z.of_nat i mod 1000000 = 0)%Z ->
    (i < length ts - w)%nat -> idle ts w i x -> short x w ->
    (j < length ts - w)%nat -> lively s j ->
    leaves t = seq 0 (length ts - w) ->
    fis_flat s i = Ret true /\ fznormalized s i = Ret (repeat f_nan w) /\
    brute_force_motiflets (brute_series z s sdp) order k ez t = Panic.
Proof.
  intros z ts w precise s sdp i j x order k ez t Mo U E Pr Li Id Sh Lj Fj Hl.
  pose proof (idle_flat z ts w precise s i x Mo U E Pr Li Id Sh) as Fi. pose proof (idle_normal z ts w precise s i x Mo U E Pr Li Id Sh) as Ni.
  split; [exact Fi|]. split; [exact Ni|]. unfold brute_force_motiflets. rewrite (run_split_panic (brute_series z s sdp) order k ez); [reflexivity|apply bs_pos|].
  exists i. split; [rewrite Hl; apply in_seq; lia|]. unfold k_extents_bf. destruct (distance_profile (brute_series z s sdp) i) as [d| |] eqn:Ed; cbn [bind]; [exfalso|reflexivity|].
  - pose proof (distance_profile_numbers _ _ _ Ed j) as N. cbn [brute_series s_n s_flat] in N. rewrite (proj1 (proj2 (proj2 (made z ts w precise s Mo U E)))) in N. specialize (N Lj). rewrite Fj in N. specialize (N eq_refl).
    unfold dp in N. destruct (Nat.eqb_spec j i) as [->|_]; [unfold lively in Fj; congruence|]. cbn [brute_series s_flat s_raw] in N. rewrite Fj in N.
    rewrite (idle_raw z ts w precise s i x Mo U E Pr Li Id Sh sdp j Fj) in N. discriminate N.
  - destruct (distance_profile_cases (brute_series z s sdp) i) as [X|X]; rewrite X in Ed; discriminate Ed.
Qed.
Print Assumptions c142_aborts.

(** * C142: the program and the Python functions *)
(** Hence with [--exact] the program writes nothing for a file with such a series, and in
    Python, up to [brute_force_threshold] windows, neither the class can be constructed nor
    the function returns. *)
Theorem c142_program :
  forall (checks : bool) (show : f64 -> list N) (o : options) (w : nat) (precise : bool) (prefix : option nat) (n_w : world) (file : list N)
         (ts : list f64) (s : fseries) (i j : nat) (x : f64) (fuel : nat) (out : option (list N)),
    o_exact o = true ->
    load_from (n_parse n_w) prefix file fuel = Ret (Some ts) -> fseries_new (n_zeros n_w) ts w precise = Ret s ->
    moderate ts -> usable ts w ->
    precise = true \/ (Z.of_nat i mod 1000000 = 0)%Z ->
    (i < length ts - w)%nat -> idle ts w i x -> short x w ->
    (j < length ts - w)%nat -> lively s j ->
    leaves (n_split n_w) = seq 0 (length ts - w) ->
    fprogram checks show o w precise prefix n_w file fuel <> Ret out.
Proof.
  intros checks show o w precise prefix n_w file ts s i j x fuel out Ho El E Mo U Pr Li Id Sh Lj Fj Hl X.
  unfold fprogram in X. rewrite El in X. cbn [bind] in X. rewrite E in X. cbn [bind] in X. unfold fprepare in X. rewrite Ho in X. cbn [bind] in X.
  unfold run, find_motiflets in X. rewrite Ho in X. cbn [fsetting e_series e_order e_split e_w] in X.
  destruct (e_average _ _) as [av| |]; cbn [bind] in X; try discriminate X.
  rewrite (proj2 (proj2 (c142_aborts _ ts w precise s (n_sdp n_w) i j x (n_order n_w) (o_support o) (w / 2) (n_split n_w) Mo U E Pr Li Id Sh Lj Fj Hl))) in X. discriminate X.
Qed.
Print Assumptions c142_program.
Theorem c142_python :
  forall (checks : bool) (a : arguments) (n_w : world) (ts : list f64) (s : fseries) (i j : nat) (x : f64) (fuel : nat),
    fseries_new (n_zeros n_w) ts (a_w a) false = Ret s ->
    moderate ts -> usable ts (a_w a) ->
    (Z.of_nat i mod 1000000 = 0)%Z ->
    (i < length ts - a_w a)%nat -> idle ts (a_w a) i x -> short x (a_w a) ->
    (j < length ts - a_w a)%nat -> lively s j ->
    leaves (n_split n_w) = seq 0 (length ts - a_w a) ->
    ((length ts - a_w a <= a_brute_force_threshold a)%nat -> forall y, fpy_new checks a n_w ts fuel <> Ret y) /\
    forall zone motiflets, fmotiflet_brute_force n_w ts (a_w a) (a_support a) zone fuel <> Ret motiflets.
Proof.
  intros checks a n_w ts s i j x fuel E Mo U Pr Li Id Sh Lj Fj Hl.
  pose proof (fun ez => proj2 (proj2 (c142_aborts _ ts (a_w a) false s (n_sdp n_w) i j x (n_order n_w) (a_support a) ez (n_split n_w) Mo U E (or_intror Pr) Li Id Sh Lj Fj Hl))) as P.
  split.
  - intros Small y X. unfold fpy_new in X. rewrite E in X. cbn [bind] in X. unfold assert_ in X. destruct (_ <=? _)%nat; [|discriminate X]. destruct (flimit _ _ _) as [limit| |]; cbn [bind] in X; try discriminate X.
    rewrite (proj1 (proj2 (proj2 (made _ ts (a_w a) false s Mo U E)))) in X. destruct (Nat.ltb_spec (a_brute_force_threshold a) (length ts - a_w a)) as [C|_]; [lia|].
    destruct (faverage_pairwise_distance _ _ _ _ _ _); cbn [bind] in X; try discriminate X. destruct (ffft_new _ _ _); cbn [bind] in X; try discriminate X. rewrite P in X. discriminate X.
  - intros zone ms X. unfold fmotiflet_brute_force in X. rewrite E in X. cbn [bind] in X. unfold assert_ in X. destruct (_ <=? _)%nat; [|discriminate X].
    destruct (faverage_pairwise_distance _ _ _ _ _ _); cbn [bind] in X; try discriminate X. destruct (ffft_new _ _ _); cbn [bind] in X; try discriminate X. rewrite P in X. discriminate X.
Qed.
Print Assumptions c142_python.

(** ** Three zeros and then a peak *)
Definition idle_data : list f64 := nums [0; 0; 0; 1; 4; 1]%nat.
Definition idle_file : list N := text_file ["0"; "0"; "0"; "1"; "4"; "1"]%string.
Definition idle_series : fseries := match fseries_new z_ex idle_data 3 true with Ret s => s | _ => series_br end.
Example c142_aborts_case : fseries_new z_ex idle_data 3 true = Ret idle_series /\ moderate idle_data /\ usable idle_data 3 /\ (0 < length idle_data - 3)%nat /\ idle idle_data 3 0 f_zero /\ short f_zero 3 /\
  (2 < length idle_data - 3)%nat /\ lively idle_series 2 /\ leaves (n_split br_world) = seq 0 (length idle_data - 3).
Proof.
  split; [vm_compute; reflexivity|].
  split; [intros x Hx; unfold idle_data, nums in Hx; apply in_map_iff in Hx; destruct Hx as (k & <- & Hk);
    assert (k <= 4)%nat by (cbn in Hk; lia); destruct (of_nat_exact k ltac:(lia)) as (N & V); split; [exact N|rewrite V, Rabs_pos_eq by apply pos_INR; apply Rle_trans with 4; [replace 4 with (INR 4) by (cbn; lra); apply le_INR; lia|]; apply Rle_trans with (2 ^ 2); [lra|apply Rle_pow; [lra|lia]]]|].
  split; [split; [cbn; lia|vm_compute; discriminate]|]. split; [cbn; lia|]. split; [intros k Lk; do 3 (destruct k as [|k]; [reflexivity|]); lia|].
  split; [exists 0%Z, 0%Z; split; [cbn; lra|split; [vm_compute; discriminate|lia]]|]. split; [cbn; lia|]. split; [vm_compute; reflexivity|reflexivity].
Qed.
(** The file has an exact search that aborts, but not because its series has no pairs to
    compare: the average distance is computed. *)
Example c142_program_case :
  let o := Options true None 2 1 in
  load_from (n_parse br_world) None idle_file 60 = Ret (Some idle_data) /\ fseries_new (n_zeros br_world) idle_data 3 true = Ret idle_series /\ (exists average, faverage_pairwise_distance (n_average_samples br_world) (n_zeros br_world) idle_series (3 / 2) (n_pairs br_world) 60 = Ret average) /\ fprogram true plain_show o 3 true None br_world idle_file 60 = Panic.
Proof. vm_compute. split; [reflexivity|]. split; [reflexivity|]. split; [eexists; reflexivity|reflexivity]. Qed.
Example c142_python_case :
  exists s, fseries_new (n_zeros br_world) idle_data 3 false = Ret s /\ lively s 2 /\ (length idle_data - 3 <= a_brute_force_threshold pair_arguments)%nat /\
  fpy_new true pair_arguments br_world idle_data 60 = Panic /\ fmotiflet_brute_force br_world idle_data 3 2 None 60 = Panic.
Proof.
  destruct (fseries_new (n_zeros br_world) idle_data 3 false) as [s| |] eqn:Es; [|vm_compute in Es; discriminate Es..]. exists s. split; [reflexivity|]. vm_compute in Es. injection Es as <-.
  split; [vm_compute; reflexivity|]. split; [cbn; lia|]. split; vm_compute; reflexivity.
Qed.
