(** Sliding dot products cover every window; distance profiles. *)
From Coq Require Import Reals Lra.
From Coquelicot Require Import Complex.
From Verif Require Import Base RSpec RealProofs Series SeriesProofs FFT DftProofs.
Local Open Scope R_scope.

(** ** Loops *)
Lemma foreach_ext {A T} (b b' : A -> T -> res T) l : (forall a, In a l -> forall s, b a s = b' a s) -> forall s, foreach l b s = foreach l b' s.
Proof.
  induction l as [|a l IH]; intros H s; [reflexivity|]. cbn [foreach]. rewrite (H a (or_introl eq_refl)).
  destruct (b' a s); cbn [bind]; [|reflexivity|reflexivity]. apply IH. intros; apply H; right; auto.
Qed.
Lemma foreach_skip {A T} (l : list A) (b : A -> T -> res T) s : (forall a s, In a l -> b a s = Ret s) -> foreach l b s = Ret s.
Proof. revert s. induction l as [|a l IH]; intros s H; [reflexivity|]. cbn [foreach]. rewrite H by (left; reflexivity). cbn [bind]. apply IH. intros; apply H; right; auto. Qed.
Lemma foreach_map {A B T} (f : A -> B) l (b : B -> T -> res T) s : foreach (map f l) b s = foreach l (fun a => b (f a)) s.
Proof. revert s. induction l as [|a l IH]; intros s; [reflexivity|]. cbn [foreach map]. destruct (b (f a) s); cbn [bind]; auto. Qed.
Lemma foreach_blocks {T} (g : nat -> T -> res T) k n : forall s,
  foreach (seq 0 n) (fun c => foreach (seq 0 k) (fun i => g (i + c * k)%nat)) s = foreach (seq 0 (n * k)) g s.
Proof.
  induction n as [|n IH]; intros s; [reflexivity|]. rewrite seq_S, foreach_app, IH. cbn [Nat.add foreach].
  replace (S n * k)%nat with (n * k + k)%nat by lia. rewrite seq_app, foreach_app.
  destruct (foreach (seq 0 (n * k)) g s) as [s1| |]; cbn [bind]; try reflexivity.
  replace (seq (0 + n * k) k) with (map (fun i => i + n * k)%nat (seq 0 k)).
  - rewrite foreach_map. destruct (foreach _ _ s1); reflexivity.
  - rewrite <- (seq_from k (0 + n * k)). apply map_ext. intros; lia.
Qed.
Lemma foreach_guard {T} (g : nat -> T -> res T) N m s : (N <= m)%nat ->
  foreach (seq 0 m) (fun j st => if (j <? N)%nat then g j st else Ret st) s = foreach (seq 0 N) g s.
Proof.
  intros L. replace m with (N + (m - N))%nat by lia. rewrite seq_app, foreach_app.
  rewrite (foreach_ext _ g (seq 0 N)) by (intros j Hj st; apply in_seq in Hj; destruct (Nat.ltb_spec j N); [reflexivity|lia]).
  destruct (foreach (seq 0 N) g s) as [s1| |]; cbn [bind]; try reflexivity. apply foreach_skip.
  intros j st Hj. apply in_seq in Hj. destruct (Nat.ltb_spec j N); [lia|reflexivity].
Qed.

Lemma firstn_S_nth {A} (l : list A) i d : (i < length l)%nat -> firstn (S i) l = firstn i l ++ [nth i l d].
Proof. revert l. induction i as [|i IH]; intros [|x l] H; cbn [length] in H; try lia; [reflexivity|]. cbn [firstn nth app]. f_equal. apply IH. lia. Qed.

(** ** Preparing the transforms *)
Definition raw_chunk (ts : list R) (L stride c : nat) : list C := resize L (map RtoC (firstn L (skipn (c * stride) ts))).
Definition fft_ok (s : series) (f : fftdata) : Prop :=
  (s_w s < f_length f)%nat /\ f_chunk_size f = (f_length f - s_w s)%nat /\
  exists K, f_chunks f = map (fun c => dft (raw_chunk (s_data s) (f_length f) (f_length f - s_w s) c)) (seq 0 K) /\
    (length (s_data s) <= K * (f_length f - s_w s))%nat.

Lemma firstn_min {A} (l : list A) a L : firstn (Nat.min (a + L) (length l) - a) (skipn a l) = firstn L (skipn a l).
Proof.
  destruct (Nat.le_gt_cases (a + L) (length l)).
  - f_equal. lia.
  - rewrite !firstn_all2 by (rewrite skipn_length; lia). reflexivity.
Qed.
Lemma resize_length n l : length (resize n l) = n.
Proof. unfold resize. rewrite firstn_length, app_length, repeat_length. lia. Qed.

Definition new_body_of (s : series) (st : nat * list (list C)) : res (nat * list (list C) + list (list C)) :=
  let '(begin, chunks) := st in
  if (begin <? length (s_data s))%nat then
    let end_ := Nat.min (begin + fft_length_of s) (length (s_data s)) in
    let! v := slice (s_data s) begin end_ in
    let chunk := dft (resize (fft_length_of s) (map RtoC v)) in
    assert_ (s_w s <=? fft_length_of s)%nat
      (Ret (inl ((begin + (fft_length_of s - s_w s))%nat, chunks ++ [chunk])))
  else Ret (inr chunks).
Definition new_inv (s : series) (st : nat * list (list C)) : Prop :=
  exists c, fst st = (c * (fft_length_of s - s_w s))%nat /\ snd st = map (fun c => dft (raw_chunk (s_data s) (fft_length_of s) (fft_length_of s - s_w s) c)) (seq 0 c).
Definition new_done (s : series) (chunks : list (list C)) : Prop :=
  exists K, chunks = map (fun c => dft (raw_chunk (s_data s) (fft_length_of s) (fft_length_of s - s_w s) c)) (seq 0 K) /\ (length (s_data s) <= K * (fft_length_of s - s_w s))%nat.
Section New.
  Variables (s : series).
  Notation L := (fft_length_of s).
  Notation body := (new_body_of s).
  Notation I := (new_inv s).
  Notation Q := (new_done s).

  Lemma new_body st : (s_w s <= L)%nat -> I st ->
    (exists st', body st = Ret (inl st') /\ I st' /\ (fst st < length (s_data s))%nat /\ fst st' = (fst st + (L - s_w s))%nat) \/
    (exists r, body st = Ret (inr r) /\ Q r).
  Proof.
    intros Lw (c & E1 & E2). destruct st as (b, ch). cbn [fst snd] in *. subst b ch. unfold new_body_of.
    destruct (Nat.ltb_spec (c * (L - s_w s)) (length (s_data s))) as [Lb|Gb].
    - left. rewrite slice_ret by lia. cbn [bind]. unfold assert_. destruct (Nat.leb_spec (s_w s) L); [|lia].
      eexists. split; [reflexivity|]. split; [|split; [exact Lb|reflexivity]].
      exists (S c). cbn [fst snd]. split; [lia|]. rewrite seq_S, map_app. cbn [map Nat.add]. do 2 f_equal.
      rewrite firstn_min. reflexivity.
    - right. eexists. split; [reflexivity|]. exists c. auto.
  Qed.
  Lemma new_start : I (0%nat, []).
  Proof. exists 0%nat. split; reflexivity. Qed.

  Lemma fft_new_ok fuel f : (s_w s <= L)%nat -> (1 <= length (s_data s))%nat -> fft_new fuel s = Ret f -> fft_ok s f.
  Proof.
    intros Lw Ln E. unfold fft_new in E. cbv zeta in E. change (loop fuel _ (0%nat, [])) with (loop fuel body (0%nat, [])) in E.
    destruct (loop fuel body (0%nat, [])) as [chunks| |] eqn:El; try discriminate. cbn [bind] in E. unfold assert_ in E.
    destruct (Nat.leb_spec (s_w s) L); [|lia]. apply Ret_inj in E. subst f. unfold fft_ok. cbn [f_length f_chunk_size f_chunks].
    assert (HQ : Q chunks).
    { refine (loop_inv body I Q _ fuel _ chunks new_start El). intros st HI x Ex.
      destruct (new_body st Lw HI) as [(st' & E' & H1 & _)|(r & E' & H1)]; rewrite E' in Ex; apply Ret_inj in Ex; subst x; exact H1. }
    destruct HQ as (K & EK & LK). split; [|split; [reflexivity|exists K; auto]]. destruct (Nat.eq_dec (s_w s) L) as [Ee|]; [|lia].
    rewrite Ee in LK. replace (L - L)%nat with 0%nat in LK by lia. lia.
  Qed.
  Lemma fft_new_returns : (s_w s < L)%nat -> exists f, returns (fun fuel => fft_new fuel s) f.
  Proof.
    intros Lw. destruct (loop_measure body I Q (fun st => (length (s_data s) - fst st)%nat)) with (s := (0%nat, @nil (list C))) (fuel := S (length (s_data s))) as (r & El & HQ).
    - intros st HI. destruct (new_body st ltac:(lia) HI) as [(st' & E' & H1 & H2 & H3)|H1]; [left|right; exact H1].
      exists st'. split; [exact E'|]. split; [exact H1|]. lia.
    - exact new_start.
    - cbn [fst]. lia.
    - exists (FFTData (L - s_w s) L r). exists (S (length (s_data s))). intros n Hn. unfold fft_new. cbv zeta.
      change (loop n _ (0%nat, [])) with (loop n body (0%nat, [])). rewrite (loop_mono body (S (length (s_data s)))) by (auto; rewrite El; discriminate).
      rewrite El. cbn [bind]. unfold assert_. destruct (Nat.leb_spec (s_w s) L); [reflexivity|lia].
  Qed.
  Lemma fft_new_diverges : s_w s = L -> (1 <= length (s_data s))%nat -> diverges (fun fuel => fft_new fuel s).
  Proof.
    intros Ew Ln fuel. unfold fft_new. cbv zeta. change (loop fuel _ (0%nat, [])) with (loop fuel body (0%nat, [])).
    assert (El : forall fuel st, fst st = 0%nat -> loop fuel body st = Spin).
    { clear fuel. induction fuel as [|fuel IH]; intros (b & ch) E; [reflexivity|]. cbn [fst] in E. subst b. cbn [loop]. unfold new_body_of at 1.
      destruct (Nat.ltb_spec 0 (length (s_data s))); [|lia]. rewrite slice_ret by lia. cbn [bind]. unfold assert_.
      destruct (Nat.leb_spec (s_w s) L); [|lia]. apply IH. cbn [fst]. lia. }
    rewrite El by reflexivity. reflexivity.
  Qed.
End New.

Lemma npo2_ge n : (n <= next_power_of_two n)%nat.
Proof.
  unfold next_power_of_two. destruct n as [|[|n]]; [apply Nat.le_0_l|reflexivity|]. apply (Nat.log2_up_spec (S (S n))). lia.
Qed.
Lemma npo2_pow k : next_power_of_two (2 ^ k) = (2 ^ k)%nat.
Proof. unfold next_power_of_two. rewrite Nat.log2_up_pow2 by lia. reflexivity. Qed.
Lemma npo2_mono a b : (a <= b)%nat -> (next_power_of_two a <= next_power_of_two b)%nat.
Proof. intros L. unfold next_power_of_two. apply Nat.pow_le_mono_r; [lia|]. apply Nat.log2_up_le_mono. exact L. Qed.
Lemma fft_length_ge s : (s_w s <= length (s_data s))%nat -> (s_w s <= fft_length_of s)%nat.
Proof. intros L. unfold fft_length_of. pose proof (npo2_ge (s_w s)). pose proof (npo2_ge (length (s_data s))). lia. Qed.
(** when the transform is not longer than the window *)
Lemma fft_length_eq s : (s_w s <= length (s_data s))%nat ->
  (fft_length_of s = s_w s <-> (exists k, s_w s = 2 ^ k)%nat /\ (2 ^ 14 <= s_w s \/ length (s_data s) = s_w s)%nat).
Proof.
  intros L. unfold fft_length_of. pose proof (npo2_ge (s_w s)) as G1. pose proof (npo2_ge (length (s_data s))) as G2. pose proof (npo2_mono _ _ L) as G3.
  split.
  - intros E. assert (H : next_power_of_two (s_w s) = s_w s) by lia. split; [exists (Nat.log2_up (s_w s)); symmetry; exact H|]. lia.
  - intros ((k & Ek) & H). assert (E : next_power_of_two (s_w s) = s_w s) by (rewrite Ek; apply npo2_pow). destruct H as [H|H].
    + rewrite E in *. lia.
    + rewrite H, E. lia.
Qed.

(** ** One chunk *)
Lemma nth_repeat0 k n : nth k (repeat (RtoC 0) n) (RtoC 0) = RtoC 0.
Proof. revert k. induction n as [|n IH]; intros [|k]; try reflexivity. apply IH. Qed.
Lemma query_fft_ok s f v : length v = s_w s -> (s_w s <= f_length f)%nat ->
  query_fft s f v = Ret (dft (rev (map RtoC v) ++ repeat (RtoC 0) (f_length f - s_w s))).
Proof.
  intros Ev Lw. unfold query_fft. set (L := f_length f) in *. set (w := s_w s) in *.
  destruct (foreach_seq_total
    (fun i vfft => let! x := get v i in put vfft (w - i - 1) (RtoC x))
    (fun i vfft => vfft = repeat (RtoC 0) (w - i) ++ rev (map RtoC (firstn i v)) ++ repeat (RtoC 0) (L - w)) w 0 (repeat (RtoC 0) L)) as (r & E & Hr).
  - cbn [firstn map rev app]. rewrite <- repeat_app. f_equal. lia.
  - intros i st Hi ->. rewrite (get_ret v i 0) by lia. cbn [bind].
    assert (R0 : repeat (RtoC 0) (w - i) = repeat (RtoC 0) (w - i - 1) ++ [RtoC 0])
      by (change [RtoC 0] with (repeat (RtoC 0) 1); rewrite <- repeat_app; f_equal; lia).
    rewrite R0, <- app_assoc. cbn [app].
    rewrite put_append by apply repeat_length. eexists. split; [reflexivity|]. replace (w - S i)%nat with (w - i - 1)%nat by lia. f_equal.
    rewrite (firstn_S_nth v i 0) by lia. rewrite map_app, rev_app_distr. reflexivity.
  - rewrite Ev. fold w. rewrite E. cbn [bind]. rewrite Hr. replace (w - (0 + w))%nat with 0%nat by lia. cbn [repeat app Nat.add].
    rewrite firstn_all2 by lia. reflexivity.
Qed.
Lemma chunk_product_ok f a b : length a = f_length f -> length b = f_length f ->
  chunk_product f a b = Ret (idft (map (fun k => Cmult (nth k a (RtoC 0)) (nth k b (RtoC 0))) (seq 0 (f_length f)))).
Proof.
  intros La Lb. unfold chunk_product. set (L := f_length f) in *.
  destruct (foreach_seq_total
    (fun i ivfft => let! x := get a i in let! y := get b i in put ivfft i (Cmult x y))
    (fun i ivfft => ivfft = map (fun k => Cmult (nth k a (RtoC 0)) (nth k b (RtoC 0))) (seq 0 i) ++ repeat (RtoC 0) (L - i)) L 0 (repeat (RtoC 0) L)) as (r & E & Hr).
  - cbn [seq map app]. f_equal. lia.
  - intros i st Hi ->. rewrite (get_ret a i (RtoC 0)), (get_ret b i (RtoC 0)) by lia. cbn [bind].
    replace (L - i)%nat with (S (L - S i))%nat by lia. cbn [repeat]. rewrite put_append by (rewrite map_length, seq_length; reflexivity).
    eexists. split; [reflexivity|]. rewrite seq_S, map_app, <- app_assoc. reflexivity.
  - rewrite E. cbn [bind]. rewrite Hr. replace (L - (0 + L))%nat with 0%nat by lia. cbn [repeat Nat.add]. rewrite app_nil_r. reflexivity.
Qed.

Lemma S_real n (g : nat -> R) : S_ n (fun i => RtoC (g i)) = RtoC (total (map g (seq 0 n))).
Proof.
  induction n as [|n IH]; [reflexivity|]. rewrite S_S, IH, seq_S, map_app, total_app. cbn [map Nat.add]. rewrite total_cons, total_nil, !RtoC_plus. ring.
Qed.
Lemma nth_RtoC k l : nth k (map RtoC l) (RtoC 0) = RtoC (nth k l 0).
Proof. apply (map_nth RtoC). Qed.
Lemma nth_first {A} (l : list A) d : forall n k, (k < n)%nat -> nth k (firstn n l) d = nth k l d.
Proof. induction l as [|x l IH]; intros [|n] [|k] H; try lia; try reflexivity. cbn [firstn nth]. apply IH. lia. Qed.
Lemma nth_skip {A} (l : list A) d : forall n k, nth k (skipn n l) d = nth (n + k) l d.
Proof. induction l as [|x l IH]; intros [|n] k; try reflexivity; [destruct k; reflexivity|]. cbn [skipn nth Nat.add]. apply IH. Qed.
Lemma nth_pad k l n : nth k (l ++ repeat (RtoC 0) n) (RtoC 0) = nth k l (RtoC 0).
Proof.
  destruct (Nat.lt_ge_cases k (length l)); [apply app_nth1; assumption|]. rewrite app_nth2, nth_repeat0 by assumption. symmetry. apply nth_overflow. assumption.
Qed.
Lemma raw_chunk_nth ts L stride c k : (k < L)%nat -> nth k (raw_chunk ts L stride c) (RtoC 0) = RtoC (nth (c * stride + k) ts 0).
Proof.
  intros H. unfold raw_chunk, resize. rewrite nth_first, nth_pad, nth_RtoC, nth_first, nth_skip by exact H. reflexivity.
Qed.
Lemma raw_chunk_length ts L stride c : length (raw_chunk ts L stride c) = L.
Proof. apply resize_length. Qed.
Lemma seq_rev n : map (fun a => (n - 1 - a)%nat) (seq 0 n) = rev (seq 0 n).
Proof.
  induction n as [|n IH]; [reflexivity|].
  assert (R0 : rev (seq 0 (S n)) = n :: rev (seq 0 n)) by (rewrite seq_S, rev_app_distr; reflexivity). rewrite R0. cbn [seq map].
  replace (S n - 1 - 0)%nat with n by lia. f_equal.
  rewrite <- seq_shift, map_map, <- IH. apply map_ext. intros a. lia.
Qed.
Lemma total_reverse n (g : nat -> R) : total (map (fun a => g (n - 1 - a)%nat) (seq 0 n)) = total (map g (seq 0 n)).
Proof. rewrite <- (map_map (fun a => (n - 1 - a)%nat) g), seq_rev. apply total_perm, Permutation_map. symmetry. apply Permutation_rev. Qed.

(** entry [i] of chunk [c] *)
Lemma chunk_value ts w L stride c i v : (1 <= w < L)%nat -> length v = w -> (i < L - w)%nat -> (i + c * stride + w <= length ts)%nat ->
  let a := dft (rev (map RtoC v) ++ repeat (RtoC 0) (L - w)) in
  let b := dft (raw_chunk ts L stride c) in
  exists z, get (idft (map (fun k => Cmult (nth k a (RtoC 0)) (nth k b (RtoC 0))) (seq 0 L))) ((i + w - 1) mod L) = Ret z /\
    Re z / INR L = inner v (window ts w (i + c * stride)).
Proof.
  intros Lw Ev Li Lt. cbv zeta. set (a := rev _ ++ _). set (b := raw_chunk _ _ _ _).
  set (p := map _ (seq 0 L)).
  assert (La : length a = L) by (unfold a; rewrite app_length, rev_length, map_length, repeat_length; lia).
  assert (Lb : length b = L) by apply raw_chunk_length.
  assert (Lp : length p = L) by (unfold p; rewrite map_length, seq_length; reflexivity).
  rewrite Nat.mod_small by lia. eexists. split; [apply (get_ret _ _ (RtoC 0)); rewrite idft_length; lia|].
  rewrite (convolution L w a b p (i + w - 1)); try assumption; try lia.
  - rewrite (S_ext w _ (fun k => RtoC (nth (w - 1 - k) v 0 * nth (i + c * stride + (w - 1 - k)) ts 0))).
    + rewrite (S_real w (fun k => nth (w - 1 - k) v 0 * nth (i + c * stride + (w - 1 - k)) ts 0)).
      rewrite <- RtoC_mult. change (Re (RtoC ?x)) with x.
      rewrite (total_reverse w (fun k => nth k v 0 * nth (i + c * stride + k) ts 0)).
      rewrite (inner_seq v (window ts w (i + c * stride)) w) by (auto; apply window_length; lia).
      rewrite (total_ext (fun k => nth k v 0 * nth (i + c * stride + k) ts 0) (fun k => nth k v 0 * nth k (window ts w (i + c * stride)) 0)).
      * field. apply not_0_INR. lia.
      * intros k Hk. apply in_seq in Hk. f_equal. unfold window. rewrite nth_first, nth_skip by lia. reflexivity.
    + intros k Hk. unfold a, b. rewrite nth_pad, rev_nth by (rewrite map_length; lia). rewrite raw_chunk_nth, map_length, nth_RtoC, RtoC_mult by lia.
      f_equal; do 2 f_equal; lia.
  - intros k Hk. unfold a. rewrite nth_pad. apply nth_overflow. rewrite rev_length, map_length. lia.
  - intros k Hk. unfold p. rewrite (nth_map _ _ k _ 0%nat), seq_nth by (rewrite ?seq_length; lia). reflexivity.
Qed.

(** ** Sliding dot products *)
Section Sliding.
  Variables (s : series) (ts : list R) (w : nat) (f : fftdata) (v : list R).
  Hypothesis M : made s ts w.
  Hypothesis F : fft_ok s f.
  Hypothesis Ev : length v = w.

  Lemma combine_seq_map {A} (g : nat -> A) K : combine (seq 0 K) (map g (seq 0 K)) = map (fun c => (c, g c)) (seq 0 K).
  Proof. generalize 0%nat. induction K as [|K IH]; intros a; [reflexivity|]. cbn [seq map combine]. f_equal. apply IH. Qed.

  Lemma for_each_ok {T} (action : nat -> R -> T -> res T) st :
    sliding_dot_product_for_each s f v action st =
    foreach (seq 0 (num_subsequences s)) (fun i st => action i (inner v (window ts w i)) st) st.
  Proof.
    destruct F as (Lw & Ec & K & EK & LK). rewrite (made_w _ _ _ M), (made_data _ _ _ M) in *. rewrite (made_num _ _ _ M).
    destruct M as (_ & L1 & L2). unfold sliding_dot_product_for_each. rewrite (made_w _ _ _ M). unfold assert_. rewrite Ev, Nat.eqb_refl.
    rewrite query_fft_ok by (rewrite (made_w _ _ _ M); lia). rewrite (made_w _ _ _ M), (made_num _ _ _ M). cbn [bind]. set (L := f_length f) in *. rewrite EK, map_length, seq_length, combine_seq_map, foreach_map.
    rewrite <- (foreach_guard (fun i st => action i (inner v (window ts w i)) st) (length ts - w) (K * (L - w))) by lia.
    rewrite <- foreach_blocks. apply foreach_ext. intros c Hc st1.
    rewrite chunk_product_ok;
      [|rewrite dft_length, app_length, rev_length, map_length, repeat_length; fold L; lia|rewrite dft_length, raw_chunk_length; reflexivity].
    cbn [bind]. apply foreach_ext. intros i Hi st2. apply in_seq in Hi. destruct (Nat.ltb_spec (i + c * (L - w)) (length ts - w)) as [Hl|]; [|reflexivity].
    destruct (chunk_value ts w L (L - w) c i v ltac:(lia) Ev ltac:(lia) ltac:(lia)) as (z & Ez & Er).
    fold L. rewrite Ez. cbn [bind]. rewrite Er. reflexivity.
  Qed.

End Sliding.

  (** a loop that writes the entries of a list one by one *)
  Lemma write_loop {O} (g : nat -> O -> res O) (n : nat) (out : list O) :
    (length out <= n)%nat ->
    (forall i o, nth_error out i = Some o -> exists o', g i o = Ret o') ->
    exists out', foreach (seq 0 n) (fun i out => if (i <? length out)%nat then let! o := get out i in let! o := g i o in put out i o else Ret out) out = Ret out' /\
      length out' = length out /\
      forall i o, nth_error out i = Some o -> exists o', g i o = Ret o' /\ nth_error out' i = Some o'.
  Proof.
    intros Ln Hg.
    destruct (foreach_seq_total
      (fun i out => if (i <? length out)%nat then let! o := get out i in let! o := g i o in put out i o else Ret out)
      (fun i cur => length cur = length out /\ (forall j, (i <= j)%nat -> nth_error cur j = nth_error out j) /\
         forall j o, (j < i)%nat -> nth_error out j = Some o -> exists o', g j o = Ret o' /\ nth_error cur j = Some o') n 0 out) as (r & E & H1 & H2 & H3).
    - split; [reflexivity|]. split; [reflexivity|]. intros j o Hj. lia.
    - intros i cur Hi (C1 & C2 & C3). destruct (Nat.ltb_spec i (length cur)) as [Lc|Gc].
      + destruct (nth_error out i) as [o|] eqn:Eo; [|apply nth_error_None in Eo; lia].
        rewrite (get_some cur i o) by (rewrite C2 by lia; exact Eo). cbn [bind]. destruct (Hg i o Eo) as (o' & Eg). rewrite Eg. cbn [bind].
        destruct (put_ok cur i o' Lc) as (cur' & Ep & Lp & Hp). exists cur'. split; [exact Ep|]. split; [congruence|]. split.
        * intros j Hj. rewrite Hp. destruct (Nat.eqb_spec j i); [lia|]. apply C2. lia.
        * intros j x Hj Ex. rewrite Hp. destruct (Nat.eqb_spec j i) as [->|].
          -- rewrite Eo in Ex. injection Ex as <-. exists o'. auto.
          -- apply C3; [lia|exact Ex].
      + exists cur. split; [reflexivity|]. split; [exact C1|]. split; [intros j Hj; apply C2; lia|].
        intros j x Hj Ex. apply C3; [|exact Ex]. assert (j < length out)%nat by (apply nth_error_Some; congruence). lia.
    - exists r. split; [exact E|]. split; [exact H1|]. intros i o Eo. apply H3; [|exact Eo].
      assert (i < length out)%nat by (apply nth_error_Some; congruence). cbn. lia.
  Qed.

(** parts of a list *)
Lemma chunks_of_nth {A} k (l : list A) c : (1 <= k)%nat -> (c * k < length l)%nat -> nth_error (chunks_of k l) c = Some (firstn k (skipn (c * k) l)).
Proof.
  intros Lk Lc. unfold chunks_of. rewrite nth_error_map, (nth_error_nth' _ 0%nat), seq_nth; [reflexivity| |].
  - apply (Nat.div_le_lower_bound _ k (S c)); lia.
  - rewrite seq_length. apply (Nat.div_le_lower_bound _ k (S c)); lia.
Qed.
Lemma chunks_of_length {A} k (l : list A) : length (chunks_of k l) = ((length l + k - 1) / k)%nat.
Proof. unfold chunks_of. rewrite map_length, seq_length. reflexivity. Qed.
Lemma mapM_total {A B} (g : A -> res B) (P : A -> B -> Prop) l :
  (forall a, In a l -> exists b, g a = Ret b /\ P a b) -> exists r, mapM g l = Ret r /\ Forall2 P l r.
Proof.
  induction l as [|a l IH]; intros H; [exists []; split; [reflexivity|constructor]|]. cbn [mapM].
  destruct (H a (or_introl eq_refl)) as (b & E & Pb). rewrite E. cbn [bind]. destruct IH as (r & E' & F); [intros; apply H; right; auto|].
  rewrite E'. cbn [bind]. exists (b :: r). split; [reflexivity|constructor; assumption].
Qed.
Lemma concat_nth {A} k (parts : list (list A)) : forall c i, (forall j p, (j <= c)%nat -> nth_error parts j = Some p -> (j < c)%nat -> length p = k) ->
  forall p, nth_error parts c = Some p -> (i < length p)%nat -> nth_error (concat parts) (c * k + i) = nth_error p i.
Proof.
  induction parts as [|q parts IH]; intros [|c] i H p E Li; try discriminate; cbn [nth_error] in E.
  - injection E as ->. cbn [concat]. apply nth_error_app1. exact Li.
  - cbn [concat]. assert (Lq : length q = k) by (apply (H 0%nat q); [lia|reflexivity|lia]).
    rewrite nth_error_app2 by (rewrite Lq; lia). rewrite Lq. replace (S c * k + i - k)%nat with (c * k + i)%nat by lia.
    apply (IH c i) with (p := p); [|exact E|exact Li]. intros j p' Hj Ej Hlt. apply (H (S j) p'); [lia|exact Ej|lia].
Qed.

Lemma firstn_plus {A} (l : list A) : forall a b, firstn (a + b) l = firstn a l ++ firstn b (skipn a l).
Proof. induction l as [|x l IH]; intros [|a] b; try reflexivity; [rewrite !firstn_nil; reflexivity|]. cbn [firstn skipn app Nat.add]. f_equal. apply IH. Qed.
Lemma concat_chunks {A} k (l : list A) m : concat (map (fun c => firstn k (skipn (c * k) l)) (seq 0 m)) = firstn (m * k) l.
Proof.
  induction m as [|m IH]; [reflexivity|]. rewrite seq_S, map_app, concat_app, IH. cbn [map concat Nat.add]. rewrite app_nil_r.
  replace (S m * k)%nat with (m * k + k)%nat by lia. symmetry. apply firstn_plus.
Qed.
Lemma ceil_ge n k : (1 <= k)%nat -> (n <= (n + k - 1) / k * k)%nat.
Proof. intros L. pose proof (Nat.div_mod (n + k - 1) k ltac:(lia)). pose proof (Nat.mod_upper_bound (n + k - 1) k ltac:(lia)). nia. Qed.
Lemma ceil_le n k m : (1 <= k)%nat -> (n <= m * k)%nat -> ((n + k - 1) / k <= m)%nat.
Proof. intros L H. apply Nat.lt_succ_r, Nat.div_lt_upper_bound; lia. Qed.
Lemma combine_longer {A B} (g : nat -> A) (h : nat -> B) K P : (P <= K)%nat ->
  combine (map g (seq 0 K)) (map h (seq 0 P)) = map (fun c => (g c, h c)) (seq 0 P).
Proof.
  intros H. generalize 0%nat. revert K H. induction P as [|P IH]; intros K H a; [destruct K; reflexivity|].
  destruct K as [|K]; [lia|]. cbn [seq map combine]. f_equal. apply IH. lia.
Qed.
Lemma mapM_map {A B C} (f : A -> B) (g : B -> res C) l : mapM g (map f l) = mapM (fun a => g (f a)) l.
Proof. induction l as [|a l IH]; [reflexivity|]. cbn [map mapM]. rewrite IH. reflexivity. Qed.
Lemma Forall2_seq_nth {B} (P : nat -> B -> Prop) n l : Forall2 P (seq 0 n) l -> length l = n /\ forall c, (c < n)%nat -> exists b, nth_error l c = Some b /\ P c b.
Proof.
  intros H. assert (G : forall a, Forall2 P (seq a n) l -> length l = n /\ forall c, (c < n)%nat -> exists b, nth_error l c = Some b /\ P (a + c)%nat b).
  { clear H. revert l. induction n as [|n IH]; intros l a H; inversion H; subst; [split; [reflexivity|lia]|].
    destruct (IH _ _ H4) as (E & G). split; [cbn; congruence|]. intros [|c] Hc; cbn [nth_error].
    - eexists. split; [reflexivity|]. rewrite Nat.add_0_r. assumption.
    - destruct (G c ltac:(lia)) as (b & Eb & Pb). exists b. split; [exact Eb|]. replace (a + S c)%nat with (S a + c)%nat by lia. exact Pb. }
  apply (G 0%nat H).
Qed.

Section Write.
  Variables (s : series) (ts : list R) (w : nat) (f : fftdata) (v : list R).
  Hypothesis M : made s ts w.
  Hypothesis F : fft_ok s f.
  Hypothesis Ev : length v = w.

  Lemma write_ok {O} (out : list O) (func : nat -> R -> O -> res O) :
    length out = num_subsequences s ->
    (forall i o, nth_error out i = Some o -> exists o', func i (inner v (window ts w i)) o = Ret o') ->
    exists out', sliding_dot_product_write s f v out func = Ret out' /\ length out' = length out /\
      forall i o, nth_error out i = Some o -> exists o', func i (inner v (window ts w i)) o = Ret o' /\ nth_error out' i = Some o'.
  Proof.
    intros Lo Hf. destruct F as (Lw & Ec & K & EK & LK). rewrite (made_w _ _ _ M), (made_data _ _ _ M) in *. pose proof Lo as Lo'. rewrite (made_num _ _ _ M) in Lo.
    destruct M as (_ & L1 & L2). unfold sliding_dot_product_write. rewrite (made_w _ _ _ M). unfold assert_ at 1 2 3. rewrite Ev, Nat.eqb_refl, Lo', Nat.eqb_refl.
    rewrite query_fft_ok by (rewrite (made_w _ _ _ M); lia). rewrite (made_w _ _ _ M). cbn [bind]. set (L := f_length f) in *. rewrite Ec.
    destruct (Nat.ltb_spec 0 (L - w)) as [Ls|]; [|lia]. set (k := (L - w)%nat) in *.
    rewrite EK, map_length, seq_length.
    set (P := ((length out + k - 1) / k)%nat).
    assert (LP : (P <= K)%nat) by (apply ceil_le; lia).
    assert (E1 : combine (seq 0 K) (combine (map (fun c => dft (raw_chunk ts L k c)) (seq 0 K)) (chunks_of k out)) =
                 map (fun c => (c, (dft (raw_chunk ts L k c), firstn k (skipn (c * k) out)))) (seq 0 P)).
    { unfold chunks_of. fold P. rewrite combine_longer by exact LP. rewrite <- (map_id (seq 0 K)). rewrite combine_longer by exact LP. reflexivity. }
    rewrite E1, mapM_map. clear E1.
    destruct (mapM_total (fun c : nat =>
      let '(chunk_idx, (chunk, out)) := (c, (dft (raw_chunk ts L k c), firstn k (skipn (c * k) out))) in
            assert_ (length chunk =? L)%nat
              (let! ivfft := chunk_product f (dft (rev (map RtoC v) ++ repeat (RtoC 0) k)) chunk in
               foreach (seq 0 k)
                 (fun i out =>
                    if (i <? length out)%nat then
                      let! z := get ivfft ((i + w - 1) mod L) in
                      let! o := get out i in
                      let! o := func (i + chunk_idx * k)%nat (Re z / INR L) o in
                      put out i o
                    else Ret out) out))
      (fun c part => length part = length (firstn k (skipn (c * k) out)) /\
         forall i o, nth_error (firstn k (skipn (c * k) out)) i = Some o ->
           exists o', func (i + c * k)%nat (inner v (window ts w (i + c * k))) o = Ret o' /\ nth_error part i = Some o') (seq 0 P)) as (done & E & HF).
    - intros c Hc. apply in_seq in Hc. rewrite dft_length, raw_chunk_length, Nat.eqb_refl. unfold assert_.
      rewrite chunk_product_ok;
        [|rewrite dft_length, app_length, rev_length, map_length, repeat_length; fold L; lia|rewrite dft_length, raw_chunk_length; reflexivity].
      cbn [bind]. fold L.
      assert (Lpart : (length (firstn k (skipn (c * k) out)) <= k /\ length (firstn k (skipn (c * k) out)) <= length out - c * k)%nat).
      { rewrite firstn_length, skipn_length. lia. }
      assert (Hpart : forall i o, nth_error (firstn k (skipn (c * k) out)) i = Some o -> nth_error out (i + c * k) = Some o /\ (i < k)%nat).
      { intros i o Hi. assert (i < length (firstn k (skipn (c * k) out)))%nat by (apply nth_error_Some; congruence). split; [|lia].
        rewrite <- Hi. rewrite (nth_error_nth' _ o), (nth_error_nth' _ o) by lia. rewrite nth_first, nth_skip by lia. do 2 f_equal. lia. }
      destruct (write_loop (fun i o => func (i + c * k)%nat (inner v (window ts w (i + c * k))) o) k (firstn k (skipn (c * k) out))) as (part & Ep & Lp & Hp).
      + lia.
      + intros i o Hi. apply Hf. apply Hpart. exact Hi.
      + exists part. split; [|split; assumption]. rewrite <- Ep.
        assert (G : forall l, (forall i, In i l -> (i < k)%nat) -> forall cur, length cur = length (firstn k (skipn (c * k) out)) ->
          foreach l (fun i out0 => if (i <? length out0)%nat then
                      let! z := get (idft (map (fun k0 => Cmult (nth k0 (dft (rev (map RtoC v) ++ repeat (RtoC 0) k)) (RtoC 0)) (nth k0 (dft (raw_chunk ts L k c)) (RtoC 0))) (seq 0 L))) ((i + w - 1) mod L) in
                      let! o := get out0 i in
                      let! o := func (i + c * k)%nat (Re z / INR L) o in
                      put out0 i o
                    else Ret out0) cur =
          foreach l (fun i out0 => if (i <? length out0)%nat then let! o := get out0 i in let! o := func (i + c * k)%nat (inner v (window ts w (i + c * k))) o in put out0 i o else Ret out0) cur).
        { induction l as [|i l IH]; intros Hl cur Lc; [reflexivity|]. cbn [foreach]. destruct (Nat.ltb_spec i (length cur)) as [Hi|]; cbn [bind]; [|apply IH; [intros; apply Hl; right; auto|exact Lc]].
          destruct (chunk_value ts w L k c i v ltac:(lia) Ev ltac:(lia) ltac:(lia)) as (z & Ez & Er). fold k in Ez. rewrite Ez. cbn [bind]. rewrite Er.
          destruct (get cur i) as [o| |]; cbn [bind]; try reflexivity. destruct (func _ _ o) as [o'| |]; cbn [bind]; try reflexivity.
          destruct (put_ok cur i o' Hi) as (cur' & Eput & Lput & _). rewrite Eput. cbn [bind]. apply IH; [intros; apply Hl; right; auto|congruence]. }
        apply G; [|reflexivity]. intros i Hi. apply in_seq in Hi. lia.
    - cbv beta in E. rewrite E. cbn [bind]. destruct (Forall2_seq_nth _ _ _ HF) as (Ld & Hd).
      assert (Ls2 : skipn (length done) (chunks_of k out) = []) by (apply skipn_all2; rewrite chunks_of_length; fold P; lia).
      rewrite Ls2. cbn [concat]. rewrite app_nil_r. exists (concat done). split; [reflexivity|].
      assert (Lall : forall c p, nth_error done c = Some p -> length p = length (firstn k (skipn (c * k) out))).
      { intros c p Ecp. assert (c < P)%nat by (rewrite <- Ld; apply nth_error_Some; congruence). destruct (Hd c ltac:(lia)) as (b & Eb & Lb & _). congruence. }
      split.
      + assert (G : concat (chunks_of k out) = out).
        { unfold chunks_of. rewrite concat_chunks. apply firstn_all2. apply ceil_ge. lia. }
        transitivity (length (concat (chunks_of k out))); [|rewrite G; congruence]. assert (LL : length (chunks_of k out) = length done) by (rewrite chunks_of_length; fold P; lia).
        assert (HH : forall c a b, nth_error (chunks_of k out) c = Some a -> nth_error done c = Some b -> length b = length a).
        { intros c a b Ea Eb. rewrite (Lall c b Eb). unfold chunks_of in Ea. rewrite nth_error_map in Ea. destruct (nth_error (seq _ _) c) as [c'|] eqn:Ec'; [|discriminate].
          injection Ea as <-. assert (Hc : (c < P)%nat) by (rewrite <- Ld; apply nth_error_Some; congruence).
          rewrite (nth_error_nth' _ 0%nat), seq_nth in Ec' by (rewrite ?seq_length; exact Hc). injection Ec' as <-. reflexivity. }
        clear -LL HH. revert LL HH. generalize (chunks_of k out). induction done as [|b done IH]; intros [|a l] LL HH; try discriminate; [reflexivity|].
        cbn [concat]. rewrite !app_length. f_equal; [apply (HH 0%nat); reflexivity|]. apply IH; [cbn in LL; lia|]. intros c x y Ex Ey. apply (HH (S c)); assumption.
      + intros j o Ej. assert (Lj : (j < length out)%nat) by (apply nth_error_Some; congruence).
        set (c := (j / k)%nat). set (i := (j mod k)%nat). assert (Eji : (j = c * k + i)%nat) by (unfold c, i; rewrite (Nat.div_mod j k) at 1 by lia; lia).
        assert (Hik : (i < k)%nat) by (apply Nat.mod_upper_bound; lia).
        assert (Hc : (c < P)%nat) by (apply (Nat.div_le_lower_bound _ k (S c)); lia).
        destruct (Hd c Hc) as (p & Ep & Lp & Hp). rewrite firstn_length, skipn_length in Lp.
        destruct (Hp i o) as (o' & Eo & En).
        { rewrite (nth_error_nth' _ o) by (rewrite firstn_length, skipn_length; lia). rewrite nth_first, nth_skip by exact Hik.
          rewrite <- Eji. rewrite (nth_error_nth' _ o) in Ej by lia. exact Ej. }
        exists o'. rewrite Eji at 1 2. rewrite (Nat.add_comm (c * k)). split; [exact Eo|].
        rewrite Eji. rewrite (concat_nth k done c i) with (p := p); [exact En| |exact Ep|lia].
        intros c' p' _ Ep' Hlt. rewrite (Lall c' p' Ep'), firstn_length, skipn_length. nia.
  Qed.
End Write.

(** ** z-normalised dot products and distance profiles *)
Lemma foreach_ext_inv {A T} (I : T -> Prop) (b b' : A -> T -> res T) l :
  (forall a t, In a l -> I t -> b a t = b' a t) -> (forall a t t', In a l -> I t -> b' a t = Ret t' -> I t') ->
  forall t, I t -> foreach l b t = foreach l b' t.
Proof.
  induction l as [|a l IH]; intros H1 H2 t Ht; [reflexivity|]. cbn [foreach]. rewrite (H1 a t) by (auto; left; reflexivity).
  destruct (b' a t) as [t'| |] eqn:E; cbn [bind]; try reflexivity. apply IH; [intros; apply H1; auto; right; assumption|intros a0 t0 t1 Ha; apply H2; right; assumption|].
  apply (H2 a t t'); auto. left. reflexivity.
Qed.
Lemma put_length {A} (l l' : list A) i x : put l i x = Ret l' -> length l' = length l.
Proof.
  intros E. destruct (Nat.lt_ge_cases i (length l)) as [H|H].
  - destruct (put_ok l i x H) as (l2 & E2 & L2 & _). rewrite E in E2. apply Ret_inj in E2. congruence.
  - exfalso. unfold put in E. assert (set_nth l i x = None); [|rewrite H0 in E; discriminate]. clear E. revert i H. induction l as [|y l IH]; intros [|i] H; cbn in *; try reflexivity; try lia.
    rewrite IH by lia. reflexivity.
Qed.
(** a loop over all entries of a list *)
Lemma update_loop {O} (b : nat -> list O -> res (list O)) (g : nat -> O -> res O) (h : nat -> O) (out : list O) :
  (forall i cur o, (i < length out)%nat -> length cur = length out -> nth_error cur i = Some o -> b i cur = let! o := g i o in put cur i o) ->
  (forall i o, nth_error out i = Some o -> g i o = Ret (h i)) ->
  foreach (seq 0 (length out)) b out = Ret (map h (seq 0 (length out))).
Proof.
  intros Hb Hg.
  rewrite (foreach_ext_inv (fun cur => length cur = length out) b (fun i cur => if (i <? length cur)%nat then let! o := get cur i in let! o := g i o in put cur i o else Ret cur)).
  - destruct (write_loop g (length out) out) as (out' & E & L & H); [lia|intros i o Eo; exists (h i); auto|]. rewrite E. f_equal.
    apply nth_error_ext. intros i. destruct (Nat.lt_ge_cases i (length out)) as [Li|Li].
    + destruct (nth_error out i) as [o|] eqn:Eo; [|apply nth_error_None in Eo; lia]. destruct (H i o Eo) as (o' & Eg & En).
      rewrite (Hg i o Eo) in Eg. apply Ret_inj in Eg. subst o'. rewrite En, nth_error_map, (nth_error_nth' _ 0%nat), seq_nth by (rewrite ?seq_length; lia). reflexivity.
    + rewrite (proj2 (nth_error_None _ _)) by lia. symmetry. apply nth_error_None. rewrite map_length, seq_length. lia.
  - intros i cur Hi Lc. apply in_seq in Hi. destruct (Nat.ltb_spec i (length cur)); [|lia]. destruct (nth_error cur i) as [o|] eqn:Eo; [|apply nth_error_None in Eo; lia].
    rewrite (get_some _ _ _ Eo). cbn [bind]. apply Hb; [lia|exact Lc|exact Eo].
  - intros i cur cur' Hi Lc. cbv beta. destruct (i <? length cur)%nat; [|intros E; apply Ret_inj in E; congruence].
    destruct (get cur i); cbn [bind]; try discriminate. destruct (g i a); cbn [bind]; try discriminate. intros E. rewrite <- Lc. apply (put_length _ _ _ _ E).
  - reflexivity.
Qed.

Lemma inner_znorm v x : length v = length x -> 0 < sd_of x -> inner v (znorm x) = inner v x / sd_of x - total v * mean_of x / sd_of x.
Proof.
  intros E H. rewrite (inner_seq v (znorm x) (length v)) by (rewrite ?znorm_length; auto). rewrite (inner_seq v x (length v)) by auto.
  rewrite (total_ext _ (fun i => (nth i v 0 * nth i x 0) * / sd_of x - nth i v 0 * (mean_of x / sd_of x))).
  - rewrite total_minus, !total_scale_r, map_seq_nth. unfold Rdiv. ring.
  - intros i Hi. apply in_seq in Hi. unfold znorm. rewrite (nth_map _ x i 0 0) by lia. unfold Rdiv. ring.
Qed.

Section Profile.
  Variables (s : series) (ts : list R) (w : nat) (f : fftdata).
  Hypothesis M : made s ts w.
  Hypothesis F : fft_ok s f.

  Definition zvalue (v : list R) (i : nat) : option R :=
    if Rlt_dec (sd_of (window ts w i)) flat_sd_threshold then None else Some (inner v (znorm (window ts w i))).
  Lemma zvalue_ok v i : length v = w -> (i < num_subsequences s)%nat -> znormalized_value s (rsum v) i (inner v (window ts w i)) = Ret (zvalue v i).
  Proof.
    intros Ev Hi. unfold znormalized_value, zvalue. rewrite (made_sd _ _ _ M i Hi). cbn [bind]. destruct (Rlt_dec _ _) as [|N]; [reflexivity|].
    rewrite (made_mean _ _ _ M i Hi). cbn [bind]. unfold flat_sd_threshold in N. assert (H : 0 < sd_of (window ts w i)) by lra.
    rewrite (proj2 (gtb_true _ _) H). unfold assert_. rewrite inner_znorm, rsum_total by (auto; rewrite (made_len _ _ _ M i Hi); exact Ev). reflexivity.
  Qed.
  Lemma zfor_each_ok {T} v (action : nat -> option R -> T -> res T) st : length v = w ->
    znormalized_sliding_dot_product_for_each s f v action st = foreach (seq 0 (num_subsequences s)) (fun i st => action i (zvalue v i) st) st.
  Proof.
    intros Ev. unfold znormalized_sliding_dot_product_for_each. rewrite (for_each_ok s ts w f v M F Ev). apply foreach_ext. intros i Hi st'. apply in_seq in Hi.
    rewrite zvalue_ok by (auto; lia). reflexivity.
  Qed.
  Lemma zwrite_ok {O} v (out : list O) (func : nat -> option R -> O -> res O) : length v = w -> length out = num_subsequences s ->
    (forall i o, nth_error out i = Some o -> exists o', func i (zvalue v i) o = Ret o') ->
    exists out', znormalized_sliding_dot_product_write s f v out func = Ret out' /\ length out' = length out /\
      forall i o, nth_error out i = Some o -> exists o', func i (zvalue v i) o = Ret o' /\ nth_error out' i = Some o'.
  Proof.
    intros Ev Lo Hf. unfold znormalized_sliding_dot_product_write.
    assert (G : forall i o, nth_error out i = Some o -> (let! y := znormalized_value s (rsum v) i (inner v (window ts w i)) in func i y o) = func i (zvalue v i) o).
    { intros i o Eo. rewrite zvalue_ok; [reflexivity|exact Ev|]. rewrite <- Lo. apply nth_error_Some. congruence. }
    destruct (write_ok s ts w f v M F Ev out (fun i x o => let! y := znormalized_value s (rsum v) i x in func i y o) Lo) as (out' & E & L & H).
    - intros i o Eo. rewrite (G i o Eo). apply Hf. exact Eo.
    - exists out'. split; [exact E|]. split; [exact L|]. intros i o Eo. destruct (H i o Eo) as (o' & E1 & E2). exists o'. rewrite (G i o Eo) in E1. auto.
  Qed.
  Lemma profile_ok from out : (from < num_subsequences s)%nat -> is_flat s from = Ret false -> length out = num_subsequences s ->
    distance_profile s f from out =
    Ret (map (fun i => if (i =? from)%nat then Some 0
                       else if Rle_dec (sd_of (window ts w i)) flat_sd_threshold then None
                       else Some (zdistance (window ts w from) (window ts w i))) (seq 0 (num_subsequences s))).
  Proof.
    intros Lf Ff Lo. unfold distance_profile, assert_ at 1. rewrite Lo, Nat.eqb_refl. rewrite (made_znorm _ _ _ M from Lf). cbn [bind].
    set (v := znorm (window ts w from)). assert (Ev : length v = w) by (unfold v; rewrite znorm_length; apply (made_len _ _ _ M from Lf)).
    unfold znormalized_sliding_dot_product. rewrite zfor_each_ok by exact Ev. rewrite <- Lo.
    rewrite (update_loop _ (fun i _ => Ret (zvalue v i)) (zvalue v)) by reflexivity. cbn [bind].
    set (out1 := map (zvalue v) (seq 0 (length out))). assert (L1 : length out1 = length out) by (unfold out1; rewrite map_length, seq_length; reflexivity).
    rewrite <- L1. apply (update_loop _ (fun i o => if (i =? from)%nat then Ret (Some 0) else let! flat := is_flat s i in if flat then Ret None else
       match o with None => Panic | Some x => let d := 2 * INR (s_w s) - 2 * x in assert_ (if Rle_dec 0 d then true else false) (Ret (Some (sqrt d))) end)).
    - intros i cur o Li Lc Eo. destruct (i =? from)%nat; [reflexivity|]. destruct (is_flat s i) as [[|]| |]; cbn [bind]; try reflexivity.
      rewrite (get_some _ _ _ Eo). cbn [bind]. destruct o as [x|]; [|reflexivity]. cbv zeta. unfold assert_. destruct (Rle_dec _ _); reflexivity.
    - intros i o Eo. destruct (Nat.eqb_spec i from) as [|N]; [reflexivity|].
      assert (Hi : (i < num_subsequences s)%nat) by (rewrite <- Lo, <- L1; apply nth_error_Some; congruence).
      unfold is_flat. rewrite (made_sd _ _ _ M i Hi). cbn [bind]. destruct (Rle_dec (sd_of (window ts w i)) flat_sd_threshold) as [|Nf]; [reflexivity|].
      unfold out1 in Eo. rewrite nth_error_map, (nth_error_nth' _ 0%nat), seq_nth in Eo by (rewrite ?seq_length; lia). cbn [option_map Nat.add] in Eo. injection Eo as <-.
      unfold zvalue. destruct (Rlt_dec _ _); [lra|]. cbv zeta.
      assert (H1 : 0 < sd_of (window ts w i)) by (unfold flat_sd_threshold in Nf; lra).
      assert (H0 : 0 < sd_of (window ts w from)).
      { unfold is_flat in Ff. rewrite (made_sd _ _ _ M from Lf) in Ff. cbn [bind] in Ff. apply Ret_inj in Ff. unfold flat_sd_threshold in Ff. destruct (Rle_dec _ _); [discriminate|lra]. }
      assert (EL : length (window ts w from) = length (window ts w i)) by (rewrite !(made_len _ _ _ M) by assumption; reflexivity).
      rewrite (made_w _ _ _ M), zdistance_inner by assumption. pose proof (zinner_le _ _ EL H0 H1) as B. rewrite (made_len _ _ _ M from Lf) in *.
      fold v in B |- *. destruct (Rle_dec 0 (2 * INR w - 2 * inner v (znorm (window ts w i)))) as [|C]; [reflexivity|lra].
  Qed.
End Profile.
