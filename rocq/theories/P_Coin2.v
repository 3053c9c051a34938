(** Property theorem C133 for the whole search in floating point of C127.  Model: Coin.v,
    FloatRun.v. *)
From Coq Require Import Reals Lra Lia Floats.SpecFloat.
From Flocq Require Import Core BinarySingleNaN.
From Verif Require Import Base F64 RSpec HashValue OverlapsSpec Moves Profile Iterator IteratorSpec P_Iterator P_Iterator2 FpOps FloatSeries FloatSpec FloatProofs FloatBound FloatDist FloatErr
  P_Float P_Float2 P_Acc P_Acc2 AccSpec P_Acc3 FloatErf FloatErfSpec P_Coll64 FloatHash P_Acc4 P_Acc5 P_Width64 FloatRun P_Run64 Coin CoinProofs P_Coin P_Hashing.
Local Open Scope R_scope.

(** Nothing aborts, the coin included, as long as no computed distance between two windows is
    above 2^20 widths. *)
Theorem c133_whole_partial :
  forall (z : zeros) (ts : list f64) (w : nat) (precise : bool) (s : fseries) (sdp : list f64 -> nat -> f64) (fexp : f64 -> f64)
         (arrange : nat -> nat -> list (N * N) -> list (N * N)) (hs : nat -> fhasher) (rest : problem) (width : f64) (gap : R)
         (a b : nat) (d : f64) (s0 : iter) (cbs : list (nat -> bool)) (fuel : nat),
    whole_search z ts w precise s arrange hs rest -> measured rest -> sampled s ts w (p_ez rest) gap a b d ->
    exp_within fexp -> fexp (S754_zero true) = lit (QArith_base.Qmake 1 1) -> FloatErfSpec.moderate width -> (forall r, fh_width (hs r) = width) ->
    workable width d ->
    (forall i j x, (i < length ts - w)%nat -> (j < length ts - w)%nat -> lively s i -> lively s j -> fzeucl z s i j = Ret x -> workable width x) ->
    iter_new (fsearch z s sdp fexp arrange hs rest) a b d = Ret s0 ->
    session_coin (fcollision_probability fexp (fh_width (hs 0%nat))) (fsearch z s sdp fexp arrange hs rest) a b d cbs fuel =
      session (fsearch z s sdp fexp arrange hs rest) a b d cbs fuel /\
    session_coin (fcollision_probability fexp (fh_width (hs 0%nat))) (fsearch z s sdp fexp arrange hs rest) a b d cbs fuel <> Panic.
Proof.
  intros z ts w precise s sdp fexp arrange hs rest width gap a b d s0 cbs fuel Ws Me Sa X E0 Mw Hw Wd Wx Ei. rewrite Hw.
  destruct (c127_search z ts w precise s sdp fexp arrange hs rest Ws) as (Sd & So).
  assert (E : session_coin (fcollision_probability fexp width) (fsearch z s sdp fexp arrange hs rest) a b d cbs fuel = session (fsearch z s sdp fexp arrange hs rest) a b d cbs fuel).
  { pose proof Sa as (La & Lb & Na & Fa & Fb & Vd & Gd). pose proof Ws as [Mo U E Ln L32 Of Hh Sr Co]. pose proof (so_n _ _ _ _ _ So) as Hn.
    apply c133_search_partial; try assumption.
    - split; [rewrite Hn; exact La|]. split; [rewrite Hn; exact Lb|]. split; [exact Na|]. apply number_not_nan, Vd.
    - intros e [->|(i & j & Ii & Ij & ->)]; [exact Wd|]. rewrite (so_zeucl _ _ _ _ _ So). pose proof (proj1 Ii) as Li. pose proof (proj1 Ij) as Lj. rewrite Hn in Li, Lj.
      pose proof (so_lively _ _ _ _ _ So i Ii) as Vi. pose proof (so_lively _ _ _ _ _ So j Ij) as Vj.
      destruct (c95_distances z ts w precise s i j Mo U E Li Lj Vi Vj) as ((x & Ex & _) & _). rewrite Ex. apply (Wx i j x Li Lj Vi Vj Ex). }
  split; [exact E|]. rewrite E. apply (c127_no_abort_partial z ts w precise s sdp fexp arrange hs rest gap a b d s0 cbs fuel Ws Me Sa Ei).
Qed.
Print Assumptions c133_whole_partial.

(** the search of C127 *)
Example c133_whole_case : exists s0,
  whole_search z_ex zigzag_data 2 true zigzag_series (fun _ _ => by_hash) zigzag_hs zigzag_search /\ measured zigzag_search /\
  sampled zigzag_series zigzag_data 2 (p_ez zigzag_search) 0 1 3 f_zero /\ exp_within best_exp /\ best_exp (S754_zero true) = lit (QArith_base.Qmake 1 1) /\ FloatErfSpec.moderate three_quarters /\
  (forall r, fh_width (zigzag_hs r) = three_quarters) /\ workable three_quarters f_zero /\
  (forall i j x, (i < length zigzag_data - 2)%nat -> (j < length zigzag_data - 2)%nat -> lively zigzag_series i -> lively zigzag_series j -> fzeucl z_ex zigzag_series i j = Ret x -> workable three_quarters x) /\
  iter_new (zigzag_whole best_exp) 1 3 f_zero = Ret s0.
Proof.
  destruct c127_no_abort_case as (s0 & A & B & C & D). exists s0. split; [exact A|]. split; [exact B|]. split; [exact C|]. split; [apply best_exp_within|]. split; [exact best_zero|].
  destruct c127_confirmed_case as (_ & _ & _ & Hw & _ & _ & Mw & _ & D0 & L0 & _). split; [exact Mw|]. split; [exact Hw|]. split; [right; split; [exact D0|exact L0]|]. split; [|exact D].
  assert (Far : forall x, x = S754_zero false \/ x = S754_finite false 6369051672525773 (-51) -> workable three_quarters x).
  { intros x Hx. right. rewrite width_val, pow2_bp. change (bp 20) with 1048576. destruct Hx as [->| ->].
    - split; [left; reflexivity|change (fval (S754_zero false)) with 0; lra].
    - assert (V : 1 <= fval (S754_finite false 6369051672525773 (-51)) <= 8) by (unfold fval, SF2R, F2R; cbn [SpecFloat.cond_Zopp Fnum Fexp]; change (bpow radix2 (-51)) with (/ 2251799813685248); lra).
      split; [right; apply moderate_small; [split; reflexivity|exact V]|lra]. }
  intros i j x Li Lj _ _ E. apply Far. change (length zigzag_data - 2)%nat with 4%nat in Li, Lj.
  do 4 (destruct i as [|i]; [do 4 (destruct j as [|j]; [vm_compute in E; injection E as <-; auto|]); lia|]). lia.
Qed.
