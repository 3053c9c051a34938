(** When a search without a limit on collisions ends. *)
From Verif Require Import Base F64 HashValue Iterator IteratorSpec GuaranteeSpec.

(** Whatever two windows, the prefix and the repetitions gone through at the previous one,
    enough repetitions bring the failure probability at their distance, and at the distance
    [d] of the sampled pair, below the one asked for.  P_End2.v proves it of the exact
    formula, P_Powi.v of the computed one if no distance is too large. *)
Definition fades (p : problem) (d : f64) : Prop :=
  forall e q prev m, e = d \/ (exists i j, i < p_n p /\ j < p_n p /\ e = p_zeucl p i j) -> is_finite e = true -> 1 <= q <= K ->
    exists R, forall r, R <= r -> flt (p_failure p e r q prev m) (p_delta p) = true.

(** At every prefix there is a repetition where the windows [u], [v] meet, however many
    columns its table has. *)
Definition meet_again (p : problem) (u v : nat) : Prop :=
  forall q, 1 <= q <= K -> exists r, forall k, q <= k <= K -> meet [p_table p r k] (p_ez p) q 0 u v.
