(** What the statistics of the neighbour graph are meant to say. *)
From Verif Require Import Base F64 Graph GraphSpec.

(** the program works in rounds: reset, insert the pairs found, read *)
Definition round (k : nat) (pairs : list (f64 * nat * nat)) : list g_op :=
  GReset :: map (fun p => GInsert (fst (fst p)) (snd (fst p)) (snd p)) pairs ++ [GRead k].
Definition rounds (k : nat) (l : list (list (f64 * nat * nat))) : list g_op := concat (map (round k) l).

(** the different neighbours given for a node *)
Definition degree (ops : list g_op) (i : nat) : nat := length (nodup Nat.eq_dec (map snd (edges ops i))).
(** no two neighbours of a node are at the same distance *)
Definition no_ties (ops : list g_op) : Prop :=
  forall i d j j', In (d, j) (edges ops i) -> In (d, j') (edges ops i) -> j = j'.
