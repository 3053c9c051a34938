(** Counting, independently of how it is done. *)
From Coq Require Import Floats.SpecFloat.
From Verif Require Import Base F64 EnumSpec.

(** [P] holds of exactly [k] pairs of table positions *)
Definition card (P : nat -> nat -> Prop) (k : nat) : Prop :=
  exists L : list (nat * nat), NoDup L /\ (forall x y, In (x, y) L <-> P x y) /\ length L = k.

(** the [f64] nearest to 1000 *)
Definition one_thousand : f64 := binary_normalize 53 1024 1000 0 false.
