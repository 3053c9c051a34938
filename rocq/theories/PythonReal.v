(** Values of the windows of a result: pyattimo/src/lib.rs 79-88, 163-181. *)
From Coq Require Import Reals.
From Verif Require Import Base Series.

(** lib.rs 79-81 *)
Definition values (s : series) (indices : list nat) (i : nat) : res (list R) :=
  let! p := get indices i in subsequence s p.
(** lib.rs 83-87 *)
Definition zvalues (s : series) (indices : list nat) (i : nat) : res (list R) :=
  let! p := get indices i in znormalized s p.
