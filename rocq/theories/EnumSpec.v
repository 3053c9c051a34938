(** What a collision is, independently of how they are enumerated. *)
From Verif Require Import Base HashSpec OverlapsSpec.

(** A repetition: the column of hash values and the column of indices. *)
Definition table_ok (hashes indices : list N) : Prop :=
  length hashes = length indices /\
  (forall h, In h hashes -> is_u64 h) /\
  (forall i j a b, i <= j -> nth_error hashes i = Some a -> nth_error hashes j = Some b -> (a <= b)%N).

(** Positions [x < y] of the table collide at prefix [p]. *)
Definition collide (hashes : list N) (p x y : nat) : Prop :=
  x < y /\ exists hx hy, nth_error hashes x = Some hx /\ nth_error hashes y = Some hy /\ agree p hx hy.

(** The windows at positions [x], [y] of the table are trivial matches. *)
Definition trivial (indices : list N) (ez x y : nat) : Prop :=
  exists a b, nth_error indices x = Some a /\ nth_error indices y = Some b /\
    too_close ez (N.to_nat a) (N.to_nat b).

(** Position [x] falls in the bucket of the largest hash value of the table. *)
Definition in_last_bucket (hashes : list N) (p x : nat) : Prop :=
  exists hx hl, nth_error hashes x = Some hx /\ nth_error hashes (length hashes - 1) = Some hl /\ agree p hx hl.

(** Collision at the previous prefix, when there is one and it is to be checked. *)
Definition seen_before (hashes : list N) (prev : option nat) (check : bool) (x y : nat) : Prop :=
  check = true /\ exists pp, prev = Some pp /\ collide hashes pp x y.

(** The reported form of a pair of positions: the two indices in increasing order. *)
Definition report_of (indices : list N) (xy : nat * nat) (ab : N * N) : Prop :=
  exists a b, nth_error indices (fst xy) = Some a /\ nth_error indices (snd xy) = Some b /\
    ((fst ab <= snd ab)%N /\ (ab = (a, b) \/ ab = (b, a))).
