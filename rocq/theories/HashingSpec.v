(** What the hash values of the windows of a series are meant to be. *)
From Coq Require Import Reals.
From Verif Require Import Base RSpec HashSpec SortSpec HashValue Hashing.

(** [projection hs ts w k i]: the projection of the z-normalised window [i] on the vector [k] *)
Definition projection (hs : hasher) (ts : list R) (w k i : nat) : R :=
  inner (nth k (h_vectors hs) []) (znorm (window ts w i)).
(** the number of buckets, of the quantisation width each, it is away from 0 *)
Definition bucket_of (hs : hasher) (ts : list R) (w k i : nat) : R :=
  ((projection hs ts w k i + nth k (h_shifts hs) 0) / h_width hs)%R.
(** [byte_of z b]: the byte of a projection that is [z] buckets away from 0.  Beyond 128
    buckets it is that of bucket 127, or -127; otherwise it is the whole number of buckets,
    counted from 0, and negative ones are stored as in two's complement. *)
Definition byte_of (z : R) (b : N) : Prop :=
  ((128 < z)%R -> b = 127%N) /\
  ((z < -128)%R -> b = 129%N) /\
  (forall m : Z, (0 <= z <= 128)%R -> (IZR m <= z < IZR m + 1)%R -> Z.of_N b = m) /\
  (forall m : Z, (-128 <= z < 0)%R -> (IZR m - 1 < z <= IZR m)%R -> Z.of_N b = (m mod 256)%Z).
(** windows the index leaves out *)
Definition left_out (ts : list R) (w i : nat) : Prop := (sd_of (window ts w i) < / 10000)%R.

(** eight vectors as long as the windows, eight shifts, and a positive width *)
Definition hasher_ok (hs : hasher) (w : nat) : Prop :=
  length (h_vectors hs) = 8%nat /\ (forall v, In v (h_vectors hs) -> length v = w) /\
  length (h_shifts hs) = 8%nat /\ (0 < h_width hs)%R.

(** [row_of hs ts w max_k i (h, id)]: the entry for window [i].  A window left out has the
    two largest values.  For the others each byte is the one of the projection, as long as
    there are hash functions, and the identifier is the window. *)
Definition row_of (hs : hasher) (ts : list R) (w max_k i : nat) (row : N * N) : Prop :=
  let '(h, id) := row in
  (left_out ts w i -> h = u64_max /\ id = u32_max) /\
  (~ left_out ts w i ->
     is_u64 h /\ id = (N.of_nat i mod 2 ^ 32)%N /\
     (forall k, (k < max_k)%nat -> byte_of (bucket_of hs ts w k i) (byte_at h k)) /\
     (forall k, (max_k <= k)%nat -> (k < 8)%nat -> byte_at h k = 0%N)).

(** a sort by hash value: the same pairs, in some order that is sorted *)
Definition sorts (arrange : list (N * N) -> list (N * N)) : Prop :=
  forall l, Permutation l (arrange l) /\ sorted_by_hash (arrange l).

(** sorting numbers, infinity ([None]) last *)
Definition number_le (a b : option R) : Prop :=
  match a, b with Some x, Some y => (x <= y)%R | _, None => True | None, Some _ => False end.
Definition sorts_numbers (arrange : list (option R) -> list (option R)) : Prop :=
  forall l, Permutation l (arrange l) /\
    forall i j x y, (i <= j)%nat -> nth_error (arrange l) i = Some x -> nth_error (arrange l) j = Some y -> number_le x y.
