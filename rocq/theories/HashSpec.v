(** Bytes of a 64-bit word, most significant first, by division. *)
From Verif Require Import Base.
Local Open Scope N_scope.

Definition is_u64 (h : N) : Prop := h < 2 ^ 64.
Definition is_u32 (h : N) : Prop := h < 2 ^ 32.
Definition is_u8 (h : N) : Prop := h < 256.

(** byte number [k] (0 = most significant .. 7) *)
Definition byte_at (h : N) (k : nat) : N := (h / 256 ^ N.of_nat (7 - k)) mod 256.

(** two words agree on their first [p] bytes *)
Definition agree (p : nat) (a b : N) : Prop := forall k, (k < p)%nat -> byte_at a k = byte_at b k.

(** a table is sorted by hash value *)
Definition hash_sorted {A} (l : list (N * A)) : Prop :=
  forall i j x y, (i <= j)%nat -> nth_error l i = Some x -> nth_error l j = Some y -> fst x <= fst y.
