(** Overlap tests: src/timeseries.rs 13-76, src/motifs.rs 66-82,
    src/motiflets.rs 172-194. *)
From Verif Require Import Base.

(** ** Machine words *)

(** [x as isize] for a 64-bit word: two's complement reinterpretation. *)
Definition as_isize (x : Z) : Z :=
  let m := (x mod 2 ^ 64)%Z in if (m <? 2 ^ 63)%Z then m else (m - 2 ^ 64)%Z.

(** timeseries.rs 21-26 (usize) and 28-33 (u32, zero-extended by the cast):
    [((self as isize - other as isize).abs() - exclusion_zone as isize) < 0isize].
    The crate is meant to be run in release mode (motiflets.rs 93-94), where
    subtraction and [abs] wrap around; [as_isize] applied to each result is that
    wrap-around. *)
Definition overlaps_word (a b ez : Z) : bool :=
  let d := as_isize (as_isize a - as_isize b) in
  let ad := as_isize (Z.abs d) in
  (as_isize (ad - as_isize ez) <? 0)%Z.

(** The same test on unbounded positions; used by the rest of the model, where
    positions are [nat] or [N].  [OverlapsProofs.overlaps_word_nat] shows that it
    agrees with [overlaps_word] whenever everything fits in an [isize]. *)
Definition overlaps (a b ez : nat) : bool :=
  (Z.abs (Z.of_nat a - Z.of_nat b) - Z.of_nat ez <? 0)%Z.

(** timeseries.rs 16-18 ([overlaps_iter]) and 45-52 (slices):
    [others.any(|o| self.overlaps(o, ez))]. *)
Definition overlaps_any (a : nat) (others : list nat) (ez : nat) : bool :=
  existsb (fun o => overlaps a o ez) others.

(** motiflets.rs 172-194: for each index of [self], does it overlap any index of
    [other]?  A motiflet is represented by its index list here. *)
Definition overlaps_lists (xs ys : list nat) (ez : nat) : bool :=
  existsb (fun i => overlaps_any i ys ez) xs.

(** [idxs.sort_unstable()] on the four indices of motifs.rs 75-76. *)
Fixpoint insert_nat (x : nat) (l : list nat) : list nat :=
  match l with
  | [] => [x]
  | y :: t => if x <=? y then x :: l else y :: insert_nat x t
  end.
Definition sort_nat (l : list nat) : list nat := fold_right insert_nat [] l.

(** motifs.rs 72-82.  [usize] additions are not wrapped: indices and exclusion
    zones whose sum exceeds [usize::MAX] are not modelled. *)
Definition motif_overlaps (a1 b1 a2 b2 ez : nat) : bool :=
  match sort_nat [a1; b1; a2; b2] with
  | [i0; i1; i2; i3] => (i1 <? i0 + ez) || (i2 <? i1 + ez) || (i3 <? i2 + ez)
  | _ => false
  end.

(** timeseries.rs 56-76 [overlap_count], [overlap_count_iter], for motiflets. *)
Definition overlap_count (x : list nat) (others : list (list nat)) (ez : nat) : nat :=
  length (filter (fun o => overlaps_lists x o ez) others).
