(** The overlap tests with checked or wrapping machine arithmetic
    (src/timeseries.rs 21-33, src/motifs.rs 72-82). *)
From Verif Require Import Base Overlaps.
Local Open Scope Z_scope.

(** the result [x] of an operation on [isize]: in a debug build ([checks]) it aborts when it
    does not fit, in a release build it wraps around *)
Definition isize_result (checks : bool) (x : Z) : res Z :=
  if checks && negb ((- 2 ^ 63 <=? x) && (x <? 2 ^ 63)) then Panic else Ret (as_isize x).
(** the same for an addition on [usize] *)
Definition usize_add (checks : bool) (a b : Z) : res Z :=
  if checks && (2 ^ 64 <=? a + b) then Panic else Ret ((a + b) mod 2 ^ 64).

(** timeseries.rs 21-26 and 28-33 *)
Definition overlaps_build (checks : bool) (a b ez : Z) : res bool :=
  let! d := isize_result checks (as_isize a - as_isize b) in
  let! ad := isize_result checks (Z.abs d) in
  let! r := isize_result checks (ad - as_isize ez) in
  Ret (r <? 0).

(** [idxs.sort_unstable()], motifs.rs 76, on words: equal words cannot be told apart *)
Fixpoint insert_word (x : Z) (l : list Z) : list Z :=
  match l with
  | [] => [x]
  | y :: t => if x <=? y then x :: l else y :: insert_word x t
  end.
Definition sort_words (l : list Z) : list Z := fold_right insert_word [] l.
(** motifs.rs 72-82; [||] does not evaluate its right side when the left one is true *)
Definition motif_overlaps_build (checks : bool) (a1 b1 a2 b2 ez : Z) : res bool :=
  match sort_words [a1; b1; a2; b2] with
  | [i0; i1; i2; i3] =>
      let! x := usize_add checks i0 ez in
      if i1 <? x then Ret true else
      let! x := usize_add checks i1 ez in
      if i2 <? x then Ret true else
      let! x := usize_add checks i2 ez in
      Ret (i3 <? x)
  | _ => Panic
  end.
