(** Brute-force searches: src/knn.rs 70-94, src/motiflets.rs 24-150, src/motifs.rs 84-152,
    src/timeseries.rs 523-599.

    What a series contributes to these functions is the number of windows, which
    windows are flat, the values [sqrt(2w - 2 dot)] computed by the sliding dot
    product, and the values of [zeucl]; all of these are arbitrary here.  The two
    ways of computing a distance are kept apart because in floating point they
    need not agree. *)
From Verif Require Import Base F64 Overlaps.

Record series := Series {
  s_n : nat;                      (* num_subsequences *)
  s_flat : nat -> bool;           (* is_flat *)
  s_raw : nat -> nat -> f64;      (* sqrt(2w - 2 * (sliding dot product of from)[i]) *)
  s_zeucl : nat -> nat -> f64     (* zeucl *)
}.

(** timeseries.rs 523-599: the distances from window [from].  The debug assertions
    are not part of a release build (motiflets.rs 93-94). *)
Definition distance_profile (ts : series) (from : nat) : res (list f64) :=
  foreach (seq 0 (s_n ts))
    (fun i out =>
       if i =? from then Ret (out ++ [f_zero])
       else if s_flat ts i then Ret (out ++ [f_nan])
       else assert_ (negb (is_nan (s_raw ts from i))) (Ret (out ++ [s_raw ts from i]))) [].

(** [Ord::max] of [Distance] (no NaN involved): the second one when equal *)
Definition dmax (a b : f64) : f64 := if flt b a then a else b.

(** knn.rs 75-88: the loop on [j] for a given [i] *)
Definition extent_row (zeucl : nat -> nat -> f64) (indices : list nat) (i : nat) (e0 : f64) : res f64 :=
  foreach (seq 0 i)
    (fun j e =>
       let! ii := get indices i in
       let! jj := get indices j in
       assert_ (negb (is_nan (zeucl ii jj))) (Ret (dmax e (zeucl ii jj)))) e0.

(** knn.rs 70-94 *)
Definition compute_extents (zeucl : nat -> nat -> f64) (indices : list nat) : res (list f64) :=
  foreach (seq 1 (length indices - 1))
    (fun i extents =>
       let! e0 := get extents (i - 1) in
       let! e := extent_row zeucl indices i e0 in
       put extents i e)
    (repeat f_zero (length indices)).

(** [indices.sort_unstable_by_key(|j| Distance(distances[j]))], motiflets.rs 58.  The sort
    compares with [PartialOrd::lt] of [Distance] (derived, knn.rs 7), which is false
    when a NaN is involved.  Without NaN the outcome is some arrangement sorted by
    distance (the sort is not stable); with a NaN the order is not total, and then
    the standard library promises only an unspecified arrangement or a panic.
    [None] is a panic.  The theorems quantify over every outcome allowed by
    [sort_outcome] of BruteSpec.v. *)
Definition sort_indices (outcome : option (list nat)) : res (list nat) :=
  match outcome with Some o => Ret o | None => Panic end.

(** motiflets.rs 61-79: the loop over the remaining candidates *)
Fixpoint pick (k ez : nat) (ret candidates : list nat) : list nat :=
  match candidates with
  | [] => ret
  | jj :: t =>
      if length ret <? k then
        if existsb (fun hh => overlaps jj hh ez) ret then pick k ez ret t
        else pick k ez (ret ++ [jj]) t
      else ret
  end.

(** motiflets.rs 25-83 *)
Definition k_extents_bf (ts : series) (order : nat -> option (list nat)) (k ez from : nat)
  : res (list f64 * list nat) :=
  let! distances := distance_profile ts from in
  let! indices := sort_indices (order from) in
  let ret := pick k ez [from] (skipn 1 indices) in
  let! extents := compute_extents (s_zeucl ts) ret in
  Ret (extents, ret).

Notation minima := (list (f64 * list nat)).

(** motiflets.rs 124-132 *)
Definition fold_minima (m : minima) (extents : list f64) (indices : list nat) : res minima :=
  foreach (seq 1 (length extents - 1))
    (fun i m =>
       let! e := get extents i in
       let! cur := get m i in
       if flt e (fst cur) then put m i (e, firstn (i + 1) indices) else Ret m) m.

(** motiflets.rs 134-144 *)
Definition reduce_minima (k : nat) (m1 m2 : minima) : res minima :=
  foreach (seq 1 (k - 1))
    (fun i m1 =>
       let! a := get m2 i in
       let! b := get m1 i in
       if flt (fst a) (fst b) then put m1 i a else Ret m1) m1.

Definition identity_minima (k : nat) : minima := repeat (f_inf, []) k.

(** How rayon splits the work: each leaf is a contiguous run of positions folded
    by one worker and then reduced with the identity; nodes are reductions. *)
Inductive split := Leaf (l : list nat) | Node (a b : split).
Fixpoint leaves (t : split) : list nat :=
  match t with Leaf l => l | Node a b => leaves a ++ leaves b end.

Fixpoint run_split (ts : series) (order : nat -> option (list nat)) (k ez : nat) (t : split) : res minima :=
  match t with
  | Leaf l =>
      let! m :=
        foreach l
          (fun i m =>
             let! '(extents, indices) := k_extents_bf ts order k ez i in
             fold_minima m extents indices) (identity_minima k) in
      reduce_minima k (identity_minima k) m
  | Node a b =>
      let! m1 := run_split ts order k ez a in
      let! m2 := run_split ts order k ez b in
      reduce_minima k m1 m2
  end.

(** motiflets.rs 88-150, without the progress bar and the log line (whose average
    distance is computed by sampling: see Sampling.v). *)
Definition brute_force_motiflets (ts : series) (order : nat -> option (list nat)) (k ez : nat) (t : split)
  : res (list (f64 * list nat)) :=
  let! m := run_split ts order k ez t in
  Ret (filter (fun p => is_finite (fst p)) m).

(** ** Motifs *)

(** motifs.rs 16-22, without [confirmed] and [relative_contrast] *)
Record motif := Motif { m_a : nat; m_b : nat; m_dist : f64 }.

(** motifs.rs 84-109 *)
Definition nearest_neighbor_bf (ts : series) (ez from : nat) : res (f64 * nat) :=
  let! distances := distance_profile ts from in
  foreach (combine (seq 0 (length distances)) distances)
    (fun jd (s : f64 * nat) =>
       let '(j, d) := jd in
       let '(nearest, nearest_idx) := s in
       if negb (overlaps j from ez) && flt d nearest then Ret (d, j) else Ret (nearest, nearest_idx))
    (f_inf, 0).

(** motifs.rs 126-139: the nearest-neighbour pair of every window *)
Definition nn_motifs (ts : series) (ez : nat) : res (list motif) :=
  foreach (seq 0 (s_n ts))
    (fun i acc =>
       let! '(d, j) := nearest_neighbor_bf ts ez i in
       Ret (acc ++ [Motif (Nat.min i j) (Nat.max i j) d])) [].

(** motifs.rs 143-149; [l] is what is left of the sorted pairs *)
Fixpoint pick_motifs (k ez : nat) (ret l : list motif) : list motif :=
  match l with
  | [] => ret
  | m :: t =>
      if length ret <? k then
        if existsb (fun r => motif_overlaps (m_a m) (m_b m) (m_a r) (m_b r) ez) ret
        then pick_motifs k ez ret t
        else pick_motifs k ez (ret ++ [m]) t
      else ret
  end.

(** motifs.rs 51-64: the order of motifs; [sort_unstable] (line 141) may return any
    permutation sorted by it.  Distances here are never NaN (each is infinite or
    smaller than another one), so the comparison does not panic. *)
Definition motif_le (x y : motif) : bool :=
  flt (m_dist x) (m_dist y) || (feq (m_dist x) (m_dist y) && (m_a x <=? m_a y)).

(** motifs.rs 111-152, given the result [sorted] of sorting the pairs *)
Definition brute_force_motifs (sorted : list motif) (k ez : nat) : list motif :=
  pick_motifs k ez [] sorted.
