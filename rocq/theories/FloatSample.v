(** Sampled distance statistics with rounding: src/timeseries.rs 209-279.  As in Sampling.v
    [draw t] is what the [t]-th pass of the inner loop draws. *)
From Coq Require Import Floats.SpecFloat.
From Verif Require Import Base Overlaps F64 Iterator FpOps FloatSeries FloatHash.

(** timeseries.rs 209-232.  The two nested loops are one loop here, [samples] is 100000 in
    the code (line 214); [Uniform::new(0, n)] panics if [n] is 0. *)
Definition faverage_pairwise_distance (samples : nat) (z : zeros) (s : fseries) (exclusion_zone : nat)
    (draw : nat -> nat * nat) (fuel : nat) : res f64 :=
  assert_ (0 <? fnum_subsequences s)
    (loop fuel (fun '(t, sampled, sum) =>
       if sampled <? samples then
         let '(i, j) := draw t in
         let! flat_i := fis_flat s i in
         if flat_i then Ret (inl (S t, sampled, sum))
         else
           let! flat_j := fis_flat s j in
           if flat_j then Ret (inl (S t, sampled, sum))
           else if overlaps i j exclusion_zone then Ret (inl (S t, sampled, sum))
           else
             let! d := fzeucl z s i j in
             Ret (inl (S t, S sampled, fadd sum d))
       else Ret (inr (fdiv sum (f_of_nat samples)))) (O, O, f_zero)).

(** [f64::total_cmp] says "less".  The only NaN in a profile is [f64::NAN], which is positive
    and therefore last; -0 is before +0. *)
Definition ftotal_lt (a b : f64) : bool :=
  if is_nan a then false
  else if is_nan b then true
  else match a, b with S754_zero true, S754_zero false => true | _, _ => flt a b end.
(** [min_by(|a, b| a.1.total_cmp(&b.1))]: the first minimum; [None] if there are no items *)
Definition fmin_by_total (l : list (nat * f64)) : option (nat * f64) :=
  match l with
  | [] => None
  | a :: l => Some (fold_left (fun m x => if ftotal_lt (snd x) (snd m) then x else m) l a)
  end.
(** timeseries.rs 235-279, the loops flattened as above; [samples] is 1000 in the code (line
    248).  The buffers are local here. *)
Definition fnearest_neighbor_distance_stats (samples : nat) (z : zeros) (s : fseries) (sdp : list f64 -> nat -> f64)
    (exclusion_zone : nat) (draw : nat -> nat) (fuel : nat) : res (f64 * f64 * (nat * nat)) :=
  assert_ (0 <? fnum_subsequences s)
    (loop fuel (fun '(t, sampled, (sum, minimum, min_index_pair)) =>
       if sampled <? samples then
         let i := draw t in
         let! flat := fis_flat s i in
         if flat then Ret (inl (S t, sampled, (sum, minimum, min_index_pair)))
         else
           let! dists := fdistance_profile z s sdp i in
           match fmin_by_total (filter (fun jd => negb (overlaps (fst jd) i exclusion_zone))
                                  (combine (seq 0 (length dists)) dists)) with
           | None => Panic
           | Some (j, nn) =>
               let sum := fadd sum nn in
               if flt nn minimum
               then Ret (inl (S t, S sampled, (sum, nn, (Nat.min i j, Nat.max i j))))
               else Ret (inl (S t, S sampled, (sum, minimum, min_index_pair)))
           end
       else Ret (inr (minimum, fdiv sum (f_of_nat samples), min_index_pair)))
      (O, O, (f_zero, f_inf, (O, O)))).

(** motiflets.rs 197-203 ([Motiflet::new]) and motifs.rs 135: the relative contrast *)
Definition relative_contrast (average extent : f64) : f64 := fdiv average extent.
