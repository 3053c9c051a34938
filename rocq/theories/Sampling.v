(** Sampled distance statistics: src/timeseries.rs 209-279.  The random stream is a
    parameter: [draw t] is what the [t]-th pass of the inner loop draws.  Exact
    arithmetic. *)
From Coq Require Import Reals.
From Verif Require Import Base Overlaps Series FFT.
Local Open Scope R_scope.

(** timeseries.rs 209-232.  The two nested loops are one loop here: the inner one goes
    round until a pair is accepted, the outer one until [samples] pairs are.  [samples] is
    100000 in the code (line 214); [Uniform::new(0, n)] panics if [n] is 0. *)
Definition average_pairwise_distance (samples : nat) (s : series) (exclusion_zone : nat)
    (draw : nat -> nat * nat) (fuel : nat) : res R :=
  assert_ (0 <? num_subsequences s)%nat
    (loop fuel (fun '(t, sampled, sum) =>
       if (sampled <? samples)%nat then
         let '(i, j) := draw t in
         let! flat_i := is_flat s i in
         if flat_i then Ret (inl (S t, sampled, sum))
         else
           let! flat_j := is_flat s j in
           if flat_j then Ret (inl (S t, sampled, sum))
           else if overlaps i j exclusion_zone then Ret (inl (S t, sampled, sum))
           else
             let! d := zeucl s i j in
             Ret (inl (S t, S sampled, sum + d))
       else Ret (inr (sum / INR samples))) (O, O, 0)).
(** timeseries.rs 214 *)
Definition average_samples : nat := N.to_nat 100000.

(** [f64::total_cmp] says "less"; [None] is the NaN of [f64::NAN], which is positive and
    therefore last. *)
Definition total_lt (a b : option R) : bool :=
  match a, b with
  | Some x, Some y => if Rlt_dec x y then true else false
  | Some _, None => true
  | None, _ => false
  end.
(** [min_by(|a, b| a.1.total_cmp(&b.1))]: the first minimum; [None] if there are no items *)
Definition min_by_total (l : list (nat * option R)) : option (nat * option R) :=
  match l with
  | [] => None
  | a :: l => Some (fold_left (fun m x => if total_lt (snd x) (snd m) then x else m) l a)
  end.
(** [a < b] where [None] in [a] is NaN and [None] in [b] is infinity *)
Definition below (a b : option R) : bool :=
  match a, b with
  | None, _ => false
  | Some _, None => true
  | Some x, Some y => if Rlt_dec x y then true else false
  end.
(** [a + b] where [None] is NaN *)
Definition nan_plus (a b : option R) : option R :=
  match a, b with Some x, Some y => Some (x + y) | _, _ => None end.

(** timeseries.rs 235-279, the loops flattened as above; [samples] is 1000 in the code
    (line 248).  In the result the first [None] is infinity and the second NaN. *)
Definition nearest_neighbor_distance_stats (samples : nat) (s : series) (f : fftdata) (exclusion_zone : nat)
    (draw : nat -> nat) (fuel : nat) : res (option R * option R * (nat * nat)) :=
  let dists := repeat (Some 0) (num_subsequences s) in
  assert_ (0 <? num_subsequences s)%nat
    (loop fuel (fun '(t, sampled, (dists, sum, minimum, min_index_pair)) =>
       if (sampled <? samples)%nat then
         let i := draw t in
         let! flat := is_flat s i in
         if flat then Ret (inl (S t, sampled, (dists, sum, minimum, min_index_pair)))
         else
           let! dists := distance_profile s f i dists in
           match min_by_total (filter (fun jd => negb (overlaps (fst jd) i exclusion_zone))
                                 (combine (seq 0 (length dists)) dists)) with
           | None => Panic
           | Some (j, nn) =>
               let sum := nan_plus sum nn in
               if below nn minimum
               then Ret (inl (S t, S sampled, (dists, sum, nn, (Nat.min i j, Nat.max i j))))
               else Ret (inl (S t, S sampled, (dists, sum, minimum, min_index_pair)))
           end
       else Ret (inr (minimum, option_map (fun x => x / INR samples) sum, min_index_pair)))
      (O, O, (dists, Some 0, None, (O, O)))).
