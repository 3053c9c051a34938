(** Number of windows and pairs, memory of a series, and the limits on collisions computed
    from them: src/timeseries.rs 125-138, 196-203, src/motiflets.rs 445-447 and
    pyattimo/src/lib.rs 317, 335. *)
From Coq Require Import Floats.SpecFloat.
From Verif Require Import Base F64 Iterator Series FpOps.
Local Open Scope N_scope.

(** [usize] arithmetic: [checks] says whether it is checked (debug) or wraps (release) *)
Definition usize_sub (checks : bool) (a b : N) : res N :=
  if b <=? a then Ret (a - b) else if checks then Panic else Ret (2 ^ 64 + a - b).
Definition usize_mul (checks : bool) (a b : N) : res N :=
  if checks && (2 ^ 64 <=? a * b) then Panic else Ret ((a * b) mod 2 ^ 64).

(** timeseries.rs 200-203 *)
Definition num_subsequence_pairs (checks : bool) (s : series) : res N :=
  let n := N.of_nat (num_subsequences s) in
  let! m := usize_sub checks n 1 in
  let! p := usize_mul checks n m in
  Ret (p / 2).
(** timeseries.rs 134-138; the vectors are in memory: their sizes do not overflow *)
Definition memory (s : series) : N := 8 * N.of_nat (length (s_data s) + length (s_sd s) + length (s_avg s)).
(** timeseries.rs 78-83, 126-132 *)
Record ts_stats := TsStats { ts_num_subsequences : nat; ts_num_subsequence_pairs : N; ts_used_memory : N }.
Definition stats (checks : bool) (s : series) : res ts_stats :=
  let! pairs := num_subsequence_pairs checks s in
  Ret (TsStats (num_subsequences s) pairs (memory s)).

(** motiflets.rs 447 *)
Definition default_limit (checks : bool) (s : series) : res N :=
  let! st := stats checks s in Ret (ts_num_subsequence_pairs st / 10).

(** [n as f64] *)
Definition f_of_N (n : N) : f64 := binary_normalize prec emax (Z.of_N n) 0 false.
(** [x as usize]: towards zero, and to the nearest [usize] if there is none; 0 for NaN *)
Definition as_usize (x : f64) : N :=
  match x with
  | S754_finite false m e =>
      N.min (2 ^ 64 - 1) (match e with Zneg k => N.pos m / 2 ^ N.pos k | _ => N.pos m * 2 ^ Z.to_N e end)
  | S754_infinity false => 2 ^ 64 - 1
  | _ => 0
  end.
(** pyattimo/src/lib.rs 317 and 335, motiflets.rs [set_collision_threshold] *)
Definition python_limit (checks : bool) (s : series) (fraction : f64) : res N :=
  let! num_pairs := num_subsequence_pairs checks s in
  Ret (as_usize (fmul (f_of_N num_pairs) fraction)).
