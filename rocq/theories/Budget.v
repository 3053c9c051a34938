(** The repetition budget with [usize] arithmetic: src/index.rs 398-402, 438-442 and 853-856.
    Profile.v has the same loops on unbounded numbers. *)
From Verif Require Import Base F64 Iterator Profile Counts.
Local Open Scope N_scope.

(** [a + b]; [checks] says whether it is checked (debug) or wraps (release) *)
Definition usize_add (checks : bool) (a b : N) : res N :=
  if checks && (2 ^ 64 <=? a + b) then Panic else Ret ((a + b) mod 2 ^ 64).

(** index.rs 398-402 *)
Definition required_memory64 (checks : bool) (n repetitions : N) : res N :=
  let! a := usize_mul checks repetitions n in
  let! hashes := usize_mul checks a 8 in
  let! b := usize_mul checks repetitions n in
  let! indices := usize_mul checks b 4 in
  usize_add checks hashes indices.

(** index.rs 852-855 *)
Definition max_repetitions64 (checks : bool) (n index_repetitions max_memory : N) (fuel : nat) : res N :=
  loop fuel
    (fun m =>
       let! next := usize_add checks 1 m in
       let! required := required_memory64 checks n next in
       if required <=? max_memory then let! m := usize_add checks m 1 in Ret (inl m) else Ret (inr m))
    (N.min 4 index_repetitions).

(** index.rs 438-442; the memory of the system is a [usize] too *)
Definition max_repetitions_in_memory64 (checks : bool) (n system_memory : N) (fuel : nat) : res N :=
  let cap := system_memory / 2 in
  loop fuel
    (fun m =>
       let! required := required_memory64 checks n m in
       if required <? cap then let! m := usize_add checks m 1 in Ret (inl m) else Ret (inr m))
    0.
