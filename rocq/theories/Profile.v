(** Collision profile, starting prefix and memory budget of the index:
    src/index.rs 397-402, 438-442, 474-512, 590-669, 846-918. *)
From Coq Require Import Floats.SpecFloat.
From Verif Require Import Base HashValue Overlaps Enumerator F64.

(** ** Collision profile *)

(** [for i in start..end { for j in start..i { .. } }], index.rs 616-626; the state is
    ([cnt_collisions], [trivial]). *)
Definition count_bucket (indices : list N) (ez start end_ : nat) (s : nat * nat) : res (nat * nat) :=
  foreach (seq start (end_ - start))
    (fun i s =>
       foreach (seq start (i - start))
         (fun j (s : nat * nat) =>
            let '(cnt, triv) := s in
            let! a := get indices i in
            let! b := get indices j in
            if negb (overlapsN a b ez) then Ret (cnt + 1, triv) else Ret (cnt, triv + 1)) s) s.

(** index.rs 604-636: the scan of the buckets for one prefix > 0.
    [n * (n - 1) / 2] does not underflow since [start < end]. *)
Definition scan_prefix (hashes indices : list N) (ez prefix : nat) (fuel : nat) : res (nat * nat) :=
  loop fuel
    (fun (st : nat * nat * nat) =>
       let '(start, cnt, triv) := st in
       if start <? length hashes then
         let! hs := get hashes start in
         let! off := partition_point (skipn start hashes) (fun h => prefix_eq h hs prefix) in
         let end_ := start + off in
         assert_ (start <? end_)
           (if prefix =? K then
              let! '(c, triv) := count_bucket indices ez start end_ (0, triv) in
              Ret (inl (end_, cnt + c, triv))
            else
              let n := end_ - start in
              Ret (inl (end_, cnt + n * (n - 1) / 2, triv)))
       else Ret (inr (cnt, triv)))
    (0, 0, 0).

(** index.rs 590-647.  The entry for prefix 0 is infinite; the result lists the
    entries for prefixes 1..8.  The parallel map over prefixes has independent
    elements.  Counts are exact integers here, and so are the subtraction and the assertion;
    see ExactInt.v for [f64]. *)
Definition collision_profile_at (hashes indices : list N) (ez : nat) (fuel : nat) : res (list Z) :=
  let! counts :=
    foreach (seq 1 K)
      (fun prefix acc =>
         let! c := scan_prefix hashes indices ez prefix fuel in
         Ret (acc ++ [c])) [] in
  let! '(last, trivial) := get counts (K - 1) in
  let! adjusted :=
    foreach (firstn (K - 1) counts)
      (fun c acc =>
         let v := (Z.of_nat (fst c) - Z.of_nat trivial)%Z in
         assert_ (0 <=? v)%Z (Ret (acc ++ [v]))) [] in
  Ret (adjusted ++ [Z.of_nat last]).

(** ** Starting prefix *)

(** 1.0 *)
Definition f_one : f64 := S754_finite false 4503599627370496 (-52).

(** [iter().enumerate().rev().find(|(_, c)| **c >= 1.0)] *)
Fixpoint rfind_ge1 (i : nat) (l : list f64) : option nat :=
  match l with
  | [] => None
  | c :: t =>
      match rfind_ge1 (S i) t with
      | Some r => Some r
      | None => if fle f_one c then Some i else None
      end
  end.

(** index.rs 909-918 *)
Definition first_meaningful_prefix (expected_collisions : list f64) : res nat :=
  match rfind_ge1 0 expected_collisions with
  | Some i => Ret (Nat.max i 1)
  | None => Panic
  end.

(** ** Memory *)

(** index.rs 398-402; [n] is the number of subsequences.  See Budget.v for [usize] arithmetic. *)
Definition required_memory (n repetitions : N) : N :=
  (repetitions * n * 8 + repetitions * n * 4)%N.

(** index.rs 853-856 *)
Definition max_repetitions (n index_repetitions max_memory : N) (fuel : nat) : res N :=
  loop fuel
    (fun m => if (required_memory n (1 + m) <=? max_memory)%N then Ret (inl (m + 1)%N) else Ret (inr m))
    (N.min 4 index_repetitions).

(** index.rs 438-442 *)
Definition max_repetitions_in_memory (n system_memory : N) (fuel : nat) : res N :=
  let cap := (system_memory / 2)%N in
  loop fuel
    (fun m => if (required_memory n m <? cap)%N then Ret (inl (m + 1)%N) else Ret (inr m)) 0%N.

(** index.rs 474-512, as far as the placement of tables is concerned: the index is
    the list of its tables, [true] for a table in main memory. *)
Definition add_placements (in_memory_max : N) (placements : list bool) (total : nat) : res (list bool) :=
  assert_ (length placements <? total)
    (Ret (placements ++
       map (fun i => negb (in_memory_max <? N.of_nat (length placements + i))%N)
         (seq 0 (total - length placements)))).

(** index.rs 404-421: bytes used by the tables held in main memory; a table takes 12 bytes
    per subsequence. *)
Definition main_memory_usage (n : N) (placements : list bool) : N :=
  (N.of_nat (length (filter (fun b => b) placements)) * n * 12)%N.

(** ** Calibration *)

(** 1000.0 *)
Definition f_thousand : f64 := S754_finite false 8796093022208000 (-43).

(** [iter().copied().enumerate().rev().find(|(_, c)| *c > 1000.0).unwrap_or((1, _)).0],
    index.rs 874-880 *)
Fixpoint rfind_gt1000 (i : nat) (l : list f64) : option nat :=
  match l with
  | [] => None
  | c :: t =>
      match rfind_gt1000 (S i) t with
      | Some r => Some r
      | None => if flt f_thousand c then Some i else None
      end
  end.
Definition sampling_prefix (expected_collisions : list f64) : nat :=
  match rfind_gt1000 0 expected_collisions with Some i => i | None => 1 end.

(** index.rs 577-586 (called at 884): the prefix check made when the enumerator used
    for calibration is created. *)
Definition open_collisions (prefix : nat) : res nat :=
  assert_ ((0 <? prefix) && (prefix <=? K)) (Ret prefix).
Definition calibration_prefix (expected_collisions : list f64) : res nat :=
  open_collisions (sampling_prefix expected_collisions).
