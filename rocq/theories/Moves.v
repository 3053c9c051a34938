(** The moves of the control loop between (repetition, prefix) configurations:
    src/motiflets.rs 369-376, 448-456, 766-838.  Only the four control fields are
    kept here; Iterator.v has the whole loop and shows that its control fields
    move as below. *)
From Verif Require Import Base.

(** motiflets.rs 368-375 *)
Record config := Config {
  c_rep : nat;
  c_prefix : nat;
  c_prev : option nat;        (* previous_prefix *)
  c_prev_reps : option nat    (* previous_prefix_repetitions *)
}.

(** motiflets.rs 448-452 *)
Definition config_start (p0 : nat) : config := Config 0 p0 None None.

(** index.rs 394 *)
Definition INITIAL_REPETITIONS : nat := 8.

(** motiflets.rs 515: [check_prefix] *)
Definition c_check (c : config) : bool :=
  c_rep c <? match c_prev_reps c with Some r => r | None => 0 end.

(** motiflets.rs 766-771: stay at this prefix no matter what *)
Definition must_stay (c : config) : bool :=
  ((c_rep c + 1 <? INITIAL_REPETITIONS) && match c_prev c with None => true | _ => false end)
  || (c_rep c + 1 <? match c_prev_reps c with Some r => r | None => INITIAL_REPETITIONS end).

(** motiflets.rs 815-838: [next] is the prefix chosen; the final assertion is
    [prefix > 0]. *)
Definition config_move (c : config) (next : nat) : res config :=
  let c' :=
    if c_prefix c <=? next then Config (c_rep c + 1) (c_prefix c) (c_prev c) (c_prev_reps c)
    else Config 0 (c_prefix c - 1) (Some (c_prefix c)) (Some (c_rep c + 1)) in
  assert_ (0 <? c_prefix c') (Ret c').

(** The configurations visited, oldest first, when the prefixes chosen are [choices]
    (the choice is overridden while the loop must stay). *)
Fixpoint visit (c : config) (choices : list nat) : res (list config) :=
  match choices with
  | [] => Ret [c]
  | n :: t =>
      let! c' := config_move c (if must_stay c then c_prefix c else n) in
      let! cs := visit c' t in
      Ret (c :: cs)
  end.
