(** What the observation files should contain. *)
From Coq Require Import Ascii String.
From Verif Require Import Base Files.
Local Open Scope list_scope.

(** the first line of a file *)
Definition columns : list N := map N_of_ascii (list_ascii_of_string "elapsed_s,repetition,prefix,name,value") ++ [10]%N.

(** the operations of a history, in the order in which they got the lock *)
Definition operations (events : list event) : list operation :=
  flat_map (fun e => match e with Acquire _ op => [op] | _ => [] end) events.
(** the files switched to *)
Definition resets (ops : list operation) : list nat := flat_map (fun op => match op with Reset p => [p] | _ => [] end) ops.
(** the lines observed while [p] was current, [now] being current at first *)
Fixpoint observed (now : nat) (ops : list operation) (p : nat) : list N :=
  match ops with
  | [] => []
  | Append pieces :: ops => (if (now =? p)%nat then concat pieces else []) ++ observed now ops p
  | Flush :: ops => observed now ops p
  | Reset q :: ops => observed q ops p
  end.
Fixpoint last_file (now : nat) (ops : list operation) : nat :=
  match ops with
  | [] => now
  | Reset q :: ops => last_file q ops
  | _ :: ops => last_file now ops
  end.
