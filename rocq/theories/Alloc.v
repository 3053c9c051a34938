(** The counting allocator and the memory gauge: src/allocator.rs 156-195.

    Threads interleave.  An allocation is two steps: the system allocates, then the counter is
    increased; only then does the caller get the block.  A deallocation is two steps: the
    system frees, then the counter is decreased.  [alloc_zeroed] and [realloc] are the default
    ones, built from these.  A failed allocation has no effect (lines 163-166). *)
From Verif Require Import Base.
Local Open Scope N_scope.

Definition word : N := 2 ^ 64.
(** what a thread is in the middle of *)
Inductive doing :=
| Nothing
| Allocating (size : N) (** the system has allocated, the counter is not yet increased *)
| Freeing (size : N). (** the system has freed, the counter is not yet decreased *)
Record state := State {
  counter : N; (** [ALLOCATED] *)
  held : list N; (** sizes of the blocks the program holds *)
  threads : list doing
}.
Inductive event :=
| SystemAlloc (thread : nat) (size : N) (** line 162 *)
| Count (thread : nat) (** line 164 *)
| SystemFree (thread : nat) (size : N) (** line 170 *)
| Uncount (thread : nat). (** line 171 *)

Fixpoint remove_one (x : N) (l : list N) : option (list N) :=
  match l with
  | [] => None
  | y :: l => if x =? y then Some l else option_map (cons y) (remove_one x l)
  end.
Definition sum (l : list N) : N := fold_right N.add 0 l.
Definition allocating (d : doing) : N := match d with Allocating s => s | _ => 0 end.
Definition freeing (d : doing) : N := match d with Freeing s => s | _ => 0 end.
(** the bytes the system has allocated *)
Definition in_use (s : state) : N := sum (held s) + sum (map allocating (threads s)).

(** [None]: the event is impossible in this state.  The system never has more than a machine
    word's worth of bytes allocated; atomic additions and subtractions wrap. *)
Definition step (s : state) (e : event) : option state :=
  match e with
  | SystemAlloc t size =>
      match nth_error (threads s) t with
      | Some Nothing =>
          if in_use s + size <? word then
            option_map (State (counter s) (held s)) (set_nth (threads s) t (Allocating size))
          else None
      | _ => None
      end
  | Count t =>
      match nth_error (threads s) t with
      | Some (Allocating size) =>
          option_map (State ((counter s + size) mod word) (size :: held s)) (set_nth (threads s) t Nothing)
      | _ => None
      end
  | SystemFree t size =>
      match nth_error (threads s) t, remove_one size (held s) with
      | Some Nothing, Some held => option_map (State (counter s) held) (set_nth (threads s) t (Freeing size))
      | _, _ => None
      end
  | Uncount t =>
      match nth_error (threads s) t with
      | Some (Freeing size) =>
          option_map (State ((counter s + (word - size mod word)) mod word) (held s)) (set_nth (threads s) t Nothing)
      | _ => None
      end
  end.
Fixpoint run (s : state) (events : list event) : option state :=
  match events with
  | [] => Some s
  | e :: events => match step s e with Some s' => run s' events | None => None end
  end.
Definition start (n : nat) : state := State 0 [] (repeat Nothing n).

(** lines 189-193: [checks] says whether subtraction is checked (debug) or wraps (release) *)
Definition measure (checks : bool) (gauge now : N) : res N :=
  if checks && (now <? gauge) then Panic else Ret ((now + (word - gauge)) mod word).
