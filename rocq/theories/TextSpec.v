(** What a memory size and a series file mean. *)
From Coq Require Import String.
From Verif Require Import Base Text.
Local Open Scope N_scope.
Local Open Scope list_scope.

(** the number written by decimal digits, most significant first *)
Definition decimal (digits : list N) : N := fold_left (fun acc d => 10 * acc + d) digits 0.
Definition written (digits : list N) : list N := map (fun d => 48 + d) digits.
Definition is_digits (digits : list N) : Prop := digits <> [] /\ Forall (fun d => d < 10) digits.
(** white space: tab, line feed, vertical tab, form feed, carriage return, space *)
Definition white : list N := [9; 10; 11; 12; 13; 32].
Definition is_white (c : N) : bool := existsb (N.eqb c) white.
Definition capitals : list N := codes "ABCDEFGHIJKLMNOPQRSTUVWXYZ".
Definition smalls : list N := codes "abcdefghijklmnopqrstuvwxyz".
Definition is_alphabetic (c : N) : bool := existsb (N.eqb c) (capitals ++ smalls).
Definition lowercase (c : N) : N :=
  match find (fun cs : N * N => fst cs =? c) (combine capitals smalls) with Some (_, s) => s | None => c end.
Definition blanks (s : list N) : Prop := Forall (fun c => is_white c = true) s.
Fixpoint times (n : nat) (s : list N) : list N := match n with O => [] | S n => s ++ times n s end.

(** the units: nothing, k, m, g, in lower case *)
Inductive unit_is : list N -> N -> Prop :=
| unit_none : unit_is [] 1
| unit_k : unit_is (codes "k") 1024
| unit_m : unit_is (codes "m") (1024 * 1024)
| unit_g : unit_is (codes "g") (1024 * 1024 * 1024).
Inductive ending_is : list N -> Prop :=
| ending_none : ending_is []
| ending_b : ending_is (codes "b")
| ending_bytes : ending_is (codes "bytes").

(** [text], in any letter case, is a memory size of [v] bytes *)
Definition size_text (text : list N) (v : N) : Prop :=
  exists digits gap unit m ending, is_digits digits /\ blanks gap /\ unit_is unit m /\ ending_is ending /\
    map lowercase text = written digits ++ gap ++ unit ++ ending /\ v = decimal digits * m.

(** What the parser accepts besides: spaces in front, a plus sign, and any number of endings *)
Definition loose_text (text : list N) (digits unit : list N) : Prop :=
  exists front plus gap i j, is_digits digits /\ blanks front /\ blanks gap /\ (plus = [] \/ plus = codes "+") /\
    map lowercase text = front ++ plus ++ written digits ++ gap ++ unit ++ times i (codes "b") ++ times j (codes "bytes").

(** ** Files *)
(** the lines of a file: each ends with a newline, except perhaps the last *)
Definition lines_are (file : list N) (lines : list (list N)) : Prop :=
  exists complete last, ~ In 10 last /\ Forall (fun l => ~ In 10 l) complete /\
    lines = map (fun l => l ++ [10]) complete ++ (match last with [] => [] | _ => [last] end) /\
    file = concat lines.
Definition blank (line : list N) : bool := forallb is_white line.
(** the number on a line: a number, then nothing but spaces *)
Definition number {X} (parse : list N -> option (X * nat)) (line : list N) : option X :=
  match parse line with
  | Some (x, n) => if blank (skipn n line) then Some x else None
  | None => None
  end.
(** all the numbers, or nothing if there is something else *)
Fixpoint all_some {X} (l : list (option X)) : option (list X) :=
  match l with
  | [] => Some []
  | Some x :: l => option_map (cons x) (all_some l)
  | None :: _ => None
  end.
Definition numbers {X} (parse : list N -> option (X * nat)) (lines : list (list N)) : option (list X) :=
  all_some (map (number parse) (filter (fun l => negb (blank l)) lines)).
