(** What the output file of the command-line program means. *)
From Coq Require Import String.
From Verif Require Import Base F64 Brute BruteSpec Iterator IteratorSpec Text TextSpec Main.
Local Open Scope N_scope.
Local Open Scope list_scope.

(** the pieces of a text between the separators: [n] separators make [n + 1] pieces *)
Fixpoint pieces (sep : N) (s : list N) : list (list N) :=
  match s with
  | [] => [[]]
  | c :: s =>
      if c =? sep then [] :: pieces sep s
      else match pieces sep s with
           | [] => [[c]]
           | p :: ps => (c :: p) :: ps
           end
  end.
(** a decimal number, with nothing around it *)
Definition natural (s : list N) : option N :=
  match s with
  | [] => None
  | _ => if forallb (fun c => (48 <=? c) && (c <=? 57)) s then Some (decimal (map (fun c => c - 48) s)) else None
  end.
(** a line of the file: the extent, then the positions, with a comma and a space between them *)
Definition row (line : list N) : option (list N * list N) :=
  match pieces 44 line with
  | [] => None
  | extent :: positions =>
      option_map (pair extent)
        (all_some (map (fun s => match s with 32 :: s => natural s | _ => None end) positions))
  end.
(** the whole file; every line ends with a newline *)
Definition rows (file : list N) : option (list (list N * list N)) :=
  match rev (pieces 10 file) with
  | [] :: lines => all_some (map row (rev lines))
  | _ => None
  end.

(** how the motiflets should read *)
Definition reading (show : f64 -> list N) (motiflets : list (f64 * list nat)) : list (list N * list N) :=
  map (fun '(extent, positions) => (show extent, map N.of_nat positions)) motiflets.
(** printing an extent gives neither commas nor new lines *)
Definition plain (show : f64 -> list N) : Prop := forall x, ~ In 44 (show x) /\ ~ In 10 (show x).

(** ** What the program is run on
    The exact search and the index are about the same series, distances are numbers >= 0, the
    windows are sorted and shared out between threads as they should (see C19), and the index
    and the pair found by sampling are as the search needs them (see C35). *)
Definition searched (o : options) (e : setting) (memory : N) : problem :=
  with_arguments (e_index e memory) (o_support o) (o_topk o) (e_w e / 2)%nat false.
Record ready (o : options) (e : setting) : Prop := {
  ready_nonneg : nonneg (s_zeucl (e_series e));
  ready_order : forall from d, (from < s_n (e_series e))%nat -> distance_profile (e_series e) from = Ret d -> sort_outcome d (e_order e from);
  ready_split : leaves (e_split e) = seq 0 (s_n (e_series e));
  ready_index : o_exact o = false -> forall memory,
    sound (searched o e memory) /\ p_n (e_index e memory) = s_n (e_series e) /\ p_zeucl (e_index e memory) = s_zeucl (e_series e) /\
    forall fuel a b d, e_seed e fuel = Ret (a, b, d) -> seed_ok (searched o e memory) a b d
}.
