(** The command-line program: src/main.rs 19-226.

    Not modelled: the parsing of the options (argh), [--version], logging and timing, the
    memory monitor, the profiler, and failures to create or write the output file.  The
    loading of the series is in Text.v and its preparation in Timeseries.v and FpSeries.v:
    here the prepared series is given. *)
From Coq Require Import String.
From Coq Require Import Floats.SpecFloat.
From Verif Require Import Base F64 Overlaps Brute TopK Iterator Text Python.
Local Open Scope list_scope.

(** main.rs 19-70, the options that matter after the series is prepared *)
Record options := Options {
  o_exact : bool;
  o_max_memory : option (list N);
  o_support : nat;
  o_topk : nat
}.

(** What the program is run on: the window length, the prepared series as the exact search
    sees it, the order and the split of the exact search (Brute.v), the index for an amount
    of memory, the results of the two sampling procedures (Sampling.v), which may not end,
    and the memory of the machine. *)
Record setting := Setting {
  e_w : nat;
  e_series : series;
  e_order : nat -> option (list nat);
  e_split : split;
  e_index : N -> problem;
  e_seed : nat -> res (nat * nat * f64);
  e_average : nat -> res f64;
  e_memory : N
}.

(** main.rs 149-158: the arguments of [MotifletsIterator::new]; the rest of the problem is
    what it finds in the series and the index *)
Definition with_arguments (q : problem) (support topk exclusion_zone : nat) (stop : bool) : problem := {|
  p_n := p_n q; p_ez := exclusion_zone; p_max_k := support; p_top_k := topk;
  p_zeucl := p_zeucl q; p_zeucl_threshold := p_zeucl_threshold q; p_table := p_table q;
  p_failure := p_failure q; p_delta := p_delta q; p_coin := p_coin q;
  p_expected := p_expected q; p_setup_cost := p_setup_cost q; p_collision_cost := p_collision_cost q;
  p_max_repetitions := p_max_repetitions q; p_buffer := p_buffer q; p_threshold := p_threshold q;
  p_stop := stop; p_nan_first := p_nan_first q |}.

(** [collect] on the iterator, motiflets.rs 849-855: [next] until it returns [None].
    An error of the callback would panic in [unwrap]; there is none. *)
Definition collect (p : problem) (s : iter) (fuel : nat) : res (list motiflet) :=
  loop fuel
    (fun st : iter * list motiflet =>
       let '(s, acc) := st in
       let! '(s, answer) := next p s fuel in
       match answer with
       | Item m => Ret (inl (s, acc ++ [m]))
       | End => Ret (inr acc)
       | Interrupted => Panic
       end) (s, []).

(** main.rs 122-170.  [None] is an error: the memory size could not be read. *)
Definition find_motiflets (checks : bool) (o : options) (e : setting) (fuel : nat) : res (option (list contrasted)) :=
  let exclusion_zone := e_w e / 2 in
  if o_exact o then
    let! average := e_average e fuel in
    let! motiflets := brute_force_motiflets (e_series e) (e_order e) (o_support o) exclusion_zone (e_split e) in
    Ret (Some (map (fun '(extent, indices) => contrasted_new indices extent average) motiflets))
  else
    let! max_memory :=
      match o_max_memory o with
      | Some text => from_str checks text
      | None => Ret (Some (e_memory e / 2)%N)
      end in
    match max_memory with
    | None => Ret None
    | Some max_memory =>
        let p := with_arguments (e_index e max_memory) (o_support o) (o_topk o) exclusion_zone false in
        (* motiflets.rs 409-413 *)
        let! average := e_average e fuel in
        let! '(a, b, d) := e_seed e fuel in
        let! s := iter_new p a b d in
        let! l := collect p s fuel in
        Ret (Some (map (fun m => contrasted_new (ml_indices m) (ml_extent m) average) l))
    end.

(** ** The output file *)
(** [format!("{}", i)] of an index: its decimal digits, the last one first in the loop *)
Fixpoint show_loop (fuel : nat) (n : N) (acc : list N) : list N :=
  match fuel with
  | O => acc
  | S fuel =>
      let acc := (48 + n mod 10)%N :: acc in
      if (n / 10 =? 0)%N then acc else show_loop fuel (n / 10)%N acc
  end.
Definition show_number (n : N) : list N := show_loop (S (N.to_nat (N.size n))) n [].
Definition show_index (i : nat) : list N := show_number (N.of_nat i).
(** [[String]::join] *)
Fixpoint join (sep : list N) (l : list (list N)) : list N :=
  match l with
  | [] => []
  | [s] => s
  | s :: l => s ++ sep ++ join sep l
  end.
(** main.rs 217-226.  [show] is the [Display] of an extent, which is not modelled. *)
Definition output_csv (show : f64 -> list N) (motifs : list contrasted) : list N :=
  concat (map (fun m => show (cm_extent m) ++ codes ", " ++ join (codes ", ") (map show_index (cm_indices m)) ++ [10%N]) motifs).

(** main.rs 76-183: the content of the output file once the program ends without an error *)
Definition run (checks : bool) (show : f64 -> list N) (o : options) (e : setting) (fuel : nat) : res (option (list N)) :=
  let! found := find_motiflets checks o e fuel in
  match found with
  | None => Ret None
  | Some motiflets => Ret (Some (output_csv show motiflets))
  end.
