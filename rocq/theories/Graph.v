(** The neighbour graph (src/graph.rs). *)
From Coq Require Import Floats.SpecFloat.
From Verif Require Import Base F64 Overlaps.

(** ** [DistanceWithFlag], graph.rs 23-61 *)

(** graph.rs 26-28 *)
Definition dwf_distance (x : f64) : f64 := SFabs x.
(** graph.rs 29-31, [is_sign_positive] (the sign of a NaN is not modelled) *)
Definition dwf_flag (x : f64) : bool := negb (is_sign_negative x).
(** graph.rs 32-37 *)
Definition dwf_set_flag (x : f64) (flag : bool) : f64 :=
  let flip_sign := negb (Bool.eqb flag (dwf_flag x)) in
  if flip_sign then SFopp x else x.
(** graph.rs 39-43 *)
Definition dwf_from (d : f64) : f64 := d.
(** [bool::cmp] *)
Definition bool_cmp (a b : bool) : comparison :=
  match a, b with false, true => Lt | true, false => Gt | _, _ => Eq end.
(** graph.rs 50-61 and knn.rs 9-14; [None] is the panic of [partial_cmp().unwrap()] *)
Definition dwf_cmp (x y : f64) : option comparison :=
  match partial_cmp (dwf_distance x) (dwf_distance y) with
  | None => None
  | Some Eq => Some (bool_cmp (dwf_flag x) (dwf_flag y))
  | Some c => Some c
  end.

(** ** The graph *)
Notation entry := (f64 * nat)%type.

(** graph.rs 63-67 *)
Record graph := Graph { g_ez : nat; g_nn : list (list entry); g_updated : list bool }.

(** graph.rs 70-78 *)
Definition g_new (n ez : nat) : graph := Graph ez (repeat [] n) (repeat false n).

(** graph.rs 104-111 *)
Definition g_insert (g : graph) (d : f64) (a b : nat) : res graph :=
  let! nn_a := get (g_nn g) a in
  let! nn := put (g_nn g) a (nn_a ++ [(dwf_from d, b)]) in
  let! nn_b := get nn b in
  let! nn := put nn b (nn_b ++ [(dwf_from d, a)]) in
  let! u := put (g_updated g) a true in
  let! u := put u b true in
  Ret (Graph (g_ez g) nn u).

(** graph.rs 113-115 *)
Definition g_has_edge (g : graph) (a b : nat) : res bool :=
  let! nn := get (g_nn g) a in
  Ret (existsb (fun e => snd e =? b) nn).

(** graph.rs 117-119 *)
Definition g_reset_updated (g : graph) : graph :=
  Graph (g_ez g) (g_nn g) (map (fun _ => false) (g_updated g)).

(** Comparison of two entries as tuples: first component by [dwf_cmp], then the id. *)
Definition entry_cmp (x y : entry) : option comparison :=
  match dwf_cmp (fst x) (fst y) with
  | Some Eq => Some (snd x ?= snd y)
  | c => c
  end.
Definition entry_lt (x y : entry) : bool := match entry_cmp x y with Some Lt => true | _ => false end.

(** [nn.sort()], graph.rs 127: a stable sort by a total order; written as insertion
    sort.  The comparison panics on NaN, and a list of two or more entries has each
    entry compared at least once. *)
Fixpoint entry_insert (x : entry) (l : list entry) : list entry :=
  match l with
  | [] => [x]
  | y :: t => if entry_lt y x then y :: entry_insert x t else x :: l
  end.
Definition entry_sort (l : list entry) : list entry := fold_right entry_insert [] l.
Definition nn_sort (l : list entry) : res (list entry) :=
  if (2 <=? length l) && existsb (fun e => is_nan (fst e)) l then Panic else Ret (entry_sort l).

(** [nn.dedup_by_key(|pair| pair.1)], graph.rs 128: drops an entry with the same id as
    the last one kept *)
Fixpoint dedup_from (last : entry) (l : list entry) : list entry :=
  match l with
  | [] => []
  | y :: t => if snd y =? snd last then dedup_from last t else y :: dedup_from y t
  end.
Definition nn_dedup (l : list entry) : list entry :=
  match l with [] => [] | x :: t => x :: dedup_from x t end.

(** graph.rs 121-132.  The parallel loop works on separate neighbourhoods; it is a map.
    [mapi_res f i l]: apply [f] to each element of [l] and its index. *)
Fixpoint mapi_res {A B} (f : nat -> A -> res B) (i : nat) (l : list A) : res (list B) :=
  match l with
  | [] => Ret []
  | x :: t => let! y := f i x in let! ys := mapi_res f (S i) t in Ret (y :: ys)
  end.
Definition g_remove_duplicates (g : graph) : res graph :=
  let! nn := mapi_res (fun i nn =>
      let! u := get (g_updated g) i in
      if u then let! s := nn_sort nn in Ret (nn_dedup s) else Ret nn) 0 (g_nn g) in
  Ret (Graph (g_ez g) nn (g_updated g)).

(** graph.rs 151-162: the loop over one neighbourhood; [nn] is what is left of it.
    Returns the entries with their new flags, the chosen ids and distances, and [emit]. *)
Fixpoint nn_scan (k ez : nat) (nn : list entry) (indices : list nat) (distances : list f64) (emit : bool)
  : list entry * list nat * list f64 * bool :=
  match nn with
  | [] => ([], indices, distances, emit)
  | (jd, jj) :: t =>
      if length indices <? k then
        if negb (overlaps_any jj indices ez) then
          let '(t', indices', distances', emit') :=
            nn_scan k ez t (indices ++ [jj]) (distances ++ [dwf_distance jd]) (emit || dwf_flag jd) in
          ((dwf_set_flag jd false, jj) :: t', indices', distances', emit')
        else
          let '(t', indices', distances', emit') := nn_scan k ez t indices distances emit in
          ((jd, jj) :: t', indices', distances', emit')
      else (nn, indices, distances, emit)
  end.

(** graph.rs 143-168: one node; also its updated entries *)
Definition g_node (k ez : nat) (updated : bool) (i : nat) (nn : list entry)
  : list entry * option (list nat * list f64) :=
  if updated then
    let '(nn', indices, distances, emit) := nn_scan k ez nn [i] [f_zero] false in
    (nn', if emit then Some (indices, distances) else None)
  else (nn, None).

(** graph.rs 134-170, the iterator being consumed to its end, as motiflets.rs 619 does *)
Definition g_neighborhoods (g : graph) (k : nat) : res (graph * list (list nat * list f64)) :=
  let! g := g_remove_duplicates g in
  let! r := mapi_res (fun i nn => let! u := get (g_updated g) i in Ret (g_node k (g_ez g) u i nn)) 0 (g_nn g) in
  Ret (Graph (g_ez g) (map fst r) (g_updated g),
       flat_map (fun p => match snd p with Some x => [x] | None => [] end) r).

(** graph.rs 6-11, 80-102.  The memory is counted in bytes: 8 for a [Distance] and 8 for a
    [usize]; overflow is not modelled. *)
Record g_statistics := GStats { gs_num_nodes : nat; gs_num_edges : nat; gs_max_neighborhood_size : nat; gs_used_memory : N }.
Definition g_stats (g : graph) : res g_statistics :=
  let num_nodes := length (filter (fun nn => match nn with [] => false | _ => true end) (g_nn g)) in
  let num_edges := list_sum (map (@length entry) (g_nn g)) in
  let! max_neighborhood_size := match map (@length entry) (g_nn g) with [] => Panic | x :: l => Ret (fold_left Nat.max l x) end in
  let used_memory := fold_left N.add (map (fun nn : list entry => N.of_nat (length nn) * 16)%N (g_nn g)) 0%N in
  Ret (GStats num_nodes num_edges max_neighborhood_size used_memory).

(** What a user may do with a graph. *)
Inductive g_op := GInsert (d : f64) (a b : nat) | GReset | GRead (k : nat).
Definition g_step (g : graph) (op : g_op) : res (graph * list (list nat * list f64)) :=
  match op with
  | GInsert d a b => let! g' := g_insert g d a b in Ret (g', [])
  | GReset => Ret (g_reset_updated g, [])
  | GRead k => g_neighborhoods g k
  end.
(** the final graph, and everything the reads returned *)
Fixpoint g_run (g : graph) (ops : list g_op) : res (graph * list (list nat * list f64)) :=
  match ops with
  | [] => Ret (g, [])
  | op :: t =>
      let! '(g', out) := g_step g op in
      let! '(g'', out') := g_run g' t in
      Ret (g'', out ++ out')
  end.
