(** The motiflet iterator: src/motiflets.rs 355-855, with src/index.rs 474-520 and 929-974. *)
From Coq Require Import Floats.SpecFloat.
From Verif Require Import Base F64 HashValue Overlaps Enumerator Moves Profile Brute TopK Graph.

(** Everything the search takes from outside its own control logic.  All of these are
    arbitrary in the theorems, up to the hypotheses they state:
    - the two ways of computing a distance (distance.rs 23-58 and 76-114);
    - the table obtained by hashing the series for repetition [r] with [max_k] hash
      functions and sorting (index.rs 221-254, 497-510), for the quantisation width at
      which the search for a width (index.rs 444-471) ended;
    - the failure probability (index.rs 549-566);
    - the outcome of the coin tossed for each pair (motiflets.rs 500-508, 545), as a
      function of the configuration, the batch and the position in the batch: no
      configuration occurs twice in a run, so this fixes nothing;
    - the measured costs and the collision profile (index.rs 846-907). *)
Record problem := Problem {
  p_n : nat;                                (* ts.num_subsequences() *)
  p_ez : nat;                               (* exclusion_zone *)
  p_max_k : nat;                            (* max_k, the largest support *)
  p_top_k : nat;                            (* top_k *)
  p_zeucl : nat -> nat -> f64;
  p_zeucl_threshold : nat -> nat -> f64 -> option f64;
  p_table : nat -> nat -> list N * list N;
  p_failure : f64 -> nat -> nat -> option nat -> option nat -> f64;
  p_delta : f64;
  p_coin : config -> nat -> nat -> bool;
  p_expected : list f64;                    (* expected_collisions *)
  p_setup_cost : f64;                       (* repetition_setup_cost *)
  p_collision_cost : f64;                   (* collision_cost *)
  p_max_repetitions : nat;                  (* index_stats.max_repetitions *)
  p_buffer : nat;                           (* pairs_buffer.len() *)
  p_threshold : nat;                        (* collisions_threshold *)
  p_stop : bool;                            (* stop_on_collisions_threshold *)
  p_nan_first : bool                        (* the sign of a NaN cost, see [total_lt] *)
}.

Notation table := (list N * list N)%type.
Notation buffer_entry := (nat * nat * f64)%type.

(** motiflets.rs 355-382, the fields that change *)
Record iter := Iter {
  it_top : list topk;
  it_next : option f64;              (* next_to_confirm *)
  it_graph : graph;
  it_return : list motiflet;         (* to_return *)
  it_tables : list table;            (* index.repetitions *)
  it_buffer : list buffer_entry;     (* pairs_buffer *)
  it_conf : config;                  (* rep, prefix, previous_prefix, previous_prefix_repetitions *)
  it_candidates : nat                (* stats.cnt_candidates *)
}.

(** ** The index *)

(** index.rs 474-520.  [hash] goes through [self.vectors[k]] for [k < max_k], and there
    are [K] vectors (index.rs 101-105, 231-235).  Where tables are stored is in Profile.v
    and Disk.v. *)
Definition add_repetitions (p : problem) (tables : list table) (total max_k : nat) : res (list table) :=
  assert_ (length tables <? total)
    (assert_ (max_k <=? K)
       (Ret (tables ++ map (fun r => p_table p r max_k) (seq (length tables) (total - length tables))))).

(** ** Creation, motiflets.rs 385-475 *)

(** [a], [b], [d] is the pair found by sampling, motiflets.rs 412-413 (see Sampling.v). *)
Definition iter_new (p : problem) (a b : nat) (d : f64) : res iter :=
  (* index.rs 457-464 *)
  let! tables := add_repetitions p [] 1 K in
  let! tables := add_repetitions p tables INITIAL_REPETITIONS K in
  (* index.rs 874-886 *)
  let! _ := calibration_prefix (p_expected p) in
  let! prefix := first_meaningful_prefix (p_expected p) in
  assert_ (0 <? prefix)
  (let top := repeat (tk_new (p_top_k p) (p_ez p)) (p_max_k p + 1) in
   let! t0 := get top 0 in
   let! top := put top 0 (tk_disable t0) in
   let! t1 := get top 1 in
   let! top := put top 1 (tk_disable t1) in
   let! t2 := get top 2 in
   let! t2 := tk_insert t2 (Motiflet [a; b] d) in
   let! top := put top 2 t2 in
   Ret (Iter top (Some d) (g_new (p_n p) (p_ez p)) [] tables
          (repeat (0, 0, f_zero) (p_buffer p)) (config_start prefix) 0)).

(** ** The pairs of one repetition, motiflets.rs 489-603 *)

(** motiflets.rs 544-564: one pair of a batch: its new entry and whether its distance was
    computed.  Reading the two windows needs positions inside the series. *)
Definition fixup (p : problem) (threshold : f64) (coin : bool) (ab : N * N) : res (buffer_entry * nat) :=
  let a := N.to_nat (fst ab) in
  let b := N.to_nat (snd ab) in
  if coin then
    assert_ (a <? b)
      (assert_ (b <? p_n p)
         (Ret ((a, b, match p_zeucl_threshold p a b threshold with Some d => d | None => f_inf end), 1)))
  else Ret ((a, b, f_inf), 0).

(** motiflets.rs 530-578: the chunks of a batch are handled by different threads, each on
    its own part of the buffer: the result is that of handling them in order. *)
Fixpoint fixup_batch (p : problem) (threshold : f64) (coin : nat -> bool) (i : nat) (batch : list (N * N))
  : res (list buffer_entry * nat) :=
  match batch with
  | [] => Ret ([], 0)
  | ab :: t =>
      let! '(e, c) := fixup p threshold (coin i) ab in
      let! '(es, cs) := fixup_batch p threshold coin (S i) t in
      Ret (e :: es, c + cs)
  end.

(** motiflets.rs 586-591: all the buffer is read, not only this batch *)
Definition insert_buffer (p : problem) (buffer : list buffer_entry) (g : graph) : res graph :=
  foreach buffer
    (fun (e : buffer_entry) g =>
       let '(a, b, d) := e in
       if is_finite d && negb (overlaps a b (p_ez p)) then g_insert g d a b else Ret g) g.

(** motiflets.rs 512-593: one turn of the loop, for a batch just enumerated;
    [chunks_mut(0)] panics (line 534) *)
Definition use_batch (p : problem) (threshold : f64) (coin : nat -> bool) (batch : list (N * N))
  (s : graph * list buffer_entry * nat) : res (graph * list buffer_entry * nat) :=
  let '(g, buffer, cnt) := s in
  assert_ (0 <? length batch)
  (let! '(es, c) := fixup_batch p threshold coin 0 batch in
   let buffer := es ++ skipn (length batch) buffer in
   let! g := insert_buffer p buffer g in
   Ret (g, buffer, cnt + c)).

(** motiflets.rs 510-593: all the batches of an enumerator.  What is done with a batch has
    no effect on the enumerator, which is run to its end first. *)
Definition all_batches (p : problem) (t : table) (c : config) (fuel : nat) : res (list (list (N * N))) :=
  let! '(batches, finished) :=
    enumerate (fst t) (snd t) (c_prefix c) (c_prev c) (c_check c) (p_ez p) (repeat (p_buffer p) fuel) fuel in
  if (finished : bool) then Ret batches else Spin.

(** motiflets.rs 498-500 *)
Definition graph_threshold (p : problem) (s : iter) : res f64 :=
  let! t := get (it_top s) (p_max_k p) in
  Ret (match tk_kth_distance t with Some d => d | None => f_inf end).

(** motiflets.rs 489-603, without making the coin, [Bernoulli::new(p_sample).unwrap()]: that is
    in Coin.v, where C133 says when it succeeds. *)
Definition update_graph (p : problem) (s : iter) (fuel : nat) : res iter :=
  let c := it_conf s in
  assert_ (c_rep c <? length (it_tables s))
  (let g := g_reset_updated (it_graph s) in
   let! threshold := graph_threshold p s in
   let! t := get (it_tables s) (c_rep c) in
   let! batches := all_batches p t c fuel in
   let! '(g, buffer, cnt) :=
     foreach (combine (seq 0 (length batches)) batches)
       (fun (ib : nat * list (N * N)) s => use_batch p threshold (p_coin p c (fst ib)) (snd ib) s)
       (g, it_buffer s, it_candidates s) in
   Ret (Iter (it_top s) (it_next s) g (it_return s) (it_tables s) buffer c cnt)).

(** ** Candidates and confirmations, motiflets.rs 607-694 *)

(** motiflets.rs 622-627: is one of the distances smaller than the corresponding extent? *)
Definition worth (top : list topk) (dists : list f64) : bool :=
  existsb (fun dl : f64 * option f64 => flt (fst dl) (match snd dl with Some e => e | None => f_inf end))
    (combine (skipn 1 dists) (map tk_kth_distance (skipn 2 top))).

(** motiflets.rs 632-645 *)
Definition insert_prefixes (p : problem) (ids : list nat) (extents : list f64) (top : list topk) : res (list topk) :=
  foreach (seq 1 (length ids - 1))
    (fun i top =>
       let! e := get extents i in
       if i + 1 <=? p_max_k p then
         let! t := get top (i + 1) in
         let! t := tk_insert t (Motiflet (firstn (i + 1) ids) e) in
         put top (i + 1) t
       else Ret top) top.

(** motiflets.rs 619-649 *)
Definition add_neighbourhood (p : problem) (nb : list nat * list f64) (top : list topk) : res (list topk) :=
  if worth top (snd nb) then
    let! extents := compute_extents (p_zeucl p) (fst nb) in
    insert_prefixes p (fst nb) extents top
  else Ret top.

(** motiflets.rs 666-674 *)
Definition confirmed (p : problem) (c : config) (extent : f64) : bool :=
  flt (p_failure p extent (c_rep c + 1) (c_prefix c) (c_prev c) (c_prev_reps c)) (p_delta p).

(** motiflets.rs 663-678 *)
Definition emit_queues (p : problem) (c : config) (top : list topk) (ret : list motiflet)
  : res (list topk * list motiflet) :=
  foreach (seq 0 (p_max_k p + 1))
    (fun k (s : list topk * list motiflet) =>
       let '(top, ret) := s in
       let! t := get top k in
       if tk_is_complete t then Ret (top, ret)
       else
         let! '(t, new) := tk_emit t (confirmed p c) in
         let! top := put top k t in
         Ret (top, ret ++ new)) (top, ret).

(** [Iterator::min] on [Distance]s: comparing with NaN panics (knn.rs 9-14) *)
Definition min_distance (l : list f64) : res (option f64) :=
  match l with
  | [] => Ret None
  | x :: t =>
      let! m := foreach t
        (fun y m => match partial_cmp m y with
                    | None => Panic
                    | Some Gt => Ret y
                    | _ => Ret m
                    end) x in
      Ret (Some m)
  end.

(** motiflets.rs 679-683 *)
Definition next_distances (top : list topk) : list f64 :=
  flat_map (fun t => match tk_sned t with Some d => [d] | None => [] end) top.

(** motiflets.rs 607-694 without the statistics.  The neighbourhoods are produced lazily
    in the code; nothing in the loop touches the graph. *)
Definition emit_confirmed (p : problem) (s : iter) : res iter :=
  let! '(g, nbs) := g_neighborhoods (it_graph s) (p_max_k p + 1) in
  let! top := foreach nbs (fun nb top => add_neighbourhood p nb top) (it_top s) in
  let! '(top, ret) := emit_queues p (it_conf s) top (it_return s) in
  let! next := min_distance (next_distances top) in
  Ret (Iter top next g ret (it_tables s) (it_buffer s) (it_conf s) (it_candidates s)).

(** ** The next configuration, motiflets.rs 760-838 *)

Definition prec : Z := 53.
Definition emax : Z := 1024.
(** [x as f64] *)
Definition f_of_nat (n : nat) : f64 := binary_normalize prec emax (Z.of_nat n) 0 false.

(** index.rs 943-950 *)
Definition needed_repetitions (p : problem) (d : f64) (prefix : nat) : nat * f64 :=
  (fix go (rest nreps : nat) (fp : f64) : nat * f64 :=
     match rest with
     | O => (nreps, fp)
     | S rest =>
         if flt (p_delta p) fp then go rest (nreps + 1) (p_failure p d nreps prefix None None)
         else (nreps, fp)
     end) (p_max_repetitions p) 0 f_one.

(** index.rs 940-972: the cost of one prefix *)
Definition cost_to_confirm (p : problem) (index_repetitions : nat) (d : f64) (prefix : nat) (collisions : f64) : f64 * nat :=
  let '(nreps, _) := needed_repetitions p d prefix in
  if p_max_repetitions p <=? nreps then (f_inf, p_max_repetitions p)
  else
    let new_repetitions := f_of_nat (nreps - index_repetitions) in
    (SFmul prec emax (f_of_nat nreps)
       (SFadd prec emax (SFmul prec emax (p_collision_cost p) collisions)
          (SFmul prec emax (p_setup_cost p) new_repetitions)), nreps).

(** index.rs 929-974; [&expected_collisions[..=max_prefix]] *)
Definition costs_to_confirm (p : problem) (index_repetitions max_prefix : nat) (d : f64) : res (list (f64 * nat)) :=
  assert_ (max_prefix <? length (p_expected p))
    (Ret (map (fun pc => cost_to_confirm p index_repetitions d (fst pc) (snd pc))
            (combine (seq 0 (max_prefix + 1)) (p_expected p)))).

(** [f64::total_cmp], strictly less.  A NaN comes first or last, according to its sign,
    which [f64] values do not keep here: [nan_first] says which. *)
Definition total_lt (nan_first : bool) (a b : f64) : bool :=
  match SFcompare a b with
  | Some Lt => true
  | Some Eq => is_sign_negative a && negb (is_sign_negative b)
  | Some Gt => false
  | None => if nan_first then is_nan a && negb (is_nan b) else negb (is_nan a)
  end.

(** [iter().enumerate().min_by(total_cmp).unwrap()] on the costs: the first minimum *)
Fixpoint best_cost (nan_first : bool) (i : nat) (l : list (f64 * nat)) (best : nat * f64) : nat * f64 :=
  match l with
  | [] => best
  | (c, _) :: t => best_cost nan_first (S i) t (if total_lt nan_first c (snd best) then (i, c) else best)
  end.

(** motiflets.rs 766-811 *)
Definition next_prefix (p : problem) (s : iter) : res nat :=
  let c := it_conf s in
  if must_stay c then Ret (c_prefix c)
  else
    match it_next s with
    | None => Ret (c_prefix c)
    | Some d =>
        if is_finite d then
          let! costs := costs_to_confirm p (length (it_tables s)) (c_prefix c) d in
          match costs with
          | [] => Panic
          | (c0, _) :: t =>
              let '(best, cost) := best_cost (p_nan_first p) 1 t (0, c0) in
              if is_infinite cost then Ret (c_prefix c) else Ret best
          end
        else if c_rep c <? p_max_repetitions p then Ret (c_prefix c)
        else Ret (c_prefix c - 1)
    end.

(** motiflets.rs 815-838 *)
Definition advance (p : problem) (s : iter) : res iter :=
  let! next := next_prefix p s in
  let! tables :=
    (if c_prefix (it_conf s) <=? next then
       let rep := c_rep (it_conf s) + 1 in
       if length (it_tables s) <=? rep then add_repetitions p (it_tables s) (rep + 1) (next + 1)
       else Ret (it_tables s)
     else Ret (it_tables s)) in
  let! c := config_move (it_conf s) next in
  Ret (Iter (it_top s) (it_next s) (it_graph s) (it_return s) tables (it_buffer s) c (it_candidates s)).

(** ** One call, motiflets.rs 696-845 *)

(** motiflets.rs 724-732: return everything that is left *)
Definition emit_everything (s : iter) : res iter :=
  let! '(top, ret) :=
    foreach (it_top s)
      (fun t (acc : list topk * list motiflet) =>
         let '(top, ret) := acc in
         let! '(t, new) := tk_emit t (fun _ => true) in
         Ret (top ++ [tk_disable t], ret ++ new)) ([], it_return s) in
  Ret (Iter top (it_next s) (it_graph s) ret (it_tables s) (it_buffer s) (it_conf s) (it_candidates s)).

(** [self.to_return.pop()] *)
Definition pop (s : iter) : iter * option motiflet :=
  match rev (it_return s) with
  | [] => (s, None)
  | m :: t =>
      (Iter (it_top s) (it_next s) (it_graph s) (rev t) (it_tables s) (it_buffer s) (it_conf s) (it_candidates s), Some m)
  end.

(** motiflets.rs 740-838: the rest of a turn of the loop.  [graph.stats()] takes the
    maximum over the nodes (graph.rs 87). *)
Definition turn (p : problem) (s : iter) (fuel : nat) : res iter :=
  let! s := update_graph p s fuel in
  let! s := emit_confirmed p s in
  assert_ (0 <? p_n p) (advance p s).

(** what a call returns: interrupted by the callback, a motiflet, or the end *)
Inductive answer := Interrupted | Item (m : motiflet) | End.
Definition answer_of (o : option motiflet) : answer := match o with Some m => Item m | None => End end.

(** motiflets.rs 701-841: one turn of the loop, the callback having answered [go] *)
Definition loop_body (p : problem) (s : iter) (go : bool) (fuel : nat) : res (iter + (iter * answer)) :=
  match it_return s with
  | _ :: _ => let '(s, o) := pop s in Ret (inr (s, answer_of o))
  | [] =>
      if negb go then Ret (inr (s, Interrupted))
      else if forallb tk_is_complete (it_top s) then Ret (inr (s, End))
      else if (p_threshold p <? it_candidates s) && p_stop p then
        let! s := emit_everything s in
        let '(s, o) := pop s in Ret (inr (s, answer_of o))
      else
        let! s := turn p s fuel in Ret (inl s)
  end.

(** motiflets.rs 696-845; [callback i] is the answer of the [i]-th call of the callback
    made during this call: [true] to go on *)
Definition next_interruptible (p : problem) (callback : nat -> bool) (s : iter) (fuel : nat) : res (iter * answer) :=
  loop fuel
    (fun st : iter * nat =>
       let '(s, i) := st in
       let! r := loop_body p s (callback i) fuel in
       match r with
       | inl s => Ret (inl (s, S i))
       | inr x => Ret (inr x)
       end) (s, 0).

(** motiflets.rs 848-855 *)
Definition next (p : problem) (s : iter) (fuel : nat) : res (iter * answer) :=
  next_interruptible p (fun _ => true) s fuel.

(** A sequence of calls, each with its callback. *)
Fixpoint calls (p : problem) (cbs : list (nat -> bool)) (s : iter) (fuel : nat) : res (iter * list answer) :=
  match cbs with
  | [] => Ret (s, [])
  | cb :: t =>
      let! '(s, a) := next_interruptible p cb s fuel in
      let! '(s, l) := calls p t s fuel in
      Ret (s, a :: l)
  end.
(** A whole run: creation and calls. *)
Definition session (p : problem) (a b : nat) (d : f64) (cbs : list (nat -> bool)) (fuel : nat) : res (iter * list answer) :=
  let! s := iter_new p a b d in
  calls p cbs s fuel.
