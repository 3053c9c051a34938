(** The public buffer of the k best motifs (src/motifs.rs 154-288). *)
From Verif Require Import Base F64 Overlaps Brute.

(** motifs.rs 16-22: a motif with its [confirmed] flag ([relative_contrast] is not modelled) *)
Record bmotif := BMotif { bm : motif; bm_confirmed : bool }.
(** motifs.rs 72-82 and the slice version, timeseries.rs 36-48 *)
Definition bm_overlaps (ez : nat) (x y : bmotif) : bool :=
  motif_overlaps (m_a (bm x)) (m_b (bm x)) (m_a (bm y)) (m_b (bm y)) ez.

(** motifs.rs 158-164 *)
Record mtop := MTop {
  mt_k : nat; mt_ez : nat; mt_top : list bmotif; mt_current : list bmotif; mt_should_update : bool }.

(** motifs.rs 182-190 *)
Definition mt_new (k ez : nat) : mtop := MTop k ez [] [] false.

(** motifs.rs 196-200: after all the motifs whose distance is at most that of [m]
    (the index loop and [Vec::insert], written as one recursion) *)
Fixpoint mt_place (m : bmotif) (l : list bmotif) : list bmotif :=
  match l with
  | [] => [m]
  | x :: t => if fle (m_dist (bm x)) (m_dist (bm m)) then x :: mt_place m t else m :: l
  end.

(** motifs.rs 202, [is_sorted] with the order of motifs.rs 57-64: no adjacent pair
    compares greater or is incomparable *)
Fixpoint mt_is_sorted (l : list bmotif) : bool :=
  match l with
  | x :: (y :: _) as t => motif_le (bm x) (bm y) && mt_is_sorted t
  | _ => true
  end.

(** motifs.rs 209-219: [kept] is [top[..i]], [l] is [top[i..]] *)
Fixpoint mt_cleanup (k ez : nat) (kept l : list bmotif) : list bmotif :=
  match l with
  | [] => kept
  | x :: t =>
      if k <=? length (filter (bm_overlaps ez x) kept)
      then mt_cleanup k ez kept t
      else mt_cleanup k ez (kept ++ [x]) t
  end.

(** motifs.rs 195-207.  [debug]: whether debug assertions are compiled in. *)
Definition mt_insert (debug : bool) (s : mtop) (m : bmotif) : res mtop :=
  let top := mt_place m (mt_top s) in
  assert_ (negb debug || mt_is_sorted top)
    (let top := mt_cleanup (mt_k s) (mt_ez s) [] top in
     assert_ (length top <=? (mt_k s + 1) * (mt_k s + 1))
       (Ret (MTop (mt_k s) (mt_ez s) top (mt_current s) true))).

(** motifs.rs 226-230 *)
Fixpoint mt_greedy (ez : nat) (current l : list bmotif) : list bmotif :=
  match l with
  | [] => current
  | x :: t =>
      if existsb (bm_overlaps ez x) current then mt_greedy ez current t
      else mt_greedy ez (current ++ [x]) t
  end.
(** motifs.rs 221-232 *)
Definition mt_update (s : mtop) : mtop :=
  if mt_should_update s
  then MTop (mt_k s) (mt_ez s) (mt_top s) (mt_greedy (mt_ez s) [] (mt_top s)) false
  else s.

(** motifs.rs 236-244 *)
Definition mt_k_th (s : mtop) : mtop * option bmotif :=
  let s := mt_update s in
  (s, if length (mt_current s) =? mt_k s then List.last (map Some (mt_current s)) None else None).
(** motifs.rs 246-252: finds the first one that is confirmed *)
Definition mt_first_not_confirmed (s : mtop) : mtop * option bmotif :=
  let s := mt_update s in (s, find bm_confirmed (mt_current s)).
(** motifs.rs 254-261 *)
Definition mt_last_confirmed (s : mtop) : mtop * option bmotif :=
  let s := mt_update s in (s, List.last (map Some (filter bm_confirmed (mt_current s))) None).
(** motifs.rs 263-269 *)
Definition mt_confirmed (s : mtop) : list bmotif := filter bm_confirmed (mt_top s).
(** motifs.rs 271-273, for closures that only set the flag *)
Definition mt_for_each (s : mtop) (f : motif -> bool -> bool) : mtop :=
  MTop (mt_k s) (mt_ez s) (map (fun m => BMotif (bm m) (f (bm m) (bm_confirmed m))) (mt_top s))
       (mt_current s) (mt_should_update s).
(** motifs.rs 279-282 *)
Definition mt_to_vec (s : mtop) : mtop * list bmotif :=
  let s := mt_update s in (s, mt_current s).
(** motifs.rs 284-288: the other buffer keeps its fields, with an empty [top] *)
Definition mt_add_all (debug : bool) (s other : mtop) : res (mtop * mtop) :=
  let! s' := foreach (mt_top other) (fun m s => mt_insert debug s m) s in
  Ret (s', MTop (mt_k other) (mt_ez other) [] (mt_current other) (mt_should_update other)).

(** What a user may do with a buffer. *)
Inductive mt_op := MtInsert (m : bmotif) | MtForEach (f : motif -> bool -> bool) | MtRead.
Definition mt_step (debug : bool) (s : mtop) (op : mt_op) : res mtop :=
  match op with
  | MtInsert m => mt_insert debug s m
  | MtForEach f => Ret (mt_for_each s f)
  | MtRead => Ret (fst (mt_to_vec s))
  end.
Definition mt_run (debug : bool) (s : mtop) (ops : list mt_op) : res mtop :=
  foreach ops (fun op s => mt_step debug s op) s.
(** the motifs given to the buffer *)
Definition mt_inserted (ops : list mt_op) : list motif :=
  flat_map (fun op => match op with MtInsert m => [bm m] | _ => [] end) ops.
