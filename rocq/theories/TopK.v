(** The candidate queue of one support: src/motiflets.rs 152-322. *)
From Verif Require Import Base F64 Overlaps.

(** motiflets.rs 152-158, without [relative_contrast] *)
Record motiflet := Motiflet { ml_indices : list nat; ml_extent : f64 }.

(** motiflets.rs 218-228.  [top] and [emitted] are [BTreeSet]s ordered by extent
    (motiflets.rs 160-170): lists in iteration order here. *)
Record topk := TopK {
  tk_k : nat;
  tk_ez : nat;
  tk_threshold : nat;
  tk_top : list motiflet;
  tk_emitted : list motiflet;
  tk_sned : option f64;
  tk_disabled : bool
}.

(** motiflets.rs 231-233 *)
Definition tk_disable (s : topk) : topk :=
  TopK (tk_k s) (tk_ez s) (tk_threshold s) (tk_top s) (tk_emitted s) (tk_sned s) true.

(** motiflets.rs 234-245 *)
Definition tk_new (k ez : nat) : topk := TopK k ez ((k + 1) * (k + 1)) [] [] None false.

(** motiflets.rs 247-249 *)
Definition tk_is_complete (s : topk) : bool := tk_disabled s || (length (tk_emitted s) =? tk_k s).

(** [BTreeSet::insert]: an element comparing equal to a stored one is dropped;
    comparing with NaN panics (motiflets.rs 161-164).  The tree compares with
    fewer elements than this scan, which makes no difference without NaN. *)
Fixpoint bt_insert (m : motiflet) (l : list motiflet) : res (list motiflet) :=
  match l with
  | [] => Ret [m]
  | x :: t =>
      match partial_cmp (ml_extent m) (ml_extent x) with
      | None => Panic
      | Some Lt => Ret (m :: x :: t)
      | Some Eq => Ret (x :: t)
      | Some Gt => let! t' := bt_insert m t in Ret (x :: t')
      end
  end.

(** timeseries.rs 16-18 for motiflets *)
Definition ml_overlaps_iter (m : motiflet) (others : list motiflet) (ez : nat) : bool :=
  existsb (fun o => overlaps_lists (ml_indices m) (ml_indices o) ez) others.

(** motiflets.rs 274-285.  [clean] is the set built so far. *)
Fixpoint cleanup_loop (k ez threshold : nat) (l clean : list motiflet) : res (list motiflet) :=
  match l with
  | [] => Ret clean
  | m :: t =>
      let! clean' :=
        (if overlap_count (ml_indices m) (map ml_indices clean) ez <? k then bt_insert m clean else Ret clean) in
      if threshold <=? length clean' then Ret clean' else cleanup_loop k ez threshold t clean'
  end.
Definition tk_cleanup (s : topk) : res topk :=
  let! clean := cleanup_loop (tk_k s) (tk_ez s) (tk_threshold s) (tk_top s) [] in
  Ret (TopK (tk_k s) (tk_ez s) (tk_threshold s) clean (tk_emitted s) (tk_sned s) (tk_disabled s)).

(** motiflets.rs 255-261: with a full queue, [&motiflet > last] *)
Definition beyond_last (s : topk) (m : motiflet) : bool :=
  (length (tk_top s) =? tk_threshold s) &&
  match rev (tk_top s) with
  | [] => false
  | x :: _ => flt (ml_extent x) (ml_extent m)
  end.

(** motiflets.rs 251-268 *)
Definition tk_insert (s : topk) (m : motiflet) : res topk :=
  if tk_is_complete s then Ret s
  else if beyond_last s m then Ret s
  else
    let! top := bt_insert m (tk_top s) in
    let s' := TopK (tk_k s) (tk_ez s) (tk_threshold s) top (tk_emitted s) None (tk_disabled s) in
    let! s'' := (if tk_threshold s <? length top then tk_cleanup s' else Ret s') in
    assert_ (length (tk_top s'') <=? tk_threshold s) (Ret s'').

(** motiflets.rs 291-302 *)
Fixpoint kth_loop (k ez : nat) (l non_overlapping : list motiflet) : option f64 :=
  match l with
  | [] => None
  | m :: t =>
      let non_overlapping' :=
        if ml_overlaps_iter m non_overlapping ez then non_overlapping else non_overlapping ++ [m] in
      if length non_overlapping' =? k then option_map ml_extent (List.last (map Some non_overlapping') None)
      else kth_loop k ez t non_overlapping'
  end.
Definition tk_kth_distance (s : topk) : option f64 := kth_loop (tk_k s) (tk_ez s) (tk_top s) [].

(** motiflets.rs 304-321: the loop over the queue; returns the new [emitted], the
    motiflets pushed on [res] and the new [sned] *)
Fixpoint emit_loop (k ez : nat) (predicate : f64 -> bool) (l emitted out : list motiflet) (sned : option f64)
  : res (list motiflet * list motiflet * option f64) :=
  match l with
  | [] => Ret (emitted, out, sned)
  | m :: t =>
      if k <=? length emitted then Ret (emitted, out, sned)
      else if ml_overlaps_iter m emitted ez then emit_loop k ez predicate t emitted out sned
      else if predicate (ml_extent m) then
        let! emitted' := bt_insert m emitted in
        emit_loop k ez predicate t emitted' (out ++ [m]) sned
      else Ret (emitted, out, Some (ml_extent m))
  end.
Definition tk_emit (s : topk) (predicate : f64 -> bool) : res (topk * list motiflet) :=
  let! '(emitted, out, sned) :=
    emit_loop (tk_k s) (tk_ez s) predicate (tk_top s) (tk_emitted s) [] (tk_sned s) in
  Ret (TopK (tk_k s) (tk_ez s) (tk_threshold s) (tk_top s) emitted sned (tk_disabled s), out).

(** What the iterator may do with a queue (motiflets.rs 440-450, 590-601, 620-690). *)
Inductive tk_op := OpInsert (m : motiflet) | OpEmit (predicate : f64 -> bool) | OpDisable.

Definition tk_step (s : topk) (op : tk_op) : res (topk * list motiflet) :=
  match op with
  | OpInsert m => let! s' := tk_insert s m in Ret (s', [])
  | OpEmit p => tk_emit s p
  | OpDisable => Ret (tk_disable s, [])
  end.
(** the final queue and everything emitted, in order *)
Fixpoint tk_run (s : topk) (ops : list tk_op) : res (topk * list motiflet) :=
  match ops with
  | [] => Ret (s, [])
  | op :: t =>
      let! '(s', out) := tk_step s op in
      let! '(s'', out') := tk_run s' t in
      Ret (s'', out ++ out')
  end.
