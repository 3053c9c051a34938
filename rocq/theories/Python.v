(** The Python layer: pyattimo/src/lib.rs 10-431, and src/motifs.rs 24-42.

    Not modelled: the argument conversions of pyo3, signal handling (the callback is the
    one of the iterator), the drawing script, the observability file (see Files.v) and the
    strings of [__str__] and [__repr__]. *)
From Coq Require Import Floats.SpecFloat.
From Verif Require Import Base F64 Overlaps Brute TopK Iterator.

(** src/motiflets.rs 153-158 with the relative contrast, which TopK.v leaves out.
    [Motiflet::new], 196-203 *)
Record contrasted := Contrasted { cm_indices : list nat; cm_extent : f64; cm_relative_contrast : f64 }.
Definition contrasted_new (indices : list nat) (extent avg_dist : f64) : contrasted :=
  Contrasted indices extent (SFdiv prec emax avg_dist extent).
(** lib.rs 43-54, without the series; 66-74 *)
Record kmotiflet := KMotiflet { km_support : nat; km_indices : list nat; km_extent : f64; km_relative_contrast : f64 }.
Definition with_context (m : contrasted) : kmotiflet :=
  KMotiflet (length (cm_indices m)) (cm_indices m) (cm_extent m) (cm_relative_contrast m).

(** ** Motifs *)
(** src/motifs.rs 16-22; [None] of the conversions is [Err] *)
Record motif_full := MotifFull { mf_a : nat; mf_b : nat; mf_distance : f64; mf_confirmed : bool; mf_relative_contrast : f64 }.
(** src/motifs.rs 24-42 *)
Definition motif_of_motiflet (m : contrasted) : res (option motif_full) :=
  if negb (length (cm_indices m) =? 2) then Ret None
  else
    let! x := get (cm_indices m) 0 in
    let! y := get (cm_indices m) 1 in
    Ret (Some (MotifFull (Nat.min x y) (Nat.max x y) (cm_extent m) true (cm_relative_contrast m))).
(** lib.rs 10-22, without the series *)
Record pymotif := PyMotif { pm_a : nat; pm_b : nat; pm_distance : f64; pm_relative_contrast : f64 }.
(** lib.rs 24-41 *)
Definition motif_of_kmotiflet (m : kmotiflet) : res (option pymotif) :=
  if negb (length (km_indices m) =? 2) then Ret None
  else
    let! x := get (km_indices m) 0 in
    let! y := get (km_indices m) 1 in
    Ret (Some (PyMotif (Nat.min x y) (Nat.max x y) (km_extent m) (km_relative_contrast m))).

(** ** The iterator *)
(** lib.rs 257-260 *)
Inductive pyiter := Enumerator (s : iter) | BruteForce (pos : nat) (motiflets : list kmotiflet).

(** lib.rs 283-363.  The problem [p] holds the number of windows, the support, the
    exclusion zone and [top_k]; [a], [b], [d] is the pair found by sampling; [ts], [order]
    and [t] are the inputs of the brute-force search; [average] is the result of
    [average_pairwise_distance], if it ends (Sampling.v). *)
Definition py_new (p : problem) (a b : nat) (d : f64) (ts : series) (order : nat -> option (list nat)) (t : split)
    (average : f64) (brute_force_threshold : nat) : res pyiter :=
  assert_ (p_max_k p * p_ez p <=? p_n p)
    (if brute_force_threshold <? p_n p then
       let! s := iter_new p a b d in
       Ret (Enumerator s)
     else
       let! motiflets := brute_force_motiflets ts order (p_max_k p) (p_ez p) t in
       Ret (BruteForce 0
         (map (fun '(extent, indices) => KMotiflet (length indices) indices extent (SFdiv prec emax average extent)) motiflets))).

(** what a call returns *)
Inductive pyanswer (A : Type) := PyInterrupted | PyItem (m : A) | PyEnd.
Arguments PyInterrupted {A}. Arguments PyItem {A} m. Arguments PyEnd {A}.

(** lib.rs 380-400 *)
Definition py_next (p : problem) (average : f64) (callback : nat -> bool) (i : pyiter) (fuel : nat) : res (pyiter * pyanswer kmotiflet) :=
  match i with
  | Enumerator s =>
      let! '(s, answer) := next_interruptible p callback s fuel in
      Ret (Enumerator s,
        match answer with
        | Interrupted => PyInterrupted
        | Item m => PyItem (with_context (contrasted_new (ml_indices m) (ml_extent m) average))
        | End => PyEnd
        end)
  | BruteForce pos motiflets =>
      if length motiflets <=? pos then Ret (BruteForce pos motiflets, PyEnd)
      else
        let! m := get motiflets pos in
        Ret (BruteForce (pos + 1) motiflets, PyItem m)
  end.
(** lib.rs 244-247, on top of [py_next]: [try_into().unwrap()] *)
Definition py_next_motif (p : problem) (average : f64) (callback : nat -> bool) (i : pyiter) (fuel : nat) : res (pyiter * pyanswer pymotif) :=
  let! '(i, answer) := py_next p average callback i fuel in
  match answer with
  | PyInterrupted => Ret (i, PyInterrupted)
  | PyItem m =>
      let! o := motif_of_kmotiflet m in
      match o with Some motif => Ret (i, PyItem motif) | None => Panic end
  | PyEnd => Ret (i, PyEnd)
  end.
(** a sequence of calls, each with its callback *)
Fixpoint py_calls {A} (next : (nat -> bool) -> pyiter -> nat -> res (pyiter * pyanswer A)) (cbs : list (nat -> bool)) (i : pyiter) (fuel : nat)
  : res (pyiter * list (pyanswer A)) :=
  match cbs with
  | [] => Ret (i, [])
  | cb :: cbs =>
      let! '(i, a) := next cb i fuel in
      let! '(i, l) := py_calls next cbs i fuel in
      Ret (i, a :: l)
  end.

(** ** Plotting *)
(** [iter().step_by(k)], [skip] elements still to be skipped *)
Fixpoint step_by {A} (k skip : nat) (l : list A) : list A :=
  match l with
  | [] => []
  | a :: l => match skip with O => a :: step_by k (k - 1) l | S skip => step_by k skip l end
  end.
(** lib.rs 93-102 and 184-193; [downsampled_len] is 100000 there.  Dividing by zero panics. *)
Definition downsample {A} (downsampled_len : nat) (data : list A) (indices : list nat) : res (list A * list nat) :=
  if downsampled_len <? length data then
    assert_ (negb (downsampled_len =? 0))
      (let keep_every := length data / downsampled_len in
       assert_ (negb (keep_every =? 0))
         (Ret (step_by keep_every 0 data, map (fun i => i / keep_every) indices)))
  else Ret (data, indices).
Definition downsampled_len : nat := N.to_nat 100000.
