(** What the iterator is meant to return, and what is assumed of what it takes from outside. *)
From Verif Require Import Base F64 HashValue OverlapsSpec EnumSpec BruteSpec TopK TopKSpec Moves Profile Iterator.

(** Window [i] appears in some table of the index (flat windows do not). *)
Definition indexed (p : problem) (i : nat) : Prop :=
  i < p_n p /\ exists r k, 1 <= k <= K /\ In (N.of_nat i) (snd (p_table p r k)).

(** The assumptions on what comes from outside:
    - the exclusion zone and the buffer are not empty;
    - every table is a sorted, non-empty list of hash values (see C05, C06);
    - every entry refers to a window of the series, or has the largest hash value, which is
      the one given to flat windows (index.rs 243-247);
    - a distance found below a threshold has no sign (distance.rs 76-114: a square root);
    - distances are numbers >= 0, for distinct windows that are in the index;
    - the profile has an entry for every prefix length (index.rs 590-672). *)
Record sound (p : problem) : Prop := {
  sound_zone : 0 < p_ez p;
  sound_buffer : 0 < p_buffer p;
  sound_tables : forall r k, 1 <= k <= K ->
    table_ok (fst (p_table p r k)) (snd (p_table p r k)) /\ fst (p_table p r k) <> [];
  sound_indices : forall r k x i, 1 <= k <= K -> nth_error (snd (p_table p r k)) x = Some i ->
    (i < N.of_nat (p_n p))%N \/ nth_error (fst (p_table p r k)) x = Some u64_max;
  sound_threshold : forall a b t d, p_zeucl_threshold p a b t = Some d -> is_sign_negative d = false;
  sound_nonneg : nonneg (p_zeucl p);
  sound_numbers : forall i j, indexed p i -> indexed p j -> i <> j -> is_nan (p_zeucl p i j) = false;
  sound_profile : length (p_expected p) = K + 1
}.

(** The pair found by sampling: two windows that do not overlap, and a number. *)
Definition seed_ok (p : problem) (a b : nat) (d : f64) : Prop :=
  a < p_n p /\ b < p_n p /\ ~ too_close (p_ez p) a b /\ is_nan d = false.

(** A valid answer: support in range, windows of the index that do not overlap, and the
    extent is their largest distance. *)
Definition valid_motiflet (p : problem) (m : motiflet) : Prop :=
  2 <= length (ml_indices m) <= p_max_k p /\
  (forall i, In i (ml_indices m) -> indexed p i) /\
  pairwise_apart (p_ez p) (ml_indices m) /\
  max_pairwise (p_zeucl p) (ml_indices m) (ml_extent m).

(** An edge that may enter the neighbour graph. *)
Definition valid_edge (p : problem) (d : f64) (a b : nat) : Prop :=
  a < b /\ b < p_n p /\ ~ too_close (p_ez p) a b /\ is_finite d = true /\
  exists threshold, p_zeucl_threshold p a b threshold = Some d.

(** the items among the answers of a sequence of calls *)
Definition items (l : list answer) : list motiflet :=
  flat_map (fun a => match a with Item m => [m] | _ => [] end) l.

(** [greedy_from ez cands room taken ans]: having taken [taken], with room for [room] more,
    repeatedly take a candidate of smallest extent among those overlapping none of the ones
    taken, until there is no room or no such candidate; [ans] are the new ones in order *)
Inductive greedy_from (ez : nat) (cands : list motiflet) : nat -> list motiflet -> list motiflet -> Prop :=
| gf_full taken : greedy_from ez cands 0 taken []
| gf_none room taken :
    (forall c, In c cands -> exists r, In r taken /\ conflicting ez c r) ->
    greedy_from ez cands (S room) taken []
| gf_take room taken m ans :
    In m cands -> (forall r, In r taken -> ~ conflicting ez m r) ->
    (forall c, In c cands -> (forall r, In r taken -> ~ conflicting ez c r) -> fle (ml_extent m) (ml_extent c) = true) ->
    greedy_from ez cands room (m :: taken) ans ->
    greedy_from ez cands (S room) taken (m :: ans).

(** the states in which a run can be found, between two calls *)
Definition reachable (p : problem) (a b : nat) (d : f64) (s : iter) : Prop :=
  exists cbs fuel answers, session p a b d cbs fuel = Ret (s, answers).

(** what may become a candidate: a valid motiflet, or the pair found by sampling *)
Definition candidate (p : problem) (a b : nat) (d : f64) (m : motiflet) : Prop :=
  valid_motiflet p m \/ m = Motiflet [a; b] d.
(** candidates with the same support and the same extent overlap *)
Definition ties_overlap (p : problem) (a b : nat) (d : f64) : Prop :=
  forall x y, candidate p a b d x -> candidate p a b d y ->
    length (ml_indices x) = length (ml_indices y) ->
    feq (ml_extent x) (ml_extent y) = true -> conflicting (p_ez p) x y.

(** ** Histories *)
(** A pair of positions of the current repetition is due when it collides at the current
    prefix, is not in the last bucket (see C11), was not enumerated at the previous prefix
    (see C12) and is not a trivial match. *)
Definition due (p : problem) (s : iter) (t : list N * list N) (x y : nat) : Prop :=
  let c := it_conf s in
  collide (fst t) (c_prefix c) x y /\ ~ in_last_bucket (fst t) (c_prefix c) x /\
  ~ seen_before (fst t) (c_prev c) (c_check c) x y /\ ~ trivial (snd t) (p_ez p) x y.

(** The states a run goes through, newest first: between two of them there is one turn of
    the loop of a call, whether it ends the call or not. *)
Definition step (p : problem) (s s' : iter) : Prop :=
  exists go fuel, loop_body p s go fuel = Ret (inl s') \/ exists a, loop_body p s go fuel = Ret (inr (s', a)).
Inductive trace (p : problem) (a b : nat) (d : f64) : list iter -> Prop :=
| trace_new s : iter_new p a b d = Ret s -> trace p a b d [s]
| trace_step s s' l : trace p a b d (s :: l) -> step p s s' -> trace p a b d (s' :: s :: l).

(** ** When the control loop cannot abort
    - the search starts below the longest prefix;
    - the failure probability asked for is below 1;
    - the estimate of collisions for prefix 0 is infinite (index.rs 604-606);
    - the measured cost of a collision is positive, and that of a repetition is a finite
      number >= 0;
    - the number of repetitions fits in 53 bits;
    - no distance between windows of the index is infinite. *)
Record well_behaved (p : problem) (d : f64) : Prop := {
  wb_start : forall p0, first_meaningful_prefix (p_expected p) = Ret p0 -> p0 < K;
  wb_delta : flt (p_delta p) f_one = true;
  wb_first : nth_error (p_expected p) 0 = Some f_inf;
  wb_collision : flt f_zero (p_collision_cost p) = true;
  wb_setup : fle f_zero (p_setup_cost p) = true /\ is_finite (p_setup_cost p) = true;
  wb_repetitions : (Z.of_nat (p_max_repetitions p) < 2 ^ 53)%Z;
  wb_finite : forall i j, indexed p i -> indexed p j -> is_infinite (p_zeucl p i j) = false;
  wb_seed : is_finite d = true
}.

(** ** When the search is sure to end *)
(** in every repetition, at every prefix, some pair is enumerated *)
Definition fruitful (p : problem) : Prop :=
  forall r k q, 1 <= q <= k -> k <= K ->
    exists x y, let t := p_table p r k in
      collide (fst t) q x y /\ ~ in_last_bucket (fst t) q x /\ ~ trivial (snd t) (p_ez p) x y.
