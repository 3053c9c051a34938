(** The coin tossed for every pair, which Iterator.v leaves out: src/motiflets.rs 498-508 and
    545, with the [Bernoulli] distribution of rand 0.8.5. *)
From Coq Require Import Floats.SpecFloat.
From Verif Require Import Base F64 HashValue Enumerator Moves Profile Brute TopK Graph Iterator FpOps Counts.

(** [f64::min]: the other one if one is NaN *)
Definition f_min (a b : f64) : f64 := if is_nan a then b else if is_nan b then a else if flt b a then b else a.

(** motiflets.rs 501-507: [p_sample].  [probability] is [index.collision_probability_at], and
    [reps] is [index.get_repetitions()]. *)
Definition sample_rate (probability : f64 -> f64) (threshold : f64) (reps : nat) : f64 :=
  let p_threshold := probability threshold in
  if is_nan p_threshold then f_one
  else f_min (fdiv (f_of_nat 8) (fmul p_threshold (f_of_nat reps))) f_one.

(** [u64::MAX], that stands for a probability of 1 *)
Definition always_true : N := 2 ^ 64 - 1.
(** [2.0 * (1u64 << 63) as f64] *)
Definition coin_scale : f64 := S754_finite false 4503599627370496 12.
(** motiflets.rs 508, [Bernoulli::new(p).unwrap()]: the number that the coin keeps.  Anything
    but a number from 0 to 1 is refused. *)
Definition bernoulli_new (p : f64) : res N :=
  if fle f_zero p && flt p f_one then Ret (as_usize (fmul p coin_scale))
  else if feq p f_one then Ret always_true else Panic.
(** motiflets.rs 545, [coin.sample(&mut trng)], where the generator gives the word [v] *)
Definition bernoulli_sample (c : N) (v : N) : bool := (c =? always_true)%N || (v <? c)%N.

(** motiflets.rs 489-603 with the coin; all the rest is in [update_graph] *)
Definition update_graph_coin (probability : f64 -> f64) (p : problem) (s : iter) (fuel : nat) : res iter :=
  assert_ (c_rep (it_conf s) <? length (it_tables s))
  (let! threshold := graph_threshold p s in
   let! _ := bernoulli_new (sample_rate probability threshold (length (it_tables s))) in
   update_graph p s fuel).
(** motiflets.rs 740-838, as [turn] *)
Definition turn_coin (probability : f64 -> f64) (p : problem) (s : iter) (fuel : nat) : res iter :=
  let! s := update_graph_coin probability p s fuel in
  let! s := emit_confirmed p s in
  assert_ (0 <? p_n p) (advance p s).
(** motiflets.rs 701-841, as [loop_body] *)
Definition loop_body_coin (probability : f64 -> f64) (p : problem) (s : iter) (go : bool) (fuel : nat) : res (iter + (iter * answer)) :=
  match it_return s with
  | _ :: _ => let '(s, o) := pop s in Ret (inr (s, answer_of o))
  | [] =>
      if negb go then Ret (inr (s, Interrupted))
      else if forallb tk_is_complete (it_top s) then Ret (inr (s, End))
      else if (p_threshold p <? it_candidates s) && p_stop p then
        let! s := emit_everything s in
        let '(s, o) := pop s in Ret (inr (s, answer_of o))
      else
        let! s := turn_coin probability p s fuel in Ret (inl s)
  end.
(** motiflets.rs 696-845, as [next_interruptible] *)
Definition next_coin (probability : f64 -> f64) (p : problem) (callback : nat -> bool) (s : iter) (fuel : nat) : res (iter * answer) :=
  loop fuel
    (fun st : iter * nat =>
       let '(s, i) := st in
       let! r := loop_body_coin probability p s (callback i) fuel in
       match r with
       | inl s => Ret (inl (s, S i))
       | inr x => Ret (inr x)
       end) (s, 0).
(** a sequence of calls, as [calls] *)
Fixpoint calls_coin (probability : f64 -> f64) (p : problem) (cbs : list (nat -> bool)) (s : iter) (fuel : nat) : res (iter * list answer) :=
  match cbs with
  | [] => Ret (s, [])
  | cb :: t =>
      let! '(s, a) := next_coin probability p cb s fuel in
      let! '(s, l) := calls_coin probability p t s fuel in
      Ret (s, a :: l)
  end.
(** a whole run, as [session] *)
Definition session_coin (probability : f64 -> f64) (p : problem) (a b : nat) (d : f64) (cbs : list (nat -> bool)) (fuel : nat) : res (iter * list answer) :=
  let! s := iter_new p a b d in
  calls_coin probability p cbs s fuel.
