(** Random numbers: uniform shifts, normal numbers and their sums. *)
From Coq Require Import Reals.
From Coquelicot Require Import Coquelicot.
From Verif Require Import Base RSpec.
Local Open Scope R_scope.

(** the integral of a function over all real numbers *)
Definition over_line (f : R -> R) (value : R) : Prop := is_RInt_gen f (Rbar_locally m_infty) (Rbar_locally p_infty) value.
(** the probability of an event about a number drawn uniformly from [0, 1) *)
Definition uniform_probability (event : R -> bool) (p : R) : Prop := is_RInt (fun u => if event u then 1 else 0) 0 1 p.

(** the normal density with mean 0 and standard deviation [s] *)
Definition normal_density (s t : R) : R := exp (- (t * t) / (2 * (s * s))) / (s * sqrt (2 * PI)).

(** [sum_density l f]: [f] is the density of the sum of independent normal numbers whose
    standard deviations are in [l].  The density of a sum of two independent numbers is the
    convolution of their densities. *)
Inductive sum_density : list R -> (R -> R) -> Prop :=
| one_number : forall s f, 0 < s -> (forall x, f x = normal_density s x) -> sum_density [s] f
| one_more : forall s l f g, 0 < s -> sum_density l f ->
    (forall x, over_line (fun t => normal_density s t * f (x - t)) (g x)) -> sum_density (s :: l) g.

(** The differences of two vectors that are not 0.  A standard normal number times one of
    them is a normal number with that standard deviation. *)
Definition deviations (a b : list R) : list R :=
  filter (fun s => if Rlt_dec 0 s then true else false) (map (fun ab => Rabs (fst ab - snd ab)) (combine a b)).
