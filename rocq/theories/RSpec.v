(** Means, standard deviations and distances over the reals: what the numerical code is
    meant to compute. *)
From Coq Require Import Reals.
From Verif Require Import Base.

(** sum, mean and (population) standard deviation of a list *)
Definition total (l : list R) : R := fold_right Rplus 0%R l.
Definition mean_of (l : list R) : R := (total l / INR (length l))%R.
Definition sd_of (l : list R) : R :=
  sqrt (total (map (fun x => (x - mean_of l) * (x - mean_of l))%R l) / INR (length l)).
(** z-normalised values *)
Definition znorm (l : list R) : list R := map (fun x => ((x - mean_of l) / sd_of l)%R) l.
(** dot product and Euclidean distance of two lists of the same length *)
Definition inner (a b : list R) : R := total (map (fun ab => fst ab * snd ab)%R (combine a b)).
Definition euclid (a b : list R) : R :=
  sqrt (total (map (fun ab => (fst ab - snd ab) * (fst ab - snd ab))%R (combine a b))).
(** z-normalised Euclidean distance *)
Definition zdistance (a b : list R) : R := euclid (znorm a) (znorm b).

(** the window of length [w] at position [i] *)
Definition window (ts : list R) (w i : nat) : list R := firstn w (skipn i ts).
