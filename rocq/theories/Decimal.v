(** Decimal numbers in text: [str::parse::<f64>], and the memory sizes made of it
    (src/allocator.rs 128-155).

    Text is a list of character codes, as in Text.v.  The conversion of the standard library
    is not code of this project: it is modelled by its documentation, a grammar and the
    nearest [f64]. *)
From Coq Require Import QArith String Floats.SpecFloat.
From Verif Require Import Base F64 Iterator FpOps Text Counts FloatErf.
Local Open Scope N_scope.
Local Open Scope list_scope.

Definition is_digit (c : N) : bool := (48 <=? c) && (c <=? 57).
(** the digits in front, as numbers, and the rest *)
Fixpoint span_digits (s : list N) : list N * list N :=
  match s with
  | c :: t => if is_digit c then let '(ds, r) := span_digits t in (c - 48 :: ds, r) else ([], s)
  | [] => ([], [])
  end.
Definition number_of (digits : list N) : N := fold_left (fun acc d => acc * 10 + d) digits 0.
(** an optional sign: is it a minus? *)
Definition take_sign (s : list N) : bool * list N :=
  match s with
  | c :: t => if c =? 45 then (true, t) else if c =? 43 then (false, t) else (false, s)
  | [] => (false, [])
  end.
(** what follows the digits: nothing, or [e] and a whole number with an optional sign *)
Definition take_exponent (s : list N) : option Z :=
  match s with
  | [] => Some 0%Z
  | c :: t =>
      if lower c =? 101 then
        let '(neg, t) := take_sign t in
        match span_digits t with
        | ((_ :: _) as ds, []) => Some (if neg then - Z.of_N (number_of ds) else Z.of_N (number_of ds))%Z
        | _ => None
        end
      else None
  end.
(** [n * 10^e], rounded once *)
Definition nearest_decimal (n : N) (e : Z) : f64 :=
  lit (Qmake (Z.of_N n * 10 ^ Z.max 0 e) (Z.to_pos (10 ^ Z.max 0 (- e)))).
Definition signed (neg : bool) (x : f64) : f64 := if neg then SFopp x else x.
(** [str::parse::<f64>()]; [None] is an error *)
Definition parse_f64 (s : list N) : option f64 :=
  let '(neg, t) := take_sign s in
  let word := map lower t in
  if list_eq_dec N.eq_dec word (codes "inf") then Some (S754_infinity neg)
  else if list_eq_dec N.eq_dec word (codes "infinity") then Some (S754_infinity neg)
  else if list_eq_dec N.eq_dec word (codes "nan") then Some S754_nan
  else
    let '(whole, t) := span_digits t in
    let '(frac, t) := match t with c :: r => if c =? 46 then span_digits r else ([], t) | [] => ([], []) end in
    match whole ++ frac with
    | [] => None
    | digits => option_map (fun e => signed neg (nearest_decimal (number_of digits) (e - Z.of_nat (length frac)))) (take_exponent t)
    end.

(** [str::ends_with] *)
Definition ends_with (p s : list N) : bool := match strip (rev p) (rev s) with Some _ => true | None => false end.
(** [String::remove_matches] with a pattern of two characters: every occurrence, from the left *)
Fixpoint remove_matches (a b : N) (s : list N) : list N :=
  match s with
  | x :: ((y :: t) as r) => if (x =? a) && (y =? b) then remove_matches a b t else x :: remove_matches a b r
  | _ => s
  end.
(** allocator.rs 128-155.  [None] is [Err]. *)
Definition f_1024 : f64 := lit 1024.
Definition try_from_string (s : list N) : option N :=
  if ends_with (codes "Gb") s then
    option_map (fun num => as_usize (fmul (fmul (fmul num f_1024) f_1024) f_1024)) (parse_f64 (remove_matches 71 98 s))
  else if ends_with (codes "Mb") s then
    option_map (fun num => as_usize (fmul (fmul num f_1024) f_1024)) (parse_f64 (remove_matches 77 98 s))
  else if ends_with (codes "Kb") s then
    option_map (fun num => as_usize (fmul num f_1024)) (parse_f64 (remove_matches 75 98 s))
  else option_map as_usize (parse_f64 s).
