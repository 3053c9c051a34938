(** What a decimal number in a text means. *)
From Coq Require Import Reals String Floats.SpecFloat.
From Verif Require Import Base F64 Text TextSpec FpOps.
Local Open Scope list_scope.
Local Open Scope R_scope.

(** digits with or without a point; at least one digit *)
Inductive plain_text : list N -> R -> Prop :=
| whole_text whole : is_digits whole -> plain_text (written whole) (IZR (Z.of_N (decimal whole)))
| point_text whole frac : is_digits (whole ++ frac) ->
    plain_text (written whole ++ codes "." ++ written frac) (IZR (Z.of_N (decimal (whole ++ frac))) / 10 ^ length frac).
(** perhaps followed by a power of ten *)
Inductive decimal_text : list N -> R -> Prop :=
| no_exponent text v : plain_text text v -> decimal_text text v
| exponent text v e plus ex : plain_text text v -> In e (codes "eE") -> plus = [] \/ plus = codes "+" -> is_digits ex ->
    decimal_text (text ++ e :: plus ++ written ex) (v * 10 ^ N.to_nat (decimal ex))
| negative_exponent text v e ex : plain_text text v -> In e (codes "eE") -> is_digits ex ->
    decimal_text (text ++ e :: codes "-" ++ written ex) (v / 10 ^ N.to_nat (decimal ex)).
(** perhaps with a sign in front *)
Inductive signed_text : list N -> R -> Prop :=
| no_sign text v : decimal_text text v -> signed_text text v
| plus_sign text v : decimal_text text v -> signed_text (codes "+" ++ text) v
| minus_sign text v : decimal_text text v -> signed_text (codes "-" ++ text) (- v).

(** [x] is the number nearest to [v]; infinite if [v] is beyond the largest number by more than
    half the distance to the number before that *)
Definition largest : R := 2 ^ 1024 * (1 - / 2 ^ 54).
Definition reads_as (x : f64) (v : R) : Prop :=
  (Rabs v < largest -> number x /\ forall y, number y -> Rabs (fval x - v) <= Rabs (fval y - v)) /\
  (largest < v -> x = S754_infinity false) /\
  (v < - largest -> x = S754_infinity true).

(** the units of [Bytes::try_from] *)
Inductive size_unit : list N -> R -> Prop :=
| unit_bytes : size_unit [] 1
| unit_kb : size_unit (codes "Kb") 1024
| unit_mb : size_unit (codes "Mb") (1024 * 1024)
| unit_gb : size_unit (codes "Gb") (1024 * 1024 * 1024).
(** [core] is [text] after every occurrence of [name] is taken out, from the left *)
Inductive without (name : list N) : list N -> list N -> Prop :=
| without_nil : without name [] []
| without_name text core : without name text core -> without name (name ++ text) core
| without_other c text core : (forall rest, c :: text <> name ++ rest) -> without name text core -> without name (c :: text) (c :: core).
(** [text] is a size in the unit of [m] bytes, and [core] is what is left without the unit *)
Inductive core_of : list N -> list N -> R -> Prop :=
| core_unit front name m core : name <> [] -> size_unit name m -> without name (front ++ name) core -> core_of (front ++ name) core m
| core_none text : (forall front name m, name <> [] -> size_unit name m -> text <> front ++ name) -> core_of text text 1.
(** [inf], [infinity] and [nan], in any letter case, perhaps with a sign *)
Inductive word_text : list N -> list N -> bool -> Prop :=
| word_plain text word : map lowercase text = word -> In word [codes "inf"; codes "infinity"; codes "nan"] -> word_text text word false
| word_plus text word : map lowercase text = word -> In word [codes "inf"; codes "infinity"; codes "nan"] -> word_text (codes "+" ++ text) word false
| word_minus text word : map lowercase text = word -> In word [codes "inf"; codes "infinity"; codes "nan"] -> word_text (codes "-" ++ text) word true.
