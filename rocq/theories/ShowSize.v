(** Printing a memory size: src/allocator.rs 110-122. *)
From Coq Require Import String.
From Verif Require Import Base Text Main.
Local Open Scope N_scope.
Local Open Scope list_scope.

(** division to the nearest integer, the even one if there are two *)
Definition nearest (n d : N) : N :=
  let q := n / d in
  let r := n mod d in
  if 2 * r <? d then q
  else if d <? 2 * r then q + 1
  else if N.even q then q else q + 1.
(** allocator.rs 113: [self.0 as f64], an integer: exact below [2^53], otherwise the nearest
    number with 53 bits *)
Definition as_f64 (n : N) : N :=
  if n <? 2 ^ 53 then n
  else let ulp := 2 ^ (N.log2 n - 52) in nearest n ulp * ulp.
(** [{:.2}]: the exact quotient (the divisor is a power of two) to the nearest hundredth *)
Definition show_hundredths (n unit : N) : list N :=
  let h := nearest (100 * as_f64 n) unit in
  show_number (h / 100) ++ codes "." ++ [48 + h mod 100 / 10; 48 + h mod 100 mod 10].
(** allocator.rs 111-121 *)
Definition show_size (n : N) : list N :=
  if 1024 * 1024 * 1024 <=? n then show_hundredths n (1024 * 1024 * 1024) ++ codes " Gbytes"
  else if 1024 * 1024 <=? n then show_hundredths n (1024 * 1024) ++ codes " Mbytes"
  else if 1024 <=? n then show_hundredths n 1024 ++ codes " Kbytes"
  else show_number n ++ codes " bytes".
