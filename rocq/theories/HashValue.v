(** 64-bit hash values: src/index.rs 24-54. *)
From Verif Require Import Base.
Local Open Scope N_scope.

(** index.rs 24 *)
Definition K : nat := 8%nat.
Definition u64_max : N := 0xFFFFFFFFFFFFFFFF.
Definition u32_max : N := 0xFFFFFFFF.

(** index.rs 25-35 *)
Definition MASKS : list N :=
  [ 0x0000000000000000;
    0xFF00000000000000;
    0xFFFF000000000000;
    0xFFFFFF0000000000;
    0xFFFFFFFF00000000;
    0xFFFFFFFFFF000000;
    0xFFFFFFFFFFFF0000;
    0xFFFFFFFFFFFFFF00;
    0xFFFFFFFFFFFFFFFF ].

(** index.rs 40-47.  [7 - k] underflows for [k > 7]: panic.  [N.lnot _ 64] is [!] on u64. *)
Definition set_byte (h : N) (k : nat) (byte : N) : res N :=
  if (k <=? 7)%nat then
    let byte_pos := (7 - k)%nat in
    let sh := N.of_nat ((1 * byte_pos) * 8) in
    let cleared := N.land h (N.lnot (N.shiftl 0xFF sh) 64) in
    Ret (N.lor cleared (N.shiftl byte sh))
  else Panic.

(** index.rs 49-53: [assert!(prefix > 0)], then [MASKS[prefix]] (bounds-checked). *)
Definition prefix_eq (a b : N) (prefix : nat) : res bool :=
  assert_ (0 <? prefix)%nat
    (let! mask := get MASKS prefix in
     Ret (N.land a mask =? N.land b mask)).
