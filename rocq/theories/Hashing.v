(** Hashing the windows of a series: src/index.rs 96-254, 425-510, in exact arithmetic
    (see Series.v and FFT.v). *)
From Coq Require Import Reals.
From Verif Require Import Base HashValue Enumerator Series FFT.

(** index.rs 96-101: eight random vectors, eight shifts, and the quantisation width *)
Record hasher := Hasher { h_vectors : list (list R); h_shifts : list R; h_width : R }.

(** index.rs 104-134.  [Uniform::new(0, width)] panics unless [0 < width]; a sample is a
    number of [[0, 1)] (in [us]) times the width.  The numbers and the vectors are those
    that come out of the generator. *)
Definition hasher_new (us : list R) (vectors : list (list R)) (width : R) : res hasher :=
  assert_ (if Rlt_dec 0 width then true else false)
    (Ret (Hasher vectors (map (fun u => u * width)%R us) width)).

(** [h as i64]: towards zero.  The values this is applied to fit. *)
Definition trunc (h : R) : Z := if Rle_dec 0 h then Int_part h else (- Int_part (- h))%Z.
(** [f64::signum], only applied to numbers that are not zero *)
Definition signum (h : R) : R := if Rlt_dec h 0 then (-1)%R else 1%R.
(** index.rs 237-241.  [((h as i64 & 0xFF) as i8) as u8] is the number of [0..255] that
    was masked. *)
Definition quantise (shift width x : R) : N :=
  let h := ((x + shift) / width)%R in
  let h := if Rlt_dec 128 (Rabs h) then (signum h * 127)%R else h in
  Z.to_N (Z.land (trunc h) 255).

(** index.rs 221-254.  A NaN is [None]; [i as u32] drops the high bits. *)
Definition hash (hs : hasher) (s : series) (f : fftdata) (output : list (N * N)) (max_k : nat) : res (list (N * N)) :=
  assert_ (num_subsequences s =? length output)%nat
    (foreach (seq 0 max_k)
       (fun k out =>
          let! v := get (h_vectors hs) k in
          let! shift := get (h_shifts hs) k in
          znormalized_sliding_dot_product_write s f v out
            (fun i x o =>
               match x with
               | Some x =>
                   let! h := set_byte (fst o) k (quantise shift (h_width hs) x) in
                   Ret (h, (N.of_nat i mod 2 ^ 32)%N)
               | None => Ret (u64_max, u32_max)
               end))
       (repeat (0, 0)%N (length output))).

(** index.rs 495-510, 275-278: one repetition.  [arrange] is the sort by hash value, which
    is not stable.  Where the two columns are kept is in Disk.v. *)
Definition repetition_table (arrange : list (N * N) -> list (N * N)) (hs : hasher) (s : series) (f : fftdata) (max_k : nat)
  : res (list N * list N) :=
  let! l := hash hs s f (repeat (0, 0)%N (num_subsequences s)) max_k in
  Ret (map fst (arrange l), map snd (arrange l)).

(** index.rs 183-204: the infinities that stand for NaN are at the end and are removed;
    [None] is an infinity *)
Fixpoint drop_infinite (l : list (option R)) : list (option R) :=
  match l with
  | None :: l => drop_infinite l
  | _ => l
  end.
Definition pop_infinite (l : list (option R)) : list (option R) := rev (drop_infinite (rev l)).
(** index.rs 169-216, without the log messages.  [arrange] is the sort by [total_cmp]; the
    positions kept next to the products are not used. *)
Definition compute_width (arrange : list (option R) -> list (option R)) (s : series) (f : fftdata) (v : list R) : res R :=
  let! dotps := znormalized_sliding_dot_product_write s f v (repeat (Some 0%R) (num_subsequences s)) (fun i x o => Ret x) in
  let dotps := pop_infinite (arrange dotps) in
  let! perc1 := get dotps (length dotps / 100) in
  let! perc99 := get dotps (99 * length dotps / 100) in
  match perc1, perc99 with
  | Some perc1, Some perc99 => Ret (Rmax (Rabs perc1) (Rabs perc99) / 128)%R
  | _, _ => Panic         (* infinite: cannot happen *)
  end.

(** index.rs 444-471: the width is doubled until the first repetition has collisions at the
    longest prefix.  The generator is cloned in every round, so the same numbers and vectors
    come out of it each time.  In floating point the width would end up infinite, and
    [Uniform::new] would panic: here there is no largest width. *)
Definition find_width (arrange : R -> list (N * N) -> list (N * N)) (s : series) (f : fftdata) (ez : nat)
    (us : list R) (vectors : list (list R)) (width : R) (fuel : nat) : res R :=
  loop fuel
    (fun width =>
       let! hs := hasher_new us vectors width in
       let! '(hashes, indices) := repetition_table (arrange width) hs s f K in
       let! e := enum_new fuel hashes indices K None in
       let! c := estimate_num_collisions fuel ez e in
       if (0 <? c)%nat then Ret (inr width) else Ret (inl (width * 2)%R))
    width.
