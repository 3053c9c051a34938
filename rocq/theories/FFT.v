(** Sliding dot products by Fourier transform and distance profiles, in exact arithmetic:
    src/timeseries.rs 281-600, 740-797.

    The library rustfft is not modelled: its specification, the discrete Fourier transform,
    is used instead.  Scratch buffers and thread-local storage have no effect. *)
From Coq Require Import Reals.
From Coquelicot Require Import Complex.
From Verif Require Import Base Series.
Local Open Scope R_scope.

(** ** Fourier transforms *)
Definition cis (x : R) : C := (cos x, sin x).
Definition csum (l : list C) : C := fold_right Cplus (RtoC 0) l.
(** [planner.plan_fft_forward(n).process(x)], for [n = x.len()] *)
Definition dft (x : list C) : list C :=
  let n := length x in
  map (fun k => csum (map (fun j => Cmult (nth j x (RtoC 0)) (cis (- (2 * PI * INR j * INR k / INR n)))) (seq 0 n))) (seq 0 n).
(** [planner.plan_fft_inverse(n).process(x)]: rustfft does not normalise *)
Definition idft (x : list C) : list C :=
  let n := length x in
  map (fun k => csum (map (fun j => Cmult (nth j x (RtoC 0)) (cis (2 * PI * INR j * INR k / INR n))) (seq 0 n))) (seq 0 n).

(** [.next_power_of_two()] *)
Definition next_power_of_two (n : nat) : nat := 2 ^ Nat.log2_up n.
(** [.resize(n, 0)] *)
Definition resize (n : nat) (l : list C) : list C := firstn n (l ++ repeat (RtoC 0) n).

(** timeseries.rs 740-755 *)
Record fftdata := FFTData { f_chunk_size : nat; f_length : nat; f_chunks : list (list C) }.

(** timeseries.rs 758-761 *)
Definition fft_length_of (s : series) : nat :=
  Nat.min (Nat.max (2 ^ 14) (next_power_of_two (s_w s))) (next_power_of_two (length (s_data s))).

(** timeseries.rs 757-797; a subtraction that would go below zero panics *)
Definition fft_new (fuel : nat) (s : series) : res fftdata :=
  let fft_length := fft_length_of s in
  let! chunks :=
    loop fuel
      (fun '(begin, chunks) =>
         if (begin <? length (s_data s))%nat then
           let end_ := Nat.min (begin + fft_length) (length (s_data s)) in
           let! v := slice (s_data s) begin end_ in
           let chunk := dft (resize fft_length (map RtoC v)) in
           assert_ (s_w s <=? fft_length)%nat
             (Ret (inl ((begin + (fft_length - s_w s))%nat, chunks ++ [chunk])))
         else Ret (inr chunks)) (0%nat, []) in
  assert_ (s_w s <=? fft_length)%nat
    (Ret (FFTData (fft_length - s_w s) fft_length chunks)).

(** ** Sliding dot products *)

(** timeseries.rs 312-322 and 375-383: the transform of the reversed query *)
Definition query_fft (s : series) (f : fftdata) (v : list R) : res (list C) :=
  let! vfft :=
    foreach (seq 0 (length v))
      (fun i vfft =>
         let! x := get v i in
         put vfft (s_w s - i - 1) (RtoC x)) (repeat (RtoC 0) (f_length f)) in
  Ret (dft vfft).
(** timeseries.rs 326-335 and 408-417: back to the time domain *)
Definition chunk_product (f : fftdata) (vfft chunk : list C) : res (list C) :=
  let! ivfft :=
    foreach (seq 0 (f_length f))
      (fun i ivfft =>
         let! a := get vfft i in
         let! b := get chunk i in
         put ivfft i (Cmult a b)) (repeat (RtoC 0) (f_length f)) in
  Ret (idft ivfft).

(** timeseries.rs 281-348; the callback acts on a state and may panic *)
Definition sliding_dot_product_for_each {S} (s : series) (f : fftdata) (v : list R)
    (action : nat -> R -> S -> res S) (st : S) : res S :=
  assert_ (length v =? s_w s)%nat
    (let stride := (f_length f - s_w s)%nat in
     let! vfft := query_fft s f v in
     foreach (combine (seq 0 (length (f_chunks f))) (f_chunks f))
       (fun '(chunk_idx, chunk) st =>
          let! ivfft := chunk_product f vfft chunk in
          let offset := (chunk_idx * stride)%nat in
          foreach (seq 0 (f_length f - s_w s))
            (fun i st =>
               if (i + offset <? num_subsequences s)%nat then
                 let! z := get ivfft ((i + length v - 1) mod f_length f) in
                 action (i + offset)%nat (Re z / INR (f_length f)) st
               else Ret st) st) st).

(** [.par_chunks_mut(k)] *)
Definition chunks_of {A} (k : nat) (l : list A) : list (list A) :=
  map (fun c => firstn k (skipn (c * k) l)) (seq 0 ((length l + k - 1) / k)).
(** a parallel iterator over disjoint parts: each part is handled on its own *)
Fixpoint mapM {A B} (g : A -> res B) (l : list A) : res (list B) :=
  match l with
  | [] => Ret []
  | a :: l => let! b := g a in let! t := mapM g l in Ret (b :: t)
  end.

(** timeseries.rs 350-432; [func] may panic.  The parts of [out] without a chunk are left
    as they are. *)
Definition sliding_dot_product_write {O} (s : series) (f : fftdata) (v : list R) (out : list O)
    (func : nat -> R -> O -> res O) : res (list O) :=
  assert_ (length v =? s_w s)%nat (assert_ (length out =? num_subsequences s)%nat
    (let stride := f_chunk_size f in
     let! vfft := query_fft s f v in
     assert_ (0 <? f_chunk_size f)%nat
       (let parts := chunks_of (f_chunk_size f) out in
        let! done :=
          mapM (fun '(chunk_idx, (chunk, out)) =>
            assert_ (length chunk =? f_length f)%nat
              (let! ivfft := chunk_product f vfft chunk in
               let offset := (chunk_idx * stride)%nat in
               foreach (seq 0 (f_length f - s_w s))
                 (fun i out =>
                    if (i <? length out)%nat then
                      let! z := get ivfft ((i + length v - 1) mod f_length f) in
                      let! o := get out i in
                      let! o := func (i + offset)%nat (Re z / INR (f_length f)) o in
                      put out i o
                    else Ret out) out))
            (combine (seq 0 (length (f_chunks f))) (combine (f_chunks f) parts)) in
        Ret (concat done ++ concat (skipn (length done) parts))))).

(** timeseries.rs 434-436 *)
Definition sliding_dot_product (s : series) (f : fftdata) (v : list R) (output : list R) : res (list R) :=
  sliding_dot_product_for_each s f v (fun i x output => put output i x) output.

(** timeseries.rs 473-479 and 497-503: what is handed over instead of the dot product [x];
    [None] is NaN *)
Definition znormalized_value (s : series) (sumv : R) (i : nat) (x : R) : res (option R) :=
  let! sd := sd s i in
  if Rlt_dec sd flat_sd_threshold then Ret None
  else
    let! m := mean s i in
    assert_ (gtb sd 0) (Ret (Some (x / sd - sumv * m / sd))).
(** timeseries.rs 463-482 *)
Definition znormalized_sliding_dot_product_for_each {S} (s : series) (f : fftdata) (v : list R)
    (action : nat -> option R -> S -> res S) (st : S) : res S :=
  let sumv := rsum v in
  sliding_dot_product_for_each s f v
    (fun i x st => let! y := znormalized_value s sumv i x in action i y st) st.
(** timeseries.rs 454-461 *)
Definition znormalized_sliding_dot_product (s : series) (f : fftdata) (v : list R) (output : list (option R)) :
  res (list (option R)) :=
  znormalized_sliding_dot_product_for_each s f v (fun i x output => put output i x) output.
(** timeseries.rs 484-506 *)
Definition znormalized_sliding_dot_product_write {O} (s : series) (f : fftdata) (v : list R) (out : list O)
    (func : nat -> option R -> O -> res O) : res (list O) :=
  let sumv := rsum v in
  sliding_dot_product_write s f v out
    (fun i x o => let! y := znormalized_value s sumv i x in func i y o).

(** ** Distance profiles *)
(** timeseries.rs 524-599, without the debug assertions; the buffer [buf] is a local
    variable here *)
Definition distance_profile (s : series) (f : fftdata) (from : nat) (out : list (option R)) : res (list (option R)) :=
  assert_ (length out =? num_subsequences s)%nat
    (let! buf := znormalized s from in
     let! out := znormalized_sliding_dot_product s f buf out in
     foreach (seq 0 (num_subsequences s))
       (fun i out =>
          if (i =? from)%nat then put out i (Some 0)
          else
            let! flat := is_flat s i in
            if flat then put out i None
            else
              let! x := get out i in
              match x with
              | None => Panic
              | Some x =>
                  let d := 2 * INR (s_w s) - 2 * x in
                  assert_ (if Rle_dec 0 d then true else false) (put out i (Some (sqrt d)))
              end) out).
