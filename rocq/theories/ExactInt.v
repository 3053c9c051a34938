(** Whole numbers computed through floating point: src/sort.rs 127-144, src/index.rs 590-647 and 796-829,
    with the [f64] operations that RadixSort.v, Profile.v and Enumerator.v replace by exact ones. *)
From Coq Require Import Floats.SpecFloat.
From Verif Require Import Base F64 HashValue Overlaps RadixSort Enumerator Iterator Profile FpOps Counts.

(** [x.ceil()]: the least whole number not below [x]; it keeps the sign of a zero *)
Definition f_ceil (x : f64) : f64 :=
  match x with
  | S754_finite s m (Zneg k) =>
      let signed := if s then Zneg m else Zpos m in
      let z := (- ((- signed) / 2 ^ Zpos k))%Z in
      if (z =? 0)%Z then S754_zero s else SpecFloat.binary_normalize prec emax z 0 false
  | _ => x
  end.

(** sort.rs 132 *)
Definition chunk_size64 (len threads : nat) : nat :=
  N.to_nat (as_usize (f_ceil (fdiv (f_of_nat len) (f_of_nat threads)))).

(** sort.rs 127-144 *)
Definition par_sort_hash_pairs64 (threads : nat) (data scratch : list hpair) (fuel : nat) : res (list hpair) :=
  assert_ (length data =? length scratch)
    (let chunk_size := chunk_size64 (length data) threads in
     let! data := sort_chunks data scratch chunk_size in
     loop fuel
       (fun (s : list hpair * nat) =>
          let '(data, chunk_size) := s in
          if chunk_size <? length data then
            let! data := merge_chunks data chunk_size in
            Ret (inl (data, chunk_size * 2))
          else Ret (inr data))
       (data, chunk_size)).

(** index.rs 803 *)
Definition very_large64 (len n : nat) : bool := flt (fsqrt64 (f_of_nat n)) (f_of_nat len).

(** index.rs 796-829 *)
Definition estimate_num_collisions64 (fuel : nat) (ez : nat) (s : enumerator) : res nat :=
  loop fuel
    (fun (st : enumerator * nat) =>
       let '(s, cnt) := st in
       if e_end s <? length (e_hashes s) then
         let len := e_end s - e_start s in
         let! cnt :=
           (if very_large64 len (length (e_hashes s)) then Ret (cnt + len * len)
            else
              foreach (seq (e_start s) len)
                (fun i cnt =>
                   foreach (seq (i + 1) (e_end s - (i + 1)))
                     (fun j cnt =>
                        let! a := get (e_indices s) i in
                        let! b := get (e_indices s) j in
                        if negb (overlapsN a b ez) then Ret (cnt + 1) else Ret cnt) cnt) cnt) in
         let! s := next_range fuel s in
         Ret (inl (s, cnt))
       else Ret (inr cnt))
    (s, 0).

(** index.rs 590-647: the entries for the prefixes 0..8.  Counts and trivial matches are
    converted before they are subtracted. *)
Definition collision_profile_at64 (hashes indices : list N) (ez : nat) (fuel : nat) : res (list f64) :=
  let! counts :=
    foreach (seq 1 K)
      (fun prefix acc =>
         let! c := scan_prefix hashes indices ez prefix fuel in
         Ret (acc ++ [c])) [] in
  let! '(last, trivial) := get counts (K - 1) in
  let! adjusted :=
    foreach (firstn (K - 1) counts)
      (fun c acc =>
         let v := fsub (f_of_nat (fst c)) (f_of_nat trivial) in
         assert_ (fle f_zero v) (Ret (acc ++ [v]))) [] in
  Ret (f_inf :: adjusted ++ [f_of_nat last]).
