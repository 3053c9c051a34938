(** Sorting of (hash, index) pairs: src/sort.rs. *)
From Verif Require Import Base HashValue.

Notation hpair := (N * N)%type.

(** sort.rs 3-10: [((x >> 8 * b) & 0xff) as usize] *)
Definition getbyte (x : N) (b : nat) : nat :=
  N.to_nat (N.land (N.shiftr x (8 * N.of_nat b)) 0xff).

(** sort.rs 14 *)
Definition BYTES : nat := 8.

(** [b[i][v]] and [b[i][v] = x] on [[[usize; 256]; BYTES]] *)
Definition get2 (b : list (list nat)) (i v : nat) : res nat :=
  let! row := get b i in get row v.
Definition put2 (b : list (list nat)) (i v x : nat) : res (list (list nat)) :=
  let! row := get b i in
  let! row' := put row v x in
  put b i row'.

(** sort.rs 17-24: histograms of the eight bytes in one pass over the data *)
Definition histograms (data : list hpair) : res (list (list nat)) :=
  foreach data
    (fun e b =>
       foreach (seq 0 BYTES)
         (fun i b =>
            let! c := get2 b i (getbyte (fst e) i) in
            put2 b i (getbyte (fst e) i) (c + 1)) b)
    (repeat (repeat 0 256) BYTES).

(** sort.rs 27-34: turn counts into write heads *)
Definition write_heads (b : list (list nat)) : res (list (list nat)) :=
  let! '(b, _) :=
    foreach (seq 0 256)
      (fun i s =>
         foreach (seq 0 BYTES)
           (fun j (s : list (list nat) * list nat) =>
              let '(b, sum) := s in
              let! sj := get sum j in
              let! bji := get2 b j i in
              let! b := put2 b j i sj in
              let! sum := put sum j (sj + bji) in
              Ret (b, sum)) s)
      (b, repeat 0 BYTES) in
  Ret b.

(** sort.rs 36-50: one pass; writes into [scratch] *)
Definition pass (data scratch : list hpair) (pass_idx : nat) (hist : list nat)
  : res (list hpair * list nat) :=
  foreach data
    (fun e (s : list hpair * list nat) =>
       let '(scratch, hist) := s in
       let b := getbyte (fst e) pass_idx in
       let! t := get hist b in
       let! hist := put hist b (t + 1) in
       let! scratch := put scratch t e in
       Ret (scratch, hist))
    (scratch, hist).

(** sort.rs 12-65.  [swap_with_slice] exchanges the two slices. *)
Definition sort_hash_pairs (data scratch : list hpair) : res (list hpair * list hpair) :=
  assert_ (length data =? length scratch)
    (let! b := histograms data in
     let! b := write_heads b in
     foreach (seq 0 BYTES)
       (fun i (s : list hpair * list hpair) =>
          let '(data, scratch) := s in
          let! hist := get b i in
          let! '(scratch', _) := pass data scratch i hist in
          Ret (scratch', data))
       (data, scratch)).

(** [in1[i1] < in2[i2]] on tuples: lexicographic *)
Definition pair_lt (a b : hpair) : bool :=
  (N.ltb (fst a) (fst b)) || (N.eqb (fst a) (fst b) && N.ltb (snd a) (snd b)).

(** sort.rs 67-99.  The index loops over [in1], [in2], [out] are written as
    recursion on the remaining parts of the two inputs; [out] is filled left to right. *)
Fixpoint merge (in1 : list hpair) : list hpair -> list hpair :=
  match in1 with
  | [] => fun in2 => in2
  | a :: t1 =>
      fix merge_in2 (in2 : list hpair) : list hpair :=
        match in2 with
        | [] => a :: t1
        | b :: t2 => if pair_lt a b then a :: merge t1 in2 else b :: merge_in2 t2
        end
  end.

(** [data.chunks(size)], [size > 0]; recursion bounded by the length. *)
Fixpoint chunks_aux {A} (fuel size : nat) (l : list A) : list (list A) :=
  match fuel with
  | O => []
  | S f =>
      match l with
      | [] => []
      | _ => firstn size l :: chunks_aux f size (skipn size l)
      end
  end.
Definition chunks {A} (size : nat) (l : list A) : list (list A) := chunks_aux (length l) size l.

(** sort.rs 101-125.  The chunks are disjoint, so the parallel loop over them is
    a map; [par_chunks_mut] panics on a zero size. *)
Definition merge_chunk (chunk_size : nat) (c : list hpair) : list hpair :=
  if length c <? chunk_size then c else merge (firstn chunk_size c) (skipn chunk_size c).
Definition merge_chunks (data : list hpair) (chunk_size : nat) : res (list hpair) :=
  if chunk_size =? 0 then Panic
  else Ret (concat (map (merge_chunk chunk_size) (chunks (2 * chunk_size) data))).

(** sort.rs 134-136: sort every chunk *)
Definition sort_chunks (data scratch : list hpair) (chunk_size : nat) : res (list hpair) :=
  if chunk_size =? 0 then Panic
  else
    foreach (combine (chunks chunk_size data) (chunks chunk_size scratch))
      (fun cs acc =>
         let! '(c, _) := sort_hash_pairs (fst cs) (snd cs) in
         Ret (acc ++ c)) [].

(** sort.rs 127-144.  [chunk_size = ceil(len / threads)]; the division through
    [f64] is modelled exactly; see ExactInt.v and C137. *)
Definition par_sort_hash_pairs (threads : nat) (data scratch : list hpair) (fuel : nat)
  : res (list hpair) :=
  assert_ (length data =? length scratch)
    (let chunk_size := (length data + threads - 1) / threads in
     let! data := sort_chunks data scratch chunk_size in
     loop fuel
       (fun (s : list hpair * nat) =>
          let '(data, chunk_size) := s in
          if chunk_size <? length data then
            let! data := merge_chunks data chunk_size in
            Ret (inl (data, chunk_size * 2))
          else Ret (inr data))
       (data, chunk_size)).
