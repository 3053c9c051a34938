(** Enumeration of hash collisions: src/index.rs 577-586, 672-830. *)
From Verif Require Import Base HashValue.

(** [u32::overlaps] (timeseries.rs 28-33) on indices kept as [N]; see Overlaps.v
    for the machine-word version. *)
Definition overlapsN (a b : N) (ez : nat) : bool :=
  (Z.abs (Z.of_N a - Z.of_N b) - Z.of_nat ez <? 0)%Z.

(** [slice::partition_point]: binary search for the first element on which the
    predicate is false (core::slice::binary_search_by).  [n] is fuel, at least
    the size of the slice. *)
Fixpoint partition_search {A} (n : nat) (l : list A) (pred : A -> res bool) (base size : nat) : res nat :=
  if size <=? 1 then Ret base
  else
    match n with
    | O => Spin
    | S n =>
        let half := size / 2 in
        let mid := base + half in
        let! x := get l mid in
        let! b := pred x in
        partition_search n l pred (if b then mid else base) (size - half)
    end.
Definition partition_point {A} (l : list A) (pred : A -> res bool) : res nat :=
  match l with
  | [] => Ret 0
  | _ =>
      let! base := partition_search (length l) l pred 0 (length l) in
      let! x := get l base in
      let! b := pred x in
      Ret (base + if b then 1 else 0)
  end.

(** [&v[a..b]] *)
Definition slice {A} (l : list A) (a b : nat) : res (list A) :=
  if (a <=? b) && (b <=? length l) then Ret (firstn (b - a) (skipn a l)) else Panic.

(** index.rs 672-679 *)
Record enumerator := Enum {
  e_prefix : nat;
  e_prev : option nat;
  e_hashes : list N;
  e_indices : list N;
  e_start : nat;   (* current_range.start *)
  e_end : nat;     (* current_range.end *)
  e_i : nat;
  e_j : nat
}.

(** index.rs 697-728 *)
Definition next_range (fuel : nat) (s : enumerator) : res enumerator :=
  let hashes := e_hashes s in
  let p := e_prefix s in
  let start := e_end s in
  let! h := get hashes start in
  if length hashes <=? start then
    Ret (Enum p (e_prev s) hashes (e_indices s) start start (e_i s) (e_j s))
  else
    let! '(low, offset) :=
      loop fuel
        (fun (st : nat * nat) =>
           let '(low, offset) := st in
           if start + offset <? length hashes then
             let! hv := get hashes (start + offset) in
             let! b := prefix_eq hv h p in
             if b then Ret (inl (start + offset, offset * 2)) else Ret (inr st)
           else Ret (inr st))
        (start, 1) in
    let high := Nat.min (start + offset) (length hashes) in
    let! sl := slice hashes low high in
    let! off := partition_point sl (fun hv => prefix_eq h hv p) in
    let e := low + off in
    Ret (Enum p (e_prev s) hashes (e_indices s) start e start (start + 1)).

(** index.rs 681-693 *)
Definition enum_new (fuel : nat) (hashes indices : list N) (prefix : nat) (prev : option nat)
  : res enumerator :=
  assert_ ((0 <? prefix) && (prefix <=? K))
    (next_range fuel (Enum prefix prev hashes indices 0 0 0 1)).

(** index.rs 763-773: should positions [i], [j] be reported? *)
Definition reportable (s : enumerator) (ez : nat) (check_prefix : bool) (i j : nat) : res (option (N * N)) :=
  let! a := get (e_indices s) i in
  let! b := get (e_indices s) j in
  let! ha := get (e_hashes s) i in
  let! hb := get (e_hashes s) j in
  let! before :=
    (if check_prefix then
       match e_prev s with
       | Some pp => prefix_eq ha hb pp
       | None => Ret false
       end
     else Ret false) in
  if negb before && negb (overlapsN a b ez) then Ret (Some (N.min a b, N.max a b)) else Ret None.

(** index.rs 755-782: the loop on [j] for a fixed [i].  The result is [inr] when
    the buffer is full (the function returns), [inl] when the loop ends. *)
Definition loop_j (fuel : nat) (cap ez : nat) (check : bool) (s : enumerator) (i : nat)
  (j : nat) (out : list (N * N)) : res ((list (N * N)) + (nat * list (N * N))) :=
  loop fuel
    (fun (st : nat * list (N * N)) =>
       let '(j, out) := st in
       if j <? e_end s then
         assert_ ((e_start s <=? i) && (i <? e_end s))
         (assert_ ((e_start s <=? j) && (j <? e_end s))
         (let! r := reportable s ez check i j in
          let! out :=
            match r with
            | Some ab => if length out <? cap then Ret (out ++ [ab]) else Panic
            | None => Ret out
            end in
          if cap <=? length out then Ret (inr (inr (j + 1, out)))
          else Ret (inl (j + 1, out))))
       else Ret (inr (inl out)))
    (j, out).

(** index.rs 754-785: the loop on [i] *)
Definition loop_i (fuel : nat) (cap ez : nat) (check : bool) (s : enumerator)
  (out : list (N * N)) : res ((list (N * N)) + (enumerator * list (N * N))) :=
  loop fuel
    (fun (st : nat * nat * list (N * N)) =>
       let '(i, j, out) := st in
       if i <? e_end s then
         let! r := loop_j fuel cap ez check s i j out in
         match r with
         | inr (j, out) =>
             Ret (inr (inr (Enum (e_prefix s) (e_prev s) (e_hashes s) (e_indices s)
                              (e_start s) (e_end s) i j, out)))
         | inl out => Ret (inl (i + 1, i + 1 + 1, out))
         end
       else Ret (inr (inl out)))
    (e_i s, e_j s, out).

(** index.rs 735-794.  [cap] is [output.len()]; the result is the new state and
    the pairs written at the beginning of the buffer ([None] when there are none).
    After the loop on [i] the fields [i], [j] are overwritten by [next_range]. *)
Definition enum_next (fuel : nat) (cap ez : nat) (check : bool) (s : enumerator)
  : res (enumerator * option (list (N * N))) :=
  loop fuel
    (fun (st : enumerator * list (N * N)) =>
       let '(s, out) := st in
       if e_end s <? length (e_hashes s) then
         let! r := loop_i fuel cap ez check s out in
         match r with
         | inr (s, out) => Ret (inr (s, Some out))
         | inl out =>
             let! s := next_range fuel s in
             Ret (inl (s, out))
         end
       else
         Ret (inr (s, match out with [] => None | _ => Some out end)))
    (s, []).

(** Repeated calls with buffers of the given sizes, stopping at the first [None]:
    the batches, and whether exhaustion was reached. *)
Fixpoint enum_batches (fuel : nat) (caps : list nat) (ez : nat) (check : bool) (s : enumerator)
  : res (list (list (N * N)) * bool) :=
  match caps with
  | [] => Ret ([], false)
  | c :: caps =>
      let! '(s, r) := enum_next fuel c ez check s in
      match r with
      | None => Ret ([], true)
      | Some b =>
          let! '(bs, fin) := enum_batches fuel caps ez check s in
          Ret (b :: bs, fin)
      end
  end.

(** The complete story of one enumerator: a run of calls with buffers of sizes [caps]. *)
Definition enumerate (hashes indices : list N) (p : nat) (prev : option nat)
  (check : bool) (ez : nat) (caps : list nat) (fuel : nat) : res (list (list (N * N)) * bool) :=
  let! s := enum_new fuel hashes indices p prev in
  enum_batches fuel caps ez check s.

(** index.rs 796-829.  [range.len() as f64 > (hashes.len() as f64).sqrt()] is
    modelled exactly: [len^2 > n]; see ExactInt.v and C137. *)
Definition estimate_num_collisions (fuel : nat) (ez : nat) (s : enumerator) : res nat :=
  loop fuel
    (fun (st : enumerator * nat) =>
       let '(s, cnt) := st in
       if e_end s <? length (e_hashes s) then
         let len := e_end s - e_start s in
         let! cnt :=
           (if length (e_hashes s) <? len * len then Ret (cnt + len * len)
            else
              foreach (seq (e_start s) len)
                (fun i cnt =>
                   foreach (seq (i + 1) (e_end s - (i + 1)))
                     (fun j cnt =>
                        let! a := get (e_indices s) i in
                        let! b := get (e_indices s) j in
                        if negb (overlapsN a b ez) then Ret (cnt + 1) else Ret cnt) cnt) cnt) in
         let! s := next_range fuel s in
         Ret (inl (s, cnt))
       else Ret (inr cnt))
    (s, 0).
