(** Repetitions in memory and on disk: src/index.rs 257-367.
    File-system failures are not modelled; see FileSystem.v for creation and
    removal of the files. *)
From Verif Require Import Base HashValue.

(** [u64::to_be_bytes] ([w = 8]) and [u32::to_be_bytes] ([w = 4]) *)
Fixpoint to_be_bytes (w : nat) (x : N) : list N :=
  match w with
  | O => []
  | S w' => (x / 256 ^ N.of_nat w')%N mod 256 :: to_be_bytes w' x
  end%N.

(** [u64::from_be_bytes], [u32::from_be_bytes] *)
Definition from_be_bytes (bytes : list N) : N :=
  fold_left (fun acc b => acc * 256 + b)%N bytes 0%N.

(** index.rs 257-260: the on-disk variant holds the number of pairs and two files
    (here: their contents). *)
Inductive repetition :=
| InMemory (hashes indices : list N)
| OnDisk (n : nat) (hashes_file indices_file : list N).

(** index.rs 275-278 *)
Definition from_pairs (pairs : list (N * N)) : repetition :=
  InMemory (map fst pairs) (map snd pairs).

(** index.rs 280-282 *)
Definition is_in_memory (r : repetition) : bool :=
  match r with InMemory _ _ => true | OnDisk _ _ _ => false end.

(** index.rs 284-294; [size_of::<HashValue>() = 8], [size_of::<u32>() = 4] *)
Definition bytes (r : repetition) : nat :=
  match r with
  | InMemory hashes _ => length hashes * (8 + 4)
  | OnDisk n _ _ => n * (8 + 4)
  end.

(** index.rs 296-314: both files grow by one encoded value per pair (the
    [BufWriter]s are flushed when dropped at the end of the function). *)
Fixpoint write_pairs (pairs : list (N * N)) (n : nat) (fh fi : list N) : nat * list N * list N :=
  match pairs with
  | [] => (n, fh, fi)
  | (h, i) :: t => write_pairs t (n + 1) (fh ++ to_be_bytes 8 h) (fi ++ to_be_bytes 4 i)
  end.
Definition from_pairs_to_disk (pairs : list (N * N)) : repetition :=
  let '(n, fh, fi) := write_pairs pairs 0 [] [] in OnDisk n fh fi.

(** Capacity of [BufReader::new]: 8 KiB. *)
Definition buf_capacity : nat := Z.to_nat 8192.

(** [BufReader::read] into a slice of [w] bytes, [w < 8192]: when the internal
    buffer is empty it is refilled with one read from the file, which for a
    regular file returns the full capacity or what is left; then at most [w]
    buffered bytes are copied.  Returns the copied bytes and the new state. *)
Definition buf_read (w : nat) (st : list N * list N) : list N * (list N * list N) :=
  let '(buf, file) := st in
  let '(buf, file) :=
    match buf with
    | [] => (firstn buf_capacity file, skipn buf_capacity file)
    | _ => (buf, file)
    end in
  (firstn w buf, (skipn w buf, file)).

(** index.rs 322-330 ([w = 8]) and 334-342 ([w = 4]) *)
Definition read_file (w : nat) (file : list N) (fuel : nat) : res (list N) :=
  loop fuel
    (fun (s : list N * (list N * list N)) =>
       let '(acc, st) := s in
       let '(got, st) := buf_read w st in
       if length got =? 0 then Ret (inr acc)
       else assert_ (length got =? w) (Ret (inl (acc ++ [from_be_bytes got], st))))
    ([], ([], file)).

(** index.rs 316-347, 354-366: the two columns *)
Definition rep_get (r : repetition) (fuel : nat) : res (list N * list N) :=
  match r with
  | InMemory hashes indices => Ret (hashes, indices)
  | OnDisk _ fh fi =>
      let! hashes := read_file 8 fh fuel in
      let! indices := read_file 4 fi fuel in
      Ret (hashes, indices)
  end.
