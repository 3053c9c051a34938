(** Effects on the file system: spilled repetitions (src/index.rs 262-272, 296-314, 503-511) and
    the observation log (src/observe.rs). *)
From Verif Require Import Base.

(** * Spilled repetitions

    What is in the temporary directory.  Only the index touches it; the contents of the files
    are in Disk.v. *)
Inductive entry :=
| Directory (name : N)
| HashesFile (directory : N)
| IndicesFile (directory : N).
Definition entry_eqb (a b : entry) : bool :=
  match a, b with
  | Directory x, Directory y | HashesFile x, HashesFile y | IndicesFile x, IndicesFile y => N.eqb x y
  | _, _ => false
  end.
Inductive repetition :=
| InMemory
| OnDisk (directory : N).
(** lines 296-314; [name] is the random number drawn *)
Definition from_pairs_to_disk (fs : list entry) (name : N) : res (list entry * repetition) :=
  if existsb (entry_eqb (Directory name)) fs then Panic
  else Ret (IndicesFile name :: HashesFile name :: Directory name :: fs, OnDisk name).
(** lines 503-511, one entry per new repetition: [None] in memory, [Some name] on disk *)
Definition add_repetitions (fs : list entry) (reps : list repetition) (places : list (option N)) : res (list entry * list repetition) :=
  foreach places
    (fun place '(fs, reps) =>
       match place with
       | None => Ret (fs, reps ++ [InMemory])
       | Some name => let! '(fs, rep) := from_pairs_to_disk fs name in Ret (fs, reps ++ [rep])
       end) (fs, reps).
(** [std::fs::remove_file(..).unwrap()] *)
Fixpoint remove_file (fs : list entry) (file : entry) : res (list entry) :=
  match fs with
  | [] => Panic
  | e :: fs => if entry_eqb file e then Ret fs else let! fs := remove_file fs file in Ret (e :: fs)
  end.
(** lines 262-272 *)
Definition drop_repetition (rep : repetition) (fs : list entry) : res (list entry) :=
  match rep with
  | InMemory => Ret fs
  | OnDisk name => let! fs := remove_file fs (HashesFile name) in remove_file fs (IndicesFile name)
  end.
(** dropping the index drops its repetitions in order *)
Definition drop_index (fs : list entry) (reps : list repetition) : res (list entry) := foreach reps drop_repetition fs.

(** * Observation log

    A path is a number, a byte is a number, a file is the list of its bytes.  An open file has
    a position; writing past the end fills the gap with zeros.  Only the observer touches the
    files.  [BufWriter] may hand over any part of its buffer to the file at any moment of an
    operation ([Spill]); [flush] and [drop] hand over the rest. *)
Definition disk : Type := nat -> option (list N).
Definition set_file (d : disk) (path : nat) (bytes : list N) : disk := fun p => if (p =? path)%nat then Some bytes else d p.
Record handle := Handle { path : nat; position : nat; buffer : list N }.
(** bytes written at a position of a file *)
Definition write_at (file : list N) (position : nat) (bytes : list N) : list N :=
  firstn position (file ++ repeat 0%N (position - length file)) ++ bytes ++ skipn (position + length bytes) file.
(** hand the first [n] bytes of the buffer over to the file *)
Definition hand_over (d : disk) (h : handle) (n : nat) : disk * handle :=
  let bytes := firstn n (buffer h) in
  match d (path h) with
  | Some file => (set_file d (path h) (write_at file (position h) bytes), Handle (path h) (position h + length bytes) (skipn n (buffer h)))
  | None => (d, h)
  end.

(** the operations, each performed while holding the lock of [OBSERVER] *)
Inductive operation :=
| Append (pieces : list (list N)) (** lines 22-33: [writeln!] writes a line piece by piece *)
| Flush (** lines 35-37, 54-57 *)
| Reset (path : nat). (** lines 48-52 *)
Inductive action :=
| Write (piece : list N)
| FlushNow
| Create (path : nat) (** line 15: [File::create] truncates *)
| WriteHeader (** line 16, into the new writer *)
| Install. (** line 51: the old observer is dropped, lines 40-44, and replaced *)
Definition actions (op : operation) : list action :=
  match op with
  | Append pieces => map Write pieces
  | Flush => [FlushNow]
  | Reset path => [Create path; WriteHeader; Install]
  end.
(** line 16: [elapsed_s,repetition,prefix,name,value] and a newline *)
Definition header : list N :=
  [101;108;97;112;115;101;100;95;115;44;114;101;112;101;116;105;116;105;111;110;44;112;114;101;102;105;120;44;110;97;109;101;44;118;97;108;117;101;10]%N.

Record observer := Observer {
  files : disk;
  current : handle;
  fresh : option handle; (** the new writer, while resetting *)
  lock : option (nat * list action) (** the thread holding the lock and what it has yet to do *)
}.
Inductive event :=
| Acquire (thread : nat) (op : operation)
| Act (thread : nat)
| Spill (thread n : nat)
| Release (thread : nat).
Definition act (s : observer) (a : action) : option observer :=
  match a with
  | Write piece => Some (Observer (files s) (Handle (path (current s)) (position (current s)) (buffer (current s) ++ piece)) (fresh s) (lock s))
  | FlushNow => let '(d, h) := hand_over (files s) (current s) (length (buffer (current s))) in Some (Observer d h (fresh s) (lock s))
  | Create path => Some (Observer (set_file (files s) path []) (current s) (Some (Handle path 0 [])) (lock s))
  | WriteHeader =>
      match fresh s with
      | Some h => Some (Observer (files s) (current s) (Some (Handle (path h) (position h) (buffer h ++ header))) (lock s))
      | None => None
      end
  | Install =>
      match fresh s with
      | Some h => let '(d, _) := hand_over (files s) (current s) (length (buffer (current s))) in Some (Observer d h None (lock s))
      | None => None
      end
  end.
(** [None]: the event is impossible in this state *)
Definition step (s : observer) (e : event) : option observer :=
  match e, lock s with
  | Acquire t op, None => Some (Observer (files s) (current s) (fresh s) (Some (t, actions op)))
  | Act t, Some (t', a :: rest) => if (t =? t')%nat then act (Observer (files s) (current s) (fresh s) (Some (t', rest))) a else None
  | Spill t n, Some (t', rest) =>
      if (t =? t')%nat then let '(d, h) := hand_over (files s) (current s) n in Some (Observer d h (fresh s) (lock s)) else None
  | Release t, Some (t', []) => if (t =? t')%nat then Some (Observer (files s) (current s) (fresh s) None) else None
  | _, _ => None
  end.
Fixpoint run (s : observer) (events : list event) : option observer :=
  match events with
  | [] => Some s
  | e :: events => match step s e with Some s => run s events | None => None end
  end.
(** line 46 with lines 14-19: the first observer, on [observe.csv] *)
Definition start (first : nat) (d : disk) : observer := Observer (set_file d first []) (Handle first 0 header) None None.
(** what the current file will contain once its buffer is handed over, and what the others contain *)
Definition content (s : observer) (p : nat) : option (list N) :=
  if (p =? path (current s))%nat then fst (hand_over (files s) (current s) (length (buffer (current s)))) p else files s p.
