(** Text input: memory sizes (src/allocator.rs 70-99) and series files (src/load.rs 28-52).

    Text is a list of character codes.  Only ASCII is modelled: a code above 127 is neither a
    letter nor a space here and has no lower case, so the theorems assume ASCII text. *)
From Coq Require Import Ascii String.
From Verif Require Import Base.
Local Open Scope N_scope.
Local Open Scope list_scope.

(** the codes of a Coq string *)
Definition codes (s : string) : list N := map N_of_ascii (list_ascii_of_string s).
Definition is_ascii (s : list N) : Prop := Forall (fun c => c < 128) s.

(** [char::is_whitespace], [char::is_alphabetic] and [char::to_lowercase] on ASCII *)
Definition is_space (c : N) : bool := ((9 <=? c) && (c <=? 13)) || (c =? 32).
Definition is_letter (c : N) : bool := ((65 <=? c) && (c <=? 90)) || ((97 <=? c) && (c <=? 122)).
Definition lower (c : N) : N := if (65 <=? c) && (c <=? 90) then c + 32 else c.

(** [str::trim_start_matches], [str::trim_end_matches] with a non-empty pattern: remove the
    pattern as often as it occurs *)
Fixpoint strip (p s : list N) : option (list N) :=
  match p, s with
  | [], _ => Some s
  | a :: p, b :: s => if a =? b then strip p s else None
  | _ :: _, [] => None
  end.
Fixpoint trim_loop (n : nat) (p s : list N) : list N :=
  match n with
  | O => s
  | S n => match strip p s with Some s' => trim_loop n p s' | None => s end
  end.
Definition trim_end_matches (p s : list N) : list N := rev (trim_loop (length s) (rev p) (rev s)).
(** [str::trim_start], [trim_end], [trim] *)
Fixpoint trim_start (s : list N) : list N :=
  match s with
  | c :: t => if is_space c then trim_start t else s
  | [] => []
  end.
Definition trim_end (s : list N) : list N := rev (trim_start (rev s)).
Definition trim (s : list N) : list N := trim_end (trim_start s).

(** [str::parse::<usize>()]: an optional plus sign, then at least one digit; overflow is an error *)
Fixpoint parse_digits (acc : N) (s : list N) : option N :=
  match s with
  | [] => Some acc
  | c :: s =>
      if (48 <=? c) && (c <=? 57) then
        let v := acc * 10 + (c - 48) in
        if v <? 2 ^ 64 then parse_digits v s else None
      else None
  end.
Definition parse_usize (s : list N) : option N :=
  let digits := match s with 43 :: t => t | _ => s end in
  match digits with
  | [] => None
  | _ => parse_digits 0 digits
  end.

(** allocator.rs 70-99.  [None] is [Err(ParseBytesError)].  [checks] says whether the build
    checks the multiplication for overflow (debug) or wraps (release). *)
Definition from_str (checks : bool) (s : list N) : res (option N) :=
  match s with
  | [] => Ret None
  | _ =>
      let s := map lower s in
      let s := trim_end_matches (codes "b") (trim_end_matches (codes "bytes") s) in
      match rev s with
      | [] => Panic (* chars().last().unwrap() *)
      | last :: before =>
          let suffix := if is_letter last then Some last else None in
          let num := match suffix with Some _ => rev before | None => s end in
          match parse_usize (trim num) with
          | None => Ret None
          | Some num =>
              let scale m := if checks && (2 ^ 64 <=? num * m) then Panic else Ret (Some (num * m mod 2 ^ 64)) in
              match suffix with
              | None => scale 1
              | Some c =>
                  if c =? 107 (* k *) then scale 1024
                  else if c =? 109 (* m *) then scale (1024 * 1024)
                  else if c =? 103 (* g *) then scale (1024 * 1024 * 1024)
                  else Panic (* unreachable!() *)
              end
          end
      end
  end.

(** [BufRead::read_line]: up to and including the next newline, and what is left *)
Fixpoint read_line (s : list N) : list N * list N :=
  match s with
  | [] => ([], [])
  | c :: s => if c =? 10 then ([c], s) else let '(line, rest) := read_line s in (c :: line, rest)
  end.
(** load.rs 28-52.  [parse] is [fast_float::parse_partial], which is not modelled: it gives a
    number and how many characters it consumed.  The outer [None] limit is [usize::MAX]; the
    result [None] is an error.  Input errors and text that is not UTF-8 are not modelled. *)
Definition load_from {X} (parse : list N -> option (X * nat)) (limit : option nat) (file : list N) (fuel : nat) : res (option (list X)) :=
  loop fuel
    (fun '(reader, cnt, out) =>
       if match limit with Some n => (cnt <? n)%nat | None => true end then
         let '(buf, reader) := read_line reader in
         match buf with
         | [] => Ret (inr (Some out))
         | _ =>
             match trim_end buf with
             | [] => Ret (inl (reader, S cnt, out))
             | _ =>
                 match parse buf with
                 | None => Ret (inr None)
                 | Some (x, rest) =>
                     if (length buf <? rest)%nat then Panic
                     else
                       match trim_end (skipn rest buf) with
                       | [] => Ret (inl (reader, S cnt, out ++ [x]))
                       | _ => Ret (inr None)
                       end
                 end
             end
         end
       else Ret (inr (Some out)))
    (file, 0%nat, []).
