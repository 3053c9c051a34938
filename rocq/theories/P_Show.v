(** Property theorems C112 (printed memory sizes).
    Specification: TextSpec.v and the definitions of this file.  Model: ShowSize.v, Text.v. *)
From Coq Require Import String.
From Verif Require Import Base Text TextForms TextProofs TextSpec Main MainSpec MainProofs ShowSize P_Text.
Local Open Scope N_scope.
Local Open Scope list_scope.

(** the unit a size is printed in *)
Inductive printed_unit (n : N) : N -> list N -> Prop :=
| in_kbytes : 1024 <= n < 1024 ^ 2 -> printed_unit n 1024 (codes "Kbytes")
| in_mbytes : 1024 ^ 2 <= n < 1024 ^ 3 -> printed_unit n (1024 ^ 2) (codes "Mbytes")
| in_gbytes : 1024 ^ 3 <= n -> printed_unit n (1024 ^ 3) (codes "Gbytes").
Definition difference (a b : N) : N := (a - b) + (b - a).

Lemma nearest_close n d : d <> 0 -> 2 * difference n (nearest n d * d) <= d.
Proof.
  intros Hd. unfold nearest, difference. pose proof (N.div_mod n d Hd) as E. pose proof (N.mod_lt n d Hd) as L.
  set (q := n / d) in *. set (r := n mod d) in *. clearbody q r. subst n.
  assert (E1 : (q + 1) * d = d * q + d) by lia. assert (E0 : q * d = d * q) by lia.
  destruct (N.ltb_spec (2 * r) d); [rewrite E0; lia|]. destruct (N.ltb_spec d (2 * r)); [rewrite E1; lia|].
  destruct (N.even q); [rewrite E0; lia|rewrite E1; lia].
Qed.
Lemma as_f64_close n : n < 2 ^ 64 -> difference n (as_f64 n) <= (if n <? 2 ^ 53 then 0 else 1024).
Proof.
  intros L. unfold as_f64. destruct (N.ltb_spec n (2 ^ 53)) as [H|H]; [unfold difference; lia|].
  assert (P : 0 < n) by (eapply N.lt_le_trans; [|exact H]; reflexivity).
  assert (U : N.log2 n - 52 <= 11).
  { pose proof (proj1 (N.log2_lt_pow2 n 64 P) L). lia. }
  set (ulp := 2 ^ (N.log2 n - 52)). assert (Hu : ulp <= 2 ^ 11) by (apply N.pow_le_mono_r; [discriminate|exact U]).
  change (2 ^ 11) with 2048 in Hu.
  assert (ulp <> 0) by (apply N.pow_nonzero; discriminate). pose proof (nearest_close n ulp H0). lia.
Qed.

(** * C112: printing a memory size *)
(** From 1024 bytes on: a number with two decimals, at most half a hundredth of the unit
    away; from 2^53 bytes on, the size is rounded to a multiple of at most 2048 bytes before. *)
Theorem c112_printed :
  forall (n unit : N) (name : list N), n < 2 ^ 64 -> printed_unit n unit name ->
    exists (whole : list N) (tenths hundredths : N),
      is_digits whole /\ (hd 0 whole = 0 -> whole = [0]) /\ tenths < 10 /\ hundredths < 10 /\
      show_size n = written whole ++ codes "." ++ written [tenths; hundredths] ++ codes " " ++ name /\
      2 * difference (100 * n) ((100 * decimal whole + 10 * tenths + hundredths) * unit) <=
        unit + (if n <? 2 ^ 53 then 0 else 200 * 1024).
Proof.
  intros n unit name L U.
  assert (S : show_size n = show_hundredths n unit ++ codes " " ++ name).
  { unfold show_size. change (1024 * 1024 * 1024) with (1024 ^ 3). change (1024 * 1024) with (1024 ^ 2).
    destruct U as [H|H|H].
    - destruct (N.leb_spec (1024 ^ 3) n) as [X|X]; [exfalso; assert (1024 ^ 2 <= 1024 ^ 3) by discriminate; lia|].
      destruct (N.leb_spec (1024 ^ 2) n) as [Y|Y]; [lia|]. destruct (N.leb_spec 1024 n); [reflexivity|lia].
    - destruct (N.leb_spec (1024 ^ 3) n) as [X|X]; [lia|]. destruct (N.leb_spec (1024 ^ 2) n); [reflexivity|lia].
    - destruct (N.leb_spec (1024 ^ 3) n); [reflexivity|lia]. }
  assert (Hu : unit <> 0) by (destruct U; discriminate).
  unfold show_hundredths in S. pose proof (nearest_close (100 * as_f64 n) unit Hu) as C. pose proof (as_f64_close n L) as A.
  set (h := nearest (100 * as_f64 n) unit) in *.
  destruct (show_number_digits (h / 100)) as (ds & E & D & V & Z).
  exists ds, (h mod 100 / 10), (h mod 100 mod 10).
  split; [exact D|]. split; [intros H0; apply Z, H0|].
  split; [apply N.div_lt_upper_bound; [discriminate|]; apply (N.mod_lt h 100); discriminate|].
  split; [apply N.mod_lt; discriminate|]. split.
  - rewrite S, E, <- !app_assoc. reflexivity.
  - rewrite V.
    replace (100 * (h / 100) + 10 * (h mod 100 / 10) + h mod 100 mod 10) with h.
    2:{ pose proof (N.div_mod h 100 ltac:(discriminate)). pose proof (N.div_mod (h mod 100) 10 ltac:(discriminate)). lia. }
    unfold difference in *. destruct (n <? 2 ^ 53); lia.
Qed.
Print Assumptions c112_printed.
(** below: the number of bytes *)
Theorem c112_printed_bytes :
  forall n : N, n < 1024 ->
    exists digits, is_digits digits /\ (hd 0 digits = 0 -> digits = [0]) /\ decimal digits = n /\
      show_size n = written digits ++ codes " bytes".
Proof.
  intros n L. destruct (show_number_digits n) as (ds & E & D & V & Z). exists ds. split; [exact D|]. split; [intros H; apply Z, H|]. split; [exact V|].
  unfold show_size. change (1024 * 1024 * 1024) with (1024 ^ 3). change (1024 * 1024) with (1024 ^ 2).
  assert (1024 <= 1024 ^ 2 /\ 1024 <= 1024 ^ 3) by (split; discriminate).
  destruct (N.leb_spec (1024 ^ 3) n); [lia|]. destruct (N.leb_spec (1024 ^ 2) n); [lia|]. destruct (N.leb_spec 1024 n); [lia|]. rewrite E. reflexivity.
Qed.
Print Assumptions c112_printed_bytes.

(** A printed size below 1024 bytes is read back by the option parser ... *)
Theorem c112_reads_back_partial :
  forall (checks : bool) (n : N), n < 1024 -> from_str checks (show_size n) = Ret (Some n).
Proof.
  intros checks n L. destruct (c112_printed_bytes n L) as (ds & D & _ & V & E). rewrite E. apply c56_value.
  - exists ds, (codes " "), [], 1, (codes "bytes"). split; [exact D|]. split; [repeat constructor|]. split; [constructor|]. split; [constructor|].
    split; [|lia]. rewrite map_app.
    assert (W : map lowercase (written ds) = written ds).
    { unfold written. rewrite map_map. apply map_ext_in. intros d Hd. destruct D as (_ & F). rewrite Forall_forall in F. specialize (F d Hd).
      assert (B : forallb (fun d => lowercase (48 + d) =? 48 + d) (map N.of_nat (seq 0 10)) = true) by reflexivity.
      rewrite forallb_forall in B. apply N.eqb_eq, B. rewrite <- (N2Nat.id d). apply in_map, in_seq. lia. }
    rewrite W. reflexivity.
  - eapply N.lt_le_trans; [exact L|discriminate].
Qed.
Print Assumptions c112_reads_back_partial.
(** ... and no other one is: it is refused *)
Theorem c112_reads_back_refuted :
  forall (checks : bool) (n : N), 1024 <= n < 2 ^ 64 -> from_str checks (show_size n) = Ret None.
Proof.
  intros checks n (L & H).
  assert (U : exists unit name, printed_unit n unit name).
  { destruct (N.lt_ge_cases n (1024 ^ 2)); [eexists _, _; apply in_kbytes; lia|]. destruct (N.lt_ge_cases n (1024 ^ 3)); [eexists _, _; apply in_mbytes; lia|]. eexists _, _; apply in_gbytes; lia. }
  destruct U as (unit & name & U). destruct (c112_printed n unit name H U) as (w & t & h & D & _ & Lt & Lh & E & _).
  assert (Dot : In 46 (map lowercase (show_size n))).
  { rewrite E. apply in_map_iff. exists 46. split; [reflexivity|]. apply in_or_app. right. left. reflexivity. }
  assert (NL : forall digits unit, (forall c, In c unit -> is_alphabetic c = true) -> ~ loose_text (show_size n) digits unit).
  { intros digits u Hu (front & plus & gap & i & j & (_ & Fd) & Hf & Hg & Hp & Et). rewrite Et in Dot.
    assert (T : forall k p, In 46 (times k p) -> In 46 p) by (induction k as [|k IH]; intros p; cbn; [tauto|intros I; apply in_app_or in I; destruct I; auto]).
    assert (Bl : forall s, blanks s -> ~ In 46 s) by (intros s Hs I; unfold blanks in Hs; rewrite Forall_forall in Hs; specialize (Hs 46 I); discriminate Hs).
    rewrite !in_app_iff in Dot. destruct Dot as [I|[I|[I|[I|[I|[I|I]]]]]].
    - exact (Bl _ Hf I).
    - destruct Hp as [->| ->]; [destruct I|]. destruct I as [I|[]]. discriminate I.
    - unfold written in I. apply in_map_iff in I as (d & Ed & _). lia.
    - exact (Bl _ Hg I).
    - apply Hu in I. discriminate I.
    - apply T in I. destruct I as [I|[]]; discriminate I.
    - apply T in I. cbn in I. intuition discriminate. }
  assert (Alpha : forall c, In c (codes "kmg") -> is_alphabetic c = true) by (intros c I; cbn in I; intuition (subst; reflexivity)).
  assert (F : from_str false (show_size n) = Ret None).
  { destruct (from_str false (show_size n)) as [[v|]| |] eqn:R; [|reflexivity| |].
    - exfalso. destruct (c56_accepts_partial _ _ R) as (digits & u & m & Hl & Hu & _). apply (NL digits u); [|exact Hl].
      intros c I. destruct Hu; cbn in I; intuition (subst; reflexivity).
    - exfalso. apply c56_aborts_exactly_partial in R. destruct R as [(_ & i & j & R)|(digits & x & Hl & _ & Hx & _)].
      + rewrite R in Dot. assert (T : forall k p, In 46 (times k p) -> In 46 p) by (induction k as [|k IH]; intros p; cbn; [tauto|intros I; apply in_app_or in I; destruct I; auto]).
        apply in_app_or in Dot. destruct Dot as [I|I]; apply T in I; cbn in I; intuition discriminate.
      + apply (NL digits [x]); [|exact Hl]. intros c [<-|[]]. exact Hx.
    - unfold from_str in R. clear - R. destruct (show_size n); [discriminate|]. destruct (rev _); [discriminate|]. destruct (parse_usize _); [|discriminate].
      cbn [andb] in R. destruct (is_letter _); [|discriminate]. destruct (_ =? 107); [discriminate|]. destruct (_ =? 109); [discriminate|]. destruct (_ =? 103); discriminate. }
  destruct checks; [|exact F].
  unfold from_str in *. destruct (show_size n); [reflexivity|]. destruct (rev _); [discriminate|]. destruct (parse_usize _); [|reflexivity].
  exfalso. cbn [andb] in F. destruct (is_letter _); [|discriminate]. destruct (_ =? 107); [discriminate|]. destruct (_ =? 109); [discriminate|]. destruct (_ =? 103); discriminate.
Qed.
Print Assumptions c112_reads_back_refuted.

Example c112_case :
  show_size 1000 = codes "1000 bytes" /\ show_size 1536 = codes "1.50 Kbytes" /\ show_size (1024 ^ 2 - 1) = codes "1024.00 Kbytes" /\
  show_size (5 * 1024 ^ 2 + 1024 * 130) = codes "5.13 Mbytes" /\ printed_unit (3 * 1024 ^ 3) (1024 ^ 3) (codes "Gbytes") /\ show_size (3 * 1024 ^ 3) = codes "3.00 Gbytes".
Proof. repeat (split; [vm_compute; reflexivity|]). split; [apply in_gbytes; discriminate|vm_compute; reflexivity]. Qed.
