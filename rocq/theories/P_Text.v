(** C55, C56: loading a series, parsing a memory size. *)
From Coq Require Import String.
From Verif Require Import Base Text TextForms TextProofs TextSpec.
Local Open Scope N_scope.
Local Open Scope list_scope.

(** * C56 *)
(** A number, possibly spaces, possibly a unit, possibly an ending, in any letter case: it is
    read as its value whenever that fits a machine word. *)
Theorem c56_value : forall checks text v, size_text text v -> v < 2 ^ 64 -> from_str checks text = Ret (Some v).
Proof.
  intros checks text v H. apply size_text_same in H. revert H. intros (digits & gap & unit & m & ending & Hd & Hg & Hu & He & E & ->) L.
  assert (Hl : TextForms.loose_text text digits unit).
  { destruct He; [exists [], [], gap, 0%nat, 0%nat|exists [], [], gap, 1%nat, 0%nat|exists [], [], gap, 0%nat, 1%nat]; (split; [exact Hd|]; split; [constructor|]; split; [exact Hg|]; split; [left; reflexivity|]); rewrite E; reflexivity. }
  rewrite (from_loose checks _ _ _ _ Hl Hu). assert (1 <= m) by (destruct Hu; discriminate). assert (decimal digits < 2 ^ 64) by nia.
  destruct (N.ltb_spec (decimal digits) (2 ^ 64)); [|lia]. unfold scale. destruct (N.leb_spec (2 ^ 64) (decimal digits * m)); [lia|]. rewrite andb_false_r, N.mod_small by exact L. reflexivity.
Qed.
Print Assumptions c56_value.

(** Not every other text is rejected with an error: a bare ending and an unknown unit abort. *)
Theorem c56_rejects_refuted : exists text, is_ascii text /\ (forall v, ~ size_text text v) /\ forall checks, from_str checks text = Panic.
Proof.
  exists (codes "10x"). split; [repeat constructor|]. split; [|intros checks; vm_compute; reflexivity].
  intros v H. apply size_text_same in H. destruct H as (digits & gap & unit & m & ending & Hd & Hg & Hu & He & Et & _).
  assert (Hx : exists s, written digits ++ gap ++ unit ++ ending = s ++ [120]) by (rewrite <- Et; exists (codes "10"); reflexivity). destruct Hx as (s & Hx).
  assert (Hlast : forall a b c : list N, b <> [] -> a ++ b = c ++ [120] -> exists b', b = b' ++ [120]).
  { intros a b c Hb Eab. destruct (exists_last Hb) as (b' & y & ->). rewrite app_assoc in Eab. apply app_inj_tail in Eab. destruct Eab as (_ & ->). exists b'. reflexivity. }
  destruct He.
  - destruct Hu.
    + cbn [app] in Hx. rewrite app_nil_r in Hx. destruct (list_eq_dec N.eq_dec gap []) as [->|Hn].
      * rewrite app_nil_r in Hx. destruct (digits_last digits Hd) as (ds & d & -> & Ld). unfold written in Hx. rewrite map_app in Hx. apply app_inj_tail in Hx. destruct Hx as (_ & Hx). lia.
      * destruct (Hlast _ _ _ Hn Hx) as (b' & ->). apply Forall_app in Hg. destruct Hg as (_ & Hg). inversion Hg as [|? ? Hs _]; subst. discriminate Hs.
    + rewrite app_nil_r, !app_assoc in Hx. apply app_inj_tail in Hx. destruct Hx as (_ & Hx). discriminate Hx.
    + rewrite app_nil_r, !app_assoc in Hx. apply app_inj_tail in Hx. destruct Hx as (_ & Hx). discriminate Hx.
    + rewrite app_nil_r, !app_assoc in Hx. apply app_inj_tail in Hx. destruct Hx as (_ & Hx). discriminate Hx.
  - rewrite !app_assoc in Hx. apply app_inj_tail in Hx. destruct Hx as (_ & Hx). discriminate Hx.
  - change (codes "bytes") with ([98; 121; 116; 101] ++ [115]) in Hx. rewrite !app_assoc in Hx. apply app_inj_tail in Hx. destruct Hx as (_ & Hx). discriminate Hx.
Qed.
Print Assumptions c56_rejects_refuted.

(** What is accepted: a number with optional spaces around it and an optional plus sign, an
    optional unit, and any number of endings.  The value is the one written, modulo the size
    of a machine word. *)
Theorem c56_accepts_partial : forall text v, from_str false text = Ret (Some v) ->
  exists digits unit m, loose_text text digits unit /\ unit_is unit m /\ decimal digits < 2 ^ 64 /\ v = (decimal digits * m) mod 2 ^ 64.
Proof.
  intros text v E. assert (Hne : text <> []) by (intros ->; discriminate E).
  destruct (scan_forms false text Hne) as [(H & _)|(digits & unit & Hl & L & Hu)]; [exfalso; exact (H v E)|]. exists digits, unit.
  assert (Hu' : exists m, unit_is unit m).
  { destruct Hu as [->|(x & -> & Hx & Hb)]; [exists 1; constructor|]. pose proof Hl as (front & plus & gap & i & j & Hd & Hf & Hg & Hp & Et).
    assert (Hpl : plain front plus digits gap) by (repeat split; try assumption; apply Hd). rewrite (from_unit false text _ _ _ _ x i j Hpl Hx Hb Et), (parse_usize_ok plus digits Hp Hd L) in E.
    destruct (N.eqb_spec x 107) as [->|]; [exists 1024; constructor|]. destruct (N.eqb_spec x 109) as [->|]; [exists (1024 * 1024); constructor|].
    destruct (N.eqb_spec x 103) as [->|]; [exists (1024 * 1024 * 1024); constructor|]. discriminate E. }
  destruct Hu' as (m & Hm). exists m. split; [apply loose_text_same, Hl|]. split; [exact Hm|]. split; [exact L|]. rewrite (from_loose false _ _ _ _ Hl Hm) in E.
  destruct (N.ltb_spec (decimal digits) (2 ^ 64)); [|lia]. unfold scale in E. cbn [andb] in E. apply Ret_inj in E. injection E as <-. reflexivity.
Qed.
Print Assumptions c56_accepts_partial.

(** When it aborts: exactly on a text made of endings only, and on a number followed by one
    letter which is no unit; with overflow checks also when the value is too large. *)
Theorem c56_aborts_exactly_partial : forall text,
  from_str false text = Panic <->
  (text <> [] /\ exists i j, map lowercase text = times i (codes "b") ++ times j (codes "bytes")) \/
  (exists digits x, loose_text text digits [x] /\ decimal digits < 2 ^ 64 /\ is_alphabetic x = true /\ ~ In x (codes "bkmg")).
Proof.
  intros text. split.
  - intros E. assert (Hne : text <> []) by (intros ->; discriminate E).
    destruct (scan_forms false text Hne) as [(H & [H'|(_ & Hc)])|(digits & unit & Hl & L & Hu)].
    + congruence.
    + left. split; [exact Hne|]. destruct (core_spec text) as (i & j & Et & _). rewrite Hc in Et. exists i, j. rewrite lower_same. exact Et.
    + destruct Hu as [->|(x & -> & Hx & Hb)]; [rewrite (from_loose false _ _ _ _ Hl unit_none) in E; destruct (decimal digits <? 2 ^ 64); discriminate E|].
      right. exists digits, x. split; [apply loose_text_same, Hl|]. split; [exact L|]. split; [rewrite <- is_letter_alphabetic; exact Hx|]. pose proof (from_loose false _ _ _ 1024 Hl) as K. pose proof (from_loose false _ _ _ (1024 * 1024) Hl) as M. pose proof (from_loose false _ _ _ (1024 * 1024 * 1024) Hl) as G.
      intros I. cbn in I. destruct I as [<-|[<-|[<-|[<-|[]]]]]; [congruence|rewrite K in E by constructor|rewrite M in E by constructor|rewrite G in E by constructor]; destruct (decimal digits <? 2 ^ 64); discriminate E.
  - intros [(Hne & i & j & Et)|(digits & x & Hl & L & Hx & Hn)]; [rewrite lower_same in Et|apply loose_text_same in Hl; rewrite <- is_letter_alphabetic in Hx].
    + rewrite (from_scan false text Hne). rewrite (core_eq text [] i j Et); [reflexivity| |]; intros; intros s' E; destruct s'; discriminate E.
    + destruct Hl as (front & plus & gap & i & j & Hd & Hf & Hg & Hp & Et).
      assert (Hpl : plain front plus digits gap) by (repeat split; try assumption; apply Hd).
      assert (Hb : x <> 98) by (intros ->; apply Hn; left; reflexivity).
      rewrite (from_unit false text _ _ _ _ x i j Hpl Hx Hb Et), (parse_usize_ok plus digits Hp Hd L).
      destruct (N.eqb_spec x 107) as [->|]; [exfalso; apply Hn; right; left; reflexivity|]. destruct (N.eqb_spec x 109) as [->|]; [exfalso; apply Hn; right; right; left; reflexivity|].
      destruct (N.eqb_spec x 103) as [->|]; [exfalso; apply Hn; right; right; right; left; reflexivity|reflexivity].
Qed.
Print Assumptions c56_aborts_exactly_partial.

(** The same code with overflow checks differs only by aborting on values that do not fit. *)
Theorem c56_checked_partial : forall text, from_str true text = from_str false text \/ from_str true text = Panic.
Proof.
  intros text. unfold from_str. destruct text as [|c t]; [left; reflexivity|]. destruct (rev _) as [|last before]; [left; reflexivity|].
  destruct (parse_usize _) as [n|]; [|left; reflexivity]. cbn [andb].
  assert (G : forall m, (if 2 ^ 64 <=? n * m then @Panic (option N) else Ret (Some (n * m mod 2 ^ 64))) = Ret (Some (n * m mod 2 ^ 64)) \/ (if 2 ^ 64 <=? n * m then @Panic (option N) else Ret (Some (n * m mod 2 ^ 64))) = Panic) by (intros m; destruct (2 ^ 64 <=? n * m); [right|left]; reflexivity).
  destruct (is_letter last); [|exact (G 1)]. destruct (last =? 107); [exact (G 1024)|]. destruct (last =? 109); [exact (G (1024 * 1024))|]. destruct (last =? 103); [exact (G (1024 * 1024 * 1024))|left; reflexivity].
Qed.
Print Assumptions c56_checked_partial.

Example c56_value_nonvacuous : size_text (codes "10 GB") 10737418240 /\ from_str true (codes "10 GB") = Ret (Some 10737418240).
Proof.
  split; [|vm_compute; reflexivity]. exists [1; 0], (codes " "), (codes "g"), (1024 * 1024 * 1024), (codes "b").
  split; [split; [discriminate|repeat constructor]|]. split; [repeat constructor|]. split; [constructor|]. split; [constructor|]. split; reflexivity.
Qed.
Example c56_nonvacuous : from_str false (codes " +7kbbytesbytes") = Ret (Some 7168) /\ from_str false (codes "ten") = Ret None /\
  from_str false (codes "Bytes") = Panic /\ from_str false (codes "3Tb") = Panic /\ from_str false (codes "17179869184g") = Ret (Some 0) /\ from_str true (codes "17179869184g") = Panic.
Proof. vm_compute. repeat split. Qed.

(** * C55 *)
(** [parse] stands for the number parser: any function that reads a number off the front of a
    line and says how much of it it consumed. *)
Theorem c55_load : forall X (parse : list N -> option (X * nat)) file lines,
  (forall s x n, parse s = Some (x, n) -> (n <= length s)%nat) -> lines_are file lines ->
  returns (load_from parse None file) (numbers parse lines).
Proof.
  intros X parse file lines Hc Hl. rewrite numbers_same. destruct (lines_wf _ _ Hl) as (Hw & ->). exists (S (length lines)). intros n Hn. unfold load_from.
  rewrite (load_ok parse Hc None lines Hw n 0 []) by lia. cbn [cut]. destruct (TextForms.numbers parse lines); reflexivity.
Qed.
Print Assumptions c55_load.

(** Every file has lines *)
Theorem c55_lines : forall file, exists lines, lines_are file lines.
Proof. exact lines_exist. Qed.
Print Assumptions c55_lines.

(** A limit counts blank lines too, so it can return fewer values than the limit and the file allow *)
Definition one_digit (s : list N) : option (N * nat) :=
  match s with
  | c :: _ => if (48 <=? c) && (c <=? 57) then Some (c - 48, 1%nat) else None
  | [] => None
  end.
Definition newline : list N := [10].
Theorem c55_limit_refuted : exists file xs ys,
  returns (load_from one_digit None file) (Some xs) /\ returns (load_from one_digit (Some 2%nat) file) (Some ys) /\ ys <> firstn 2 xs.
Proof.
  exists (codes "1" ++ newline ++ newline ++ codes "2" ++ newline), [1; 2], [1].
  assert (R : forall limit r, load_from one_digit limit (codes "1" ++ newline ++ newline ++ codes "2" ++ newline) 9 = Ret r -> returns (load_from one_digit limit (codes "1" ++ newline ++ newline ++ codes "2" ++ newline)) r).
  { intros limit r E. exists 9%nat. intros n Hn. unfold load_from in *. rewrite (loop_mono _ 9 n); [exact E|exact Hn|rewrite E; discriminate]. }
  split; [apply R; vm_compute; reflexivity|]. split; [apply R; vm_compute; reflexivity|]. discriminate.
Qed.
Print Assumptions c55_limit_refuted.

(** With a limit one gets what the first [limit] lines contain *)
Theorem c55_limit_partial : forall X (parse : list N -> option (X * nat)) file lines limit,
  (forall s x n, parse s = Some (x, n) -> (n <= length s)%nat) -> lines_are file lines ->
  returns (load_from parse (Some limit) file) (numbers parse (firstn limit lines)).
Proof.
  intros X parse file lines limit Hc Hl. rewrite numbers_same. destruct (lines_wf _ _ Hl) as (Hw & ->). exists (S (length lines)). intros n Hn. unfold load_from.
  rewrite (load_ok parse Hc (Some limit) lines Hw n 0 []) by lia. cbn [cut]. rewrite Nat.sub_0_r. destruct (TextForms.numbers parse (firstn limit lines)); reflexivity.
Qed.
Print Assumptions c55_limit_partial.

(** and so, if none of these lines is blank, the first [limit] values of the file *)
Theorem c55_limit_no_blanks_partial : forall X (parse : list N -> option (X * nat)) file lines limit xs,
  (forall s x n, parse s = Some (x, n) -> (n <= length s)%nat) -> lines_are file lines ->
  Forall (fun l => blank l = false) (firstn limit lines) ->
  returns (load_from parse None file) (Some xs) -> returns (load_from parse (Some limit) file) (Some (firstn limit xs)).
Proof.
  intros X parse file lines limit xs Hc Hl Hb Hx. pose proof (c55_load X parse file lines Hc Hl) as Hx'. pose proof (returns_det _ _ _ Hx Hx') as E.
  replace (Some (firstn limit xs)) with (numbers parse (firstn limit lines)); [apply c55_limit_partial; assumption|].
  assert (Hb' : Forall (fun l => TextForms.blank l = false) (firstn limit lines)) by (eapply Forall_impl; [|exact Hb]; intros l Hl'; rewrite <- blank_same; exact Hl').
  rewrite numbers_same in *. clear - Hb' E. rename Hb' into Hb. revert lines xs Hb E. induction limit as [|limit IH]; intros lines xs Hb E; [reflexivity|]. destruct lines as [|l lines].
  - cbn [firstn]. unfold TextForms.numbers in *. cbn [filter map all_some] in *. injection E as ->. reflexivity.
  - cbn [firstn] in *. inversion Hb as [|? ? Hl Hb']; subst. rewrite numbers_cons in *. rewrite Hl in *. destruct (TextForms.number parse l) as [x|]; [|discriminate E].
    destruct (TextForms.numbers parse lines) as [ys|] eqn:Ey; [|discriminate E]. injection E as ->. cbn [firstn]. rewrite (IH lines ys Hb' (eq_sym Ey)). reflexivity.
Qed.
Print Assumptions c55_limit_no_blanks_partial.

(** A file of four lines, one blank, the last without a newline; and one that is not all numbers *)
Example c55_nonvacuous : lines_are (codes "4" ++ newline ++ codes " " ++ newline ++ codes "5 " ++ newline ++ codes "6") [codes "4" ++ newline; codes " " ++ newline; codes "5 " ++ newline; codes "6"] /\
  load_from one_digit None (codes "4" ++ newline ++ codes " " ++ newline ++ codes "5 " ++ newline ++ codes "6") 9 = Ret (Some [4; 5; 6]) /\
  load_from one_digit (Some 3%nat) (codes "4" ++ newline ++ codes " " ++ newline ++ codes "5 " ++ newline ++ codes "6") 9 = Ret (Some [4; 5]) /\
  load_from one_digit None (codes "4" ++ newline ++ codes "5;") 9 = Ret None /\
  (forall s x n, one_digit s = Some (x, n) -> (n <= length s)%nat).
Proof.
  split; [|split; [vm_compute; reflexivity|split; [vm_compute; reflexivity|split; [vm_compute; reflexivity|]]]].
  - exists [codes "4"; codes " "; codes "5 "], (codes "6"). split; [cbn; intros [E|[]]; discriminate E|]. split; [repeat constructor; cbn; intuition discriminate|]. split; reflexivity.
  - intros [|c s] x n; cbn [one_digit]; [discriminate|]. destruct ((48 <=? c) && (c <=? 57)); [|discriminate]. intros E. injection E as _ <-. cbn [length]. lia.
Qed.
