(** Proofs about file system effects. *)
From Verif Require Import Base Files FilesSpec.

(** * Spilled repetitions *)
Lemma entry_eqb_spec a b : entry_eqb a b = true <-> a = b.
Proof. destruct a, b; cbn [entry_eqb]; rewrite ?N.eqb_eq; split; intros H; try discriminate H; try (injection H as <-); congruence. Qed.
Lemma remove_ok fs file : In file fs -> exists fs', remove_file fs file = Ret fs' /\ Permutation fs (file :: fs').
Proof.
  induction fs as [|e fs IH]; intros I; [destruct I|]. cbn [remove_file]. destruct (entry_eqb file e) eqn:E.
  - apply entry_eqb_spec in E. subst e. exists fs. split; [reflexivity|apply Permutation_refl].
  - assert (I' : In file fs).
    { destruct I as [->|I]; [|exact I]. assert (entry_eqb file file = true) by (apply entry_eqb_spec; reflexivity). congruence. }
    destruct (IH I') as (fs' & E' & P). exists (e :: fs'). rewrite E'. split; [reflexivity|]. rewrite P. apply perm_swap.
Qed.
Definition made (place : option N) : list entry := match place with Some n => [IndicesFile n; HashesFile n; Directory n] | None => [] end.
Definition left_over (place : option N) : list entry := match place with Some n => [Directory n] | None => [] end.
Definition rep_of (place : option N) : repetition := match place with Some n => OnDisk n | None => InMemory end.
Lemma existsb_dir n fs : existsb (entry_eqb (Directory n)) fs = false <-> ~ In (Directory n) fs.
Proof.
  split.
  - intros E I. assert (existsb (entry_eqb (Directory n)) fs = true) by (apply existsb_exists; exists (Directory n); split; [exact I|apply entry_eqb_spec; reflexivity]). congruence.
  - intros H. destruct (existsb _ fs) eqn:E; [|reflexivity]. exfalso. apply existsb_exists in E. destruct E as (x & I & E). apply entry_eqb_spec in E. subst x. exact (H I).
Qed.
Lemma add_inv places : forall fs reps fs' reps', add_repetitions fs reps places = Ret (fs', reps') ->
  reps' = reps ++ map rep_of places /\ Permutation fs' (flat_map made places ++ fs).
Proof.
  unfold add_repetitions. induction places as [|pl places IH]; intros fs reps fs' reps' E; cbn [foreach] in E.
  - apply Ret_inj in E. injection E as <- <-. rewrite app_nil_r. split; [reflexivity|apply Permutation_refl].
  - destruct pl as [n|].
    + unfold from_pairs_to_disk in E at 1. destruct (existsb (entry_eqb (Directory n)) fs); [discriminate E|]. cbn [bind] in E. destruct (IH _ _ _ _ E) as (E1 & P). split.
      * rewrite E1, <- app_assoc. reflexivity.
      * rewrite P. cbn [flat_map made app]. change (IndicesFile n :: HashesFile n :: Directory n :: fs) with ([IndicesFile n; HashesFile n; Directory n] ++ fs).
        change (IndicesFile n :: HashesFile n :: Directory n :: flat_map made places ++ fs) with ([IndicesFile n; HashesFile n; Directory n] ++ flat_map made places ++ fs). apply Permutation_app_swap_app.
    + cbn [bind] in E. destruct (IH _ _ _ _ E) as (E1 & P). split; [rewrite E1, <- app_assoc; reflexivity|exact P].
Qed.
Lemma drop_ok places : forall fs rest, Permutation fs (flat_map made places ++ rest) -> exists fs', drop_index fs (map rep_of places) = Ret fs' /\ Permutation fs' (flat_map left_over places ++ rest).
Proof.
  unfold drop_index. induction places as [|pl places IH]; intros fs rest P; cbn [map foreach flat_map app] in *.
  - exists fs. split; [reflexivity|exact P].
  - destruct pl as [n|]; cbn [rep_of drop_repetition made left_over app bind] in *; [|apply IH; exact P].
    destruct (remove_ok fs (HashesFile n)) as (f1 & E1 & P1); [apply (Permutation_in _ (Permutation_sym P)); right; left; reflexivity|]. rewrite E1. cbn [bind].
    assert (P2 : Permutation f1 (IndicesFile n :: Directory n :: flat_map made places ++ rest)).
    { apply (Permutation_cons_inv (a := HashesFile n)). rewrite <- P1, P. apply perm_swap. }
    destruct (remove_ok f1 (IndicesFile n)) as (f2 & E2 & P3); [apply (Permutation_in _ (Permutation_sym P2)); left; reflexivity|]. rewrite E2.
    assert (P4 : Permutation f2 (flat_map made places ++ Directory n :: rest)).
    { apply (Permutation_cons_inv (a := IndicesFile n)). rewrite <- P3, P2. constructor. apply Permutation_middle. }
    destruct (IH f2 (Directory n :: rest) P4) as (fs' & E & P5). exists fs'. split; [exact E|]. rewrite P5. symmetry. apply Permutation_middle.
Qed.

(** * Observation log *)
Lemma observed_snoc now ops op p : observed now (ops ++ [op]) p = observed now ops p ++ match op with Append pieces => if (last_file now ops =? p)%nat then concat pieces else [] | _ => [] end.
Proof.
  revert now; induction ops as [|o ops IH]; intros now; cbn [app observed last_file].
  - destruct op; cbn [observed]; rewrite ?app_nil_r; reflexivity.
  - destruct o; rewrite IH, ?app_assoc; reflexivity.
Qed.
Lemma last_file_snoc now ops op : last_file now (ops ++ [op]) = match op with Reset q => q | _ => last_file now ops end.
Proof. revert now; induction ops as [|o ops IH]; intros now; cbn [app last_file]; [destruct op; reflexivity|]. destruct o; apply IH. Qed.
Lemma last_file_in now ops : In (last_file now ops) (now :: resets ops).
Proof.
  revert now; induction ops as [|o ops IH]; intros now; [left; reflexivity|]. destruct o; cbn [last_file resets flat_map app]; try apply IH.
  right. apply IH.
Qed.
Lemma observed_none now ops p : ~ In p (now :: resets ops) -> observed now ops p = [].
Proof.
  revert now; induction ops as [|o ops IH]; intros now H; [reflexivity|]. destruct o as [pieces| |q]; cbn [observed resets flat_map app] in *.
  - destruct (Nat.eqb_spec now p) as [->|]; [exfalso; apply H; left; reflexivity|]. apply IH. exact H.
  - apply IH. exact H.
  - apply IH. intros I. apply H. right. exact I.
Qed.
Lemma write_end file bytes : write_at file (length file) bytes = file ++ bytes.
Proof. unfold write_at. rewrite Nat.sub_diag. cbn [repeat]. rewrite app_nil_r, firstn_all. rewrite skipn_all2 by lia. rewrite app_nil_r. reflexivity. Qed.
Lemma set_same d p f : set_file d p f p = Some f.
Proof. unfold set_file. rewrite Nat.eqb_refl. reflexivity. Qed.
Lemma set_other d p f q : q <> p -> set_file d p f q = d q.
Proof. intros N. unfold set_file. destruct (Nat.eqb_spec q p); [congruence|reflexivity]. Qed.

(** the writer is at the end of its file, which with the buffer has the given bytes *)
Definition writing (d : disk) (h : handle) (bytes : list N) : Prop := exists f, d (path h) = Some f /\ position h = length f /\ f ++ buffer h = bytes.
Lemma hand_over_ok d h n bytes : writing d h bytes -> exists d' h', hand_over d h n = (d', h') /\ path h' = path h /\ writing d' h' bytes /\
  (forall q, q <> path h -> d' q = d q) /\ (length (buffer h) <= n -> d' (path h) = Some bytes).
Proof.
  intros (f & Ef & Ep & Eb). unfold hand_over. rewrite Ef, Ep, write_end. eexists. eexists. split; [reflexivity|]. cbn [path position buffer]. split; [reflexivity|]. split.
  - exists (f ++ firstn n (buffer h)). cbn [path position buffer]. split; [apply set_same|]. split; [rewrite app_length; reflexivity|]. rewrite <- app_assoc, firstn_skipn. exact Eb.
  - split; [intros q Nq; apply set_other; exact Nq|]. intros L. rewrite set_same, firstn_all2 by exact L. rewrite Eb. reflexivity.
Qed.
Definition pending (rest : list action) : list N := flat_map (fun a => match a with Write p => p | _ => [] end) rest.
Definition plain (rest : list action) : Prop := rest = [FlushNow] \/ exists pieces, rest = map Write pieces.
(** in the middle of switching to [q] *)
Definition switching (d : disk) (fresh : option handle) (q : nat) (rest : list action) : Prop :=
  (rest = [Create q; WriteHeader; Install] /\ fresh = None) \/
  (rest = [WriteHeader; Install] /\ fresh = Some (Handle q 0 []) /\ d q = Some []) \/
  (rest = [Install] /\ fresh = Some (Handle q 0 header) /\ d q = Some []).
Definition rest_of (s : observer) : list action := match lock s with Some (_, rest) => rest | None => [] end.
Definition good (first : nat) (ops : list operation) (s : observer) : Prop :=
  (plain (rest_of s) /\ fresh s = None /\ path (current s) = last_file first ops /\
   (exists b, writing (files s) (current s) b /\ b ++ pending (rest_of s) = header ++ observed first ops (last_file first ops)) /\
   forall p, In p (first :: resets ops) -> p <> last_file first ops -> files s p = Some (header ++ observed first ops p)) \/
  (switching (files s) (fresh s) (last_file first ops) (rest_of s) /\ path (current s) <> last_file first ops /\ In (path (current s)) (first :: resets ops) /\
   observed first ops (last_file first ops) = [] /\
   writing (files s) (current s) (header ++ observed first ops (path (current s))) /\
   forall p, In p (first :: resets ops) -> p <> last_file first ops -> p <> path (current s) -> files s p = Some (header ++ observed first ops p)).
Lemma good_start first d : good first [] (start first d).
Proof.
  left. unfold start, rest_of. cbn [lock fresh current files path last_file resets flat_map pending]. split; [right; exists []; reflexivity|]. split; [reflexivity|]. split; [reflexivity|]. split.
  - exists header. split; [|reflexivity]. exists []. cbn [path position buffer]. split; [apply set_same|]. split; reflexivity.
  - intros p [<-|[]] N. congruence.
Qed.
Lemma operations_snoc events e : operations (events ++ [e]) = operations events ++ match e with Acquire _ op => [op] | _ => [] end.
Proof. unfold operations. rewrite flat_map_app. cbn [flat_map]. rewrite app_nil_r. reflexivity. Qed.
Lemma resets_app a b : resets (a ++ b) = resets a ++ resets b.
Proof. apply flat_map_app. Qed.
Lemma pending_writes pieces : pending (map Write pieces) = concat pieces.
Proof. unfold pending. induction pieces as [|p l IH]; [reflexivity|]. cbn [map flat_map concat]. rewrite IH. reflexivity. Qed.
Lemma good_step first ops s e s' : NoDup (first :: resets (ops ++ match e with Acquire _ op => [op] | _ => [] end)) ->
  step s e = Some s' -> good first ops s -> good first (ops ++ match e with Acquire _ op => [op] | _ => [] end) s'.
Proof.
  intros Hn E G. destruct e as [t op|t|t n|t]; cbn [step] in E; rewrite ?app_nil_r in *; unfold good, rest_of in G; destruct (lock s) as [(t', rest)|] eqn:El; try discriminate E.
  - (* acquire *)
    injection E as <-. destruct G as [(_ & Hf & Hc & (b & Hw & Hb) & Ho)|([(X & _)|[(X & _)|(X & _)]] & _)]; [|discriminate X..].
    unfold good, rest_of. cbn [lock files current fresh]. rewrite last_file_snoc, resets_app. cbn [pending flat_map] in Hb. rewrite app_nil_r in Hb.
    destruct op as [pieces| |q]; cbn [actions resets flat_map app]; rewrite ?app_nil_r.
    + left. split; [right; exists pieces; reflexivity|]. split; [exact Hf|]. split; [exact Hc|]. split.
      * exists b. split; [exact Hw|]. rewrite pending_writes, observed_snoc, Nat.eqb_refl, Hb, app_assoc. reflexivity.
      * intros p Ip Np. rewrite observed_snoc. destruct (Nat.eqb_spec (last_file first ops) p); [congruence|]. rewrite app_nil_r. apply Ho; assumption.
    + left. split; [left; reflexivity|]. split; [exact Hf|]. split; [exact Hc|]. split.
      * exists b. split; [exact Hw|]. rewrite observed_snoc, !app_nil_r. exact Hb.
      * intros p Ip Np. rewrite observed_snoc, app_nil_r. apply Ho; assumption.
    + right. rewrite resets_app in Hn. cbn [resets flat_map app] in Hn.
      assert (Nq : ~ In q (first :: resets ops)).
      { change (first :: resets ops ++ [q]) with ((first :: resets ops) ++ [q]) in Hn. apply NoDup_remove_2 in Hn. rewrite app_nil_r in Hn. exact Hn. }
      pose proof (last_file_in first ops) as Il. rewrite <- Hc in Il.
      split; [left; split; [reflexivity|exact Hf]|]. split; [intros X; apply Nq; rewrite <- X; exact Il|]. split; [destruct Il as [X|X]; [left; exact X|right; apply in_or_app; left; exact X]|].
      split; [rewrite observed_snoc, app_nil_r; apply observed_none; exact Nq|]. rewrite observed_snoc, app_nil_r. split; [rewrite Hc, <- Hb; exact Hw|].
      intros p Ip Np Np'. rewrite observed_snoc, app_nil_r. apply Ho; [|congruence]. destruct Ip as [X|X]; [left; exact X|]. apply in_app_or in X. destruct X as [X|[X|[]]]; [right; exact X|congruence].
  - (* act *)
    destruct rest as [|a rest]; [discriminate E|]. destruct (Nat.eqb_spec t t'); [|discriminate E].
    destruct G as [(Hp & Hf & Hc & (b & Hw & Hb) & Ho)|(Hs & Nc & Ic & Hq & Hw & Ho)].
    + destruct Hp as [X|(pieces & X)].
      * injection X as -> ->. cbn [act files current fresh lock] in E. destruct (hand_over_ok _ _ (length (buffer (current s))) _ Hw) as (d' & h' & Eh & Hp' & Hw' & Hd & _). rewrite Eh in E. injection E as <-.
        left. unfold rest_of. cbn [lock files current fresh]. split; [right; exists []; reflexivity|]. split; [exact Hf|]. split; [congruence|]. split; [exists b; split; [exact Hw'|exact Hb]|].
        intros p Ip Np. rewrite Hd by congruence. apply Ho; assumption.
      * destruct pieces as [|pc pieces]; [discriminate X|]. injection X as -> ->. cbn [act files current fresh lock] in E. injection E as <-.
        left. unfold rest_of. cbn [lock files current fresh path]. split; [right; exists pieces; reflexivity|]. split; [exact Hf|]. split; [exact Hc|]. split.
        -- exists (b ++ pc). split; [|rewrite <- app_assoc; exact Hb]. destruct Hw as (f & W1 & W2 & W3). exists f. cbn [path position buffer]. split; [exact W1|]. split; [exact W2|]. rewrite app_assoc, W3. reflexivity.
        -- exact Ho.
    + destruct Hs as [(X & Hfr)|[(X & Hfr & Hd)|(X & Hfr & Hd)]]; injection X as -> ->; cbn [act files current fresh lock] in E.
      * injection E as <-. right. unfold rest_of. cbn [lock files current fresh]. split; [right; left; split; [reflexivity|]; split; [reflexivity|apply set_same]|].
        split; [exact Nc|]. split; [exact Ic|]. split; [exact Hq|]. split.
        -- destruct Hw as (f & W1 & W2 & W3). exists f. split; [rewrite set_other by exact Nc; exact W1|]. split; assumption.
        -- intros p Ip Np Np'. rewrite set_other by exact Np. apply Ho; assumption.
      * rewrite Hfr in E. injection E as <-. right. unfold rest_of. cbn [lock files current fresh path position buffer app]. split; [right; right; split; [reflexivity|]; split; [reflexivity|exact Hd]|].
        split; [exact Nc|]. split; [exact Ic|]. split; [exact Hq|]. split; [exact Hw|exact Ho].
      * rewrite Hfr in E. destruct (hand_over_ok _ _ (length (buffer (current s))) _ Hw) as (d' & h' & Eh & Hp' & Hw' & Hd' & Hfl). rewrite Eh in E. injection E as <-.
        left. unfold rest_of. cbn [lock files current fresh path]. split; [right; exists []; reflexivity|]. split; [reflexivity|]. split; [reflexivity|]. split.
        -- exists header. split; [|rewrite Hq; reflexivity]. exists []. cbn [path position buffer]. split; [rewrite Hd' by congruence; exact Hd|]. split; reflexivity.
        -- intros p Ip Np. destruct (Nat.eq_dec p (path (current s))) as [->|Np']; [apply Hfl; lia|]. rewrite Hd' by exact Np'. apply Ho; assumption.
  - (* spill *)
    destruct (Nat.eqb_spec t t'); [|discriminate E].
    destruct G as [(Hp & Hf & Hc & (b & Hw & Hb) & Ho)|(Hs & Nc & Ic & Hq & Hw & Ho)].
    + destruct (hand_over_ok _ _ n _ Hw) as (d' & h' & Eh & Hp' & Hw' & Hd & _). rewrite Eh in E. injection E as <-.
      left. unfold rest_of. cbn [lock files current fresh]. split; [exact Hp|]. split; [exact Hf|]. split; [congruence|]. split; [exists b; split; [exact Hw'|exact Hb]|].
      intros p Ip Np. rewrite Hd by congruence. apply Ho; assumption.
    + destruct (hand_over_ok _ _ n _ Hw) as (d' & h' & Eh & Hp' & Hw' & Hd & _). rewrite Eh in E. injection E as <-.
      right. unfold rest_of. cbn [lock files current fresh]. split; [|split; [congruence|split; [congruence|split; [exact Hq|split; [rewrite Hp'; exact Hw'|]]]]].
      * unfold switching. rewrite Hd by congruence. exact Hs.
      * intros p Ip Np Np'. rewrite Hd by congruence. apply Ho; [exact Ip|exact Np|congruence].
  - (* release *)
    destruct rest as [|]; [|discriminate E]. destruct (Nat.eqb_spec t t'); [|discriminate E]. injection E as <-. exact G.
Qed.
Lemma run_snoc events e : forall s s', run s (events ++ [e]) = Some s' -> exists s1, run s events = Some s1 /\ step s1 e = Some s'.
Proof.
  induction events as [|e0 events IH]; intros s s' E; cbn [app run] in *.
  - exists s. split; [reflexivity|]. destruct (step s e); [exact E|discriminate E].
  - destruct (step s e0) as [s0|]; [|discriminate E]. apply IH. exact E.
Qed.
Lemma good_run first d events : forall s, run (start first d) events = Some s -> NoDup (first :: resets (operations events)) -> good first (operations events) s.
Proof.
  induction events as [|e events IH] using rev_ind; intros s E Hn; [cbn [run] in E; injection E as <-; apply good_start|].
  destruct (run_snoc _ _ _ _ E) as (s1 & E1 & E2). rewrite operations_snoc in *. apply (good_step first (operations events) s1 e s Hn E2). apply IH; [exact E1|].
  rewrite resets_app, app_comm_cons in Hn. clear - Hn. induction (resets match e with Acquire _ op => [op] | _ => [] end) as [|x l IH]; [rewrite app_nil_r in Hn; exact Hn|].
  apply NoDup_remove_1 in Hn. apply IH. exact Hn.
Qed.
