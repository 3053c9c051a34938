From Verif Require Import Base HashValue HashSpec Disk.

Lemma to_be_bytes_length w x : length (to_be_bytes w x) = w.
Proof. induction w as [|w IH]; cbn; [reflexivity|]. rewrite IH. reflexivity. Qed.

Lemma fold_bytes w x acc :
  fold_left (fun acc b => acc * 256 + b)%N (to_be_bytes w x) acc =
  (acc * 256 ^ N.of_nat w + x mod 256 ^ N.of_nat w)%N.
Proof.
  revert acc. induction w as [|w IH]; intros acc.
  - cbn. rewrite N.mod_1_r. lia.
  - cbn [to_be_bytes fold_left]. rewrite IH.
    replace (256 ^ N.of_nat (S w))%N with (256 ^ N.of_nat w * 256)%N
      by (rewrite Nat2N.inj_succ, N.pow_succ_r'; lia).
    assert (Hz : (256 ^ N.of_nat w <> 0)%N) by (apply N.pow_nonzero; lia).
    rewrite (N.mod_mul_r x) by (exact Hz || lia). lia.
Qed.

Lemma from_to_be_bytes w x : (x < 256 ^ N.of_nat w)%N -> from_be_bytes (to_be_bytes w x) = x.
Proof.
  intros H. unfold from_be_bytes. rewrite fold_bytes. rewrite N.mod_small by exact H. lia.
Qed.

Lemma write_pairs_eq pairs n fh fi :
  write_pairs pairs n fh fi =
  (n + length pairs, fh ++ flat_map (to_be_bytes 8) (map fst pairs),
   fi ++ flat_map (to_be_bytes 4) (map snd pairs)).
Proof.
  revert n fh fi. induction pairs as [|[h i] t IH]; intros n fh fi; cbn.
  - rewrite !app_nil_r, Nat.add_0_r. reflexivity.
  - rewrite IH. rewrite <- !app_assoc.
    replace (n + 1 + length t) with (n + S (length t)) by lia. reflexivity.
Qed.

Lemma flat_map_length w l : length (flat_map (to_be_bytes w) l) = w * length l.
Proof.
  induction l as [|x l IH]; cbn; [lia|]. rewrite app_length, to_be_bytes_length, IH. lia.
Qed.

Lemma firstn_flat_map w m l :
  firstn (w * m) (flat_map (to_be_bytes w) l) = flat_map (to_be_bytes w) (firstn m l).
Proof.
  revert m. induction l as [|x l IH]; intros m; cbn [flat_map].
  - rewrite !firstn_nil. reflexivity.
  - destruct m as [|m]; [rewrite Nat.mul_0_r; reflexivity|].
    rewrite firstn_app, to_be_bytes_length.
    replace (w * S m) with (w + w * m) by lia.
    rewrite firstn_all2 by (rewrite to_be_bytes_length; lia).
    replace (w + w * m - w) with (w * m) by lia. rewrite IH. reflexivity.
Qed.
Lemma skipn_flat_map w m l :
  skipn (w * m) (flat_map (to_be_bytes w) l) = flat_map (to_be_bytes w) (skipn m l).
Proof.
  revert m. induction l as [|x l IH]; intros m; cbn [flat_map].
  - rewrite !skipn_nil. reflexivity.
  - destruct m as [|m]; [rewrite Nat.mul_0_r; reflexivity|].
    rewrite skipn_app, to_be_bytes_length.
    replace (w * S m) with (w + w * m) by lia.
    rewrite skipn_all2 by (rewrite to_be_bytes_length; lia).
    replace (w + w * m - w) with (w * m) by lia. rewrite IH. reflexivity.
Qed.

Lemma read_file_ok w l fuel :
  0 < w -> (exists m, buf_capacity = w * m /\ 0 < m) -> (forall x, In x l -> (x < 256 ^ N.of_nat w)%N) ->
  length l < fuel ->
  read_file w (flat_map (to_be_bytes w) l) fuel = Ret l.
Proof.
  intros Hw (m & Hm & Hmpos) Hl Hf. unfold read_file.
  match goal with |- loop fuel ?b ?s = _ => set (body := b) end.
  destruct (loop_measure body
    (fun s => exists lb lf, fst s ++ lb ++ lf = l /\
        snd s = (flat_map (to_be_bytes w) lb, flat_map (to_be_bytes w) lf))
    (fun r => r = l) (fun s => length l - length (fst s))) with (s := (@nil N, (@nil N, flat_map (to_be_bytes w) l))) (fuel := fuel)
    as (r & E & Hr).
  - intros [acc [buf file]] (lb & lf & El & Es). cbn [fst snd] in *. injection Es as -> ->.
    unfold body, buf_read.
    assert (R : exists lb' lf', lb ++ lf = lb' ++ lf' /\ (lb' = [] -> lf' = []) /\
      (match flat_map (to_be_bytes w) lb with
       | [] => (firstn buf_capacity (flat_map (to_be_bytes w) lf), skipn buf_capacity (flat_map (to_be_bytes w) lf))
       | _ => (flat_map (to_be_bytes w) lb, flat_map (to_be_bytes w) lf)
       end) = (flat_map (to_be_bytes w) lb', flat_map (to_be_bytes w) lf')).
    { destruct lb as [|b lb].
      - exists (firstn m lf), (skipn m lf). split; [symmetry; apply firstn_skipn|]. split.
        + intros Hn. destruct lf; [destruct m; reflexivity|]. destruct m; [lia|discriminate].
        + cbn [flat_map]. rewrite Hm, firstn_flat_map, skipn_flat_map. reflexivity.
      - exists (b :: lb), lf. split; [reflexivity|]. split; [discriminate|].
        destruct (flat_map (to_be_bytes w) (b :: lb)) eqn:E; [|reflexivity].
        apply (f_equal (@length N)) in E. rewrite flat_map_length in E. cbn [length] in E. lia. }
    destruct R as (lb' & lf' & Eb & Hemp & ->). cbn iota beta.
    destruct lb' as [|x lb'].
    + rewrite (Hemp eq_refl) in *. cbn [flat_map]. rewrite firstn_nil. cbn [length Nat.eqb].
      right. eexists. split; [reflexivity|]. rewrite Eb in El. cbn in El. rewrite app_nil_r in El. exact El.
    + assert (F : firstn w (flat_map (to_be_bytes w) (x :: lb')) = to_be_bytes w x).
      { pose proof (firstn_flat_map w 1 (x :: lb')) as F. rewrite Nat.mul_1_r in F. rewrite F.
        cbn. apply app_nil_r. }
      assert (G : skipn w (flat_map (to_be_bytes w) (x :: lb')) = flat_map (to_be_bytes w) lb').
      { pose proof (skipn_flat_map w 1 (x :: lb')) as G. rewrite Nat.mul_1_r in G. exact G. }
      rewrite F, G, to_be_bytes_length. unfold assert_.
      destruct (Nat.eqb_spec w 0); [lia|]. rewrite Nat.eqb_refl.
      left. eexists. split; [reflexivity|]. cbn [fst snd].
      rewrite Eb in El. cbn [app] in El.
      rewrite from_to_be_bytes.
      * split.
        -- exists lb', lf'. split; [rewrite <- app_assoc; exact El|reflexivity].
        -- rewrite app_length. apply (f_equal (@length N)) in El.
           rewrite app_length in El. cbn [length] in *. lia.
      * apply Hl. rewrite <- El. apply in_or_app. right. left. reflexivity.
  - exists [], l. split; reflexivity.
  - cbn. lia.
  - rewrite E, Hr. reflexivity.
Qed.

Lemma disk_round_trip pairs :
  (forall h i, In (h, i) pairs -> is_u64 h /\ is_u32 i) ->
  returns (rep_get (from_pairs_to_disk pairs)) (map fst pairs, map snd pairs) /\
  returns (rep_get (from_pairs pairs)) (map fst pairs, map snd pairs) /\
  bytes (from_pairs_to_disk pairs) = bytes (from_pairs pairs).
Proof.
  intros H. unfold from_pairs_to_disk, from_pairs. rewrite write_pairs_eq. cbn [app].
  split; [|split].
  - exists (S (length pairs)). intros fuel Hf. cbn [rep_get].
    rewrite (read_file_ok 8).
    + cbn [bind]. rewrite (read_file_ok 4).
      * reflexivity.
      * lia.
      * exists (Z.to_nat 2048). unfold buf_capacity. split; lia.
      * intros x Hx. apply in_map_iff in Hx. destruct Hx as ([h i] & <- & Hi). apply (H h i Hi).
      * rewrite map_length. lia.
    + lia.
    + exists (Z.to_nat 1024). unfold buf_capacity. split; lia.
    + intros x Hx. apply in_map_iff in Hx. destruct Hx as ([h i] & <- & Hi). apply (H h i Hi).
    + rewrite map_length. lia.
  - exists 0. reflexivity.
  - cbn [bytes]. rewrite map_length. lia.
Qed.
