(** Property theorems C01-C07.  Specification vocabulary: OverlapsSpec.v,
    HashSpec.v, SortSpec.v.  Model: Overlaps.v, HashValue.v, RadixSort.v, Disk.v. *)
From Verif Require Import Base Overlaps OverlapsSpec OverlapsProofs.
From Verif Require Import HashValue HashSpec HashProofs RadixSort SortSpec SortProofs ParSortProofs.
From Verif Require Import Disk DiskProofs.

(** * C01: the overlap test *)
Theorem c01_overlap_test :
  forall a b ez : Z,
    (0 <= a < 2 ^ 63)%Z -> (0 <= b < 2 ^ 63)%Z -> (0 <= ez < 2 ^ 63)%Z ->
    (overlaps_word a b ez = true <-> (Z.abs (a - b) < ez)%Z) /\
    overlaps_word a b ez = overlaps_word b a ez /\
    ((0 < ez)%Z -> overlaps_word a a ez = true).
Proof.
  intros a b ez Ha Hb He. rewrite !overlaps_word_spec by assumption. lia.
Qed.
Print Assumptions c01_overlap_test.
Example c01_case : overlaps_word 9223372036854775807 0 9223372036854775807 = false
  /\ overlaps_word 9223372036854775806 0 9223372036854775807 = true
  /\ overlaps_word 10 13 3 = false /\ overlaps_word 13 11 3 = true.
Proof. vm_compute. auto. Qed.

(** Outside that range the signed casts change the answer. *)
Theorem c01_huge_exclusion_zone_refuted :
  exists a b ez : Z,
    (0 <= a < 2 ^ 64)%Z /\ (0 <= b < 2 ^ 64)%Z /\ (0 <= ez < 2 ^ 64)%Z /\
    (Z.abs (a - b) < ez)%Z /\ overlaps_word a b ez = false.
Proof. exists 0%Z, 0%Z, (2 ^ 64 - 1)%Z. vm_compute. intuition congruence. Qed.
Print Assumptions c01_huge_exclusion_zone_refuted.

(** The unbounded test used by the rest of the model is the same function. *)
Theorem c01_model_positions :
  forall a b ez : nat,
    (Z.of_nat a < 2 ^ 63)%Z -> (Z.of_nat b < 2 ^ 63)%Z -> (Z.of_nat ez < 2 ^ 63)%Z ->
    overlaps_word (Z.of_nat a) (Z.of_nat b) (Z.of_nat ez) = overlaps a b ez /\
    (overlaps a b ez = true <-> too_close ez a b).
Proof. intros. split; [apply overlaps_word_nat; assumption | apply overlaps_spec]. Qed.
Print Assumptions c01_model_positions.

(** * C02: motifs and motiflets *)
Theorem c02_motif_overlap :
  forall a1 b1 a2 b2 ez : nat,
    ~ too_close ez a1 b1 -> ~ too_close ez a2 b2 ->
    (motif_overlaps a1 b1 a2 b2 ez = true <-> sets_conflict ez [a1; b1] [a2; b2]) /\
    motif_overlaps a1 b1 a2 b2 ez = motif_overlaps a2 b2 a1 b1 ez.
Proof. intros. split; [apply motif_overlaps_spec; assumption | apply motif_overlaps_sym]. Qed.
Print Assumptions c02_motif_overlap.
Example c02_case :
  ~ too_close 5 0 20 /\ ~ too_close 5 10 30 /\ motif_overlaps 0 20 10 30 5 = false /\
  ~ too_close 5 24 60 /\ motif_overlaps 0 20 24 60 5 = true.
Proof. unfold too_close. vm_compute. lia. Qed.

Theorem c02_motiflet_overlap :
  forall (xs ys : list nat) (ez : nat),
    (overlaps_lists xs ys ez = true <-> sets_conflict ez xs ys) /\
    overlaps_lists xs ys ez = overlaps_lists ys xs ez /\
    (0 < ez -> xs <> [] -> overlaps_lists xs xs ez = true).
Proof.
  intros. split; [apply overlaps_lists_spec | split; [apply overlaps_lists_sym | apply overlaps_lists_refl]].
Qed.
Print Assumptions c02_motiflet_overlap.

(** * C03: setting a byte *)
Theorem c03_set_byte :
  forall (h : N) (k : nat) (b : N),
    is_u64 h -> is_u8 b -> k < 8 ->
    exists h', set_byte h k b = Ret h' /\ is_u64 h' /\ byte_at h' k = b /\
      forall j, j < 8 -> j <> k -> byte_at h' j = byte_at h j.
Proof.
  intros h k b Hh Hb Hk. destruct (set_byte_ret h k b Hk) as [h' E].
  exists h'. split; [exact E|]. exact (set_byte_spec h k b h' Hh Hb Hk E).
Qed.
Print Assumptions c03_set_byte.
Example c03_case : set_byte 0x1122334455667788 2 0xAB = Ret 0x1122AB4455667788%N.
Proof. reflexivity. Qed.

(** * C04: prefixes *)
Theorem c04_prefix_compare :
  forall (a b : N) (p : nat),
    1 <= p <= 8 -> is_u64 a -> is_u64 b ->
    exists r, prefix_eq a b p = Ret r /\ (r = true <-> agree p a b).
Proof. intros; apply prefix_eq_spec; assumption. Qed.
Print Assumptions c04_prefix_compare.

Theorem c04_prefix_shorter :
  forall (a b : N) (p q : nat),
    1 <= p <= q -> q <= 8 -> is_u64 a -> is_u64 b ->
    prefix_eq a b q = Ret true -> prefix_eq a b p = Ret true.
Proof.
  intros a b p q Hp Hq Ha Hb E.
  destruct (prefix_eq_spec a b q ltac:(lia) Ha Hb) as (r & Er & H).
  assert (r = true) as -> by congruence.
  destruct (prefix_eq_spec a b p ltac:(lia) Ha Hb) as (r' & Er' & H').
  rewrite Er'. f_equal. apply H'. eapply agree_shorter; [|apply H; reflexivity]. lia.
Qed.
Print Assumptions c04_prefix_shorter.

Theorem c04_prefix_contiguous :
  forall (table : list (N * N)) (p i j k : nat) (x y z : N * N),
    hash_sorted table -> (forall e, In e table -> is_u64 (fst e)) -> 1 <= p <= 8 ->
    i <= j <= k ->
    nth_error table i = Some x -> nth_error table j = Some y -> nth_error table k = Some z ->
    agree p (fst x) (fst z) -> agree p (fst x) (fst y).
Proof. intros. eapply (prefix_contiguous table p i j k); eassumption. Qed.
Print Assumptions c04_prefix_contiguous.

(** a prefix length outside 1..8 aborts *)
Theorem c04_prefix_refused :
  forall (a b : N) (p : nat), p = 0 \/ 8 < p -> prefix_eq a b p = Panic.
Proof.
  intros a b p [->|H]; [reflexivity|]. unfold prefix_eq, assert_. rewrite (proj2 (Nat.ltb_lt 0 p)) by lia.
  unfold get. rewrite (proj2 (nth_error_None MASKS p)); [reflexivity|]. change (length MASKS) with 9. lia.
Qed.
Print Assumptions c04_prefix_refused.
Example c04_refused_case : prefix_eq 1 2 0 = Panic /\ prefix_eq 1 2 9 = Panic /\ prefix_eq 1 2 8 = Ret false.
Proof. vm_compute. auto. Qed.
Example c04_case :
  prefix_eq 0x1122330000000000 0x1122FF0000000000 2 = Ret true /\
  prefix_eq 0x1122330000000000 0x1122FF0000000000 3 = Ret false.
Proof. vm_compute. auto. Qed.

(** * C05: radix sort *)
Theorem c05_radix_sort :
  forall data scratch : list (N * N),
    length scratch = length data -> (forall e, In e data -> is_u64 (fst e)) ->
    exists out scratch',
      sort_hash_pairs data scratch = Ret (out, scratch') /\
      Permutation out data /\ sorted_by_hash out /\ same_hash_same_order out data.
Proof. exact sort_hash_pairs_spec. Qed.
Print Assumptions c05_radix_sort.
Example c05_case :
  let d := [(700, 0); (3, 1); (0x0100000000000000, 2); (3, 0); (0, 7)]%N in
  exists s', sort_hash_pairs d (repeat (0, 0)%N 5) =
    Ret ([(0, 7); (3, 1); (3, 0); (700, 0); (0x0100000000000000, 2)]%N, s').
Proof. eexists. vm_compute. reflexivity. Qed.

(** * C06: parallel sort *)
Theorem c06_parallel_sort :
  forall (threads : nat) (data scratch : list (N * N)),
    0 < threads -> data <> [] -> length scratch = length data ->
    (forall e, In e data -> is_u64 (fst e)) ->
    exists out, returns (par_sort_hash_pairs threads data scratch) out /\
      Permutation out data /\ sorted_by_hash out /\
      (equal_hashes_increasing data ->
         sorted_as_tuples out /\
         forall l, Permutation l data -> sorted_as_tuples l -> out = l).
Proof.
  intros threads data scratch Ht Hd Hl Hu.
  destruct (par_sort_spec threads data scratch Ht Hd Hl Hu) as (out & E & Hp & Hs & Htu).
  exists out. repeat split; auto.
  intros l Hl' Hsl. apply tuple_sorted_unique; auto.
  rewrite Hp. symmetry. exact Hl'.
Qed.
Print Assumptions c06_parallel_sort.
Example c06_case :
  par_sort_hash_pairs 3 [(5, 0); (3, 1); (5, 2); (3, 3); (0, 4); (3, 5); (1, 6)]%N (repeat (0, 0)%N 7) 10
  = Ret [(0, 4); (1, 6); (3, 1); (3, 3); (3, 5); (5, 0); (5, 2)]%N.
Proof. vm_compute. reflexivity. Qed.
(** The empty slice is outside the theorem because the code aborts on it. *)
Theorem c06_empty_slice_refuted :
  forall threads, 0 < threads -> panics (par_sort_hash_pairs threads [] []).
Proof. intros. exists 0. intros. apply par_sort_empty; assumption. Qed.
Print Assumptions c06_empty_slice_refuted.

(** * C07: repetitions on disk *)
Theorem c07_disk_round_trip :
  forall pairs : list (N * N),
    (forall h i, In (h, i) pairs -> is_u64 h /\ is_u32 i) ->
    returns (rep_get (from_pairs_to_disk pairs)) (map fst pairs, map snd pairs) /\
    returns (rep_get (from_pairs pairs)) (map fst pairs, map snd pairs) /\
    bytes (from_pairs_to_disk pairs) = bytes (from_pairs pairs).
Proof. exact disk_round_trip. Qed.
Print Assumptions c07_disk_round_trip.
Example c07_case :
  rep_get (from_pairs_to_disk [(0x0102030405060708, 9); (0xFFFFFFFFFFFFFFFF, 0xFFFFFFFF)]%N) 10
  = Ret ([0x0102030405060708; 0xFFFFFFFFFFFFFFFF]%N, [9; 0xFFFFFFFF]%N).
Proof. vm_compute. reflexivity. Qed.
