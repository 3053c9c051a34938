(** The counter is what is held plus what is being freed. *)
From Verif Require Import Base Alloc.
Local Open Scope N_scope.

Lemma some_inj {A} (a b : A) : Some a = Some b -> a = b.
Proof. congruence. Qed.
Lemma sum_cons x l : sum (x :: l) = x + sum l.
Proof. reflexivity. Qed.
Lemma sum_set (f : doing -> N) l t d d' l' : nth_error l t = Some d -> set_nth l t d' = Some l' -> sum (map f l') + f d = sum (map f l) + f d'.
Proof.
  revert t l'; induction l as [|x l IH]; intros [|t] l' E S; try discriminate E.
  - cbn in E, S. injection E as ->. injection S as <-. cbn [map]. rewrite !sum_cons. lia.
  - cbn [nth_error set_nth] in E, S. destruct (set_nth l t d') as [m|] eqn:Em; [|discriminate S]. injection S as <-. specialize (IH t m E Em). cbn [map]. rewrite !sum_cons. lia.
Qed.
Lemma sum_remove x l l' : remove_one x l = Some l' -> sum l = x + sum l'.
Proof.
  revert l'; induction l as [|y l IH]; intros l'; cbn [remove_one]; [discriminate|]. destruct (N.eqb_spec x y) as [->|].
  - intros E. injection E as ->. apply sum_cons.
  - destruct (remove_one x l) as [m|]; [|discriminate]. intros E. injection E as <-. specialize (IH m eq_refl). rewrite !sum_cons. lia.
Qed.
Definition accounted (s : state) : N := sum (held s) + sum (map freeing (threads s)).
Definition inv (s : state) : Prop := counter s = accounted s mod word /\ in_use s < word.
Lemma word_pos : word <> 0. Proof. discriminate. Qed.
Lemma uncount_mod a size : size <= a -> (a mod word + (word - size mod word)) mod word = (a - size) mod word.
Proof.
  intros L. pose proof word_pos as Hw. pose proof (N.mod_lt size word Hw). pose proof (N.div_mod size word Hw) as Es.
  rewrite N.add_mod_idemp_l by exact Hw. replace (a + (word - size mod word)) with ((a - size) + (size / word + 1) * word) by lia. apply N.mod_add. exact Hw.
Qed.
Lemma step_inv s e s' : step s e = Some s' -> inv s -> inv s'.
Proof.
  intros E (Hc & Hu). unfold inv, accounted, in_use in *. destruct e as [t size|t|t size|t]; cbn [step] in E.
  - destruct (nth_error (threads s) t) as [[| |]|] eqn:Et; try discriminate E. destruct (N.ltb_spec (in_use s + size) word) as [L|]; [|discriminate E]. unfold in_use in L.
    destruct (set_nth (threads s) t (Allocating size)) as [l|] eqn:El; [|discriminate E]. cbn [option_map] in E. apply some_inj in E. subst s'. cbn [counter held threads].
    pose proof (sum_set allocating _ _ _ _ _ Et El) as H1. pose proof (sum_set freeing _ _ _ _ _ Et El) as H2. cbn [allocating freeing] in *.
    split; [rewrite Hc; f_equal; lia|lia].
  - destruct (nth_error (threads s) t) as [[|size|]|] eqn:Et; try discriminate E.
    destruct (set_nth (threads s) t Nothing) as [l|] eqn:El; [|discriminate E]. cbn [option_map] in E. apply some_inj in E. subst s'. cbn [counter held threads].
    pose proof (sum_set allocating _ _ _ _ _ Et El) as H1. pose proof (sum_set freeing _ _ _ _ _ Et El) as H2. cbn [allocating freeing] in *. rewrite sum_cons.
    split; [|lia]. rewrite Hc, N.add_mod_idemp_l by discriminate. f_equal. lia.
  - destruct (nth_error (threads s) t) as [[| |]|] eqn:Et; try discriminate E. destruct (remove_one size (held s)) as [h|] eqn:Eh; [|discriminate E].
    destruct (set_nth (threads s) t (Freeing size)) as [l|] eqn:El; [|discriminate E]. cbn [option_map] in E. apply some_inj in E. subst s'. cbn [counter held threads].
    pose proof (sum_set allocating _ _ _ _ _ Et El) as H1. pose proof (sum_set freeing _ _ _ _ _ Et El) as H2. pose proof (sum_remove _ _ _ Eh) as H3. cbn [allocating freeing] in *.
    split; [rewrite Hc; f_equal; lia|lia].
  - destruct (nth_error (threads s) t) as [[| |size]|] eqn:Et; try discriminate E.
    destruct (set_nth (threads s) t Nothing) as [l|] eqn:El; [|discriminate E]. cbn [option_map] in E. apply some_inj in E. subst s'. cbn [counter held threads].
    pose proof (sum_set allocating _ _ _ _ _ Et El) as H1. pose proof (sum_set freeing _ _ _ _ _ Et El) as H2. cbn [allocating freeing] in *.
    split; [|lia]. rewrite Hc, uncount_mod by lia. f_equal. lia.
Qed.
Lemma run_inv events : forall s s', run s events = Some s' -> inv s -> inv s'.
Proof.
  induction events as [|e events IH]; intros s s' E H; cbn [run] in E; [injection E as <-; exact H|]. destruct (step s e) as [s1|] eqn:E1; [|discriminate E].
  apply (IH s1 s' E). exact (step_inv _ _ _ E1 H).
Qed.
Lemma sum_nothing f n : f Nothing = 0 -> sum (map f (repeat Nothing n)) = 0.
Proof. intros H. induction n as [|n IH]; cbn in *; [reflexivity|]. rewrite H. exact IH. Qed.
Lemma start_inv n : inv (start n).
Proof. unfold inv, accounted, in_use, start. cbn [counter held threads]. rewrite !sum_nothing by reflexivity. split; reflexivity. Qed.
Lemma quiet_sum (f : doing -> N) l : f Nothing = 0 -> Forall (eq Nothing) l -> sum (map f l) = 0.
Proof. intros Hf H. induction H as [|d l <- _ IH]; cbn in *; [reflexivity|]. rewrite Hf. exact IH. Qed.
