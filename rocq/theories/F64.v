(** Rust [f64] values as far as comparisons are concerned.

    The values are IEEE data ([Coq.Floats.SpecFloat.spec_float]: signed zeros,
    signed infinities, one NaN, finite numbers); the comparison is the IEEE
    comparison [SFcompare] of the standard library.  No arithmetic is modelled
    here. *)
From Coq Require Import Floats.SpecFloat.
From Verif Require Import Base.

Notation f64 := spec_float.

Definition f_nan : f64 := S754_nan.
Definition f_inf : f64 := S754_infinity false.
Definition f_zero : f64 := S754_zero false.

(** [f64::partial_cmp] *)
Definition partial_cmp (a b : f64) : option comparison := SFcompare a b.

Definition is_nan (a : f64) : bool :=
  match a with S754_nan => true | _ => false end.
Definition is_finite (a : f64) : bool :=
  match a with S754_zero _ => true | S754_finite _ _ _ => true | _ => false end.
Definition is_infinite (a : f64) : bool :=
  match a with S754_infinity _ => true | _ => false end.
Definition is_sign_negative (a : f64) : bool :=
  match a with
  | S754_zero s => s | S754_infinity s => s | S754_finite s _ _ => s | S754_nan => false
  end.

(** [a < b], [a <= b], [a == b] on [f64]: all false when a NaN is involved. *)
Definition flt (a b : f64) : bool :=
  match SFcompare a b with Some Lt => true | _ => false end.
Definition fle (a b : f64) : bool :=
  match SFcompare a b with Some Lt | Some Eq => true | _ => false end.
Definition feq (a b : f64) : bool :=
  match SFcompare a b with Some Eq => true | _ => false end.

(** ** The order of non-NaN values, as a lexicographic order on integers *)
Definition cls (a : f64) : Z :=
  match a with
  | S754_infinity true => -2
  | S754_finite true _ _ => -1
  | S754_zero _ => 0
  | S754_finite false _ _ => 1
  | S754_infinity false => 2
  | S754_nan => 3
  end%Z.
Definition expo (a : f64) : Z :=
  match a with
  | S754_finite false _ e => e
  | S754_finite true _ e => - e
  | _ => 0
  end%Z.
Definition mant (a : f64) : Z :=
  match a with
  | S754_finite false m _ => Zpos m
  | S754_finite true m _ => Zneg m
  | _ => 0
  end%Z.

Definition klt (a b : f64) : Prop :=
  (cls a < cls b \/ cls a = cls b /\ (expo a < expo b \/ expo a = expo b /\ mant a < mant b))%Z.
Definition keq (a b : f64) : Prop :=
  (cls a = cls b /\ expo a = expo b /\ mant a = mant b)%Z.

Lemma SFcompare_key a b :
  is_nan a = false -> is_nan b = false ->
  match SFcompare a b with
  | Some Lt => klt a b
  | Some Eq => keq a b
  | Some Gt => klt b a
  | None => False
  end.
Proof.
  unfold klt, keq.
  destruct a as [[]|[]| |[] ma ea], b as [[]|[]| |[] mb eb];
    cbn [is_nan SFcompare cls expo mant]; intros Ha Hb; try discriminate; try lia.
  - change (Pos.compare_cont Eq ma mb) with (Pos.compare ma mb).
    destruct (Z.compare_spec ea eb) as [E|E|E]; try lia.
    destruct (Pos.compare_spec ma mb) as [F|F|F]; cbn [CompOpp]; lia.
  - change (Pos.compare_cont Eq ma mb) with (Pos.compare ma mb).
    destruct (Z.compare_spec ea eb) as [E|E|E]; try lia.
    destruct (Pos.compare_spec ma mb) as [F|F|F]; lia.
Qed.

Lemma SFcompare_nan_l b : SFcompare f_nan b = None.
Proof. reflexivity. Qed.
Lemma SFcompare_nan_r a : SFcompare a f_nan = None.
Proof. destruct a; reflexivity. Qed.
Lemma is_nan_true a : is_nan a = true -> a = f_nan.
Proof. destruct a; cbn; intros; try discriminate; reflexivity. Qed.

Lemma flt_nan a b : flt a b = true -> is_nan a = false /\ is_nan b = false.
Proof.
  unfold flt. destruct (is_nan a) eqn:Ha.
  - apply is_nan_true in Ha; subst; cbn; discriminate.
  - destruct (is_nan b) eqn:Hb; [|auto].
    apply is_nan_true in Hb; subst. rewrite SFcompare_nan_r. discriminate.
Qed.
Lemma fle_nan a b : fle a b = true -> is_nan a = false /\ is_nan b = false.
Proof.
  unfold fle. destruct (is_nan a) eqn:Ha.
  - apply is_nan_true in Ha; subst; cbn; discriminate.
  - destruct (is_nan b) eqn:Hb; [|auto].
    apply is_nan_true in Hb; subst. rewrite SFcompare_nan_r. discriminate.
Qed.
Lemma feq_nan a b : feq a b = true -> is_nan a = false /\ is_nan b = false.
Proof.
  unfold feq. destruct (is_nan a) eqn:Ha.
  - apply is_nan_true in Ha; subst; cbn; discriminate.
  - destruct (is_nan b) eqn:Hb; [|auto].
    apply is_nan_true in Hb; subst. rewrite SFcompare_nan_r. discriminate.
Qed.

Lemma flt_key a b : is_nan a = false -> is_nan b = false -> flt a b = true <-> klt a b.
Proof.
  intros Ha Hb. pose proof (SFcompare_key a b Ha Hb) as H. unfold flt.
  destruct (SFcompare a b) as [[]|]; unfold klt, keq in *; split; intros; try discriminate; lia || auto.
Qed.
Lemma fle_key a b : is_nan a = false -> is_nan b = false -> fle a b = true <-> ~ klt b a.
Proof.
  intros Ha Hb. pose proof (SFcompare_key a b Ha Hb) as H. unfold fle.
  destruct (SFcompare a b) as [[]|]; unfold klt, keq in *; split; intros; try discriminate; lia || auto.
Qed.
Lemma feq_key a b : is_nan a = false -> is_nan b = false -> feq a b = true <-> keq a b.
Proof.
  intros Ha Hb. pose proof (SFcompare_key a b Ha Hb) as H. unfold feq.
  destruct (SFcompare a b) as [[]|]; unfold klt, keq in *; split; intros; try discriminate; lia || auto.
Qed.

Lemma flt_key_false a b : is_nan a = false -> is_nan b = false -> flt a b = false <-> ~ klt a b.
Proof.
  intros Ha Hb. rewrite <- (flt_key a b Ha Hb). destruct (flt a b); split; congruence.
Qed.
Lemma fle_key_false a b : is_nan a = false -> is_nan b = false -> fle a b = false <-> klt b a.
Proof.
  intros Ha Hb. pose proof (fle_key a b Ha Hb) as H. destruct (fle a b).
  - split; [congruence|]. intros K. exfalso. apply H; auto.
  - split; [|auto]. intros _. unfold klt in *.
    assert (~ ~ (klt b a)) as N by (intros C; apply H in C; discriminate).
    unfold klt in N. lia.
Qed.
Lemma feq_key_false a b : is_nan a = false -> is_nan b = false -> feq a b = false <-> ~ keq a b.
Proof.
  intros Ha Hb. rewrite <- (feq_key a b Ha Hb). destruct (feq a b); split; congruence.
Qed.

(** [f64_tac] decides goals about [flt], [fle], [feq] of values that are known
    not to be NaN (a NaN-freeness hypothesis for each variable, or derivable
    from a true comparison). *)
Ltac f64_nan :=
  repeat match goal with
  | H : flt ?a ?b = true |- _ =>
      lazymatch goal with
      | _ : is_nan a = false, _ : is_nan b = false |- _ => fail
      | _ => let H1 := fresh "Hn" in let H2 := fresh "Hn" in
             pose proof (flt_nan a b H) as [H1 H2]
      end
  | H : fle ?a ?b = true |- _ =>
      lazymatch goal with
      | _ : is_nan a = false, _ : is_nan b = false |- _ => fail
      | _ => let H1 := fresh "Hn" in let H2 := fresh "Hn" in
             pose proof (fle_nan a b H) as [H1 H2]
      end
  | H : feq ?a ?b = true |- _ =>
      lazymatch goal with
      | _ : is_nan a = false, _ : is_nan b = false |- _ => fail
      | _ => let H1 := fresh "Hn" in let H2 := fresh "Hn" in
             pose proof (feq_nan a b H) as [H1 H2]
      end
  end.
Ltac f64_keys :=
  repeat match goal with
  | H : flt ?a ?b = true |- _ => rewrite (flt_key a b) in H by assumption
  | H : flt ?a ?b = false |- _ => rewrite (flt_key_false a b) in H by assumption
  | H : fle ?a ?b = true |- _ => rewrite (fle_key a b) in H by assumption
  | H : fle ?a ?b = false |- _ => rewrite (fle_key_false a b) in H by assumption
  | H : feq ?a ?b = true |- _ => rewrite (feq_key a b) in H by assumption
  | H : feq ?a ?b = false |- _ => rewrite (feq_key_false a b) in H by assumption
  | |- flt ?a ?b = true => rewrite (flt_key a b) by assumption
  | |- flt ?a ?b = false => rewrite (flt_key_false a b) by assumption
  | |- fle ?a ?b = true => rewrite (fle_key a b) by assumption
  | |- fle ?a ?b = false => rewrite (fle_key_false a b) by assumption
  | |- feq ?a ?b = true => rewrite (feq_key a b) by assumption
  | |- feq ?a ?b = false => rewrite (feq_key_false a b) by assumption
  end.
Ltac f64_tac := f64_nan; f64_keys; unfold klt, keq in *; lia.

Lemma fle_refl a : is_nan a = false -> fle a a = true.
Proof. intros; f64_tac. Qed.
Lemma flt_irrefl a : flt a a = false.
Proof. destruct (flt a a) eqn:E; [|reflexivity]. exfalso. f64_tac. Qed.
Lemma fle_trans a b c : fle a b = true -> fle b c = true -> fle a c = true.
Proof. intros; f64_tac. Qed.
Lemma flt_trans a b c : flt a b = true -> flt b c = true -> flt a c = true.
Proof. intros; f64_tac. Qed.
Lemma flt_fle_trans a b c : flt a b = true -> fle b c = true -> flt a c = true.
Proof. intros; f64_tac. Qed.
Lemma fle_flt_trans a b c : fle a b = true -> flt b c = true -> flt a c = true.
Proof. intros; f64_tac. Qed.
Lemma flt_fle a b : flt a b = true -> fle a b = true.
Proof. intros; f64_tac. Qed.
Lemma flt_asym a b : flt a b = true -> flt b a = false.
Proof. intros; f64_tac. Qed.
Lemma fle_total a b : is_nan a = false -> is_nan b = false -> fle a b = true \/ fle b a = true.
Proof.
  intros Ha Hb. destruct (fle a b) eqn:E; [auto|right]. f64_tac.
Qed.
Lemma flt_not_fle a b : is_nan a = false -> is_nan b = false -> flt a b = negb (fle b a).
Proof.
  intros Ha Hb. destruct (fle b a) eqn:E; cbn; f64_tac.
Qed.
Lemma fle_not_flt a b : is_nan a = false -> is_nan b = false -> fle a b = negb (flt b a).
Proof.
  intros Ha Hb. destruct (flt b a) eqn:E; cbn; f64_tac.
Qed.
Lemma fle_antisym a b : fle a b = true -> fle b a = true -> feq a b = true.
Proof. intros; f64_tac. Qed.
Lemma feq_fle a b : feq a b = true -> fle a b = true.
Proof. intros; f64_tac. Qed.
Lemma feq_sym a b : feq a b = feq b a.
Proof.
  destruct (feq a b) eqn:E, (feq b a) eqn:F; try reflexivity; exfalso; f64_tac.
Qed.
Lemma fle_inf a : is_nan a = false -> fle a f_inf = true.
Proof. destruct a as [[]|[]| |[]]; cbn; intros; try reflexivity; discriminate. Qed.
Lemma finite_flt_inf a : is_finite a = true -> flt a f_inf = true.
Proof. destruct a as [[]|[]| |[]]; cbn; intros; try reflexivity; discriminate. Qed.
Lemma finite_not_nan a : is_finite a = true -> is_nan a = false.
Proof. destruct a; cbn; intros; try discriminate; reflexivity. Qed.
