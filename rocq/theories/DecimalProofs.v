(** Proofs about decimal numbers in text. *)
From Coq Require Import Reals Lra Lia QArith Qreals String Floats.SpecFloat.
From Flocq Require Import Core Relative BinarySingleNaN.
From Verif Require Import Base F64 Iterator Text TextSpec TextForms TextProofs FpOps FloatProofs FloatBound FloatErr FloatErf FloatErfP Counts Decimal DecimalSpec.
Local Open Scope list_scope.
Local Open Scope R_scope.

(** ** Digits *)
Definition small (ds : list N) : Prop := Forall (fun d => (d < 10)%N) ds.
Definition no_digit (s : list N) : Prop := match s with [] => True | c :: _ => is_digit c = false end.
Lemma digit_code d : (d < 10)%N -> is_digit (48 + d) = true.
Proof. intros L. unfold is_digit. destruct (N.leb_spec 48 (48 + d)), (N.leb_spec (48 + d) 57); try reflexivity; lia. Qed.
Lemma code_digit c : is_digit c = true -> (48 <= c)%N /\ (c - 48 < 10)%N.
Proof. unfold is_digit. destruct (N.leb_spec 48 c), (N.leb_spec c 57); try discriminate. lia. Qed.
Lemma span_ok ds r : small ds -> no_digit r -> span_digits (written ds ++ r) = (ds, r).
Proof.
  intros H R. induction H as [|d l Hd _ IH]; cbn [written map app].
  - destruct r as [|c r]; [reflexivity|]. cbn [span_digits]. cbn in R. rewrite R. reflexivity.
  - cbn [span_digits]. rewrite digit_code by exact Hd. unfold written in IH. rewrite IH. f_equal. f_equal. lia.
Qed.
Lemma span_inv s ds r : span_digits s = (ds, r) -> s = written ds ++ r /\ small ds /\ no_digit r.
Proof.
  revert ds r; induction s as [|c t IH]; intros ds r; cbn [span_digits].
  - intros E. injection E as <- <-. repeat split. constructor.
  - destruct (is_digit c) eqn:C.
    + destruct (span_digits t) as [ds' r'] eqn:S. intros E. injection E as <- <-. destruct (IH _ _ eq_refl) as (-> & H1 & H2). destruct (code_digit _ C) as (C1 & C2).
      split; [|split; [constructor; assumption|exact H2]]. cbn [written map app]. f_equal. lia.
    + intros E. injection E as <- <-. split; [reflexivity|]. split; [constructor|exact C].
Qed.
Lemma number_of_decimal ds : number_of ds = decimal ds.
Proof.
  unfold number_of, decimal. generalize 0%N. induction ds as [|d l IH]; intros a; cbn [fold_left]; [reflexivity|]. rewrite IH. f_equal. lia.
Qed.

(** ** The exponent *)
Lemma e_lower e : In e (codes "eE") -> lower e = 101%N /\ is_digit e = false /\ e <> 46%N.
Proof. intros [<-|[<-|[]]]; repeat split; discriminate. Qed.
Lemma lower_e c : lower c = 101%N -> In c (codes "eE").
Proof.
  unfold lower. destruct (N.leb_spec 65 c), (N.leb_spec c 90); cbn [andb]; intros E; [right; left|left|left|left]; vm_compute; lia.
Qed.
Lemma sign_digits ds r : is_digits ds -> take_sign (written ds ++ r) = (false, written ds ++ r).
Proof.
  intros (H & D). destruct ds as [|d l]; [congruence|]. inversion D as [|? ? Hd _]; subst. cbn [written map app take_sign].
  destruct (N.eqb_spec (48 + d) 45); [lia|]. destruct (N.eqb_spec (48 + d) 43); [lia|]. reflexivity.
Qed.
Lemma exponent_ok e neg sgn ex : In e (codes "eE") -> is_digits ex -> (neg = false /\ (sgn = [] \/ sgn = codes "+")) \/ (neg = true /\ sgn = codes "-") ->
  take_exponent (e :: sgn ++ written ex) = Some (if neg then - Z.of_N (decimal ex) else Z.of_N (decimal ex))%Z.
Proof.
  intros E D S. cbn [take_exponent]. rewrite (proj1 (e_lower e E)). cbn [N.eqb Pos.eqb].
  assert (T : take_sign (sgn ++ written ex) = (neg, written ex)).
  { destruct S as [(-> & [->| ->])|(-> & ->)]; [|reflexivity|reflexivity]. cbn [app]. rewrite <- (app_nil_r (written ex)). apply sign_digits, D. }
  rewrite T. rewrite <- (app_nil_r (written ex)). rewrite span_ok by (apply D || exact I). rewrite <- number_of_decimal.
  destruct ex as [|d l]; [destruct D; congruence|]. reflexivity.
Qed.
Lemma exponent_inv s e : take_exponent s = Some e ->
  (s = [] /\ e = 0%Z) \/
  exists c neg sgn ex, In c (codes "eE") /\ is_digits ex /\ ((neg = false /\ (sgn = [] \/ sgn = codes "+")) \/ (neg = true /\ sgn = codes "-")) /\
    s = c :: sgn ++ written ex /\ e = (if neg then - Z.of_N (decimal ex) else Z.of_N (decimal ex))%Z.
Proof.
  destruct s as [|c t]; cbn [take_exponent]; [intros E; injection E as <-; left; split; reflexivity|].
  destruct (N.eqb_spec (lower c) 101) as [Hc|]; [|discriminate]. destruct (take_sign t) as [neg t'] eqn:S.
  destruct (span_digits t') as [[|d l] [|x r]] eqn:D; try discriminate. intros E. injection E as <-. right.
  destruct (span_inv _ _ _ D) as (-> & H & _). rewrite app_nil_r in S.
  assert (X : exists sgn, ((neg = false /\ (sgn = [] \/ sgn = codes "+")) \/ (neg = true /\ sgn = codes "-")) /\ t = sgn ++ written (d :: l)).
  { clear D. revert S. generalize (written (d :: l)). intros wr S. unfold take_sign in S. destruct t as [|y t]; [injection S as <- <-; exists []; split; [left; split; [reflexivity|left; reflexivity]|reflexivity]|]. destruct (N.eqb_spec y 45) as [->|].
    - injection S as <- ->. exists (codes "-"). split; [right; split; reflexivity|reflexivity].
    - destruct (N.eqb_spec y 43) as [->|].
      + injection S as <- ->. exists (codes "+"). split; [left; split; [reflexivity|right; reflexivity]|reflexivity].
      + injection S as <- S. exists []. split; [left; split; [reflexivity|left; reflexivity]|]. exact S. }
  destruct X as (sgn & X & ->). exists c, neg, sgn, (d :: l). split; [apply lower_e, Hc|]. split; [split; [discriminate|exact H]|]. split; [exact X|].
  split; [reflexivity|]. rewrite number_of_decimal. reflexivity.
Qed.

(** ** Numbers *)
Definition nval (n : N) (e : Z) : R := IZR (Z.of_N n) * powerRZ 10 e.
Definition parse_unsigned (neg : bool) (t : list N) : option f64 :=
  let word := map lower t in
  if list_eq_dec N.eq_dec word (codes "inf") then Some (S754_infinity neg)
  else if list_eq_dec N.eq_dec word (codes "infinity") then Some (S754_infinity neg)
  else if list_eq_dec N.eq_dec word (codes "nan") then Some S754_nan
  else
    let '(whole, t) := span_digits t in
    let '(frac, t) := match t with c :: r => if (c =? 46)%N then span_digits r else ([], t) | [] => ([], []) end in
    match whole ++ frac with
    | [] => None
    | digits => option_map (fun e => signed neg (nearest_decimal (number_of digits) (e - Z.of_nat (length frac)))) (take_exponent t)
    end.
Lemma parse_split s : parse_f64 s = let '(neg, t) := take_sign s in parse_unsigned neg t.
Proof. unfold parse_f64. destruct (take_sign s). reflexivity. Qed.

(** the first character of a plain number *)
Lemma head_plain whole frac dot rest : small whole -> is_digits (whole ++ frac) -> (dot = false -> frac = []) ->
  exists c t, written whole ++ (if dot : bool then 46%N :: written frac else []) ++ rest = c :: t /\ lower c <> 105%N /\ lower c <> 110%N /\ c <> 45%N /\ c <> 43%N.
Proof.
  intros W (H & D) F. destruct whole as [|d l].
  - destruct dot; [|rewrite F in H by reflexivity; exfalso; apply H; reflexivity]. exists 46%N, (written frac ++ rest). repeat split; discriminate.
  - inversion W as [|? ? Hd _]; subst. exists (48 + d)%N, (written l ++ (if dot then 46%N :: written frac else []) ++ rest). split; [reflexivity|].
    assert (lower (48 + d) = 48 + d)%N as -> by (unfold lower; destruct (N.leb_spec 65 (48 + d)); [lia|reflexivity]). repeat split; lia.
Qed.
Lemma parse_ok neg whole frac dot rest e : small whole -> small frac -> is_digits (whole ++ frac) -> (dot = false -> frac = []) ->
  no_digit rest -> (dot = false -> match rest with c :: _ => c <> 46%N | [] => True end) -> take_exponent rest = Some e ->
  parse_unsigned neg (written whole ++ (if dot : bool then 46%N :: written frac else []) ++ rest) =
    Some (signed neg (nearest_decimal (decimal (whole ++ frac)) (e - Z.of_nat (length frac)))).
Proof.
  intros W F D Hf R1 R2 E. destruct (head_plain whole frac dot rest W D Hf) as (c & t & Ht & H1 & H2 & _).
  unfold parse_unsigned.
  destruct (list_eq_dec N.eq_dec _ (codes "inf")) as [X|_]; [exfalso; rewrite Ht in X; injection X as X _; exact (H1 X)|].
  destruct (list_eq_dec N.eq_dec _ (codes "infinity")) as [X|_]; [exfalso; rewrite Ht in X; injection X as X _; exact (H1 X)|].
  destruct (list_eq_dec N.eq_dec _ (codes "nan")) as [X|_]; [exfalso; rewrite Ht in X; injection X as X _; exact (H2 X)|].
  rewrite span_ok; [|exact W|destruct dot; [reflexivity|exact R1]].
  assert (G : (match (if dot then 46%N :: written frac else []) ++ rest with c :: r => if (c =? 46)%N then span_digits r else ([], (if dot then 46%N :: written frac else []) ++ rest) | [] => ([], []) end) = (frac, rest)).
  { destruct dot.
    - cbn [app]. rewrite N.eqb_refl. apply span_ok; assumption.
    - rewrite Hf by reflexivity. cbn [app]. destruct rest as [|x r]; [reflexivity|]. specialize (R2 eq_refl). cbn in R2. destruct (N.eqb_spec x 46); [congruence|reflexivity]. }
  rewrite G, E, <- number_of_decimal. destruct (whole ++ frac) as [|d l]; [destruct D; congruence|]. reflexivity.
Qed.

Lemma pow10 n : 10 ^ n = powerRZ 10 (Z.of_nat n). Proof. apply pow_powerRZ. Qed.
Lemma nval_plus n a b : nval n (a + b) = nval n a * powerRZ 10 b.
Proof. unfold nval. rewrite powerRZ_add by lra. ring. Qed.
Lemma pow10_N n : 10 ^ N.to_nat n = powerRZ 10 (Z.of_N n).
Proof. rewrite pow10. f_equal. lia. Qed.
Lemma point_val ds k : IZR (Z.of_N (decimal ds)) / 10 ^ k = nval (decimal ds) (- Z.of_nat k).
Proof. unfold nval, Rdiv. rewrite pow10, <- powerRZ_neg' . reflexivity. Qed.

(** a decimal number, cut into its parts *)
Lemma plain_parts text v : plain_text text v -> exists whole frac (dot : bool),
  small whole /\ small frac /\ is_digits (whole ++ frac) /\ (dot = false -> frac = []) /\ text = written whole ++ (if dot then 46%N :: written frac else []) /\
  v = nval (decimal (whole ++ frac)) (- Z.of_nat (length frac)).
Proof.
  intros [whole D|whole frac D].
  - exists whole, [], false. rewrite !app_nil_r. split; [apply D|]. split; [constructor|]. split; [exact D|]. split; [reflexivity|]. split; [reflexivity|]. unfold nval. cbn. ring.
  - exists whole, frac, true. pose proof (proj2 D) as H. apply Forall_app in H. destruct H. split; [assumption|]. split; [assumption|]. split; [exact D|]. split; [discriminate|]. split; [reflexivity|]. apply point_val.
Qed.
Lemma decimal_parse neg text v : decimal_text text v ->
  take_sign text = (false, text) /\ exists n e, parse_unsigned neg text = Some (signed neg (nearest_decimal n e)) /\ v = nval n e.
Proof.
  assert (G : forall text v rest e, plain_text text v -> no_digit rest -> match rest with c :: _ => c <> 46%N | [] => True end -> take_exponent rest = Some e ->
    take_sign (text ++ rest) = (false, text ++ rest) /\ exists n e', parse_unsigned neg (text ++ rest) = Some (signed neg (nearest_decimal n e')) /\ v * powerRZ 10 e = nval n e').
  { intros t w rest e P R1 R2 E. destruct (plain_parts _ _ P) as (whole & frac & dot & W & F & D & Hf & -> & ->). rewrite <- app_assoc. split.
    - destruct (head_plain whole frac dot rest W D Hf) as (c & t & Ht & _ & _ & H1 & H2). rewrite Ht. cbn [take_sign].
      destruct (N.eqb_spec c 45); [congruence|]. destruct (N.eqb_spec c 43); [congruence|reflexivity].
    - exists (decimal (whole ++ frac)), (e - Z.of_nat (length frac))%Z. split; [apply parse_ok; auto|]. rewrite <- nval_plus. f_equal. lia. }
  intros [t w P|t w e plus ex P E S D|t w e ex P E D].
  - destruct (G t w [] 0%Z P I I eq_refl) as (G1 & n & e & G2 & G3). rewrite app_nil_r in *. split; [exact G1|]. exists n, e. split; [exact G2|]. rewrite <- G3. cbn. ring.
  - destruct (e_lower e E) as (_ & E1 & E2). destruct (G t w (e :: plus ++ written ex) _ P E1 E2 (exponent_ok e false plus ex E D (or_introl (conj eq_refl S)))) as (G1 & n & e' & G2 & G3).
    split; [exact G1|]. exists n, e'. split; [exact G2|]. rewrite <- G3, pow10_N. reflexivity.
  - destruct (e_lower e E) as (_ & E1 & E2). destruct (G t w (e :: codes "-" ++ written ex) _ P E1 E2 (exponent_ok e true (codes "-") ex E D (or_intror (conj eq_refl eq_refl)))) as (G1 & n & e' & G2 & G3).
    split; [exact G1|]. exists n, e'. split; [exact G2|]. rewrite <- G3, pow10_N. unfold Rdiv. rewrite <- powerRZ_neg'. reflexivity.
Qed.
Lemma parse_unsigned_inv neg t x : parse_unsigned neg t = Some x ->
  (exists word, map lowercase t = word /\ In word [codes "inf"; codes "infinity"; codes "nan"]) \/ (exists v, decimal_text t v).
Proof.
  unfold parse_unsigned. rewrite <- lower_same.
  destruct (list_eq_dec N.eq_dec _ (codes "inf")) as [X|_]; [intros _; left; exists (codes "inf"); split; [exact X|left; reflexivity]|].
  destruct (list_eq_dec N.eq_dec _ (codes "infinity")) as [X|_]; [intros _; left; exists (codes "infinity"); split; [exact X|right; left; reflexivity]|].
  destruct (list_eq_dec N.eq_dec _ (codes "nan")) as [X|_]; [intros _; left; exists (codes "nan"); split; [exact X|right; right; left; reflexivity]|].
  destruct (span_digits t) as [whole t1] eqn:S1. destruct (span_inv _ _ _ S1) as (-> & W & R1).
  intros E. right.
  assert (G : exists text v rest, plain_text text v /\ written whole ++ t1 = text ++ rest /\ exists e, take_exponent rest = Some e).
  { destruct t1 as [|c r].
    - rewrite app_nil_r in E. destruct whole as [|d l]; [discriminate E|]. exists (written (d :: l)), (IZR (Z.of_N (decimal (d :: l)))), []. split; [constructor; split; [discriminate|exact W]|]. split; [reflexivity|]. exists 0%Z. reflexivity.
    - destruct (N.eqb_spec c 46) as [->|Hc].
      + destruct (span_digits r) as [frac t2] eqn:S2. destruct (span_inv _ _ _ S2) as (-> & F & R2).
        assert (D : is_digits (whole ++ frac)) by (split; [intros Z; rewrite Z in E; discriminate E|apply Forall_app; split; assumption]).
        exists (written whole ++ codes "." ++ written frac), (IZR (Z.of_N (decimal (whole ++ frac))) / 10 ^ length frac), t2. split; [constructor; exact D|]. split; [rewrite <- !app_assoc; reflexivity|].
        destruct (whole ++ frac) as [|d l]; [discriminate E|]. destruct (take_exponent t2) as [e|]; [|discriminate E]. exists e. reflexivity.
      + rewrite app_nil_r in E. destruct whole as [|d l]; [discriminate E|]. exists (written (d :: l)), (IZR (Z.of_N (decimal (d :: l)))), (c :: r). split; [constructor; split; [discriminate|exact W]|]. split; [reflexivity|].
        destruct (take_exponent (c :: r)) as [e|]; [|discriminate E]. exists e. reflexivity. }
  destruct G as (text & v & rest & P & -> & e & Ee). destruct (exponent_inv _ _ Ee) as [(-> & _)|(c & ng & sgn & ex & Hc & D & S & -> & _)].
  - rewrite app_nil_r. exists v. constructor. exact P.
  - destruct S as [(_ & S)|(_ & ->)].
    + exists (v * 10 ^ N.to_nat (decimal ex)). constructor; assumption.
    + exists (v / 10 ^ N.to_nat (decimal ex)). constructor; assumption.
Qed.
Lemma sign_inv s neg t : take_sign s = (neg, t) -> (neg = false /\ (s = t \/ s = codes "+" ++ t)) \/ (neg = true /\ s = codes "-" ++ t).
Proof.
  unfold take_sign. destruct s as [|c r]; [intros E; injection E as <- <-; left; split; [reflexivity|left; reflexivity]|].
  destruct (N.eqb_spec c 45) as [->|]; [intros E; injection E as <- <-; right; split; reflexivity|].
  destruct (N.eqb_spec c 43) as [->|]; intros E; injection E as <- <-; left; (split; [reflexivity|]); [right|left]; reflexivity.
Qed.
Lemma parse_inv s x : parse_f64 s = Some x -> (exists word neg, word_text s word neg) \/ (exists v, signed_text s v).
Proof.
  rewrite parse_split. destruct (take_sign s) as [neg t] eqn:S. intros E. destruct (parse_unsigned_inv _ _ _ E) as [(word & H1 & H2)|(v & H)].
  - left. exists word. destruct (sign_inv _ _ _ S) as [(-> & [->| ->])|(-> & ->)]; [exists false; constructor|exists false; constructor|exists true; constructor]; assumption.
  - right. destruct (sign_inv _ _ _ S) as [(-> & [->| ->])|(-> & ->)]; [exists v|exists v|exists (- v)]; constructor; assumption.
Qed.
(** a number with a sign *)
Lemma signed_parse s v : signed_text s v -> exists neg n e, parse_f64 s = Some (signed neg (nearest_decimal n e)) /\ v = (if neg : bool then - nval n e else nval n e).
Proof.
  intros H. rewrite parse_split. destruct H as [t w D|t w D|t w D].
  - destruct (decimal_parse false t w D) as (S & n & e & P & V). rewrite S. exists false, n, e. split; [exact P|exact V].
  - destruct (decimal_parse false t w D) as (_ & n & e & P & V). exists false, n, e. split; [exact P|exact V].
  - destruct (decimal_parse true t w D) as (_ & n & e & P & V). exists true, n, e. split; [exact P|]. rewrite V. reflexivity.
Qed.
(** a word *)
Lemma word_parse s word neg : word_text s word neg -> parse_f64 s = Some (if list_eq_dec N.eq_dec word (codes "nan") then S754_nan else S754_infinity neg).
Proof.
  assert (G : forall word t neg, map lowercase t = word -> In word [codes "inf"; codes "infinity"; codes "nan"] -> parse_unsigned neg t = Some (if list_eq_dec N.eq_dec word (codes "nan") then S754_nan else S754_infinity neg)).
  { intros wd t ng E I. unfold parse_unsigned. rewrite <- lower_same, E. destruct I as [<-|[<-|[<-|[]]]]; reflexivity. }
  intros [t w E I|t w E I|t w E I]; rewrite parse_split.
  - assert (S : take_sign t = (false, t)).
    { assert (A : exists c r, w = c :: r /\ (c = 105 \/ c = 110)%N) by (destruct I as [<-|[<-|[<-|[]]]]; do 2 eexists; (split; [reflexivity|]); [left|left|right]; reflexivity).
      destruct A as (c & r & -> & A). destruct t as [|y t]; [discriminate E|]. injection E as E _. cbn [take_sign].
      destruct (N.eqb_spec y 45) as [->|]; [exfalso; vm_compute in E; lia|]. destruct (N.eqb_spec y 43) as [->|]; [exfalso; vm_compute in E; lia|]. reflexivity. }
    rewrite S. apply G; assumption.
  - apply (G w t false); assumption.
  - apply (G w t true); assumption.
Qed.

(** ** Values *)
Lemma lit_gen q : (Rabs (rnd (Q2R q)) < top -> number (lit q) /\ fval (lit q) = rnd (Q2R q)) /\
  (top <= Rabs (rnd (Q2R q)) -> lit q = S754_infinity (Qnum q <? 0)%Z).
Proof.
  assert (D : forall s n, Qnum q = SpecFloat.cond_Zopp s (Zpos n) -> lit q = SFdiv prec emax (S754_finite s n 0) (S754_finite false (Qden q) 0) ->
    (Rabs (rnd (Q2R q)) < top -> number (lit q) /\ fval (lit q) = rnd (Q2R q)) /\ (top <= Rabs (rnd (Q2R q)) -> lit q = S754_infinity s)).
  { intros s n En ->. pose proof (Bdiv_correct_aux prec emax Hprec Hmax mode_NE s n 0 false (Qden q) 0) as C. cbv zeta in C.
    replace (F2R {| Fnum := SpecFloat.cond_Zopp s (Zpos n); Fexp := 0 |} / F2R {| Fnum := SpecFloat.cond_Zopp false (Zpos (Qden q)); Fexp := 0 |}) with (Q2R q) in C
      by (unfold Q2R, F2R; cbn [Fnum Fexp]; rewrite En; cbn [SpecFloat.cond_Zopp]; change (bpow radix2 0) with 1; unfold Rdiv; rewrite !Rmult_1_r; reflexivity).
    change (round radix2 (SpecFloat.fexp prec emax) (round_mode mode_NE)) with rnd in C.
    cbn [SFdiv]. destruct (SFdiv_core_binary _ _ _ _ _ _) as [[m e] l]. rewrite aux_equiv. split; intros T.
    - rewrite (fits _ T) in C. destruct C as (C1 & C2 & C3 & _).
      split; [split; [exact C1|]|exact C2]. destruct (BinarySingleNaN.binary_round_aux _ _ _ _ _ _ _); try discriminate C3; reflexivity.
    - rewrite Rlt_bool_false in C by exact T. destruct C as (_ & C). rewrite C. destruct s; reflexivity. }
  destruct (Qnum q) as [|n|n] eqn:En.
  - assert (E : Q2R q = 0) by (unfold Q2R; rewrite En; ring). assert (L : lit q = S754_zero false) by (unfold lit; rewrite En; reflexivity). rewrite E, rnd0, L. split.
    + intros _. split; [split; reflexivity|reflexivity].
    + rewrite Rabs_R0. intros T. exfalso. assert (0 < top) by apply bpow_gt_0. lra.
  - apply (D false n); [reflexivity|]. unfold lit. rewrite En. reflexivity.
  - apply (D true n); [reflexivity|]. unfold lit. rewrite En. reflexivity.
Qed.
Lemma nearest_q n e : Q2R (Qmake (Z.of_N n * 10 ^ Z.max 0 e) (Z.to_pos (10 ^ Z.max 0 (- e)))) = nval n e.
Proof.
  unfold Q2R, nval. cbn [Qnum Qden]. rewrite mult_IZR.
  assert (P : forall k, (0 <= k)%Z -> IZR (10 ^ k) = powerRZ 10 k).
  { intros k K. rewrite <- (Z2Nat.id k K). rewrite <- pow_powerRZ. rewrite pow_IZR. reflexivity. }
  destruct (Z.le_gt_cases 0 e) as [L|L].
  - rewrite Z.max_r, Z.max_l by lia. rewrite P by exact L. cbn. field.
  - rewrite Z.max_l, Z.max_r by lia. rewrite Z2Pos.id by (apply Z.pow_pos_nonneg; lia). rewrite (P (- e)%Z) by lia. rewrite powerRZ_neg', Rinv_inv. cbn. ring.
Qed.
Lemma nval_nonneg n e : 0 <= nval n e.
Proof. apply Rmult_le_pos; [apply IZR_le; lia|]. apply powerRZ_le. lra. Qed.
Lemma nearest_val n e : (rnd (nval n e) < top -> number (nearest_decimal n e) /\ fval (nearest_decimal n e) = rnd (nval n e)) /\
  (top <= rnd (nval n e) -> nearest_decimal n e = S754_infinity false).
Proof.
  pose proof (lit_gen (Qmake (Z.of_N n * 10 ^ Z.max 0 e) (Z.to_pos (10 ^ Z.max 0 (- e))))) as (A & B).
  assert (P : 0 <= rnd (nval n e)) by (rewrite <- rnd0; apply rnd_le, nval_nonneg).
  rewrite nearest_q, Rabs_pos_eq in A, B by exact P. split; [exact A|]. intros T. unfold nearest_decimal. rewrite (B T). cbn [Qnum].
  destruct (Z.ltb_spec (Z.of_N n * 10 ^ Z.max 0 e) 0); [exfalso|reflexivity]. assert (0 <= 10 ^ Z.max 0 e)%Z by (apply Z.pow_nonneg; lia). nia.
Qed.

(** ** The nearest number *)
Lemma largest_eq : largest = (bp 1024 + (bp 1024 - bp 971)) / 2.
Proof.
  unfold largest. assert (E : 2 ^ 1024 = bp 1024) by (rewrite pow_powerRZ, (bpow_powerRZ radix2 1024); reflexivity). rewrite E.
  assert (E2 : bp 971 = bp 1024 * / 2 ^ 53) by (change 971%Z with (1024 + -53)%Z; rewrite bpow_plus; f_equal; rewrite pow_powerRZ, <- powerRZ_neg', (bpow_powerRZ radix2 (-53)); reflexivity). rewrite E2.
  assert (E3 : 2 ^ 54 = 2 * 2 ^ 53) by reflexivity. rewrite E3. assert (0 < 2 ^ 53) by (apply pow_lt; lra). clear E E2 E3. revert H. generalize (2 ^ 53) (bp 1024). intros y x Hy. field. lra.
Qed.
Lemma fmt_max : fmt (bp 1024 - bp 971).
Proof.
  replace (bp 1024 - bp 971) with (IZR (2 ^ 53 - 1) * bp 971); [apply fmt_int; lia|].
  replace (bp 1024) with (IZR (2 ^ 53) * bp 971) by (change (IZR (2 ^ 53)) with (bp 53); rewrite <- bpow_plus; reflexivity). rewrite minus_IZR. ring.
Qed.
Lemma pred_top : pred radix2 (SpecFloat.fexp prec emax) (bp 1024) = bp 1024 - bp 971.
Proof. rewrite pred_bpow. reflexivity. Qed.
Lemma succ_max : succ radix2 (SpecFloat.fexp prec emax) (bp 1024 - bp 971) = bp 1024.
Proof. rewrite <- pred_top. apply succ_pred; [typeclasses eauto|]. apply fmt_bpow. lia. Qed.
Lemma rnd_below v : v < largest -> rnd v < top.
Proof.
  intros L. apply Rle_lt_trans with (bp 1024 - bp 971).
  - apply round_N_le_midp; [typeclasses eauto|exact fmt_max|]. rewrite succ_max. rewrite largest_eq in L. lra.
  - assert (0 < bp 971) by apply bpow_gt_0. unfold top. change emax with 1024%Z. lra.
Qed.
Lemma rnd_above v : largest < v -> top <= rnd v.
Proof.
  intros L. change top with (bp 1024). apply round_N_ge_midp; [typeclasses eauto|apply fmt_bpow; discriminate|]. rewrite pred_top. rewrite largest_eq in L. lra.
Qed.
Lemma rnd_nearest v y : fmt y -> Rabs (rnd v - v) <= Rabs (y - v).
Proof. intros Y. apply (round_N_pt radix2 (SpecFloat.fexp prec emax) (fun z => negb (Z.even z)) v), Y. Qed.
Lemma opp_number x : number x -> number (SFopp x) /\ fval (SFopp x) = - fval x.
Proof.
  intros (V & F). destruct x as [s|s| |s m e]; try discriminate F; (split; [split; [exact V|reflexivity]|]).
  - cbn. ring.
  - cbn [SFopp]. unfold fval, SF2R. rewrite <- F2R_Zopp. f_equal. destruct s; reflexivity.
Qed.
Lemma reads s v x : signed_text s v -> parse_f64 s = Some x -> reads_as x v.
Proof.
  intros H E. destruct (signed_parse s v H) as (neg & n & e & P & V). rewrite P in E. injection E as <-.
  pose proof (nval_nonneg n e) as G. destruct (nearest_val n e) as (A & B). destruct neg; subst v; cbn [signed]; unfold reads_as.
  - rewrite Rabs_Ropp, Rabs_pos_eq by exact G. split; [|split].
    + intros L. destruct (A (rnd_below _ L)) as (N & V). destruct (opp_number _ N) as (N' & V'). split; [exact N'|]. intros y Hy. rewrite V', V.
      replace (- rnd (nval n e) - - nval n e) with (- (rnd (nval n e) - nval n e)) by ring. rewrite Rabs_Ropp.
      replace (fval y - - nval n e) with (- (- fval y - nval n e)) by ring. rewrite Rabs_Ropp. apply rnd_nearest. apply generic_format_opp, fmt_val, Hy.
    + intros L. assert (0 < largest) by (rewrite largest_eq; assert (bp 971 < bp 1024) by (apply bpow_lt; lia); assert (0 < bp 1024) by apply bpow_gt_0; lra). lra.
    + intros L. rewrite (B (rnd_above (nval n e) ltac:(lra))). reflexivity.
  - rewrite Rabs_pos_eq by exact G. split; [|split].
    + intros L. destruct (A (rnd_below _ L)) as (N & V). split; [exact N|]. intros y Hy. rewrite V. apply rnd_nearest, fmt_val, Hy.
    + intros L. exact (B (rnd_above _ L)).
    + intros L. assert (0 < largest) by (rewrite largest_eq; assert (bp 971 < bp 1024) by (apply bpow_lt; lia); assert (0 < bp 1024) by apply bpow_gt_0; lra). lra.
Qed.
