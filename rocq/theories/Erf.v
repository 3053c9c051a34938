(** The error function of src/stats/erf.rs, in exact arithmetic.

    The coefficients are the decimal numbers written in the source (the program rounds each
    of them to the nearest double); [exp], products and quotients are exact. *)
From Coq Require Import Reals QArith Qreals.
From Verif Require Import Base Series.
Local Open Scope R_scope.

(** erf.rs 72-81 *)
Definition ERF_IMPL_AN : list Q := [
  0.00337916709551257388990745;
  (-0.00073695653048167948530905);
  (-0.374732337392919607868241);
  0.0817442448733587196071743;
  (-0.0421089319936548595203468);
  0.0070165709512095756344528;
  (-0.00495091255982435110337458);
  0.000871646599037922480317225]%Q.
(** erf.rs 85-94 *)
Definition ERF_IMPL_AD : list Q := [
  1.0;
  (-0.218088218087924645390535);
  0.412542972725442099083918;
  (-0.0841891147873106755410271);
  0.0655338856400241519690695;
  (-0.0120019604454941768171266);
  0.00408165558926174048329689;
  (-0.000615900721557769691924509)]%Q.
(** erf.rs 98-105 *)
Definition ERF_IMPL_BN : list Q := [
  (-0.0361790390718262471360258);
  0.292251883444882683221149;
  0.281447041797604512774415;
  0.125610208862766947294894;
  0.0274135028268930549240776;
  0.00250839672168065762786937]%Q.
(** erf.rs 109-116 *)
Definition ERF_IMPL_BD : list Q := [
  1.0;
  1.8545005897903486499845;
  1.43575803037831418074962;
  0.582827658753036572454135;
  0.124810476932949746447682;
  0.0113724176546353285778481]%Q.
(** erf.rs 120-128 *)
Definition ERF_IMPL_CN : list Q := [
  (-0.0397876892611136856954425);
  0.153165212467878293257683;
  0.191260295600936245503129;
  0.10276327061989304213645;
  0.029637090615738836726027;
  0.0046093486780275489468812;
  0.000307607820348680180548455]%Q.
(** erf.rs 132-140 *)
Definition ERF_IMPL_CD : list Q := [
  1.0;
  1.95520072987627704987886;
  1.64762317199384860109595;
  0.768238607022126250082483;
  0.209793185936509782784315;
  0.0319569316899913392596356;
  0.00213363160895785378615014]%Q.
(** erf.rs 144-152 *)
Definition ERF_IMPL_DN : list Q := [
  (-0.0300838560557949717328341);
  0.0538578829844454508530552;
  0.0726211541651914182692959;
  0.0367628469888049348429018;
  0.00964629015572527529605267;
  0.00133453480075291076745275;
  0.778087599782504251917881e-4]%Q.
(** erf.rs 156-165 *)
Definition ERF_IMPL_DD : list Q := [
  1.0;
  1.75967098147167528287343;
  1.32883571437961120556307;
  0.552528596508757581287907;
  0.133793056941332861912279;
  0.0179509645176280768640766;
  0.00104712440019937356634038;
  (-0.106640381820357337177643e-7)]%Q.
(** erf.rs 169-177 *)
Definition ERF_IMPL_EN : list Q := [
  (-0.0117907570137227847827732);
  0.014262132090538809896674;
  0.0202234435902960820020765;
  0.00930668299990432009042239;
  0.00213357802422065994322516;
  0.00025022987386460102395382;
  0.120534912219588189822126e-4]%Q.
(** erf.rs 181-189 *)
Definition ERF_IMPL_ED : list Q := [
  1.0;
  1.50376225203620482047419;
  0.965397786204462896346934;
  0.339265230476796681555511;
  0.0689740649541569716897427;
  0.00771060262491768307365526;
  0.000371421101531069302990367]%Q.
(** erf.rs 193-201 *)
Definition ERF_IMPL_FN : list Q := [
  (-0.00546954795538729307482955);
  0.00404190278731707110245394;
  0.0054963369553161170521356;
  0.00212616472603945399437862;
  0.000394984014495083900689956;
  0.365565477064442377259271e-4;
  0.135485897109932323253786e-5]%Q.
(** erf.rs 205-214 *)
Definition ERF_IMPL_FD : list Q := [
  1.0;
  1.21019697773630784832251;
  0.620914668221143886601045;
  0.173038430661142762569515;
  0.0276550813773432047594539;
  0.00240625974424309709745382;
  0.891811817251336577241006e-4;
  (-0.465528836283382684461025e-11)]%Q.
(** erf.rs 218-225 *)
Definition ERF_IMPL_GN : list Q := [
  (-0.00270722535905778347999196);
  0.0013187563425029400461378;
  0.00119925933261002333923989;
  0.00027849619811344664248235;
  0.267822988218331849989363e-4;
  0.923043672315028197865066e-6]%Q.
(** erf.rs 229-237 *)
Definition ERF_IMPL_GD : list Q := [
  1.0;
  0.814632808543141591118279;
  0.268901665856299542168425;
  0.0449877216103041118694989;
  0.00381759663320248459168994;
  0.000131571897888596914350697;
  0.404815359675764138445257e-11]%Q.
(** erf.rs 241-248 *)
Definition ERF_IMPL_HN : list Q := [
  (-0.00109946720691742196814323);
  0.000406425442750422675169153;
  0.000274499489416900707787024;
  0.465293770646659383436343e-4;
  0.320955425395767463401993e-5;
  0.778286018145020892261936e-7]%Q.
(** erf.rs 252-259 *)
Definition ERF_IMPL_HD : list Q := [
  1.0;
  0.588173710611846046373373;
  0.139363331289409746077541;
  0.0166329340417083678763028;
  0.00100023921310234908642639;
  0.24254837521587225125068e-4]%Q.
(** erf.rs 263-269 *)
Definition ERF_IMPL_IN : list Q := [
  (-0.00056907993601094962855594);
  0.000169498540373762264416984;
  0.518472354581100890120501e-4;
  0.382819312231928859704678e-5;
  0.824989931281894431781794e-7]%Q.
(** erf.rs 273-280 *)
Definition ERF_IMPL_ID : list Q := [
  1.0;
  0.339637250051139347430323;
  0.043472647870310663055044;
  0.00248549335224637114641629;
  0.535633305337152900549536e-4;
  (-0.117490944405459578783846e-12)]%Q.
(** erf.rs 284-290 *)
Definition ERF_IMPL_JN : list Q := [
  (-0.000241313599483991337479091);
  0.574224975202501512365975e-4;
  0.115998962927383778460557e-4;
  0.581762134402593739370875e-6;
  0.853971555085673614607418e-8]%Q.
(** erf.rs 294-300 *)
Definition ERF_IMPL_JD : list Q := [
  1.0;
  0.233044138299687841018015;
  0.0204186940546440312625597;
  0.000797185647564398289151125;
  0.117019281670172327758019e-4]%Q.
(** erf.rs 304-310 *)
Definition ERF_IMPL_KN : list Q := [
  (-0.000146674699277760365803642);
  0.162666552112280519955647e-4;
  0.269116248509165239294897e-5;
  0.979584479468091935086972e-7;
  0.101994647625723465722285e-8]%Q.
(** erf.rs 314-320 *)
Definition ERF_IMPL_KD : list Q := [
  1.0;
  0.165907812944847226546036;
  0.0103361716191505884359634;
  0.000286593026373868366935721;
  0.298401570840900340874568e-5]%Q.
(** erf.rs 324-330 *)
Definition ERF_IMPL_LN : list Q := [
  (-0.583905797629771786720406e-4);
  0.412510325105496173512992e-5;
  0.431790922420250949096906e-6;
  0.993365155590013193345569e-8;
  0.653480510020104699270084e-10]%Q.
(** erf.rs 334-340 *)
Definition ERF_IMPL_LD : list Q := [
  1.0;
  0.105077086072039915406159;
  0.00414278428675475620830226;
  0.726338754644523769144108e-4;
  0.477818471047398785369849e-6]%Q.
(** erf.rs 344-349 *)
Definition ERF_IMPL_MN : list Q := [
  (-0.196457797609229579459841e-4);
  0.157243887666800692441195e-5;
  0.543902511192700878690335e-7;
  0.317472492369117710852685e-9]%Q.
(** erf.rs 353-359 *)
Definition ERF_IMPL_MD : list Q := [
  1.0;
  0.052803989240957632204885;
  0.000926876069151753290378112;
  0.541011723226630257077328e-5;
  0.535093845803642394908747e-15]%Q.
(** erf.rs 363-368 *)
Definition ERF_IMPL_NN : list Q := [
  (-0.789224703978722689089794e-5);
  0.622088451660986955124162e-6;
  0.145728445676882396797184e-7;
  0.603715505542715364529243e-10]%Q.
(** erf.rs 372-377 *)
Definition ERF_IMPL_ND : list Q := [
  1.0;
  0.0375328846356293715248719;
  0.000467919535974625308126054;
  0.193847039275845656900547e-5]%Q.

(** [evaluate::polynomial] *)
Definition poly (z : R) (coeff : list Q) : R := polynomial z (map Q2R coeff).

(** one branch of erf.rs 591-669: the polynomials are evaluated at [z - start] *)
Definition branch (z : R) (start : Q) (num den : list Q) (b : Q) : R * R :=
  (poly (z - Q2R start) num / poly (z - Q2R start) den, Q2R b).

(** erf.rs 591-669: the pair [(r, b)] *)
Definition erf_branches (z : R) : R * R :=
  if Rlt_dec z (Q2R 0.75) then branch z 0.5 ERF_IMPL_BN ERF_IMPL_BD 0.3440242112 else
  if Rlt_dec z (Q2R 1.25) then branch z 0.75 ERF_IMPL_CN ERF_IMPL_CD 0.419990927 else
  if Rlt_dec z (Q2R 2.25) then branch z 1.25 ERF_IMPL_DN ERF_IMPL_DD 0.4898625016 else
  if Rlt_dec z (Q2R 3.5) then branch z 2.25 ERF_IMPL_EN ERF_IMPL_ED 0.5317370892 else
  if Rlt_dec z (Q2R 5.25) then branch z 3.5 ERF_IMPL_FN ERF_IMPL_FD 0.5489973426 else
  if Rlt_dec z (Q2R 8) then branch z 5.25 ERF_IMPL_GN ERF_IMPL_GD 0.5571740866 else
  if Rlt_dec z (Q2R 11.5) then branch z 8 ERF_IMPL_HN ERF_IMPL_HD 0.5609807968 else
  if Rlt_dec z (Q2R 17) then branch z 11.5 ERF_IMPL_IN ERF_IMPL_ID 0.5626493692 else
  if Rlt_dec z (Q2R 24) then branch z 17 ERF_IMPL_JN ERF_IMPL_JD 0.5634598136 else
  if Rlt_dec z (Q2R 38) then branch z 24 ERF_IMPL_KN ERF_IMPL_KD 0.5638477802 else
  if Rlt_dec z (Q2R 60) then branch z 38 ERF_IMPL_LN ERF_IMPL_LD 0.5640528202 else
  if Rlt_dec z (Q2R 85) then branch z 60 ERF_IMPL_MN ERF_IMPL_MD 0.5641309023 else
  branch z 85 ERF_IMPL_NN ERF_IMPL_ND 0.5641584396.

(** erf.rs 583-674: [result] for [z >= 0] *)
Definition erf_result (z : R) : R :=
  if Rlt_dec z (Q2R 0.5) then
    if Rlt_dec z (Q2R 1e-10) then z * Q2R 1.125 + z * Q2R 0.003379167095512573896158903121545171688
    else z * Q2R 1.125 + z * poly z ERF_IMPL_AN / poly z ERF_IMPL_AD
  else if Rlt_dec z 110 then
    let '(r, b) := erf_branches z in
    let g := exp (- z * z) / z in
    g * b + g * r
  else 0.

(** erf.rs 676-682, and the whole function for [z >= 0] *)
Definition erf_impl_nonneg (z : R) (inv : bool) : R :=
  if (inv && if Rle_dec (Q2R 0.5) z then true else false)%bool then erf_result z
  else if ((if Rle_dec (Q2R 0.5) z then true else false) || inv)%bool then 1 - erf_result z
  else erf_result z.

(** erf.rs 572-683; the recursive calls are on a positive argument *)
Definition erf_impl (z : R) (inv : bool) : R :=
  if Rlt_dec z 0 then
    if inv then
      if Rlt_dec z (- Q2R 0.5) then 2 - erf_impl_nonneg (- z) true
      else 1 + erf_impl_nonneg (- z) false
    else - erf_impl_nonneg (- z) false
  else erf_impl_nonneg z inv.

(** erf.rs 8-20, for a number that is not infinite *)
Definition erf_computed (x : R) : R := if Req_EM_T x 0 then 0 else erf_impl x false.
(** erf.rs 40-50, for a number that is not infinite *)
Definition erfc_computed (x : R) : R := erf_impl x true.

(** stats/mod.rs 48-50 *)
Definition cdf_unchecked (x mean std_dev : R) : R := Q2R 0.5 * erfc_computed ((mean - x) / (std_dev * sqrt 2)).
(** stats/mod.rs 33-46: [Normal::default().cdf(x)] *)
Definition normal_cdf_computed (x : R) : R := cdf_unchecked x 0 1.

(** index.rs 146-155, with the computed distribution function.  At distance 0 the quotient
    [r / d] is infinite, and the result is [1 - 2 * 0 - 0 * (1 - 0)]. *)
Definition collision_probability_computed (width d : R) : R :=
  if Req_EM_T d 0 then 1
  else
    let r := width in
    1 - 2 * normal_cdf_computed (- r / d)
      - 2 / (sqrt (PI * 2) * (r / d)) * (1 - exp (- r * r / (2 * d * d))).

(** index.rs 549-566, with the computed collision probability; the casts to [i32] are exact
    for fewer than 2^31 repetitions *)
Definition failure_probability_computed (width d : R) (reps prefix : nat) (prev_prefix prev_prefix_repetitions : option nat) : R :=
  let p := collision_probability_computed width d in
  let cur_fail := (1 - p ^ prefix) ^ reps in
  let prev_fail :=
    match prev_prefix, prev_prefix_repetitions with
    | Some prefix, Some repetitions => (1 - p ^ prefix) ^ (repetitions - reps)
    | _, _ => 1
    end in
  cur_fail * prev_fail.
