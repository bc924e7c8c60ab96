(** C152: what a setting of a decimal option stores. *)
From Coq Require Import NArith ZArith Reals List Bool Lia Lra.
From Coq.Init Require Import Byte.
From Flocq Require Import Core.
From Verif Require Import Base StreamModel UtilModel UtilProps ConfModel ConfProps DoubleModel.
Import ListNotations.

(** ** Specification *)

(** A finite double: m * 2^e with m of at most 53 bits. *)
Definition isdouble (v : R) : Prop := exists m e : Z, v = (IZR m * bpow radix2 e)%R /\ (Z.abs m < 2 ^ 53)%Z /\ (-1074 <= e)%Z.
(** The greatest one, and the least one with full precision. *)
Definition greatest : R := (IZR (2 ^ 53 - 1) * bpow radix2 971)%R.
Definition least : R := bpow radix2 (-1022).
(** v is a double, and none is closer to x. *)
Definition nearest (x v : R) : Prop := isdouble v /\ forall w, isdouble w -> (Rabs (v - x) <= Rabs (w - x))%R.

(** Optional sign; digits, with or without a decimal point; optional exponent. *)
Definition sign (sg : bytes) (s : Z) : Prop := sg = [] /\ s = 1%Z \/ sg = [x2b] /\ s = 1%Z \/ sg = [x2d] /\ s = (-1)%Z.
Definition fraction (fr d2 : bytes) : Prop := fr = [] /\ d2 = [] \/ fr = x2e :: d2.
Definition power (ex : bytes) (k : Z) : Prop := ex = [] /\ k = 0%Z \/ exists c n, (c = x65 \/ c = x45) /\ ex = c :: n /\ decimal n k.
Definition written (t : bytes) (x : R) : Prop :=
  exists sg s d1 fr d2 ex k, t = sg ++ d1 ++ fr ++ ex /\ sign sg s /\ Forall digit d1 /\ Forall digit d2 /\ d1 ++ d2 <> [] /\ fraction fr d2 /\ power ex k
  /\ x = (IZR (s * number (d1 ++ d2)) * powerRZ 10 (k - Z.of_nat (length d2)))%R.

(** ** Reading *)

(** What may follow a number that ends there. *)
Definition stops (r : bytes) : Prop := forall c r', r = c :: r' -> ~ digit c /\ lower c <> 101%N /\ lower c <> 120%N /\ c <> x2e.

Lemma starts_no a w c s : lower c <> a -> starts (a :: w) (c :: s) = false.
Proof. intros N. unfold starts. cbn [length firstn map]. destruct (list_eq_dec N.eq_dec _ _) as [E|]; [injection E as E _; contradiction|reflexivity]. Qed.
Lemma starts_no2 a b w c s : (forall d s', s = d :: s' -> lower d <> b) -> starts (a :: b :: w) (c :: s) = false.
Proof.
  intros N. unfold starts. cbn [length firstn map]. destruct (list_eq_dec N.eq_dec _ _) as [E|]; [|reflexivity]. destruct s as [|d s]; [discriminate E|]. cbn [firstn map] in E. injection E as _ E _. exfalso. exact (N d s eq_refl E).
Qed.

Lemma digit_lower c : digit c -> (48 <= lower c <= 57)%N.
Proof. unfold digit, dig, lower. intros D. destruct ((65 <=? byte_val c) && (byte_val c <=? 90))%N eqn:E; [apply andb_true_iff in E; rewrite !N.leb_le in E; lia|lia]. Qed.
Lemma byte_eqb_no a b : a <> b -> byte_eqb a b = false.
Proof. intros N. destruct (byte_eqb a b) eqn:E; [apply byte_eqb_eq in E; contradiction|reflexivity]. Qed.
Lemma skipn_pre (a b : bytes) : skipn (length a) (a ++ b) = b.
Proof. induction a as [|x a IH]; [reflexivity|exact IH]. Qed.

Lemma nondigit c : (lower c < 48 \/ 57 < lower c)%N -> ~ digit c.
Proof. intros L D. apply digit_lower in D. lia. Qed.

(** What the head of the rest looks like. *)
Lemma after_int fr d2 ex k r : fraction fr d2 -> power ex k -> stops r -> forall c r', fr ++ ex ++ r = c :: r' -> ~ digit c /\ lower c <> 120%N.
Proof.
  intros F P S c r' E. destruct F as [(-> & ->)| ->]; cbn [app] in E; [|injection E as <- _; split; [apply nondigit; vm_compute; auto|vm_compute; discriminate]].
  destruct P as [(-> & ->)|(x & n & X & -> & D)]; cbn [app] in E; [destruct (S c r' E) as (A & B & C & _); auto|]. injection E as <- _. destruct X as [-> | ->]; (split; [apply nondigit; vm_compute; auto|vm_compute; discriminate]).
Qed.
Lemma after_frac ex k r : power ex k -> stops r -> forall c r', ex ++ r = c :: r' -> ~ digit c /\ c <> x2e.
Proof.
  intros P S c r' E. destruct P as [(-> & ->)|(x & n & X & -> & D)]; cbn [app] in E; [destruct (S c r' E) as (A & B & C & H); auto|]. injection E as <- _. destruct X as [-> | ->]; (split; [apply nondigit; vm_compute; auto|discriminate]).
Qed.
Lemma stops_nd r : stops r -> forall c r', r = c :: r' -> ~ digit c.
Proof. intros S c r' E. apply (S c r' E). Qed.

Lemma exponent_reads ex k r : power ex k -> stops r -> exponent (ex ++ r) = k.
Proof.
  intros [(-> & ->)|(c & n & X & -> & D)] S; cbn [app].
  - destruct r as [|c r]; [reflexivity|]. destruct (S c r eq_refl) as (_ & L & _). cbn [exponent]. rewrite !byte_eqb_no; [reflexivity| |]; intros ->; apply L; reflexivity.
  - cbn [exponent]. replace (byte_eqb c x65 || byte_eqb c x45) with true by (destruct X as [-> | ->]; reflexivity).
    destruct D as [ds N F|ds N F|ds N F]; cbn [app].
    + destruct ds as [|d ds]; [contradiction N; reflexivity|]. cbn [app]. inversion F as [|? ? X1 F']; subst. destruct (digit_props d X1) as (_ & -> & ->). change (d :: ds ++ r) with ((d :: ds) ++ r). rewrite digits_app; [apply dec_number0|exact F|apply stops_nd; exact S].
    + change (byte_eqb x2b x2d) with false. change (byte_eqb x2b x2b) with true. cbn iota. rewrite digits_app; [apply dec_number0|exact F|apply stops_nd; exact S].
    + change (byte_eqb x2d x2d) with true. cbn iota. rewrite digits_app; [rewrite dec_number0; reflexivity|exact F|apply stops_nd; exact S].
Qed.

(** A text that begins with a number is read as that number. *)
Lemma stod_begins hexv w sg s d1 fr d2 ex k r : Forall (fun c => is_space c = true) w -> sign sg s -> Forall digit d1 -> Forall digit d2 -> d1 ++ d2 <> [] -> fraction fr d2 -> power ex k -> stops r ->
  stod hexv (w ++ sg ++ d1 ++ fr ++ ex ++ r) = to_double (IZR (s * number (d1 ++ d2)) * powerRZ 10 (k - Z.of_nat (length d2))).
Proof.
  intros W SG F1 F2 NE FR P S. set (body := d1 ++ fr ++ ex ++ r).
  assert (HB : exists c b', body = c :: b' /\ (digit c \/ c = x2e)).
  { unfold body. destruct F1 as [|c d1 D F1]; [|eexists _, _; split; [reflexivity|auto]]. destruct FR as [(-> & ->)| ->]; [contradiction NE; reflexivity|]. eexists _, _. split; [reflexivity|auto]. }
  assert (HX : forall c b', body = c :: b' -> starts [48; 120]%N body = false).
  { intros c b' E. rewrite E. destruct F1 as [|d d1 D F1].
    - destruct FR as [(-> & ->)| ->]; [contradiction NE; reflexivity|]. unfold body in E. cbn [app] in E. injection E as <- _. apply starts_no. vm_compute. discriminate.
    - unfold body in E. cbn [app] in E. injection E as <- <-. apply starts_no2. intros x s' E'. destruct F1 as [|d' d1' D' F1]; cbn [app] in E'.
      + apply (after_int fr d2 ex k r FR P S x s' E').
      + injection E' as <- _. apply digit_lower in D'. lia. }
  destruct HB as (c & b' & EB & HC). specialize (HX c b' EB).
  assert (NC : is_space c = false /\ byte_eqb c x2d = false /\ byte_eqb c x2b = false) by (destruct HC as [D| ->]; [apply digit_props; exact D|repeat split; reflexivity]).
  assert (LC : (46 <= lower c <= 57)%N) by (destruct HC as [D| ->]; [apply digit_lower in D; lia|vm_compute; split; discriminate]).
  unfold stod. fold body. rewrite skip_app; [|exact W|].
  2:{ intros a l E. destruct SG as [(-> & ->)|[(-> & ->)|(-> & ->)]]; cbn [app] in E; [rewrite EB in E; injection E as <- _; apply NC|injection E as <- _; reflexivity|injection E as <- _; reflexivity]. }
  assert (G : forall neg, (if starts [105; 110; 102]%N body then DInf neg else if starts [110; 97; 110]%N body then DNan else if hexadecimal body then hexv neg body else
     let d1 := digits body in let r1 := skipn (length d1) body in
     let '(d2, r2) := match r1 with c :: r => if byte_eqb c x2e then (digits r, skipn (length (digits r)) r) else ([], r1) | [] => ([], []) end in
     match d1 ++ d2 with [] => DInvalid | ds => let v := dec_value 0 ds in to_double (IZR (if neg then - v else v)%Z * powerRZ 10 (exponent r2 - Z.of_nat (length d2))) end)
     = to_double (IZR (if neg then - number (d1 ++ d2) else number (d1 ++ d2))%Z * powerRZ 10 (k - Z.of_nat (length d2)))).
  { intros neg. unfold hexadecimal. rewrite HX. rewrite EB, !starts_no by lia. cbn [andb]. rewrite <- EB. unfold body. cbv zeta.
    rewrite (digits_app d1); [|exact F1|intros x l E; apply (after_int fr d2 ex k r FR P S x l E)]. rewrite skipn_pre.
    assert (M : (match fr ++ ex ++ r with c :: r0 => if byte_eqb c x2e then (digits r0, skipn (length (digits r0)) r0) else ([], fr ++ ex ++ r) | [] => ([], []) end) = (d2, ex ++ r)).
    { destruct FR as [(-> & ->)| ->]; cbn [app].
      - destruct (ex ++ r) as [|x l] eqn:E; [reflexivity|]. rewrite byte_eqb_no; [reflexivity|]. apply (after_frac ex k r P S x l E).
      - change (byte_eqb x2e x2e) with true. cbn iota. rewrite digits_app; [rewrite skipn_pre; reflexivity|exact F2|]. intros x l E. apply (after_frac ex k r P S x l E). }
    rewrite M. rewrite (exponent_reads ex k r P S). destruct (d1 ++ d2) as [|d ds] eqn:E; [contradiction NE; reflexivity|]. rewrite dec_number0. reflexivity. }
  destruct SG as [(-> & ->)|[(-> & ->)|(-> & ->)]]; cbn [app].
  - rewrite EB. destruct NC as (_ & -> & ->). rewrite <- EB. etransitivity; [apply (G false)|]. rewrite Z.mul_1_l. reflexivity.
  - change (byte_eqb x2b x2d) with false. change (byte_eqb x2b x2b) with true. cbn iota. etransitivity; [apply (G false)|]. rewrite Z.mul_1_l. reflexivity.
  - change (byte_eqb x2d x2d) with true. cbn iota. etransitivity; [apply (G true)|]. replace (-1 * number (d1 ++ d2))%Z with (- number (d1 ++ d2))%Z by lia. reflexivity.
Qed.

(** ** Rounding *)

Notation fmt := (generic_format radix2 (FLT_exp (-1074) 53)).
Lemma prec53 : Prec_gt_0 53.
Proof. reflexivity. Qed.
#[local] Existing Instance prec53.

Lemma isdouble_fmt v : isdouble v <-> fmt v.
Proof.
  split.
  - intros (m & e & -> & M & E). apply generic_format_FLT. exists (Float radix2 m e); [reflexivity|exact M|exact E].
  - intros F. apply FLT_format_generic in F; [|exact prec53]. destruct F as [[m e] X M E]. exists m, e. cbn [Fnum Fexp] in *. split; [exact X|]. split; [exact M|exact E].
Qed.

Lemma rnd_nearest x : nearest x (rnd x).
Proof.
  destruct (round_N_pt radix2 (FLT_exp (-1074) 53) (fun z => negb (Z.even z)) x) as (F & N). split; [apply isdouble_fmt; exact F|]. intros w W. apply N. apply isdouble_fmt. exact W.
Qed.

Lemma bpow_IZR e : (0 <= e)%Z -> bpow radix2 e = IZR (2 ^ e).
Proof. intros E. rewrite <- IZR_Zpower by exact E. reflexivity. Qed.

Lemma greatest_lt : (greatest < bpow radix2 1024)%R.
Proof. unfold greatest. rewrite !bpow_IZR by lia. rewrite <- mult_IZR. apply IZR_lt. reflexivity. Qed.
Lemma greatest_fmt : fmt greatest.
Proof. apply isdouble_fmt. exists (2 ^ 53 - 1)%Z, 971%Z. split; [reflexivity|]. split; [reflexivity|lia]. Qed.

Lemma to_double_val x y : to_double x = DVal y -> y = rnd x /\ (Rabs y < bpow radix2 1024)%R.
Proof.
  unfold to_double. destruct (Rle_bool_spec (bpow radix2 1024) (Rabs (rnd x))) as [|L]; [discriminate|]. destruct (_ && _); [discriminate|]. intros E. injection E as <-. split; [reflexivity|exact L].
Qed.

Lemma to_double_in x : (Rabs x <= greatest)%R -> (least <= Rabs x)%R \/ isdouble x -> to_double x = DVal (rnd x).
Proof.
  intros G H. unfold to_double. rewrite Rle_bool_false.
  2:{ apply (Rle_lt_trans _ greatest); [|apply greatest_lt]. apply abs_round_le_generic; [apply FLT_exp_valid; exact prec53|apply valid_rnd_N|apply greatest_fmt|exact G]. }
  destruct H as [L|D].
  - rewrite Rlt_bool_false; [reflexivity|]. apply abs_round_ge_generic; [apply FLX_exp_valid; exact prec53|apply valid_rnd_N| |exact L]. apply generic_format_bpow. unfold FLX_exp. lia.
  - rewrite (Req_bool_true (rnd x) x); [rewrite andb_false_r; reflexivity|]. apply round_generic; [apply valid_rnd_N|]. apply isdouble_fmt. exact D.
Qed.

(** ** C152 *)

Lemma written_begins hexv t x : written t x -> stod hexv t = to_double x.
Proof.
  intros (sg & s & d1 & fr & d2 & ex & k & -> & SG & F1 & F2 & NE & FR & P & ->).
  replace (sg ++ d1 ++ fr ++ ex) with ([] ++ sg ++ d1 ++ fr ++ ex ++ []) by (rewrite app_nil_r; reflexivity).
  apply stod_begins; try assumption; [constructor|intros c r' E; discriminate E].
Qed.

(** A number neither too large nor too small for full precision is stored as
    the double nearest to it; a number that is a double, exactly. *)
Theorem C152_stores : forall hexv v t x, written t x -> (Rabs x <= greatest)%R -> (least <= Rabs x)%R \/ isdouble x ->
  exists y, set_double hexv v t = (VReal y, None) /\ nearest x y /\ (isdouble x -> y = x).
Proof.
  intros hexv v t x W G H. exists (rnd x). unfold set_double. rewrite (written_begins hexv t x W), (to_double_in x G H). split; [reflexivity|]. split; [apply rnd_nearest|].
  intros D. apply round_generic; [apply valid_rnd_N|]. apply isdouble_fmt. exact D.
Qed.

(** Any number is stored as the double nearest to it, or std::out_of_range is
    thrown and the value stays. *)
Theorem C152_outcome_partial : forall hexv v t x, written t x ->
  (exists y, set_double hexv v t = (VReal y, None) /\ nearest x y /\ (Rabs y < bpow radix2 1024)%R)
  \/ set_double hexv v t = (v, Some EOutOfRange) /\ ((greatest < Rabs x)%R \/ (Rabs x < least)%R /\ ~ isdouble x).
Proof.
  intros hexv v t x W. unfold set_double. rewrite (written_begins hexv t x W). destruct (to_double x) as [y|n| | |] eqn:E.
  - left. apply to_double_val in E. destruct E as (-> & L). exists (rnd x). split; [reflexivity|]. split; [apply rnd_nearest|exact L].
  - exfalso. unfold to_double in E. destruct (Rle_bool _ _); [discriminate E|]. destruct (_ && _); discriminate E.
  - exfalso. unfold to_double in E. destruct (Rle_bool _ _); [discriminate E|]. destruct (_ && _); discriminate E.
  - exfalso. unfold to_double in E. destruct (Rle_bool _ _); [discriminate E|]. destruct (_ && _); discriminate E.
  - right. split; [reflexivity|]. destruct (Rle_lt_dec (Rabs x) greatest) as [G|G]; [right|left; exact G].
    assert (N : ~ ((least <= Rabs x)%R \/ isdouble x)) by (intros H; rewrite (to_double_in x G H) in E; discriminate E).
    split; [apply Rnot_le_lt; intros L; apply N; left; exact L|intros D; apply N; right; exact D].
Qed.
Print Assumptions C152_stores.
Print Assumptions C152_outcome_partial.

(** A text that does not begin with a number, nor with a word or a hexadecimal
    number that stod knows, is refused. *)
Theorem C152_refused : forall hexv v t c r, skip_space t = c :: r -> ~ digit c -> c <> x2e -> c <> x2b -> c <> x2d -> lower c <> 105%N -> lower c <> 110%N -> set_double hexv v t = (v, Some EInvalid).
Proof.
  intros hexv v t c r E D P1 P2 P3 L1 L2. unfold set_double, stod. rewrite E. rewrite (byte_eqb_no c x2d P3), (byte_eqb_no c x2b P2). rewrite (starts_no 105%N) by exact L1. rewrite (starts_no 110%N) by exact L2.
  assert (X : is_digit c = false) by (destruct (is_digit c) eqn:X; [apply is_digit_iff in X; contradiction|reflexivity]).
  unfold hexadecimal. rewrite starts_no.
  - cbn [andb digits]. rewrite X. cbn [length skipn]. rewrite (byte_eqb_no c x2e P1). reflexivity.
  - intros L. apply D. unfold lower in L. unfold digit, dig. destruct ((65 <=? byte_val c) && (byte_val c <=? 90))%N eqn:Y; [apply andb_true_iff in Y; rewrite !N.leb_le in Y; lia|lia].
Qed.
Print Assumptions C152_refused.

(** The characters of a number. *)
Lemma written_chars t x : written t x -> forall c, In c t -> digit c \/ In c [x2b; x2d; x2e; x65; x45].
Proof.
  intros (sg & s & d1 & fr & d2 & ex & k & -> & SG & F1 & F2 & NE & FR & P & _) c I.
  assert (FA : forall l, Forall digit l -> In c l -> digit c) by (intros l F J; rewrite Forall_forall in F; auto).
  apply in_app_or in I. destruct I as [I|I]; [right; destruct SG as [(-> & _)|[(-> & _)|(-> & _)]]; [destruct I| |]; destruct I as [<-|[]]; cbn; auto|].
  apply in_app_or in I. destruct I as [I|I]; [left; exact (FA _ F1 I)|].
  apply in_app_or in I. destruct I as [I|I].
  - destruct FR as [(-> & _)| ->]; [destruct I|]. destruct I as [<-|I]; [right; cbn; auto|left; exact (FA _ F2 I)].
  - destruct P as [(-> & _)|(e & n & X & -> & D)]; [destruct I|]. destruct I as [<-|I]; [right; destruct X as [-> | ->]; cbn; auto 6|].
    destruct D as [ds N F|ds N F|ds N F]; [left; exact (FA _ F I)| |]; (destruct I as [<-|I]; [right; cbn; auto|left; exact (FA _ F I)]).
Qed.

Lemma p10 p : powerRZ 10 (Zpos p) = IZR (10 ^ Zpos p).
Proof. cbn [powerRZ]. change 10%R with (IZR 10). rewrite pow_IZR, positive_nat_Z. reflexivity. Qed.
Lemma n10 p : powerRZ 10 (Zneg p) = (/ IZR (10 ^ Zpos p))%R.
Proof. cbn [powerRZ]. change 10%R with (IZR 10). rewrite pow_IZR, positive_nat_Z. reflexivity. Qed.

Ltac digs := repeat constructor; unfold digit, dig; cbn; lia.

(** "0,5" sets 0. *)
Theorem C152_comma_refuted : forall hexv v, exists t, (forall x, ~ written t x) /\ set_double hexv v t = (VReal 0, None).
Proof.
  intros hexv v. exists [x30; x2c; x35]. split.
  - intros x W. destruct (written_chars _ _ W x2c) as [D|D]; [right; left; reflexivity|unfold digit, dig in D; cbn in D; lia|cbn in D; repeat destruct D as [D|D]; try discriminate D; destruct D].
  - unfold set_double. change [x30; x2c; x35] with ([] ++ [] ++ [x30] ++ [] ++ [] ++ [x2c; x35]). rewrite (stod_begins hexv [] [] 1 [x30] [] [] [] 0 [x2c; x35]).
    + cbn [app number length]. replace (IZR _ * _)%R with 0%R by (cbn; lra). rewrite to_double_in; [unfold rnd; rewrite round_0 by (apply valid_rnd_N); reflexivity| |].
      * rewrite Rabs_R0. unfold greatest. apply Rmult_le_pos; [apply IZR_le; lia|apply bpow_ge_0].
      * right. exists 0%Z, 0%Z. split; [lra|]. split; [reflexivity|lia].
    + constructor.
    + left. auto.
    + digs.
    + constructor.
    + discriminate.
    + left. auto.
    + left. auto.
    + intros c r' E. injection E as <- _. split; [apply nondigit; vm_compute; auto|]. split; [vm_compute; discriminate|]. split; [vm_compute; discriminate|discriminate].
Qed.

(** "info" sets infinity, "nano" sets NaN. *)
Theorem C152_words_refuted : forall hexv v, exists t t', (forall x, ~ written t x) /\ (forall x, ~ written t' x) /\ set_double hexv v t = (VInf false, None) /\ set_double hexv v t' = (VNan, None).
Proof.
  intros hexv v. exists [x69; x6e; x66; x6f], [x6e; x61; x6e; x6f]. split; [|split; [|split; reflexivity]].
  - intros x W. destruct (written_chars _ _ W x69) as [D|D]; [left; reflexivity|unfold digit, dig in D; cbn in D; lia|cbn in D; repeat destruct D as [D|D]; try discriminate D; destruct D].
  - intros x W. destruct (written_chars _ _ W x6e) as [D|D]; [left; reflexivity|unfold digit, dig in D; cbn in D; lia|cbn in D; repeat destruct D as [D|D]; try discriminate D; destruct D].
Qed.

(** "1e400" makes std::out_of_range escape instead of an error of the library. *)
Theorem C152_range_refuted : forall hexv v, exists t x, written t x /\ set_double hexv v t = (v, Some EOutOfRange).
Proof.
  intros hexv v. exists [x31; x65; x34; x30; x30], (IZR (10 ^ 400)).
  assert (W : written [x31; x65; x34; x30; x30] (IZR (10 ^ 400))).
  { exists [], 1%Z, [x31], [], [], [x65; x34; x30; x30], 400%Z. split; [reflexivity|]. split; [left; auto|]. split; [digs|]. split; [constructor|]. split; [discriminate|]. split; [left; auto|]. split.
    - right. exists x65, [x34; x30; x30]. split; [auto|]. split; [reflexivity|]. apply (D_plain [x34; x30; x30]); [discriminate|digs].
    - change (400 - Z.of_nat (@length byte []))%Z with 400%Z. change (1 * number ([x31] ++ []))%Z with 1%Z. rewrite p10, Rmult_1_l. reflexivity. }
  split; [exact W|]. unfold set_double. rewrite (written_begins hexv _ _ W). unfold to_double. rewrite Rle_bool_true; [reflexivity|].
  apply abs_round_ge_generic; [apply FLT_exp_valid; exact prec53|apply valid_rnd_N| |].
  - apply generic_format_bpow. unfold FLT_exp. lia.
  - rewrite bpow_IZR by lia. rewrite <- abs_IZR. apply IZR_le. vm_compute. discriminate.
Qed.

(** "1e-310" is refused, although there are doubles of that size. *)
Theorem C152_small_refuted : forall hexv v, exists t x, written t x /\ (exists d, isdouble d /\ (0 < d < x)%R) /\ set_double hexv v t = (v, Some EOutOfRange).
Proof.
  intros hexv v. exists [x31; x65; x2d; x33; x31; x30], (/ IZR (10 ^ 310))%R.
  assert (W : written [x31; x65; x2d; x33; x31; x30] (/ IZR (10 ^ 310))%R).
  { exists [], 1%Z, [x31], [], [], [x65; x2d; x33; x31; x30], (-310)%Z. split; [reflexivity|]. split; [left; auto|]. split; [digs|]. split; [constructor|]. split; [discriminate|]. split; [left; auto|]. split.
    - right. exists x65, [x2d; x33; x31; x30]. split; [auto|]. split; [reflexivity|]. apply (D_minus [x33; x31; x30]); [discriminate|digs].
    - change (-310 - Z.of_nat (@length byte []))%Z with (-310)%Z. change (1 * number ([x31] ++ []))%Z with 1%Z. rewrite n10, Rmult_1_l. reflexivity. }
  assert (P : (0 < IZR (10 ^ 310))%R) by (apply IZR_lt; reflexivity).
  assert (B : forall e, (0 <= e)%Z -> bpow radix2 (- e) = (/ IZR (2 ^ e))%R) by (intros e E; rewrite bpow_opp, bpow_IZR by exact E; reflexivity).
  split; [exact W|]. split.
  - exists (bpow radix2 (-1074)). split; [exists 1%Z, (-1074)%Z; split; [rewrite Rmult_1_l; reflexivity|split; [reflexivity|lia]]|]. split; [apply bpow_gt_0|]. change (-1074)%Z with (- (1074))%Z. rewrite (B 1074%Z) by lia. apply Rinv_lt_contravar; [apply Rmult_lt_0_compat; [exact P|apply IZR_lt; reflexivity]|apply IZR_lt; reflexivity].
  - unfold set_double. rewrite (written_begins hexv _ _ W). set (x := (/ IZR (10 ^ 310))%R) in *.
    assert (X0 : (0 < x)%R) by (apply Rinv_0_lt_compat; exact P).
    assert (X1 : (x <= bpow radix2 (-1023))%R) by (change (-1023)%Z with (- (1023))%Z; rewrite (B 1023%Z) by lia; apply Rinv_le; [apply IZR_lt; reflexivity|apply IZR_le; vm_compute; discriminate]).
    unfold to_double. rewrite Rlt_bool_true.
    2:{ apply (Rle_lt_trans _ (bpow radix2 (-1023))); [|apply bpow_lt; lia]. apply abs_round_le_generic; [apply FLX_exp_valid; exact prec53|apply valid_rnd_N|apply generic_format_bpow; unfold FLX_exp; lia|]. rewrite Rabs_pos_eq by lra. exact X1. }
    rewrite Req_bool_false; [destruct (Rle_bool _ _); reflexivity|]. intros E.
    assert (D : isdouble x) by (rewrite <- E; apply (rnd_nearest x)). destruct D as (m & e & EX & M & LE).
    assert (Q : (IZR (10 ^ 310) * IZR (m * 2 ^ (e + 1074)) = IZR (2 ^ 1074))%R).
    { rewrite mult_IZR, <- (bpow_IZR (e + 1074)) by lia. rewrite bpow_plus. rewrite <- (bpow_IZR 1074) by lia. replace (IZR (10 ^ 310) * (IZR m * (bpow radix2 e * bpow radix2 1074)))%R with (IZR (10 ^ 310) * (IZR m * bpow radix2 e) * bpow radix2 1074)%R by ring. rewrite <- EX. unfold x. rewrite Rinv_r by lra. ring. }
    rewrite <- mult_IZR in Q. apply eq_IZR in Q. assert (Y : (2 ^ 1074 mod 5 = 0)%Z).
    { rewrite <- Q. change (10 ^ 310)%Z with (2 * 10 ^ 309 * 5)%Z. rewrite <- (Z.mul_assoc (2 * 10 ^ 309)), (Z.mul_comm 5), Z.mul_assoc. apply Z.mod_mul. lia. }
    vm_compute in Y. discriminate Y.
Qed.
Print Assumptions C152_comma_refuted.
Print Assumptions C152_words_refuted.
Print Assumptions C152_range_refuted.
Print Assumptions C152_small_refuted.

(** The property as stated. *)
Definition C152_full : Prop := forall hexv v t,
  (exists x y, written t x /\ nearest x y /\ set_double hexv v t = (VReal y, None)) \/ set_double hexv v t = (v, Some EInvalid).
Theorem C152_full_refuted : ~ C152_full.
Proof.
  intros F. destruct (C152_comma_refuted (fun _ _ => DInvalid) VNan) as (t & NW & E). destruct (F (fun _ _ => DInvalid) VNan t) as [(x & y & W & _)|X]; [exact (NW x W)|]. rewrite E in X. discriminate X.
Qed.
Print Assumptions C152_full_refuted.

(** "-2.5e3" is -2500, "abc" is refused. *)
Example C152_nonvacuous : written [x2d; x32; x2e; x35; x65; x33] (-2500)%R /\ isdouble (-2500) /\ forall hexv v, set_double hexv v [x61; x62; x63] = (v, Some EInvalid).
Proof.
  split; [|split].
  - exists [x2d], (-1)%Z, [x32], [x2e; x35], [x35], [x65; x33], 3%Z. split; [reflexivity|]. split; [right; right; auto|]. split; [digs|]. split; [digs|]. split; [discriminate|]. split; [right; reflexivity|]. split.
    + right. exists x65, [x33]. split; [auto|]. split; [reflexivity|]. apply (D_plain [x33]); [discriminate|digs].
    + change (3 - Z.of_nat (length [x35]))%Z with 2%Z. change (-1 * number ([x32] ++ [x35]))%Z with (-25)%Z. rewrite p10. rewrite <- mult_IZR. reflexivity.
  - exists (-2500)%Z, 0%Z. split; [cbn; lra|]. split; [reflexivity|lia].
  - intros hexv v. apply (C152_refused hexv v _ x61 [x62; x63]); try discriminate; [reflexivity|apply nondigit; vm_compute; auto].
Qed.
