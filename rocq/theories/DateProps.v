(** C154: the times in a log, as texts, sort as times. *)
From Coq Require Import String List Arith Bool Lia.
From Coq.Init Require Import Byte.
From Verif Require Import Base StreamModel UtilModel DateModel.
Import ListNotations.

(** ** Specification *)

(** The order of texts, by the codes of their characters. *)
Fixpoint before (a b : bytes) : Prop :=
  match a, b with
  | [], _ :: _ => True
  | x :: a, y :: b => Byte.to_nat x < Byte.to_nat y \/ (x = y /\ before a b)
  | _, [] => False
  end.

(** The order of times: by year, then month, and so on. *)
Definition earlier (t t' : tm) : Prop :=
  t_year t < t_year t' \/ (t_year t = t_year t' /\ (
  t_mon t < t_mon t' \/ (t_mon t = t_mon t' /\ (
  t_day t < t_day t' \/ (t_day t = t_day t' /\ (
  t_hour t < t_hour t' \/ (t_hour t = t_hour t' /\ (
  t_min t < t_min t' \/ (t_min t = t_min t' /\ t_sec t < t_sec t'))))))))).

(** The times of the years 1000 to 9999. *)
Definition four (t : tm) : Prop :=
  10 ^ 3 <= t_year t < 10 ^ 4 /\ 1 <= t_mon t <= 12 /\ 1 <= t_day t <= 31 /\ t_hour t < 24 /\ t_min t < 60 /\ t_sec t <= 60.

(** A zone whose clocks are never put back: a later second has later fields. *)
Definition steady (localtime : nat -> tm) : Prop := forall s s', s < s' -> earlier (localtime s) (localtime s').

(** A number with exactly w digits. *)
Fixpoint pad (w n : nat) : bytes := match w with 0 => [] | S w => pad w (n / 10) ++ [digit (n mod 10)] end.

(** ** Proofs *)

Lemma p2 : 10 ^ 2 = 100. Proof. reflexivity. Qed.
Lemma p3 : 10 ^ 3 = 1000. Proof. reflexivity. Qed.
Lemma p4 : 10 ^ 4 = 10 * 1000. Proof. reflexivity. Qed.
Lemma p6 : 10 ^ 6 <> 0. Proof. apply Nat.pow_nonzero. discriminate. Qed.
Ltac plia := pose proof p2; pose proof p3; pose proof p4; pose proof p6; lia.

Lemma pad_length w : forall n, length (pad w n) = w.
Proof. induction w as [|w IH]; intros n; [reflexivity|]. cbn [pad]. rewrite app_length, IH. cbn. lia. Qed.

Lemma pad_0 w : pad w 0 = repeat x30 w.
Proof. induction w as [|w IH]; [reflexivity|]. cbn [pad]. change (0 / 10) with 0. change (digit (0 mod 10)) with x30. rewrite IH. symmetry. apply repeat_cons. Qed.

Lemma dec_pad : forall k w n, w <= k -> n < 10 ^ w -> 1 <= w -> repeat x30 (w - length (dec k n)) ++ dec k n = pad w n.
Proof.
  induction k as [|k IH]; intros w n L B W; [lia|]. destruct w as [|w]; [lia|]. cbn [dec pad]. destruct (Nat.ltb_spec n 10) as [C|C].
  - rewrite (Nat.div_small n 10) by lia. rewrite (Nat.mod_small n 10) by lia. rewrite pad_0. cbn [length]. replace (S w - 1) with w by lia. reflexivity.
  - rewrite app_length. cbn [length]. rewrite Nat.pow_succ_r' in B. assert (D : n / 10 < 10 ^ w) by (apply Nat.div_lt_upper_bound; lia).
    destruct w as [|w]; [change (10 ^ 0) with 1 in D; pose proof (Nat.div_str_pos n 10 ltac:(lia)); lia|].
    replace (S (S w) - (length (dec k (n / 10)) + 1)) with (S w - length (dec k (n / 10))) by lia. rewrite app_assoc. rewrite IH by lia. reflexivity.
Qed.

Lemma zeros_pad w n : 1 <= w <= 20 -> n < 10 ^ w -> zeros w n = pad w n.
Proof. intros W B. apply dec_pad; lia. Qed.

Lemma year_pad n : 10 ^ 3 <= n < 10 ^ 4 -> zeros 1 n = pad 4 n.
Proof.
  intros B. unfold zeros. assert (E : dec 20 n = pad 4 n).
  { cbn [dec pad]. destruct (Nat.ltb_spec n 10); [plia|]. destruct (Nat.ltb_spec (n / 10) 10) as [C|C].
    - exfalso. pose proof (Nat.div_mod n 10 ltac:(plia)). pose proof (Nat.mod_upper_bound n 10 ltac:(plia)). plia.
    - destruct (Nat.ltb_spec (n / 10 / 10) 10) as [D|D].
      + exfalso. pose proof (Nat.div_mod n 10 ltac:(plia)). pose proof (Nat.mod_upper_bound n 10 ltac:(plia)). pose proof (Nat.div_mod (n / 10) 10 ltac:(plia)). pose proof (Nat.mod_upper_bound (n / 10) 10 ltac:(plia)). plia.
      + assert (Q : n / 10 / 10 / 10 < 10) by (repeat (apply Nat.div_lt_upper_bound; [plia|]); plia).
        destruct (Nat.ltb_spec (n / 10 / 10 / 10) 10) as [F|F]; [|plia]. rewrite (Nat.mod_small (n / 10 / 10 / 10)) by exact F. reflexivity. }
  rewrite E, pad_length. reflexivity.
Qed.

Lemma before_app : forall a a' b b', length a = length a' -> (before (a ++ b) (a' ++ b') <-> before a a' \/ (a = a' /\ before b b')).
Proof.
  induction a as [|x a IH]; intros [|y a'] b b' L; try discriminate L.
  - cbn. tauto.
  - injection L as L. cbn [app before]. rewrite (IH _ _ _ L). split.
    + intros [H|(-> & [H|(-> & H)])]; auto.
    + intros [[H|(-> & H)]|(E & H)]; auto. injection E as -> ->. auto.
Qed.

Lemma before_cons c b b' : before (c :: b) (c :: b') <-> before b b'.
Proof. cbn [before]. split; [intros [H|(_ & H)]; [lia|exact H]|auto]. Qed.

Lemma digit_before d e : d < 10 -> e < 10 -> (before [digit d] [digit e] <-> d < e).
Proof. intros D E. do 10 (destruct d as [|d]; [do 10 (destruct e as [|e]; [vm_compute; intuition (try lia; try discriminate)|]); lia|]). lia. Qed.

Lemma digit_inj d e : d < 10 -> e < 10 -> digit d = digit e -> d = e.
Proof. intros D E. do 10 (destruct d as [|d]; [do 10 (destruct e as [|e]; [vm_compute; intros; congruence|]); lia|]). lia. Qed.

Lemma pad_inj w : forall n m, n < 10 ^ w -> m < 10 ^ w -> pad w n = pad w m -> n = m.
Proof.
  induction w as [|w IH]; intros n m N M E; [cbn in *; lia|]. cbn [pad] in E. rewrite Nat.pow_succ_r' in *. apply app_inj_tail in E. destruct E as (E & D).
  apply IH in E; [|apply Nat.div_lt_upper_bound; lia|apply Nat.div_lt_upper_bound; lia]. apply digit_inj in D; [|apply Nat.mod_upper_bound; lia|apply Nat.mod_upper_bound; lia].
  rewrite (Nat.div_mod n 10), (Nat.div_mod m 10) by lia. lia.
Qed.

Lemma pad_before w : forall n m, n < 10 ^ w -> m < 10 ^ w -> (before (pad w n) (pad w m) <-> n < m).
Proof.
  induction w as [|w IH]; intros n m N M; [cbn in *; lia|]. cbn [pad]. rewrite Nat.pow_succ_r' in *.
  assert (DN : n / 10 < 10 ^ w) by (apply Nat.div_lt_upper_bound; lia). assert (DM : m / 10 < 10 ^ w) by (apply Nat.div_lt_upper_bound; lia).
  pose proof (Nat.div_mod n 10 ltac:(lia)). pose proof (Nat.div_mod m 10 ltac:(lia)). pose proof (Nat.mod_upper_bound n 10 ltac:(lia)). pose proof (Nat.mod_upper_bound m 10 ltac:(lia)).
  rewrite before_app by (rewrite !pad_length; reflexivity). rewrite IH by assumption. rewrite digit_before by assumption. split.
  - intros [A|(A & B)]; [lia|]. apply pad_inj in A; [lia|assumption|assumption].
  - intros L. destruct (Nat.eq_dec (n / 10) (m / 10)) as [A|A]; [right; rewrite A; split; [reflexivity|lia]|left; lia].
Qed.

Lemma pad_step w n m a b : n < 10 ^ w -> m < 10 ^ w -> (before (pad w n ++ a) (pad w m ++ b) <-> n < m \/ (n = m /\ before a b)).
Proof.
  intros N M. rewrite before_app by (rewrite !pad_length; reflexivity). rewrite pad_before by assumption. split; (intros [A|(A & B)]; [left; exact A|right]).
  - apply pad_inj in A; auto.
  - subst. auto.
Qed.

Lemma digit_not d : digit d <> x25.
Proof. unfold digit. do 10 (destruct d as [|d]; [discriminate|]). destruct d; discriminate. Qed.

Lemma expand_cons c r u : c <> x25 -> expand (c :: r) u = c :: expand r u.
Proof. intros N. cbn [expand]. destruct c; try reflexivity. exfalso. apply N. reflexivity. Qed.

Lemma expand_pad w : forall n r u, expand (pad w n ++ r) u = pad w n ++ expand r u.
Proof. induction w as [|w IH]; intros n r u; [reflexivity|]. cbn [pad]. rewrite <- !app_assoc. rewrite IH. cbn [app]. rewrite expand_cons by apply digit_not. reflexivity. Qed.

(** The text of a time with a year of four digits. *)
Lemma datetime_text lt s u : four (lt s) -> u < 10 ^ 6 -> datetime lt s u =
  pad 4 (t_year (lt s)) ++ x2d :: pad 2 (t_mon (lt s)) ++ x2d :: pad 2 (t_day (lt s)) ++ x20 :: pad 2 (t_hour (lt s)) ++ x3a :: pad 2 (t_min (lt s)) ++ x3a :: pad 2 (t_sec (lt s)) ++ x2e :: pad 6 u.
Proof.
  intros (Y & M & D & H & N & S) U. unfold datetime, fmt. rewrite year_pad by exact Y. rewrite !zeros_pad by plia.
  change (txt "-") with [x2d]. change (txt " ") with [x20]. change (txt ":") with [x3a]. change (txt ".%06u") with [x2e; x25; x30; x36; x75]. cbn [app].
  repeat (rewrite expand_pad || rewrite expand_cons by discriminate). cbn [expand]. rewrite app_nil_r. rewrite zeros_pad by (plia || assumption).
  apply firstn_all2. repeat (rewrite app_length || rewrite pad_length || cbn [length]). plia.
Qed.

Lemma order_fields lt s u s' u' : four (lt s) -> four (lt s') -> u < 10 ^ 6 -> u' < 10 ^ 6 ->
  (before (datetime lt s u) (datetime lt s' u') <-> earlier (lt s) (lt s') \/ (lt s = lt s' /\ u < u')).
Proof.
  intros F F' U U'. rewrite !datetime_text by assumption. destruct F as (Y & M & D & H & N & S). destruct F' as (Y' & M' & D' & H' & N' & S').
  rewrite pad_step by plia. rewrite before_cons. do 5 (rewrite pad_step by plia; rewrite before_cons). rewrite pad_before by assumption.
  unfold earlier. destruct (lt s) as [y m d h n c], (lt s') as [y' m' d' h' n' c']. cbn [t_year t_mon t_day t_hour t_min t_sec]. split.
  - intros K. repeat (destruct K as [K|K]; [left; tauto|destruct K as (-> & K)]). right. auto.
  - intros [K|(K & L)]; [tauto|]. injection K as -> -> -> -> -> ->. tauto.
Qed.

(** In a zone whose clocks are never put back, the order of the texts is the
    order of the times, to the microsecond. *)
Theorem C154_order_partial : forall lt s u s' u', steady lt -> four (lt s) -> four (lt s') -> u < 10 ^ 6 -> u' < 10 ^ 6 ->
  (before (datetime lt s u) (datetime lt s' u') <-> s < s' \/ (s = s' /\ u < u')).
Proof.
  intros lt s u s' u' Z F F' U U'. rewrite order_fields by assumption.
  assert (I : forall t t', earlier t t' -> ~ earlier t' t /\ t <> t') by (unfold earlier; intros t t' E; split; [lia|intros ->; lia]).
  split.
  - intros [E|(E & L)].
    + destruct (Nat.lt_trichotomy s s') as [A|[A|A]]; [auto| |]; exfalso; destruct (I _ _ E) as (E1 & E2); [subst; apply E2; reflexivity|]. exact (E1 (Z _ _ A)).
    + destruct (Nat.lt_trichotomy s s') as [A|[A|A]]; auto; exfalso; destruct (I _ _ (Z _ _ A)) as (_ & X); apply X; congruence.
  - intros [A|(-> & L)]; auto.
Qed.

(** So two times have one text only if they are the same. *)
Corollary C154_unique_partial : forall lt s u s' u', steady lt -> four (lt s) -> four (lt s') -> u < 10 ^ 6 -> u' < 10 ^ 6 ->
  datetime lt s u = datetime lt s' u' -> s = s' /\ u = u'.
Proof.
  intros lt s u s' u' Z F F' U U' E. assert (R : forall a, ~ before a a) by (induction a as [|x a IH]; cbn; [tauto|intros [H|(_ & H)]; [lia|exact (IH H)]]).
  assert (A : ~ (s < s' \/ (s = s' /\ u < u'))) by (rewrite <- (C154_order_partial lt s u s' u') by assumption; rewrite E; apply R).
  assert (B : ~ (s' < s \/ (s' = s /\ u' < u))) by (rewrite <- (C154_order_partial lt s' u' s u) by assumption; rewrite E; apply R). lia.
Qed.

(** UTC, as gmtime has it: days of the Gregorian calendar from 1970-01-01, each of 24 hours. *)
Definition leap (y : nat) : bool := (y mod 4 =? 0) && (negb (y mod 100 =? 0) || (y mod 400 =? 0)).
Definition days_in (y m : nat) : nat :=
  match m with 2 => if leap y then 29 else 28 | 4 | 6 | 9 | 11 => 30 | _ => 31 end.
Definition next_day (x : nat * nat * nat) : nat * nat * nat :=
  let '(y, m, d) := x in if d <? days_in y m then (y, m, S d) else if m <? 12 then (y, S m, 1) else (S y, 1, 1).
Fixpoint date (n : nat) : nat * nat * nat := match n with 0 => (1970, 1, 1) | S k => next_day (date k) end.
Definition utc (s : nat) : tm :=
  let m := s / 60 in let h := m / 60 in let '(y, mo, d) := date (h / 24) in mkTm y mo d (h mod 24) (m mod 60) (s mod 60).

Definition dlt (x x' : nat * nat * nat) : Prop :=
  let '(y, m, d) := x in let '(y', m', d') := x' in y < y' \/ (y = y' /\ (m < m' \/ (m = m' /\ d < d'))).
Lemma dlt_next x : dlt x (next_day x).
Proof. destruct x as [[y m] d]. unfold next_day. destruct (d <? days_in y m); [|destruct (m <? 12)]; cbn [dlt]; lia. Qed.
Lemma dlt_trans x y z : dlt x y -> dlt y z -> dlt x z.
Proof. destruct x as [[a b] c], y as [[d e] f], z as [[g h] i]. cbn [dlt]. lia. Qed.
Lemma date_mono n m : n < m -> dlt (date n) (date m).
Proof. intros L. induction L as [|m L IH]; [apply dlt_next|]. apply (dlt_trans _ _ _ IH). apply dlt_next. Qed.
Lemma days_31 y m : days_in y m <= 31.
Proof. unfold days_in. repeat (destruct m as [|m]; [try lia; destruct (leap y); lia|]). lia. Qed.
Lemma date_valid n : let '(y, m, d) := date n in 1970 <= y /\ 1 <= m <= 12 /\ 1 <= d <= 31.
Proof.
  induction n as [|n IH]; [cbn [date]; lia|]. cbn [date]. destruct (date n) as [[y m] d]. unfold next_day. pose proof (days_31 y m). destruct (Nat.ltb_spec d (days_in y m)); [lia|]. destruct (Nat.ltb_spec m 12); lia.
Qed.

Lemma split_div b s s' : 0 < b -> s < s' -> s / b < s' / b \/ (s / b = s' / b /\ s mod b < s' mod b).
Proof. intros B L. pose proof (Nat.div_mod s b ltac:(lia)). pose proof (Nat.div_mod s' b ltac:(lia)). pose proof (Nat.div_le_mono s s' b ltac:(lia) ltac:(lia)). destruct (Nat.eq_dec (s / b) (s' / b)) as [E|E]; [right; split; [exact E|rewrite E in *; lia]|left; lia]. Qed.

Lemma utc_steady : steady utc.
Proof.
  intros s s' L. unfold utc. cbv zeta.
  assert (D : dlt (date (s / 60 / 60 / 24)) (date (s' / 60 / 60 / 24)) \/ (s / 60 / 60 / 24 = s' / 60 / 60 / 24 /\ ((s / 60 / 60) mod 24 < (s' / 60 / 60) mod 24 \/ ((s / 60 / 60) mod 24 = (s' / 60 / 60) mod 24 /\ ((s / 60) mod 60 < (s' / 60) mod 60 \/ ((s / 60) mod 60 = (s' / 60) mod 60 /\ s mod 60 < s' mod 60)))))).
  { destruct (split_div 60 s s' ltac:(lia) L) as [A|(A & A')]; [|rewrite A; right; auto 10].
    destruct (split_div 60 _ _ ltac:(lia) A) as [B|(B & B')]; [|rewrite B; right; auto 10].
    destruct (split_div 24 _ _ ltac:(lia) B) as [C|(C & C')]; [|rewrite C; right; auto 10].
    left. apply date_mono. exact C. }
  destruct D as [D|(D & E)].
  - destruct (date (s / 60 / 60 / 24)) as [[y m] d], (date (s' / 60 / 60 / 24)) as [[y' m'] d']. unfold earlier. cbn [dlt t_year t_mon t_day t_hour t_min t_sec] in *. tauto.
  - rewrite D. destruct (date (s' / 60 / 60 / 24)) as [[y m] d]. unfold earlier. cbn [t_year t_mon t_day t_hour t_min t_sec]. tauto.
Qed.

Lemma utc_four s : t_year (utc s) < 10 ^ 4 -> four (utc s).
Proof.
  unfold utc, four. cbv zeta. pose proof (date_valid (s / 60 / 60 / 24)) as V. destruct (date (s / 60 / 60 / 24)) as [[y m] d]. cbn [t_year t_mon t_day t_hour t_min t_sec]. intros Y.
  pose proof (Nat.mod_upper_bound (s / 60 / 60) 24 ltac:(lia)). pose proof (Nat.mod_upper_bound (s / 60) 60 ltac:(lia)). pose proof (Nat.mod_upper_bound s 60 ltac:(lia)). plia.
Qed.

(** In UTC the texts sort as the times, up to the year 9999. *)
Theorem C154_utc_partial : forall s u s' u', t_year (utc s) < 10 ^ 4 -> t_year (utc s') < 10 ^ 4 -> u < 10 ^ 6 -> u' < 10 ^ 6 ->
  (before (datetime utc s u) (datetime utc s' u') <-> s < s' \/ (s = s' /\ u < u')).
Proof. intros s u s' u' Y Y' U U'. apply C154_order_partial; auto using utc_steady, utc_four. Qed.
Print Assumptions C154_utc_partial.
Example C154_utc_nonvacuous : t_year (utc 3661) = 1970 /\ datetime utc 3661 42 = txt "1970-01-01 01:01:01.000042" /\ date 58 = (1970, 2, 28) /\ date 59 = (1970, 3, 1) /\ date 789 = (1972, 2, 29) /\ date 790 = (1972, 3, 1).
Proof. repeat split; vm_compute; reflexivity. Qed.

(** Every such text has 26 characters. *)
Theorem C154_width : forall lt s u, four (lt s) -> u < 10 ^ 6 -> length (datetime lt s u) = 26.
Proof. intros lt s u F U. rewrite datetime_text by assumption. repeat (rewrite app_length || rewrite pad_length || cbn [length]). reflexivity. Qed.
Print Assumptions C154_order_partial.
Print Assumptions C154_unique_partial.
Print Assumptions C154_width.

(** The property as stated: in every zone. *)
Definition C154_full : Prop := forall lt s u s' u', (forall s, four (lt s)) -> u < 10 ^ 6 -> u' < 10 ^ 6 ->
  (before (datetime lt s u) (datetime lt s' u') <-> s < s' \/ (s = s' /\ u < u')).

(** Minutes of the night of 2026-11-01, counted from midnight, in a zone whose
    clocks are put back from 2:00 to 1:00; only the first day is of interest. *)
Definition night (s : nat) : tm := let m := if s <? 120 then s else s - 60 in mkTm 2026 11 1 (Nat.min (m / 60) 23) (m mod 60) 0.

(** A line logged later has the smaller time. *)
Theorem C154_back_refuted : (forall s, four (night s)) /\ before (datetime night 125 0) (datetime night 90 0) /\ datetime night 125 0 = txt "2026-11-01 01:05:00.000000" /\ datetime night 90 0 = txt "2026-11-01 01:30:00.000000".
Proof.
  split.
  - intros s. unfold night, four. cbn [t_year t_mon t_day t_hour t_min t_sec]. set (m := if s <? 120 then s else s - 60). pose proof (Nat.mod_upper_bound m 60). plia.
  - assert (A : datetime night 125 0 = txt "2026-11-01 01:05:00.000000") by (vm_compute; reflexivity). assert (B : datetime night 90 0 = txt "2026-11-01 01:30:00.000000") by (vm_compute; reflexivity).
    split; [|split; assumption]. rewrite A, B. cbn. do 14 (right; split; [reflexivity|]). left. vm_compute. plia.
Qed.

Theorem C154_full_refuted : ~ C154_full.
Proof. intros F. destruct C154_back_refuted as (V & L & _). assert (P : 0 < 10 ^ 6) by plia. destruct (F night 125 0 90 0 V P P) as (G & _). specialize (G L). clear - G. lia. Qed.
Print Assumptions C154_back_refuted.
Print Assumptions C154_full_refuted.

(** A steady zone, for a made-up calendar in which a minute takes a year. *)
Definition noon (s : nat) : tm := mkTm (2026 + s / 60) 1 1 12 0 (s mod 60).
Example C154_nonvacuous : steady noon /\ four (noon 59) /\ four (noon 60) /\ datetime noon 59 42 = txt "2026-01-01 12:00:59.000042" /\ datetime noon 60 7 = txt "2027-01-01 12:00:00.000007".
Proof.
  split; [|split; [|split; [|split]]]; try (vm_compute; reflexivity); try (unfold four, noon; cbn [t_year t_mon t_day t_hour t_min t_sec]; change (59 / 60) with 0; change (60 / 60) with 1; change (59 mod 60) with 59; change (60 mod 60) with 0; plia).
  intros s s' L. unfold earlier, noon. cbn [t_year t_mon t_day t_hour t_min t_sec]. pose proof (Nat.div_mod s 60 ltac:(plia)). pose proof (Nat.div_mod s' 60 ltac:(plia)). pose proof (Nat.mod_upper_bound s 60 ltac:(plia)). pose proof (Nat.mod_upper_bound s' 60 ltac:(plia)). plia.
Qed.
