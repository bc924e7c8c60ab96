(** Proofs about DataStream. *)
From Coq Require Import NArith ZArith List Bool Lia ZifyBool ZifyN ZifyNat.
From Coq.Init Require Import Byte.
From Verif Require Import Base StreamModel StreamSpec.
Import ListNotations.
Local Open Scope N_scope.

Lemma pow62_64 : 2 ^ 62 + 2 ^ 62 < size_max1.
Proof. reflexivity. Qed.

Lemma pow62_val : 2 ^ 62 = 4611686018427387904. Proof. reflexivity. Qed.
Lemma szmax_val : size_max1 = 18446744073709551616. Proof. reflexivity. Qed.

Lemma szadd_small a b : a + b < size_max1 -> szadd a b = a + b.
Proof. intros H. unfold szadd. apply N.mod_small. exact H. Qed.

Lemma szsub_small a b : b <= a -> a < size_max1 -> szsub a b = a - b.
Proof.
  intros H1 H2. unfold szsub. rewrite (N.mod_small b) by lia.
  replace (a + size_max1 - b) with ((a - b) + 1 * size_max1) by lia.
  rewrite N.mod_add by (rewrite szmax_val; lia).
  apply N.mod_small. lia.
Qed.

Lemma unread_new bs : lenN bs < 2 ^ 62 -> unread (ds_new bs) bs.
Proof. intros H. exists []. repeat split. exact H. Qed.

Lemma unread_off s u : unread s u ->
  ds_off s <= lenN (ds_buf s) /\ dropN (ds_off s) (ds_buf s) = u
  /\ lenN u = lenN (ds_buf s) - ds_off s /\ lenN (ds_buf s) < 2 ^ 62.
Proof.
  intros (c & Hb & Ho & Hl). rewrite Hb, Ho in *. rewrite lenN_app in *.
  repeat split; try lia. apply dropN_app_lenN.
Qed.

Lemma unread_size s u : unread s u -> ds_size s = lenN u.
Proof.
  intros H. apply unread_off in H. destruct H as (H1 & _ & H2 & H3).
  unfold ds_size. rewrite szsub_small; lia || (rewrite szmax_val, pow62_val in *; lia).
Qed.

Lemma unread_put_data s u bs :
  unread s u -> lenN (ds_buf s) + lenN bs < 2 ^ 62 ->
  unread (ds_put_data bs s) (u ++ bs).
Proof.
  intros (c & Hb & Ho & Hl) H. exists c. simpl. rewrite Hb, app_assoc.
  repeat split; auto. rewrite Hb in *. rewrite !lenN_app in *. lia.
Qed.

Lemma put_int_data h w x s : ds_put_int h w x s = ds_put_data (native_bytes h w x) s.
Proof. reflexivity. Qed.

Lemma lenN_native h w x : lenN (native_bytes h w x) = N.of_nat w.
Proof. unfold lenN. rewrite native_bytes_length. reflexivity. Qed.

Lemma get_data_ok s a b :
  unread s (a ++ b) ->
  exists s', ds_get_data (lenN a) s = Ret a s' /\ unread s' b /\ ds_buf s' = ds_buf s
             /\ ds_off s' = ds_off s + lenN a.
Proof.
  intros H. pose proof (unread_off _ _ H) as (H1 & H2 & H3 & H4).
  rewrite lenN_app in H3. rewrite pow62_val in *.
  unfold ds_get_data. rewrite szadd_small by (rewrite szmax_val; lia).
  destruct (N.ltb_spec (lenN (ds_buf s)) (ds_off s + lenN a)); [lia|].
  destruct (N.leb_spec (ds_off s + lenN a) (lenN (ds_buf s))); [|lia].
  exists (mkDS (ds_buf s) (ds_off s + lenN a)). split; [|split; [|split]]; try reflexivity.
  - rewrite H2, takeN_app_lenN. reflexivity.
  - destruct H as (c & Hb & Ho & Hl). exists (c ++ a). simpl.
    rewrite <- app_assoc. repeat split; auto. rewrite lenN_app, Ho. reflexivity.
Qed.

Lemma get_data_short s u n :
  unread s u -> lenN u < n -> n < 2 ^ 63 ->
  ds_get_data n s = Exn ExnFailure (mkDS (ds_buf s) (ds_off s + n)).
Proof.
  intros H Hn Hm. pose proof (unread_off _ _ H) as (H1 & H2 & H3 & H4).
  unfold ds_get_data.
  change (2 ^ 63) with 9223372036854775808 in *. rewrite pow62_val in *.
  rewrite szadd_small by (rewrite szmax_val; lia).
  destruct (N.ltb_spec (lenN (ds_buf s)) (ds_off s + n)); [reflexivity|lia].
Qed.

Lemma get_int_ok h w s a b :
  unread s (a ++ b) -> length a = w ->
  exists s', ds_get_int h w s = Ret (native_word h a) s' /\ unread s' b /\ ds_buf s' = ds_buf s.
Proof.
  intros H L. assert (LN : N.of_nat w = lenN a) by (unfold lenN; lia).
  pose proof (unread_off _ _ H) as (H1 & H2 & H3 & H4).
  rewrite lenN_app in H3. rewrite pow62_val in *.
  unfold ds_get_int. cbv zeta. rewrite LN.
  rewrite szadd_small by (rewrite szmax_val; lia).
  destruct (N.ltb_spec (lenN (ds_buf s)) (ds_off s + lenN a)); [lia|].
  destruct (N.leb_spec (ds_off s + lenN a) (lenN (ds_buf s))); [|lia].
  exists (mkDS (ds_buf s) (ds_off s + lenN a)). split; [|split]; try reflexivity.
  - rewrite H2, takeN_app_lenN. reflexivity.
  - destruct H as (c & Hb & Ho & Hl). exists (c ++ a). simpl.
    rewrite <- app_assoc. repeat split; auto. rewrite lenN_app, Ho. reflexivity.
Qed.

Lemma get_int_short h w s u :
  unread s u -> lenN u < N.of_nat w -> N.of_nat w < 2 ^ 62 ->
  ds_get_int h w s = Exn ExnFailure s.
Proof.
  intros H Hn Hm. pose proof (unread_off _ _ H) as (H1 & H2 & H3 & H4).
  rewrite pow62_val in *.
  unfold ds_get_int. cbv zeta. rewrite szadd_small by (rewrite szmax_val; lia).
  destruct (N.ltb_spec (lenN (ds_buf s)) (ds_off s + N.of_nat w)); [reflexivity|lia].
Qed.

Lemma get_int_put h w x s b :
  unread s (native_bytes h w x ++ b) -> x < word_mod w ->
  exists s', ds_get_int h w s = Ret x s' /\ unread s' b /\ ds_buf s' = ds_buf s.
Proof.
  intros H Hx.
  destruct (get_int_ok h w s _ b H) as (s' & E & U & B).
  - apply native_bytes_length.
  - exists s'. rewrite E, native_word_bytes, N.mod_small by exact Hx. auto.
Qed.

(** ** Item lists *)

Definition enc_item (h : endian) (i : item) : bytes :=
  match i with IInt w x => native_bytes h w x | IBytes bs => bs end.

Lemma enc_item_len h i : lenN (enc_item h i) = item_len i.
Proof. destruct i; simpl; [apply lenN_native|reflexivity]. Qed.

Definition items_len (items : list item) : N := fold_right (fun i n => item_len i + n) 0 items.

Lemma enc_items_len h items : lenN (flat_map (enc_item h) items) = items_len items.
Proof.
  induction items as [|i items IH]; [reflexivity|].
  simpl. rewrite lenN_app, IH, enc_item_len. reflexivity.
Qed.

Lemma write_items_unread h items s u :
  unread s u -> lenN (ds_buf s) + items_len items < 2 ^ 62 ->
  unread (write_items h items s) (u ++ flat_map (enc_item h) items)
  /\ lenN (ds_buf (write_items h items s)) = lenN (ds_buf s) + items_len items
  /\ ds_off (write_items h items s) = ds_off s.
Proof.
  revert s u; induction items as [|i items IH]; intros s u H L.
  - simpl in *. rewrite app_nil_r. repeat split; auto. lia.
  - simpl in L. unfold write_items. simpl fold_left.
    assert (E : write_item h s i = ds_put_data (enc_item h i) s) by (destruct i; reflexivity).
    rewrite E. assert (Hl := enc_item_len h i).
    assert (L1 : lenN (ds_buf (ds_put_data (enc_item h i) s)) = lenN (ds_buf s) + item_len i)
      by (simpl; rewrite lenN_app; lia).
    destruct (IH (ds_put_data (enc_item h i) s) (u ++ enc_item h i)) as (A & B & C).
    + apply unread_put_data; auto. lia.
    + rewrite L1. simpl in L. lia.
    + fold (write_items h items (ds_put_data (enc_item h i) s)).
      simpl flat_map. rewrite app_assoc. split; [exact A|]. split; [|exact C].
      rewrite B, L1. simpl. lia.
Qed.

Lemma read_items_ok h items : forall s b,
  unread s (flat_map (enc_item h) items ++ b) -> Forall item_ok items ->
  exists s', read_items h (map shape_of items) s = Ret items s' /\ unread s' b
             /\ ds_buf s' = ds_buf s.
Proof.
  induction items as [|i items IH]; intros s b H F.
  - exists s. simpl in *. auto.
  - inversion F as [|? ? Hi Fi]; subst.
    simpl flat_map in H. rewrite <- app_assoc in H.
    assert (R : exists s1, read_item h (shape_of i) s = Ret i s1
                /\ unread s1 (flat_map (enc_item h) items ++ b) /\ ds_buf s1 = ds_buf s).
    { destruct i as [w x|bs]; simpl in *.
      - destruct (get_int_put h w x s _ H Hi) as (s1 & E & U & B).
        exists s1. rewrite E. auto.
      - destruct (get_data_ok s bs _ H) as (s1 & E & U & B & _).
        exists s1. rewrite E. auto. }
    destruct R as (s1 & E1 & U1 & B1).
    destruct (IH s1 b U1 Fi) as (s2 & E2 & U2 & B2).
    exists s2. simpl. rewrite E1. simpl. rewrite E2. simpl. repeat split; auto. congruence.
Qed.

Theorem stream_roundtrip_lemma h items s :
  unread s [] -> Forall item_ok items -> lenN (ds_buf s) + items_len items < 2 ^ 62 ->
  exists s', read_items h (map shape_of items) (write_items h items s) = Ret items s'
             /\ ds_size s' = 0.
Proof.
  intros U F L.
  destruct (write_items_unread h items s [] U L) as (A & B & C).
  simpl in A. rewrite <- (app_nil_r (flat_map _ _)) in A.
  destruct (read_items_ok h items _ [] A F) as (s' & E & U' & _).
  exists s'. split; [exact E|]. rewrite (unread_size _ _ U'). reflexivity.
Qed.

(** ** Reads of arbitrary histories *)

Lemma read_history_defined_aux h shs : forall s,
  ds_off s + total_len shs < size_max1 -> lenN (ds_buf s) < 2 ^ 62 ->
  ~ In RUndef (read_history h shs s).
Proof.
  induction shs as [|sh shs IH]; intros s L B; simpl; [tauto|].
  simpl in L. destruct sh as [w|n]; simpl in *.
  - unfold ds_get_int. cbv zeta. rewrite szadd_small by lia.
    destruct (N.ltb_spec (lenN (ds_buf s)) (ds_off s + N.of_nat w)); simpl.
    + intros [H1|H1]; [discriminate|]. revert H1. apply IH; simpl; lia.
    + destruct (N.leb_spec (ds_off s + N.of_nat w) (lenN (ds_buf s))); [|lia].
      simpl. intros [H2|H2]; [discriminate|]. revert H2. apply IH; simpl; lia.
  - unfold ds_get_data. cbv zeta. rewrite szadd_small by lia.
    destruct (N.ltb_spec (lenN (ds_buf s)) (ds_off s + n)); simpl.
    + intros [H1|H1]; [discriminate|]. revert H1. apply IH; simpl; lia.
    + destruct (N.leb_spec (ds_off s + n) (lenN (ds_buf s))); [|lia].
      simpl. intros [H2|H2]; [discriminate|]. revert H2. apply IH; simpl; lia.
Qed.

(** operator>> alone: any history of integer reads, failing ones included,
    keeps the stream usable. *)
Lemma get_int_keeps_unread h w s u :
  unread s u -> N.of_nat w < 2 ^ 62 ->
  (N.of_nat w <= lenN u ->
     exists s', ds_get_int h w s = Ret (native_word h (takeN (N.of_nat w) u)) s'
                /\ unread s' (dropN (N.of_nat w) u))
  /\ (lenN u < N.of_nat w -> ds_get_int h w s = Exn ExnFailure s).
Proof.
  intros U W. split.
  - intros L. rewrite <- (takeN_dropN (N.of_nat w) u) in U.
    destruct (get_int_ok h w s _ _ U) as (s' & E & U' & _).
    + pose proof (lenN_takeN (N.of_nat w) u). unfold lenN in *. lia.
    + exists s'. auto.
  - intros L. eapply get_int_short; eauto.
Qed.

(** ** Hexadecimal text *)

Lemma byte_cases (P : byte -> bool) :
  forallb (fun n => P (byte_of (N.of_nat n))) (seq 0 256) = true -> forall b, P b = true.
Proof.
  intros H b. rewrite forallb_forall in H.
  specialize (H (N.to_nat (byte_val b))).
  rewrite N2Nat.id, byte_of_val in H. apply H.
  apply in_seq. pose proof (byte_val_lt b). lia.
Qed.

Lemma hex_val_spec c d : hex_val c = Some d <-> digit_denotes c d.
Proof.
  unfold hex_val, digit_denotes. pose proof (byte_val_lt c).
  remember (byte_val c) as v. clear Heqv c. split.
  - intros E. destruct ((48 <=? v) && (v <=? 57)) eqn:E1; [inversion E; lia|].
    destruct ((97 <=? v) && (v <=? 102)) eqn:E2; [inversion E; lia|].
    destruct ((65 <=? v) && (v <=? 70)) eqn:E3; [inversion E; lia|discriminate].
  - intros D. destruct ((48 <=? v) && (v <=? 57)) eqn:E1; [f_equal; lia|].
    destruct ((97 <=? v) && (v <=? 102)) eqn:E2; [f_equal; lia|].
    destruct ((65 <=? v) && (v <=? 70)) eqn:E3; [f_equal; lia|lia].
Qed.

Lemma digit_lt c d : digit_denotes c d -> d < 16.
Proof. unfold digit_denotes. lia. Qed.

Lemma hex_char_denotes d : d < 16 -> digit_denotes (hex_char d) d.
Proof.
  intros H. unfold digit_denotes, hex_char.
  destruct (N.ltb_spec d 10); rewrite byte_val_of, N.mod_small by lia; lia.
Qed.

Lemma hex_digit_not_special c d : digit_denotes c d ->
  is_space c = false /\ byte_val c <> 45 /\ byte_val c <> 43 /\ byte_val c <> 0.
Proof.
  unfold digit_denotes, is_space. intros H.
  destruct (byte_val c =? 32) eqn:?, ((9 <=? byte_val c) && (byte_val c <=? 13)) eqn:?;
    simpl; split; try reflexivity; lia.
Qed.

Lemma scan_02x_pair c1 c2 t d1 d2 :
  digit_denotes c1 d1 -> digit_denotes c2 d2 ->
  scan_02x (c1 :: c2 :: t) = Some (16 * d1 + d2).
Proof.
  intros D1 D2.
  destruct (hex_digit_not_special _ _ D1) as (S1 & M1 & P1 & Z1).
  destruct (hex_digit_not_special _ _ D2) as (S2 & M2 & P2 & Z2).
  apply N.eqb_neq in M1, P1, Z1, M2, P2, Z2.
  unfold scan_02x. simpl cstr. rewrite Z1, Z2. simpl skip_space. rewrite S1.
  rewrite M1, P1.
  apply hex_val_spec in D1, D2. cbn [scan_digits]. rewrite D1. cbn [scan_digits]. rewrite D2.
  cbn [scan_digits]. f_equal. lia.
Qed.

Lemma load_hex_loop_ok t bs : hex_denotes t bs ->
  forall done todo, length todo = length bs ->
  load_hex_loop t done todo = Ret tt (mkDS (done ++ bs) 0).
Proof.
  induction 1 as [|c1 c2 t b bs d1 d2 D1 D2 B H IH]; intros done todo L.
  - destruct todo; [|discriminate]. simpl. rewrite app_nil_r. reflexivity.
  - destruct todo as [|x todo]; [discriminate|].
    cbn [load_hex_loop]. rewrite (scan_02x_pair _ _ _ _ _ D1 D2). simpl skipn.
    rewrite IH by (simpl in L; lia). rewrite <- app_assoc. cbn [app].
    rewrite <- B, byte_of_val. reflexivity.
Qed.

Lemma hex_denotes_len t bs : hex_denotes t bs -> lenN t = 2 * lenN bs.
Proof. induction 1; rewrite ?lenN_cons; [reflexivity|]. lia. Qed.

Lemma vec_resize_len n buf : lenN (vec_resize n buf) = n.
Proof.
  unfold vec_resize. rewrite lenN_app, lenN_takeN. unfold lenN at 2.
  rewrite repeat_length. lia.
Qed.

Lemma load_hex_ok t bs s : hex_denotes t bs -> ds_load_hex t s = Ret tt (mkDS bs 0).
Proof.
  intros H. unfold ds_load_hex. rewrite (hex_denotes_len _ _ H).
  replace (N.odd (2 * lenN bs)) with false.
  - rewrite (load_hex_loop_ok _ _ H); [reflexivity|].
    rewrite N.mul_comm, N.div_mul by lia.
    pose proof (vec_resize_len (lenN bs) (ds_buf s)). unfold lenN in *. lia.
  - rewrite N.odd_mul. reflexivity.
Qed.

Lemma hex_of_byte_denotes b :
  exists c1 c2 d1 d2, hex_of_byte b = [c1; c2] /\ digit_denotes c1 d1 /\ digit_denotes c2 d2
                      /\ byte_val b = 16 * d1 + d2.
Proof.
  pose proof (byte_val_lt b).
  exists (hex_char (byte_val b / 16)), (hex_char (byte_val b mod 16)),
         (byte_val b / 16), (byte_val b mod 16).
  repeat split.
  - apply hex_char_denotes. apply N.div_lt_upper_bound; lia.
  - apply hex_char_denotes. apply N.mod_lt; lia.
  - apply N.div_mod. lia.
Qed.

Lemma flat_hex_denotes bs : hex_denotes (flat_map hex_of_byte bs) bs.
Proof.
  induction bs as [|b bs IH]; [constructor|].
  destruct (hex_of_byte_denotes b) as (c1 & c2 & d1 & d2 & E & D1 & D2 & B).
  cbn [flat_map]. rewrite E. simpl. econstructor; eauto.
Qed.

Lemma hex_char_lower d : d < 16 -> lower_case (hex_char d).
Proof.
  intros H. unfold lower_case, hex_char.
  destruct (N.ltb_spec d 10); rewrite byte_val_of, N.mod_small by lia; lia.
Qed.

Lemma flat_hex_lower bs : Forall lower_case (flat_map hex_of_byte bs).
Proof.
  induction bs as [|b bs IH]; [constructor|].
  cbn [flat_map]. pose proof (byte_val_lt b).
  simpl. constructor; [|constructor; [|exact IH]]; apply hex_char_lower.
  - apply N.div_lt_upper_bound; lia.
  - apply N.mod_lt; lia.
Qed.

(** A pair whose first character is not a digit, blank or sign stops the scan. *)
Lemma scan_02x_reject c t :
  ~ is_hex_digit c -> is_space c = false -> byte_val c <> 45 -> byte_val c <> 43 ->
  scan_02x (c :: t) = None.
Proof.
  intros ND S M P. unfold scan_02x. simpl cstr.
  destruct (byte_val c =? 0); [reflexivity|]. simpl skip_space. rewrite S.
  apply N.eqb_neq in M, P. rewrite M, P. simpl.
  destruct (hex_val c) eqn:E; [|reflexivity].
  exfalso. apply ND. eexists. apply hex_val_spec. exact E.
Qed.

Lemma load_hex_loop_reject pre : forall c t done todo,
  Nat.even (length pre) = true ->
  ~ is_hex_digit c -> is_space c = false -> byte_val c <> 45 -> byte_val c <> 43 ->
  (length pre < 2 * length todo)%nat ->
  exists s', load_hex_loop (pre ++ c :: t) done todo = Exn ExnInvalidArg s'.
Proof.
  assert (G : forall n pre, (length pre <= n)%nat -> forall c t done todo,
    Nat.even (length pre) = true ->
    ~ is_hex_digit c -> is_space c = false -> byte_val c <> 45 -> byte_val c <> 43 ->
    (length pre < 2 * length todo)%nat ->
    exists s', load_hex_loop (pre ++ c :: t) done todo = Exn ExnInvalidArg s').
  { clear pre. induction n as [|n IH]; intros pre Ln c t done todo Ev ND S M P L.
    - destruct pre; [|simpl in Ln; lia]. destruct todo as [|x todo]; [simpl in L; lia|].
      cbn [app load_hex_loop]. rewrite scan_02x_reject by assumption. eauto.
    - destruct pre as [|p1 [|p2 pre]].
      + destruct todo as [|x todo]; [simpl in L; lia|].
        cbn [app load_hex_loop]. rewrite scan_02x_reject by assumption. eauto.
      + discriminate.
      + destruct todo as [|x todo]; [simpl in L; lia|].
        cbn [app load_hex_loop].
        destruct (scan_02x (p1 :: p2 :: pre ++ c :: t)); [|eauto].
        cbn [skipn]. apply IH; try assumption; simpl in *; try lia. }
  intros. eapply G; eauto.
Qed.
