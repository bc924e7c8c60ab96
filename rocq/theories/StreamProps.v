(** C01, C02, C03 (integers), C04, C05, C12: DataStream. *)
From Coq Require Import Arith NArith List Bool Lia.
From Coq.Init Require Import Byte.
From Verif Require Import Base StreamModel StreamSpec StreamProofs.
Import ListNotations.
Local Open Scope N_scope.

(** ** C01 *)

Theorem C01_stream_roundtrip : forall h items s,
  unread s [] -> Forall item_ok items -> lenN (ds_buf s) + items_len items < 2 ^ 62 ->
  exists s', read_items h (map shape_of items) (write_items h items s) = Ret items s'
             /\ ds_size s' = 0.
Proof. exact stream_roundtrip_lemma. Qed.
Print Assumptions C01_stream_roundtrip.

(** A stream that was cleared is as good as a new one. *)
Theorem C01_stream_cleared : forall h items s,
  Forall item_ok items -> items_len items < 2 ^ 62 ->
  ds_size (ds_clear s) = 0 /\
  exists s', read_items h (map shape_of items) (write_items h items (ds_clear s)) = Ret items s'
             /\ ds_size s' = 0.
Proof.
  intros h items s F L. assert (U : unread (ds_clear s) []) by (exists []; repeat split; reflexivity).
  split; [reflexivity|]. apply stream_roundtrip_lemma; [exact U|exact F|exact L].
Qed.
Print Assumptions C01_stream_cleared.

(** Bytes that were in front of, or come after, the items are not disturbed. *)
Theorem C01_stream_read_prefix : forall h items s rest,
  unread s (flat_map (enc_item h) items ++ rest) -> Forall item_ok items ->
  exists s', read_items h (map shape_of items) s = Ret items s' /\ unread s' rest.
Proof.
  intros h items s rest U F.
  destruct (read_items_ok h items s rest U F) as (s' & E & U' & _). eauto.
Qed.
Print Assumptions C01_stream_read_prefix.

Theorem C01_stream_write_appends : forall h items s u,
  unread s u -> lenN (ds_buf s) + items_len items < 2 ^ 62 ->
  unread (write_items h items s) (u ++ flat_map (enc_item h) items)
  /\ ds_size (write_items h items s) = ds_size s + items_len items.
Proof.
  intros h items s u U L. destruct (write_items_unread h items s u U L) as (A & B & C).
  split; [exact A|]. rewrite (unread_size _ _ A), (unread_size _ _ U), lenN_app, enc_items_len.
  reflexivity.
Qed.
Print Assumptions C01_stream_write_appends.

Example C01_nonvacuous :
  let items := [IInt 4 305419896; IBytes [x68; x69]; IInt 1 255; IInt 8 1; IBytes []] in
  let s := mkDS [x00; xff] 2 in
  unread s [] /\ Forall item_ok items /\ lenN (ds_buf s) + items_len items < 2 ^ 62
  /\ read_items BigE (map shape_of items) (write_items BigE items s)
     = Ret items (mkDS ([x00; xff; x12; x34; x56; x78; x68; x69; xff;
                         x00; x00; x00; x00; x00; x00; x00; x01]) 17).
Proof.
  cbv zeta. split; [exists [x00; xff]; repeat split; reflexivity|].
  split; [repeat constructor|]. split; [reflexivity|]. vm_compute. reflexivity.
Qed.

(** ** C02 *)

Theorem C02_get_int_checked : forall h w s u,
  unread s u -> N.of_nat w < 2 ^ 62 ->
  (N.of_nat w <= lenN u ->
     exists s', ds_get_int h w s = Ret (native_word h (takeN (N.of_nat w) u)) s'
                /\ unread s' (dropN (N.of_nat w) u))
  /\ (lenN u < N.of_nat w -> ds_get_int h w s = Exn ExnFailure s).
Proof. exact get_int_keeps_unread. Qed.
Print Assumptions C02_get_int_checked.

Theorem C02_get_data_checked : forall s u n,
  unread s u ->
  (n <= lenN u -> exists s', ds_get_data n s = Ret (takeN n u) s' /\ unread s' (dropN n u))
  /\ (lenN u < n < 2 ^ 63 -> exists s', ds_get_data n s = Exn ExnFailure s').
Proof.
  intros s u n U. split.
  - intros L. rewrite <- (takeN_dropN n u) in U.
    destruct (get_data_ok s _ _ U) as (s' & E & U' & _).
    replace (lenN (takeN n u)) with n in E by (rewrite lenN_takeN; lia).
    eauto.
  - intros [L1 L2]. eexists. eapply get_data_short; eauto.
Qed.
Print Assumptions C02_get_data_checked.

(** Any history of reads on a fresh stream, going on after failures, stays in
    bounds as long as the lengths asked for add up to less than 2^64. *)
Theorem C02_history_in_bounds_partial : forall h bs shs,
  lenN bs < 2 ^ 62 -> total_len shs < 2 ^ 64 ->
  ~ In RUndef (read_history h shs (ds_new bs)).
Proof.
  intros h bs shs B T. apply read_history_defined_aux; simpl; [|exact B].
  unfold size_max1. lia.
Qed.
Print Assumptions C02_history_in_bounds_partial.

(** Without that bound the claim is false: one get_data_inplace whose length
    wraps the offset, and one failed get_data_inplace followed by a one-byte
    integer read. *)
Theorem C02_history_in_bounds_refuted :
  (exists bs shs, lenN bs < 2 ^ 62 /\ total_len shs = 2 ^ 64
     /\ read_history LittleE shs (ds_new bs) = [RGot (IInt 1 7); RUndef])
  /\ (exists bs shs, lenN bs < 2 ^ 62 /\ total_len shs = 2 ^ 64
     /\ read_history LittleE shs (ds_new bs) = [RFail; RUndef]).
Proof.
  split.
  - exists [x07], [ShInt 1; ShBytes (2 ^ 64 - 1)]. vm_compute. repeat split; reflexivity.
  - exists [x07], [ShBytes (2 ^ 64 - 1); ShInt 1]. vm_compute. repeat split; reflexivity.
Qed.
Print Assumptions C02_history_in_bounds_refuted.

(** A failed get_data_inplace is not without effect: it leaves the offset past
    the end, so size() becomes huge, the remaining bytes cannot be read any
    more and converting the stream to bytes is undefined. *)
Theorem C02_failed_get_data_no_effect_refuted :
  exists s n s', ds_get_data n s = Exn ExnFailure s'
    /\ ds_size s = 2 /\ ds_size s' = 2 ^ 64 - 1
    /\ ds_get_int LittleE 1 s = Ret 7 (mkDS [x07; x08] 1)
    /\ ds_get_int LittleE 1 s' = Exn ExnFailure s' /\ ds_bytes s' = Undef.
Proof.
  exists (ds_new [x07; x08]), 3, (mkDS [x07; x08] 3). vm_compute. repeat split; reflexivity.
Qed.
Print Assumptions C02_failed_get_data_no_effect_refuted.

(** ** C03, plain integers *)

Theorem C03_int_wire_order : forall h w x s u,
  unread s u -> lenN (ds_buf s) + N.of_nat w < 2 ^ 62 ->
  unread (ds_put_int h w (htole h w x) s) (u ++ le_bytes w x).
Proof.
  intros h w x s u U L. rewrite put_int_data, htole_bytes.
  apply unread_put_data; [exact U|]. unfold lenN at 2. rewrite le_bytes_length. exact L.
Qed.
Print Assumptions C03_int_wire_order.

Theorem C03_int_cross_host : forall h1 h2 w x,
  x < word_mod w -> N.of_nat w < 2 ^ 62 ->
  exists y s', ds_get_int h2 w (ds_put_int h1 w (htole h1 w x) (ds_new [])) = Ret y s'
               /\ letoh h2 w y = x.
Proof.
  intros h1 h2 w x Hx Hw.
  assert (U : unread (ds_put_int h1 w (htole h1 w x) (ds_new [])) (le_bytes w x ++ [])).
  { rewrite app_nil_r. change (le_bytes w x) with ([] ++ le_bytes w x).
    apply C03_int_wire_order; [apply unread_new; reflexivity|]. exact Hw. }
  destruct (get_int_ok h2 w _ _ _ U (le_bytes_length w x)) as (s' & E & _).
  exists (native_word h2 (le_bytes w x)), s'. split; [exact E|].
  rewrite <- (le_bytes_length w x) at 1. rewrite letoh_native, le_word_small; auto.
Qed.
Print Assumptions C03_int_cross_host.

Example C03_int_nonvacuous :
  ds_put_int BigE 4 (htole BigE 4 1) (ds_new []) = ds_put_int LittleE 4 (htole LittleE 4 1) (ds_new [])
  /\ native_bytes BigE 4 1 <> native_bytes LittleE 4 1.
Proof. split; [reflexivity|discriminate]. Qed.

(** ** C04 *)

Theorem C04_get_hex : forall s u, unread s u ->
  exists t, ds_get_hex s = Ret t s /\ hex_denotes t u /\ Forall lower_case t
            /\ lenN t = 2 * lenN u.
Proof.
  intros s u U. apply unread_off in U. destruct U as (A & B & C & D).
  exists (flat_map hex_of_byte u). unfold ds_get_hex.
  destruct (N.leb_spec (ds_off s) (lenN (ds_buf s))); [|lia]. rewrite B.
  split; [reflexivity|]. split; [apply flat_hex_denotes|].
  split; [apply flat_hex_lower|]. apply hex_denotes_len, flat_hex_denotes.
Qed.
Print Assumptions C04_get_hex.

Theorem C04_load_hex : forall t bs s, hex_denotes t bs ->
  ds_load_hex t s = Ret tt (ds_new bs) /\ from_hex t = Ret bs (ds_new bs).
Proof.
  intros t bs s H. split; [apply load_hex_ok; exact H|].
  unfold from_hex. rewrite (load_hex_ok _ _ _ H). reflexivity.
Qed.
Print Assumptions C04_load_hex.

Theorem C04_hex_roundtrip : forall s u s0, unread s u ->
  exists t, ds_get_hex s = Ret t s /\ ds_load_hex t s0 = Ret tt (ds_new u).
Proof.
  intros s u s0 U. destruct (C04_get_hex s u U) as (t & E & D & _).
  exists t. split; [exact E|]. apply C04_load_hex. exact D.
Qed.
Print Assumptions C04_hex_roundtrip.

Theorem C04_load_hex_odd : forall t s, N.odd (lenN t) = true ->
  ds_load_hex t s = Exn ExnInvalidArg s.
Proof. intros t s H. unfold ds_load_hex. rewrite H. reflexivity. Qed.
Print Assumptions C04_load_hex_odd.

(** Rejection is only partial: a non-hex character in an even position is
    rejected unless it is a blank or a sign. *)
Theorem C04_load_hex_rejects_partial : forall pre c t s,
  N.even (lenN pre) = true -> ~ is_hex_digit c ->
  is_space c = false -> byte_val c <> 45 -> byte_val c <> 43 ->
  exists s', ds_load_hex (pre ++ c :: t) s = Exn ExnInvalidArg s'.
Proof.
  intros pre c t s E ND S M P. unfold ds_load_hex.
  destruct (N.odd (lenN (pre ++ c :: t))) eqn:O; [eauto|].
  apply load_hex_loop_reject; auto.
  - unfold lenN in E. rewrite N.even_spec in E. apply Nat.even_spec.
    destruct E as (k & Hk). exists (N.to_nat k). lia.
  - pose proof (vec_resize_len (lenN (pre ++ c :: t) / 2) (ds_buf s)) as V.
    assert (Ev : N.even (lenN (pre ++ c :: t)) = true)
      by (rewrite <- N.negb_odd, O; reflexivity).
    apply N.even_spec in Ev. destruct Ev as (k & Hk).
    rewrite Hk, N.mul_comm, N.div_mul in V by lia.
    rewrite Hk, N.mul_comm, N.div_mul by lia.
    rewrite lenN_app, lenN_cons in Hk. unfold lenN in *. lia.
Qed.
Print Assumptions C04_load_hex_rejects_partial.

(** "1g", " 1" (padded), "-1" and "\n\nab" are accepted. *)
Theorem C04_load_hex_rejects_refuted :
  (exists c, ~ is_hex_digit c /\ from_hex [x31; c] = Ret [x01] (ds_new [x01]))
  /\ from_hex [x2d; x31] = Ret [xff] (ds_new [xff])
  /\ from_hex [x0a; x0a; x61; x62] = Ret [xab; xab] (ds_new [xab; xab]).
Proof.
  split; [|split; vm_compute; reflexivity].
  exists x67. split; [|vm_compute; reflexivity].
  intros (d & H). unfold digit_denotes in H. change (byte_val x67) with 103 in H. lia.
Qed.
Print Assumptions C04_load_hex_rejects_refuted.

Example C04_nonvacuous :
  unread (mkDS [x00; xde; xad] 1) [xde; xad]
  /\ ds_get_hex (mkDS [x00; xde; xad] 1) = Ret [x64; x65; x61; x64] (mkDS [x00; xde; xad] 1)
  /\ from_hex [x44; x45; x61; x64] = Ret [xde; xad] (ds_new [xde; xad]).
Proof. split; [exists [x00]; repeat split; reflexivity|]. split; reflexivity. Qed.

(** ** C05 *)

Theorem C05_conversions : forall sha s u, unread s u ->
  ds_bytes s = Ret u s /\ ds_get_hash sha s = Ret (sha u) s
  /\ exists t, ds_get_hex s = Ret t s /\ hex_denotes t u.
Proof.
  intros sha s u U. pose proof U as U0. apply unread_off in U. destruct U as (A & B & C & D).
  unfold ds_bytes, ds_get_hash.
  destruct (N.leb_spec (ds_off s) (lenN (ds_buf s))); [|lia]. rewrite B.
  split; [reflexivity|]. split; [reflexivity|].
  destruct (C04_get_hex s u U0) as (t & E & H1 & _). eauto.
Qed.
Print Assumptions C05_conversions.

(** The rvalue conversion agrees only while nothing has been consumed ... *)
Theorem C05_rvalue_conversion_partial : forall s u, unread s u -> ds_off s = 0 ->
  ds_bytes_rvalue s = Ret u s.
Proof.
  intros s u U O. apply unread_off in U. destruct U as (A & B & C & D).
  rewrite O in B. unfold ds_bytes_rvalue. rewrite dropN_0 in B. rewrite B. reflexivity.
Qed.
Print Assumptions C05_rvalue_conversion_partial.

(** ... and otherwise returns consumed bytes again: never the unread bytes. *)
Theorem C05_rvalue_conversion_refuted : forall s u, unread s u -> ds_off s <> 0 ->
  ds_bytes_rvalue s <> Ret u s.
Proof.
  intros s u U O E. apply unread_off in U. destruct U as (A & B & C & D).
  unfold ds_bytes_rvalue in E. inversion E as [E1]. rewrite E1 in A, C. lia.
Qed.
Print Assumptions C05_rvalue_conversion_refuted.

(** The C functions: the copying one gives the unread bytes, the moving one gives them just
    when nothing has been consumed. *)
Theorem C05_c_functions_partial : forall s u, unread s u ->
  c_copied_from s = Ret u s /\ (c_moved_from s = Ret u s <-> ds_off s = 0).
Proof.
  intros s u U. split; [apply (C05_conversions (fun b => b) s u U)|]. split.
  - intros E. destruct (N.eq_dec (ds_off s) 0) as [Z|Z]; [exact Z|]. destruct (C05_rvalue_conversion_refuted s u U Z E).
  - apply C05_rvalue_conversion_partial. exact U.
Qed.
Print Assumptions C05_c_functions_partial.

Example C05_nonvacuous :
  exists s, ds_get_int LittleE 2 (ds_new [x01; x02; x03]) = Ret 513 s /\ unread s [x03]
  /\ ds_bytes s = Ret [x03] s /\ ds_bytes_rvalue s = Ret [x01; x02; x03] s.
Proof.
  exists (mkDS [x01; x02; x03] 2). split; [reflexivity|].
  split; [exists [x01; x02]; repeat split; reflexivity|]. split; reflexivity.
Qed.

(** ** C12 *)

(** The flag is right when the read succeeds ... *)
Theorem C12_c_get_int_partial : forall h w s u,
  unread s u -> N.of_nat w < 2 ^ 62 -> N.of_nat w <= lenN u ->
  exists s', c_get_int h w s = Ret (native_word h (takeN (N.of_nat w) u), true) s'
             /\ unread s' (dropN (N.of_nat w) u).
Proof.
  intros h w s u U W L. destruct (C02_get_int_checked h w s u U W) as [A _].
  destruct (A L) as (s' & E & U'). exists s'. unfold c_get_int. rewrite E. auto.
Qed.
Print Assumptions C12_c_get_int_partial.

(** ... and wrong on every short read: the caller sees success and value 0. *)
Theorem C12_c_get_int_refuted : forall h w s u,
  unread s u -> N.of_nat w < 2 ^ 62 -> lenN u < N.of_nat w ->
  c_get_int h w s = Ret (0, true) s.
Proof.
  intros h w s u U W L. destruct (C02_get_int_checked h w s u U W) as [_ A].
  unfold c_get_int. rewrite (A L). reflexivity.
Qed.
Print Assumptions C12_c_get_int_refuted.

Theorem C12_c_get_data : forall s u n, unread s u -> n < 2 ^ 63 ->
  exists s', c_get_data n s = Ret (if n <=? lenN u then Some (takeN n u) else None) s'.
Proof.
  intros s u n U L. destruct (C02_get_data_checked s u n U) as [A B].
  unfold c_get_data. destruct (N.leb_spec n (lenN u)) as [H|H].
  - destruct (A H) as (s' & E & _). rewrite E. eauto.
  - destruct (B (conj H L)) as (s' & E). rewrite E. eauto.
Qed.
Print Assumptions C12_c_get_data.

Example C12_nonvacuous : c_get_int LittleE 4 (ds_new [x01; x02]) = Ret (0, true) (ds_new [x01; x02]).
Proof. reflexivity. Qed.
