(** C15 - C19: messages. *)
From Coq Require Import Arith NArith List Bool Lia ZifyBool ZifyN ZifyNat.
From Coq.Init Require Import Byte.
From Verif Require Import Base StreamModel StreamSpec StreamProofs BlobModel BlobProofs MsgModel.
Import ListNotations.
Local Open Scope N_scope.

(** ** Specification *)

(** A message object holding a payload, as a sender builds it. *)
Definition msg_built (c : msg_cfg) (magic opcode : N) (p : bytes) (m : msg) : Prop :=
  m_magic m = magic /\ m_opcode m = opcode /\ m_payload m = p /\ m_no_payload m = false
  /\ m_length m = lenN p mod 2 ^ 32
  /\ (mc_ck c = true -> m_checksum m = native_word (mc_host c) (firstn 4 (mc_sha1 c p))).

Definition digest_ok (c : msg_cfg) : Prop := forall p, (4 <= length (mc_sha1 c p))%nat.

Lemma msg_make_built : forall c magic opcode l k p,
  exists m, msg_make c magic opcode l k (ds_new p) = Ret tt m /\ msg_built c magic opcode p m.
Proof.
  intros. unfold msg_make, ds_bytes. cbn [ds_off ds_new ds_buf].
  unfold msg_set_checksum. rewrite dropN_0.
  replace (0 <=? lenN p) with true by (symmetry; apply N.leb_le; lia).
  destruct (mc_ck c) eqn:E.
  - eexists. split; [reflexivity|]. repeat split; auto.
  - eexists. split; [reflexivity|]. repeat split; auto. congruence.
Qed.

Lemma msg_bytes c m : msg_serialize c m =
  le_bytes 4 (m_magic m) ++ native_bytes (mc_host c) (mc_ow c) (m_opcode m)
  ++ le_bytes 4 (m_length m) ++ (if mc_ck c then le_bytes 4 (m_checksum m) else []) ++ m_payload m.
Proof.
  unfold msg_serialize, ds_put_int, ds_put_data.
  destruct (mc_ck c); cbn [ds_buf ds_new app]; rewrite !htole_bytes, <- ?app_assoc; reflexivity.
Qed.

Lemma letoh_le h w bs : length bs = w -> letoh h w (native_word h bs) = le_word bs.
Proof. intros <-. apply letoh_native. Qed.

(** Parsing on any host a header given as its four wire fields. *)
Lemma parse_header_ok c k fm fo fl fk s rest :
  length fm = 4%nat -> length fo = mc_ow c -> length fl = 4%nat ->
  length fk = (if mc_ck c then 4 else 0)%nat ->
  unread s (fm ++ fo ++ fl ++ fk ++ rest) ->
  exists s', msg_parse_header c k s
    = Ret (mkMsg (le_word fm) (native_word (mc_host c) fo) (le_word fl)
             (if mc_ck c then le_word fk else k) [] true) s' /\ unread s' rest.
Proof.
  intros Lm Lo Ll Lk U. unfold msg_parse_header. cbv zeta. set (h := mc_host c).
  destruct (get_int_ok h 4 s fm _ U Lm) as (s1 & E1 & U1 & _). rewrite E1. cbn [obind].
  destruct (get_int_ok h (mc_ow c) s1 fo _ U1 Lo) as (s2 & E2 & U2 & _). rewrite E2. cbn [obind].
  destruct (get_int_ok h 4 s2 fl _ U2 Ll) as (s3 & E3 & U3 & _). rewrite E3. cbn [obind].
  destruct (mc_ck c).
  - destruct (get_int_ok h 4 s3 fk _ U3 Lk) as (s4 & E4 & U4 & _). rewrite E4. cbn [obind].
    exists s4. split; [|exact U4]. rewrite !letoh_le by assumption. reflexivity.
  - destruct fk; [|discriminate]. exists s3. split; [|exact U3].
    rewrite !letoh_le by assumption. reflexivity.
Qed.

Lemma header_take c m : 
  takeN (header_size c) (msg_serialize c m)
  = le_bytes 4 (m_magic m) ++ native_bytes (mc_host c) (mc_ow c) (m_opcode m)
    ++ le_bytes 4 (m_length m) ++ (if mc_ck c then le_bytes 4 (m_checksum m) else [])
  /\ dropN (header_size c) (msg_serialize c m) = m_payload m.
Proof.
  rewrite msg_bytes.
  replace (le_bytes 4 (m_magic m) ++ native_bytes (mc_host c) (mc_ow c) (m_opcode m) ++
     le_bytes 4 (m_length m) ++ (if mc_ck c then le_bytes 4 (m_checksum m) else []) ++ m_payload m)
   with ((le_bytes 4 (m_magic m) ++ native_bytes (mc_host c) (mc_ow c) (m_opcode m) ++
     le_bytes 4 (m_length m) ++ (if mc_ck c then le_bytes 4 (m_checksum m) else [])) ++ m_payload m)
    by (rewrite <- !app_assoc; reflexivity).
  set (hd := le_bytes 4 (m_magic m) ++ _).
  assert (L : header_size c = lenN hd).
  { unfold hd, lenN, header_size. rewrite !app_length, !le_bytes_length, native_bytes_length.
    destruct (mc_ck c); rewrite ?le_bytes_length; simpl length; lia. }
  rewrite L. split; [apply takeN_app_lenN|apply dropN_app_lenN].
Qed.

Lemma header_len_small c : N.of_nat (mc_ow c) < 2 ^ 32 -> header_size c < 2 ^ 62.
Proof. unfold header_size. destruct (mc_ck c); lia. Qed.

(** ** C15 *)

Theorem C15_msg_roundtrip : forall c magic opcode p m k,
  msg_built c magic opcode p m ->
  magic < 2 ^ 32 -> opcode < word_mod (mc_ow c) -> lenN p < 2 ^ 32 -> N.of_nat (mc_ow c) < 2 ^ 32 ->
  let wire := msg_serialize c m in
  exists m' s', msg_parse_header c k (ds_new (takeN (header_size c) wire)) = Ret m' s'
    /\ ds_size s' = 0
    /\ m_magic m' = magic /\ m_opcode m' = opcode /\ m_length m' = lenN p
    /\ m_no_payload m' = true
    /\ dropN (header_size c) wire = p.
Proof.
  intros c magic opcode p m k (B1 & B2 & B3 & B4 & B5 & B6) Hm Ho Hp Hw wire. unfold wire.
  destruct (header_take c m) as (Ht & Hd). rewrite Ht, Hd.
  assert (Lm : m_length m = lenN p) by (rewrite B5; apply N.mod_small; exact Hp).
  destruct (parse_header_ok c k (le_bytes 4 (m_magic m)) (native_bytes (mc_host c) (mc_ow c) (m_opcode m))
    (le_bytes 4 (m_length m)) (if mc_ck c then le_bytes 4 (m_checksum m) else [])
    (ds_new (takeN (header_size c) (msg_serialize c m))) []) as (s' & E & U).
  - apply le_bytes_length.
  - apply native_bytes_length.
  - apply le_bytes_length.
  - destruct (mc_ck c); [apply le_bytes_length|reflexivity].
  - rewrite app_nil_r, Ht. apply unread_new.
    rewrite !lenN_app. unfold lenN. rewrite !le_bytes_length, native_bytes_length.
    destruct (mc_ck c); rewrite ?le_bytes_length; simpl length; lia.
  - rewrite Ht in E. eexists. exists s'. split; [exact E|]. split; [apply (unread_size _ _ U)|].
    cbn [m_magic m_opcode m_length m_no_payload].
    rewrite B1, B2, Lm. rewrite !le_word_small by assumption. rewrite native_word_bytes.
    rewrite N.mod_small by assumption. repeat split; auto.
Qed.
Print Assumptions C15_msg_roundtrip.

Theorem C15_sender_builds : forall c magic opcode l k p,
  exists m, msg_make c magic opcode l k (ds_new p) = Ret tt m /\ msg_built c magic opcode p m.
Proof. exact msg_make_built. Qed.
Print Assumptions C15_sender_builds.

(** Changing the magic of a message afterwards gives the message that would have been built
    with it: nothing else of the message depends on the magic. *)
Theorem C15_magic_changed : forall c magic magic' opcode p m,
  msg_built c magic opcode p m -> msg_built c magic' opcode p (msg_set_magic magic' m).
Proof. intros c magic magic' opcode p m (B1 & B2 & B3 & B4 & B5 & B6). repeat split; assumption. Qed.
Print Assumptions C15_magic_changed.

Theorem C15_short_header_rejected : forall c k s u,
  N.of_nat (mc_ow c) < 2 ^ 32 -> unread s u -> lenN u < header_size c ->
  exists s', msg_parse_header c k s = Exn ExnFailure s'.
Proof.
  intros c k s u Hw U L. unfold msg_parse_header. cbv zeta. set (h := mc_host c).
  unfold header_size in L.
  destruct (get_int_keeps_unread h 4 s u U) as [A B]; [reflexivity|].
  destruct (N.leb_spec 4 (lenN u)) as [C|C]; [|rewrite (B C); simpl; eauto].
  destruct (A C) as (s1 & E1 & U1). rewrite E1. cbn [obind].
  destruct (get_int_keeps_unread h (mc_ow c) s1 _ U1) as [A1 B1]; [lia|].
  destruct (N.leb_spec (N.of_nat (mc_ow c)) (lenN (dropN (N.of_nat 4) u))) as [C1|C1]; [|rewrite (B1 C1); simpl; eauto].
  destruct (A1 C1) as (s2 & E2 & U2). rewrite E2. cbn [obind].
  destruct (get_int_keeps_unread h 4 s2 _ U2) as [A2 B2]; [reflexivity|].
  destruct (N.leb_spec 4 (lenN (dropN (N.of_nat (mc_ow c)) (dropN (N.of_nat 4) u)))) as [C2|C2]; [|rewrite (B2 C2); simpl; eauto].
  destruct (A2 C2) as (s3 & E3 & U3). rewrite E3. cbn [obind].
  rewrite !lenN_dropN in C2.
  destruct (mc_ck c); [|lia].
  rewrite (get_int_short h 4 s3 _ U3); [simpl; eauto| |reflexivity].
  rewrite !lenN_dropN. lia.
Qed.
Print Assumptions C15_short_header_rejected.

Example C15_nonvacuous :
  let c := mkMsgCfg BigE 2 true (fun p => [xaa; xbb; xcc; xdd; xee]) in
  exists m, msg_make c 42 4660 0 0 (ds_new [x01; x02; x03]) = Ret tt m
  /\ msg_serialize c m = [x2a; x00; x00; x00; x12; x34; x03; x00; x00; x00;
                          xdd; xcc; xbb; xaa; x01; x02; x03].
Proof. exists (mkMsg 42 4660 3 2864434397 [x01; x02; x03] false). split; vm_compute; reflexivity. Qed.

(** ** C16 *)

(** What a receiver does with a header and the bytes that follow it. *)
Definition receive (c : msg_cfg) (k : N) (hdr payload : bytes) : outcome msg bool :=
  match msg_parse_header c k (ds_new hdr) with
  | Ret m _ => msg_verify c (msg_set_payload payload m)
  | Exn e _ => Exn e (msg_empty 0 0 0)
  | Undef => Undef
  end.

Theorem C16_verify_iff : forall c magic opcode p m k p',
  digest_ok c -> mc_ck c = true -> N.of_nat (mc_ow c) < 2 ^ 32 ->
  msg_built c magic opcode p m ->
  exists r m', receive c k (takeN (header_size c) (msg_serialize c m)) p' = Ret r m'
    /\ (r = true <-> firstn 4 (mc_sha1 c p') = firstn 4 (mc_sha1 c p))
    /\ m_payload m' = p' /\ m_no_payload m' = false.
Proof.
  intros c magic opcode p m k p' D Ck Hw (B1 & B2 & B3 & B4 & B5 & B6).
  unfold receive. destruct (header_take c m) as (Ht & _). rewrite Ht, Ck.
  destruct (parse_header_ok c k (le_bytes 4 (m_magic m)) (native_bytes (mc_host c) (mc_ow c) (m_opcode m))
    (le_bytes 4 (m_length m)) (le_bytes 4 (m_checksum m))
    (ds_new (le_bytes 4 (m_magic m) ++ native_bytes (mc_host c) (mc_ow c) (m_opcode m)
             ++ le_bytes 4 (m_length m) ++ le_bytes 4 (m_checksum m))) []) as (s' & E & U);
    try rewrite Ck; try apply le_bytes_length; try apply native_bytes_length.
  { rewrite app_nil_r. apply unread_new.
    rewrite !lenN_app. unfold lenN. rewrite !le_bytes_length, native_bytes_length. lia. }
  rewrite E, Ck. unfold msg_verify, msg_get_checksum, msg_set_payload. cbn [m_no_payload m_payload obind m_checksum].
  eexists. eexists. split; [reflexivity|]. split; [|split; reflexivity].
  rewrite (B6 Ck).
  assert (L4 : forall q, length (firstn 4 (mc_sha1 c q)) = 4%nat).
  { intros q. rewrite firstn_length. specialize (D q). lia. }
  assert (V : le_word (le_bytes 4 (native_word (mc_host c) (firstn 4 (mc_sha1 c p))))
              = native_word (mc_host c) (firstn 4 (mc_sha1 c p))).
  { apply le_word_small. pose proof (native_word_lt (mc_host c) (firstn 4 (mc_sha1 c p))) as H.
    rewrite L4 in H. exact H. }
  rewrite V, N.eqb_eq. split; [|congruence].
  intros Q. symmetry in Q.
  rewrite <- (native_bytes_word (mc_host c) (firstn 4 (mc_sha1 c p'))),
          <- (native_bytes_word (mc_host c) (firstn 4 (mc_sha1 c p))), !L4, Q. reflexivity.
Qed.
Print Assumptions C16_verify_iff.

(** For a header of arbitrary wire bytes: it verifies iff its checksum field
    is the one a sender of this byte order writes for the payload received. *)
Theorem C16_verify_field : forall c fm fo fl fk k p',
  digest_ok c -> mc_ck c = true -> N.of_nat (mc_ow c) < 2 ^ 32 ->
  length fm = 4%nat -> length fo = mc_ow c -> length fl = 4%nat -> length fk = 4%nat ->
  exists r m', receive c k (fm ++ fo ++ fl ++ fk) p' = Ret r m'
    /\ (r = true <-> fk = match mc_host c with
                         | LittleE => firstn 4 (mc_sha1 c p')
                         | BigE => rev (firstn 4 (mc_sha1 c p'))
                         end).
Proof.
  intros c fm fo fl fk k p' D Ck Hw Lm Lo Ll Lk. unfold receive.
  destruct (parse_header_ok c k fm fo fl fk (ds_new (fm ++ fo ++ fl ++ fk)) []) as (s' & E & U); auto.
  { rewrite Ck. exact Lk. }
  { rewrite app_nil_r. apply unread_new. rewrite !lenN_app. unfold lenN. lia. }
  rewrite E, Ck. unfold msg_verify, msg_get_checksum, msg_set_payload. cbn [m_no_payload m_payload obind m_checksum].
  eexists. eexists. split; [reflexivity|].
  assert (L4 : length (firstn 4 (mc_sha1 c p')) = 4%nat).
  { rewrite firstn_length. specialize (D p'). lia. }
  rewrite N.eqb_eq. unfold native_word. destruct (mc_host c); (split; [|congruence]);
    intros Q; apply le_word_inj in Q; auto; rewrite ?rev_length; congruence.
Qed.
Print Assumptions C16_verify_field.

Example C16_nonvacuous :
  let c := mkMsgCfg LittleE 1 true (fun p => firstn 4 (p ++ [x00; x00; x00; x00])) in
  digest_ok c
  /\ (exists m m1 m2, msg_make c 0 1 0 0 (ds_new [x01; x02; x03]) = Ret tt m
      /\ receive c 0 (takeN (header_size c) (msg_serialize c m)) [x01; x02; x03] = Ret true m1
      /\ receive c 0 (takeN (header_size c) (msg_serialize c m)) [x01; x02; x07] = Ret false m2).
Proof.
  cbv zeta. split.
  - intros p. cbn [mc_sha1]. rewrite firstn_length, app_length. simpl length. lia.
  - do 3 eexists. split; [vm_compute; reflexivity|]. split; vm_compute; reflexivity.
Qed.

(** ** C17 *)

(** Operations on a message object, and the ideal one-shot slot. *)
Inductive pay_op := PSet (p : bytes) | PGet.
Inductive pay_res := RNone | RSome (p : bytes) | RThrow.
Definition slot_step (o : pay_op) (v : option bytes) : pay_res * option bytes :=
  match o with
  | PSet p => (RNone, Some p)
  | PGet => match v with Some p => (RSome p, None) | None => (RThrow, None) end
  end.
Fixpoint slot_run (ops : list pay_op) (v : option bytes) : list pay_res :=
  match ops with [] => [] | o :: r => let '(x, v') := slot_step o v in x :: slot_run r v' end.

(** The same operations on the model; get_payload's stream is identified by
    its unread bytes. *)
Definition pay_step (o : pay_op) (m : msg) : option (pay_res * msg) :=
  match o with
  | PSet p => Some (RNone, msg_set_payload p m)
  | PGet => match msg_get_payload m with
            | Ret s m' => match ds_bytes s with Ret b _ => Some (RSome b, m') | _ => None end
            | Exn _ m' => Some (RThrow, m')
            | Undef => None
            end
  end.
Fixpoint pay_run (ops : list pay_op) (m : msg) : option (list pay_res) :=
  match ops with
  | [] => Some []
  | o :: r => match pay_step o m with
              | Some (x, m') => option_map (cons x) (pay_run r m')
              | None => None
              end
  end.

Theorem C17_payload_one_shot : forall ops m,
  pay_run ops m = Some (slot_run ops (if m_no_payload m then None else Some (m_payload m))).
Proof.
  induction ops as [|o ops IH]; intros m; [reflexivity|].
  cbn [pay_run slot_run]. destruct o as [p|]; cbn [pay_step slot_step].
  - rewrite IH. cbn [m_no_payload m_payload msg_set_payload]. reflexivity.
  - unfold msg_get_payload. destruct (m_no_payload m) eqn:E.
    + rewrite IH, E. reflexivity.
    + unfold ds_bytes. cbn [ds_off ds_new ds_buf].
      replace (0 <=? lenN (m_payload m)) with true by (symmetry; apply N.leb_le; lia).
      rewrite dropN_0, IH. reflexivity.
Qed.
Print Assumptions C17_payload_one_shot.

Example C17_nonvacuous :
  pay_run [PGet; PSet [x01]; PGet; PGet; PSet [x02]; PSet [x03]; PGet] (msg_empty 0 0 0)
  = Some [RThrow; RNone; RSome [x01]; RThrow; RNone; RNone; RSome [x03]].
Proof. reflexivity. Qed.

(** ** C18 *)

Definition hash_ok (b : blob) : Prop := blob_ok 8 4 b.

Lemma fold_hashes h hs : forall s, Forall hash_ok hs ->
  fold_left (fun s b => blob_serialize h 8 b s) hs s
  = ds_put_data (flat_map (fun b => words_bytes 8 (bl_data b)) hs) s.
Proof.
  induction hs as [|b hs IH]; intros s F; simpl.
  - destruct s; unfold ds_put_data; simpl. rewrite app_nil_r. reflexivity.
  - inversion F; subst. rewrite IH by assumption. rewrite (blob_serialize_eq h 8 4 b s H1).
    unfold ds_put_data. cbn [ds_buf ds_off]. rewrite <- app_assoc. reflexivity.
Qed.

Definition hashes_bytes (hs : list blob) : bytes := flat_map (fun b => words_bytes 8 (bl_data b)) hs.

Lemma gen_hash_list_bytes h hs s : Forall hash_ok hs ->
  gen_hash_list h hs s = ds_put_data (le_bytes 4 (lenN hs) ++ hashes_bytes hs) s.
Proof.
  intros F. unfold gen_hash_list. rewrite fold_hashes by exact F.
  unfold ds_put_data, ds_put_int. cbn [ds_buf ds_off]. rewrite htole_bytes, <- app_assoc.
  unfold u32_max1. change (2 ^ 32) with (word_mod 4). rewrite le_bytes_mod. reflexivity.
Qed.

Lemma hashes_len hs : Forall hash_ok hs -> length (hashes_bytes hs) = (32 * length hs)%nat.
Proof.
  induction 1 as [|b hs (L & _) _ IH]; [reflexivity|].
  unfold hashes_bytes in *. cbn [flat_map]. rewrite app_length, words_bytes_length, L, IH. simpl. lia.
Qed.

Definition as_loaded (b : blob) : blob := mkBlob (bl_data b) true.

Lemma parse_hashes_ok h hs : Forall hash_ok hs -> forall acc s rest,
  unread s (hashes_bytes hs ++ rest) ->
  exists s', parse_hashes h (length hs) acc s = Ret (acc ++ map as_loaded hs) s' /\ unread s' rest.
Proof.
  induction 1 as [|b hs (L & W & _) F IH]; intros acc s rest U.
  - exists s. simpl. rewrite app_nil_r. auto.
  - cbn [length parse_hashes]. unfold hashes_bytes in U. cbn [flat_map] in U. rewrite <- app_assoc in U.
    unfold blob_unserialize.
    destruct (blob_unser_loop_ok h 8 (bl_data b)) with (done := @nil N) (todo := bl_data (blob_null 4))
      (ld := bl_loaded (blob_null 4)) (s := s) (rest := flat_map (fun b => words_bytes 8 (bl_data b)) hs ++ rest)
      as (s1 & E1 & U1); auto; try lia.
    rewrite E1. destruct (IH (acc ++ [mkBlob ([] ++ bl_data b) true]) s1 rest U1) as (s2 & E2 & U2).
    exists s2. split; [|exact U2]. rewrite E2, <- app_assoc. reflexivity.
Qed.

Theorem C18_hash_list_roundtrip : forall h1 h2 hs s rest,
  Forall hash_ok hs -> lenN hs < 2 ^ 32 -> unread s [] ->
  lenN (ds_buf s) + 4 + 32 * lenN hs + lenN rest < 2 ^ 62 ->
  exists hs' s', parse_hash_list h2 (ds_put_data rest (gen_hash_list h1 hs s)) = Ret hs' s'
    /\ unread s' rest /\ hs' = map as_loaded hs
    /\ Forall2 (fun a b => blob_eqb a b = true) hs' hs
    /\ lenN (ds_buf (gen_hash_list h1 hs s)) = lenN (ds_buf s) + 4 + 32 * lenN hs.
Proof.
  intros h1 h2 hs s rest F Hl U L. rewrite (gen_hash_list_bytes h1 hs s F).
  pose proof (hashes_len hs F) as HL.
  assert (U' : unread (ds_put_data rest (ds_put_data (le_bytes 4 (lenN hs) ++ hashes_bytes hs) s))
                 (le_bytes 4 (lenN hs) ++ hashes_bytes hs ++ rest)).
  { destruct U as (c & Hb & Ho & Hc). exists c. unfold ds_put_data. cbn [ds_buf ds_off].
    rewrite app_nil_r in Hb. rewrite Hb in *. split; [rewrite <- !app_assoc; reflexivity|].
    split; [exact Ho|]. rewrite !lenN_app. unfold lenN in *. rewrite le_bytes_length. lia. }
  unfold parse_hash_list.
  destruct (get_int_ok h2 4 _ (le_bytes 4 (lenN hs)) _ U' (le_bytes_length _ _)) as (s1 & E1 & U1 & _).
  rewrite E1. cbn [obind]. rewrite letoh_le by apply le_bytes_length.
  rewrite le_word_small by exact Hl. unfold lenN at 1. rewrite Nat2N.id.
  destruct (parse_hashes_ok h2 hs F [] s1 rest U1) as (s2 & E2 & U2).
  exists (map as_loaded hs), s2. split; [exact E2|]. split; [exact U2|]. split; [reflexivity|]. split.
  - clear. induction hs as [|b hs IH]; [constructor|]. simpl. constructor; [|exact IH].
    unfold blob_eqb, as_loaded. simpl. apply words_eqb_eq; reflexivity.
  - unfold ds_put_data. cbn [ds_buf]. rewrite !lenN_app. unfold lenN. rewrite le_bytes_length, HL. lia.
Qed.
Print Assumptions C18_hash_list_roundtrip.

Theorem C18_hash_list_truncated : forall h s u hs v,
  Forall hash_ok hs -> lenN hs < 2 ^ 32 ->
  u ++ v = le_bytes 4 (lenN hs) ++ hashes_bytes hs -> v <> [] -> unread s u ->
  exists s', parse_hash_list h s = Exn ExnFailure s'.
Proof.
  intros h s u hs v F Hl Ev Nv U. unfold parse_hash_list.
  destruct (get_int_keeps_unread h 4 s u U) as [A B]; [reflexivity|].
  destruct (N.leb_spec 4 (lenN u)) as [C|C]; [|rewrite (B C); simpl; eauto].
  destruct (A C) as (s1 & E1 & U1). rewrite E1. cbn [obind].
  assert (TK : takeN (N.of_nat 4) u = le_bytes 4 (lenN hs)).
  { rewrite <- (takeN_app (N.of_nat 4) u v C), Ev.
    replace (N.of_nat 4) with (lenN (le_bytes 4 (lenN hs))) by (unfold lenN; rewrite le_bytes_length; reflexivity).
    apply takeN_app_lenN. }
  rewrite TK, letoh_le by apply le_bytes_length. rewrite le_word_small by exact Hl.
  assert (Sh : lenN (dropN (N.of_nat 4) u) < N.of_nat (32 * length hs)).
  { apply (f_equal (@lenN byte)) in Ev. rewrite !lenN_app in Ev. rewrite lenN_dropN.
    unfold lenN in *. rewrite le_bytes_length, hashes_len in Ev by exact F.
    destruct v; [congruence|]. simpl length in Ev. lia. }
  unfold lenN at 1. rewrite Nat2N.id. revert U1 Sh. generalize (dropN (N.of_nat 4) u) as u1.
  generalize (@nil blob) as acc. generalize (length hs) as n. clear -s1. intros n.
  revert s1. induction n as [|n IH]; intros s1 acc u1 U1 Sh; [simpl in Sh; lia|].
  cbn [parse_hashes]. unfold blob_unserialize.
  destruct (N.ltb_spec (lenN u1) 32) as [C|C].
  - destruct (blob_unser_loop_short h 8) with (todo := bl_data (blob_null 4)) (done := @nil N)
      (ld := bl_loaded (blob_null 4)) (s := s1) (u := u1) as (b & s' & E); auto; try lia.
    rewrite E. eauto.
  - destruct (words_of_bytes 8 4) with (bs := takeN 32 u1) as (ws & L1 & F1 & W1); [lia| |].
    { pose proof (lenN_takeN 32 u1). unfold lenN in *. lia. }
    rewrite <- (takeN_dropN 32 u1), <- W1 in U1.
    destruct (blob_unser_loop_ok h 8 ws) with (done := @nil N) (todo := bl_data (blob_null 4))
      (ld := bl_loaded (blob_null 4)) (s := s1) (rest := dropN 32 u1) as (s2 & E2 & U2); auto; try lia.
    rewrite E2. apply (IH s2 _ _ U2). rewrite lenN_dropN. lia.
Qed.
Print Assumptions C18_hash_list_truncated.

Example C18_nonvacuous :
  let hs := [mkBlob [1; 2; 3; 4] true; blob_null 4; mkBlob [18446744073709551615; 0; 7; 9] true] in
  Forall hash_ok hs
  /\ exists s', parse_hash_list BigE (gen_hash_list LittleE hs (ds_new [])) = Ret (map as_loaded hs) s'.
Proof.
  cbv zeta. split.
  - repeat (apply Forall_cons; [split; [reflexivity|split; [repeat constructor|try discriminate; auto]]|]); constructor.
  - eexists. vm_compute. reflexivity.
Qed.

(** ** C19 *)

Definition other (h : endian) : endian := match h with LittleE => BigE | BigE => LittleE end.
Definition with_host (h : endian) (c : msg_cfg) : msg_cfg := mkMsgCfg h (mc_ow c) (mc_ck c) (mc_sha1 c).

(** A message written on any host and read on any other: magic, length and
    payload arrive; the opcode arrives for one-byte opcodes, and in general
    with its bytes reversed if the orders differ. *)
Theorem C19_cross_host_partial : forall c h2 magic opcode p m k,
  msg_built c magic opcode p m ->
  magic < 2 ^ 32 -> opcode < word_mod (mc_ow c) -> lenN p < 2 ^ 32 -> N.of_nat (mc_ow c) < 2 ^ 32 ->
  let wire := msg_serialize c m in
  exists m' s', msg_parse_header (with_host h2 c) k (ds_new (takeN (header_size c) wire)) = Ret m' s'
    /\ m_magic m' = magic /\ m_length m' = lenN p /\ dropN (header_size c) wire = p
    /\ (mc_ow c = 1%nat -> m_opcode m' = opcode)
    /\ (h2 = mc_host c -> m_opcode m' = opcode)
    /\ (h2 <> mc_host c -> m_opcode m' = le_word (rev (le_bytes (mc_ow c) opcode))).
Proof.
  intros c h2 magic opcode p m k (B1 & B2 & B3 & B4 & B5 & B6) Hm Ho Hp Hw wire. unfold wire.
  destruct (header_take c m) as (Ht & Hd). rewrite Ht, Hd.
  assert (Lm : m_length m = lenN p) by (rewrite B5; apply N.mod_small; exact Hp).
  destruct (parse_header_ok (with_host h2 c) k (le_bytes 4 (m_magic m)) (native_bytes (mc_host c) (mc_ow c) (m_opcode m))
    (le_bytes 4 (m_length m)) (if mc_ck c then le_bytes 4 (m_checksum m) else [])
    (ds_new (takeN (header_size c) (msg_serialize c m))) []) as (s' & E & U);
    cbn [with_host mc_ow mc_ck mc_host]; try apply le_bytes_length; try apply native_bytes_length.
  - destruct (mc_ck c); [apply le_bytes_length|reflexivity].
  - rewrite app_nil_r, Ht. apply unread_new.
    rewrite !lenN_app. unfold lenN. rewrite !le_bytes_length, native_bytes_length.
    destruct (mc_ck c); rewrite ?le_bytes_length; simpl length; lia.
  - rewrite Ht in E. eexists. exists s'. split; [exact E|].
    cbn [with_host mc_ow mc_ck mc_host m_magic m_opcode m_length m_no_payload].
    rewrite B1, B2, Lm. rewrite !le_word_small by assumption.
    repeat split; auto.
    + intros O1. rewrite O1 in *.
      assert (X : forall b : byte, native_word h2 [b] = byte_val b).
      { intros b. destruct h2; unfold native_word; cbn [rev app le_word]; lia. }
      replace (native_bytes (mc_host c) 1 opcode) with [byte_of opcode] by (destruct (mc_host c); reflexivity).
      rewrite X, byte_val_of. apply N.mod_small. exact Ho.
    + intros ->. rewrite native_word_bytes. apply N.mod_small. exact Ho.
    + intros NE. destruct h2, (mc_host c); try congruence; unfold native_word, native_bytes;
        rewrite ?rev_involutive; reflexivity.
Qed.
Print Assumptions C19_cross_host_partial.

(** Between hosts of different byte order an undamaged message verifies exactly
    when the four digest bytes form a palindrome. *)
Theorem C19_checksum_cross_host : forall c magic opcode p m k,
  digest_ok c -> mc_ck c = true -> N.of_nat (mc_ow c) < 2 ^ 32 ->
  msg_built c magic opcode p m ->
  exists r m', receive (with_host (other (mc_host c)) c) k (takeN (header_size c) (msg_serialize c m)) p = Ret r m'
    /\ (r = true <-> rev (firstn 4 (mc_sha1 c p)) = firstn 4 (mc_sha1 c p)).
Proof.
  intros c magic opcode p m k D Ck Hw (B1 & B2 & B3 & B4 & B5 & B6).
  destruct (header_take c m) as (Ht & _). rewrite Ht, Ck.
  destruct (C16_verify_field (with_host (other (mc_host c)) c) (le_bytes 4 (m_magic m))
    (native_bytes (mc_host c) (mc_ow c) (m_opcode m)) (le_bytes 4 (m_length m)) (le_bytes 4 (m_checksum m)) k p)
    as (r & m' & E & V); auto; try apply le_bytes_length; try apply native_bytes_length.
  exists r, m'. split; [exact E|]. rewrite V. cbn [with_host mc_host mc_sha1].
  rewrite (B6 Ck).
  assert (L4 : length (firstn 4 (mc_sha1 c p)) = 4%nat).
  { rewrite firstn_length. specialize (D p). lia. }
  set (d := firstn 4 (mc_sha1 c p)) in *.
  unfold native_word. destruct (mc_host c); cbn [other].
  - rewrite <- L4 at 1. rewrite le_bytes_le_word. split; congruence.
  - rewrite <- L4 at 1. rewrite <- (rev_length d) at 1. rewrite le_bytes_le_word. reflexivity.
Qed.
Print Assumptions C19_checksum_cross_host.

Theorem C19_cross_host_refuted : exists c magic opcode p m m' m'',
  digest_ok c /\ msg_built c magic opcode p m
  /\ receive (with_host (other (mc_host c)) c) 0 (takeN (header_size c) (msg_serialize c m)) p = Ret false m'
  /\ m_opcode m = 258 /\ msg_parse_header (with_host (other (mc_host c)) c) 0
       (ds_new (takeN (header_size c) (msg_serialize c m))) = Ret m'' (mkDS (takeN (header_size c) (msg_serialize c m)) 14)
  /\ m_opcode m'' = 513.
Proof.
  set (c := mkMsgCfg LittleE 2 true (fun p => [x01; x02; x03; x04])).
  exists c, 0, 258, [x07], (mkMsg 0 258 1 67305985 [x07] false).
  eexists. eexists. split; [intros p; simpl; lia|].
  split; [repeat split|]. split; [vm_compute; reflexivity|]. split; [reflexivity|].
  split; [vm_compute; reflexivity|]. reflexivity.
Qed.
Print Assumptions C19_cross_host_refuted.
