(** MsgBase<OpcodeType> (include/salticidae/msg.h 41-270), for an integral
    OpcodeType of [ow] bytes, with ([ck] = true) or without the checksum field
    (SALTICIDAE_NOCHECKSUM), on a host of byte order [h].  Built without
    SALTICIDAE_NOCHECK.  The digest is SHA-1 in the code and any function
    [sha1] here. *)
From Coq Require Import NArith List Bool.
From Coq.Init Require Import Byte.
From Verif Require Import Base StreamModel BlobModel.
Import ListNotations.
Local Open Scope N_scope.

(** Parameters of the model: byte order, width of the opcode, whether checksums are compiled in (msg.h 53-55), SHA-1. *)
Record msg_cfg := mkMsgCfg { mc_host : endian; mc_ow : nat; mc_ck : bool; mc_sha1 : bytes -> bytes }.

(** msg.h 50-58, the data members. *)
Record msg := mkMsg {
  m_magic : N; m_opcode : N; m_length : N; m_checksum : N;
  m_payload : bytes; m_no_payload : bool }.

(** msg.h 262-270, header_size. *)
Definition header_size (c : msg_cfg) : N :=
  4 + N.of_nat (mc_ow c) + 4 + (if mc_ck c then 4 else 0).

(** msg.h 61, MsgBase(magic); [l] and [k] are the indeterminate length and
    checksum. *)
Definition msg_empty (magic l k : N) : msg := mkMsg magic 255 l k [] true.

(** msg.h 178-184, set_payload(bytearray_t &&); length is a uint32_t. *)
Definition msg_set_payload (p : bytes) (m : msg) : msg :=
  mkMsg (m_magic m) (m_opcode m) (lenN p mod u32_max1) (m_checksum m) p false.

(** msg.h 174-176, set_payload(DataStream &&): rvalue conversion of the
    stream. *)
Definition msg_set_payload_stream (s : dstream) (m : msg) : msg :=
  msg_set_payload (ds_buf s) m.

(** msg.h 206-222, get_checksum: the memory image of the result is the first
    four digest bytes. *)
Definition msg_get_checksum (c : msg_cfg) (m : msg) : outcome msg N :=
  if m_no_payload m then Exn ExnRuntime m
  else Ret (native_word (mc_host c) (firstn 4 (mc_sha1 c (m_payload m)))) m.

(** msg.h 186-190, set_checksum. *)
Definition msg_set_checksum (c : msg_cfg) (m : msg) : outcome msg unit :=
  if mc_ck c then
    obind (msg_get_checksum c m) (fun k m =>
      Ret tt (mkMsg (m_magic m) (m_opcode m) (m_length m) k (m_payload m) (m_no_payload m)))
  else Ret tt m.

(** msg.h 63-68, MsgBase(const MsgType &, magic).  msg.serialized is const, so
    std::move selects the conversion operator bytearray_t() const & (bytes
    from the offset on).  [l] and [k] as in msg_empty. *)
Definition msg_make (c : msg_cfg) (magic opcode l k : N) (serialized : dstream) : outcome msg unit :=
  match ds_bytes serialized with
  | Ret p _ => msg_set_checksum c (msg_set_payload p (mkMsg magic opcode l k [] true))
  | _ => Undef
  end.

(** msg.h 157-159, set_magic. *)
Definition msg_set_magic (magic : N) (m : msg) : msg :=
  mkMsg magic (m_opcode m) (m_length m) (m_checksum m) (m_payload m) (m_no_payload m).

(** msg.h 98-118, MsgBase(DataStream &&); [k] is the indeterminate checksum
    when there is no checksum field. *)
Definition msg_parse_header (c : msg_cfg) (k : N) (s : dstream) : outcome dstream msg :=
  let h := mc_host c in
  obind (ds_get_int h 4 s) (fun magic s =>
  obind (ds_get_int h (mc_ow c) s) (fun opcode s =>
  obind (ds_get_int h 4 s) (fun length s =>
  if mc_ck c then
    obind (ds_get_int h 4 s) (fun checksum s =>
      Ret (mkMsg (letoh h 4 magic) opcode (letoh h 4 length) (letoh h 4 checksum) [] true) s)
  else Ret (mkMsg (letoh h 4 magic) opcode (letoh h 4 length) k [] true) s))).

(** msg.h 165-172, get_payload: a moved-from vector is empty. *)
Definition msg_get_payload (m : msg) : outcome msg dstream :=
  if m_no_payload m then Exn ExnRuntime m
  else Ret (ds_new (m_payload m))
           (mkMsg (m_magic m) (m_opcode m) (m_length m) (m_checksum m) [] true).

(** msg.h 224-226, verify_checksum. *)
Definition msg_verify (c : msg_cfg) (m : msg) : outcome msg bool :=
  obind (msg_get_checksum c m) (fun k m => Ret (m_checksum m =? k) m).

(** msg.h 229-239, serialize. *)
Definition msg_serialize (c : msg_cfg) (m : msg) : bytes :=
  let h := mc_host c in
  let s := ds_put_int h 4 (htole h 4 (m_magic m)) (ds_new []) in
  let s := ds_put_int h (mc_ow c) (m_opcode m) s in
  let s := ds_put_int h 4 (htole h 4 (m_length m)) s in
  let s := if mc_ck c then ds_put_int h 4 (htole h 4 (m_checksum m)) s else s in
  let s := ds_put_data (m_payload m) s in
  ds_buf s.

(** ** Hash lists; uint256_t is Blob<256, uint64_t>: four 8-byte words. *)

(** msg.h 241-246, gen_hash_list. *)
Definition gen_hash_list (h : endian) (hs : list blob) (s : dstream) : dstream :=
  fold_left (fun s b => blob_serialize h 8 b s) hs
    (ds_put_int h 4 (htole h 4 (lenN hs mod u32_max1)) s).

(** msg.h 257, the loop over the resized vector. *)
Fixpoint parse_hashes (h : endian) (n : nat) (acc : list blob) (s : dstream)
  : outcome dstream (list blob) :=
  match n with
  | O => Ret acc s
  | S n' =>
    match blob_unserialize h 8 (blob_null 4) s with
    | Ret _ (b, s') => parse_hashes h n' (acc ++ [b]) s'
    | Exn e (_, s') => Exn e s'
    | Undef => Undef
    end
  end.
(** msg.h 248-258, parse_hash_list (the list left behind by an exception and
    failure of the allocation at 256 are not modelled). *)
Definition parse_hash_list (h : endian) (s : dstream) : outcome dstream (list blob) :=
  obind (ds_get_int h 4 s) (fun size s => parse_hashes h (N.to_nat (letoh h 4 size)) [] s).
