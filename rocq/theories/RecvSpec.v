(** The wire format of a stream of messages, written directly from the header
    layout (msg.h 229-239), for the receive theorems. *)
From Coq Require Import NArith List Bool.
From Coq.Init Require Import Byte.
From Verif Require Import Base MsgModel.
Import ListNotations.
Local Open Scope N_scope.

Record frame := mkFrame { f_magic : N; f_opcode : N; f_check : N; f_payload : bytes }.

(** Magic, opcode, payload length, checksum, payload. *)
Definition wire (c : msg_cfg) (f : frame) : bytes :=
  le_bytes 4 (f_magic f) ++ native_bytes (mc_host c) (mc_ow c) (f_opcode f)
  ++ le_bytes 4 (lenN (f_payload f)) ++ (if mc_ck c then le_bytes 4 (f_check f) else [])
  ++ f_payload f.
Definition wires (c : msg_cfg) (fs : list frame) : bytes := flat_map (wire c) fs.

(** The fields fit their widths. *)
Definition frame_ok (c : msg_cfg) (f : frame) : Prop :=
  f_magic f < 2 ^ 32 /\ f_opcode f < word_mod (mc_ow c) /\ lenN (f_payload f) < 2 ^ 32
  /\ f_check f < 2 ^ 32 /\ (mc_ck c = false -> f_check f = 0).

(** The checksum field is the one of the payload. *)
Definition intact (c : msg_cfg) (f : frame) : bool :=
  negb (mc_ck c) || (f_check f =? native_word (mc_host c) (firstn 4 (mc_sha1 c (f_payload f)))).

(** A message object carrying a frame, with its payload still to be read. *)
Definition carries (m : msg) (f : frame) : Prop :=
  m_magic m = f_magic f /\ m_opcode m = f_opcode f /\ m_payload m = f_payload f
  /\ m_length m = lenN (f_payload f) /\ m_no_payload m = false.
Definition carry_all (ms : list msg) (fs : list frame) : Prop := Forall2 carries ms fs.
