(** Validity of self-signed certificates and what is checked in the TLS
    handshake (include/salticidae/crypto.h 134-136, 236-254, 348-351,
    include/salticidae/conn.h 386-398, 465-468, 500-513).

    Of a certificate only the key, the time of validity and the issuer are
    here; times are in seconds.  What the TLS library does is taken from its
    documentation: X509_gmtime_adj(t, d) sets t to the present time plus d;
    a certificate is checked at the time of the handshake and is in time from
    notBefore on until before notAfter (X509_cmp_time counts equal as
    earlier); each failing check calls the callback given to
    SSL_CTX_set_verify, if there is one, with 0, and its answer decides; a
    certificate without fault calls it with 1. *)
From Coq Require Import Arith List Bool.
Import ListNotations.

Record cert := mkCert { k_key : nat; k_from : nat; k_to : nat; k_issuer : nat }.

(** create_self_signed_from_pubkey, 236-254: [t1], [t2] are the times of its two calls of X509_gmtime_adj *)
Definition self_signed (key t1 t2 : nat) : cert := mkCert key (t1 + 0) (t2 + 0) key.

(** Faults of a certificate, at a time, for someone who trusts some issuers.  The library's own check. *)
Inductive fault := NotYet | Expired | Untrusted.
Definition faults (trust : list nat) (now : nat) (c : cert) : list fault :=
  (if existsb (Nat.eqb (k_issuer c)) trust then [] else [Untrusted]) ++
  (if now <? k_from c then [NotYet] else []) ++
  (if k_to c <=? now then [Expired] else []).

(** What the user configures: tls_skip_ca_check, tls_verify_callback (conn.h 465-473) *)
Record conf := mkConf { f_skip : bool; f_cb : option (option fault -> bool) }.
(** conn.h 398-399: the default *)
Definition default_conf : conf := mkConf true None.

(** _skip_CA_check, 134-136 *)
Definition skip_cb : option fault -> bool := fun _ => true.
(** set_verify, 348-351 *)
Definition verify_cb (f : conf) : option (option fault -> bool) := if f_skip f then Some skip_cb else f_cb f.

(** The library's check in the handshake (SSL_VERIFY_PEER) *)
Definition verifies (f : conf) (trust : list nat) (now : nat) (c : cert) : bool :=
  match verify_cb f, faults trust now c with
  | None, [] => true
  | None, _ => false
  | Some cb, [] => cb None
  | Some cb, fs => forallb (fun x => cb (Some x)) fs
  end.
(** The other end also has to own the key; without a certificate get_peer_cert throws (crypto.h 393-398, conn.cpp 228-254) *)
Definition accepts (f : conf) (trust : list nat) (now : nat) (c : option cert) (owns : list nat) : bool :=
  match c with
  | Some c => verifies f trust now c && existsb (Nat.eqb (k_key c)) owns
  | None => false
  end.

(** The issuers a network trusts: the store of a new context is empty, and nothing is ever put into it (316-359) *)
Definition store : list nat := [].
Definition net_accepts (f : conf) (now : nat) (c : option cert) (owns : list nat) : bool := accepts f store now c owns.
