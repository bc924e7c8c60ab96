(** Ids of peers: PeerId (include/salticidae/network.h 313-322), made by
    get_hash (include/salticidae/stream.h 435-445) from an address or from the
    DER form of a certificate, and the choice between the two
    (network.h 540-545).  The digest is SHA-256 in the code and any function
    here; the DER form of a certificate is a sequence of bytes (get_der is in
    CryptoModel). *)
From Coq Require Import NArith List Bool.
From Coq.Init Require Import Byte.
From Verif Require Import Base StreamModel BlobModel NetAddrModel.
Import ListNotations.

(** uint256_t is Blob<256, uint64_t> (stream.h 36): four words of eight bytes.
    stream.h 437-438: the digest is converted to it. *)
Definition to_uint256 (digest : bytes) : outcome unit blob := blob_of_bytes 8 4 digest.

(** DataStream::get_hash, stream.h 435-439 *)
Definition get_hash (sha256 : bytes -> bytes) (s : dstream) : outcome unit blob :=
  match ds_get_hash sha256 s with
  | Ret d _ => to_uint256 d
  | Exn e _ => Exn e tt
  | Undef => Undef
  end.

(** network.h 315-317 with stream.h 441-445 and netaddr.h 104 *)
Definition id_of_addr (h : endian) (sha256 : bytes -> bytes) (a : netaddr) : outcome unit blob :=
  get_hash sha256 (na_serialize h a (ds_new [])).

(** network.h 319-321 with stream.h 441-445, 108 *)
Definition id_of_cert (sha256 : bytes -> bytes) (der : bytes) : outcome unit blob :=
  get_hash sha256 (ds_put_data der (ds_new [])).

(** network.h 354-357 *)
Inductive id_mode := ADDR_BASED | CERT_BASED.
(** _get_peer_id, network.h 540-545: from the certificate if TLS is on and ids are by certificate, otherwise from the
    address.  [cert]: the certificate of the connection ([None]: a null pointer). *)
Definition peer_id (h : endian) (sha256 : bytes -> bytes) (tls : bool) (m : id_mode) (cert : option bytes) (a : netaddr) : outcome unit blob :=
  match tls, m with
  | true, CERT_BASED => match cert with Some der => id_of_cert sha256 der | None => Undef end
  | _, _ => id_of_addr h sha256 a
  end.
