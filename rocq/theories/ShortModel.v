(** The short form of an id in log lines: get_hex10 (util.h 81-84) of a
    uint256_t. *)
From Coq Require Import NArith List Bool.
From Coq.Init Require Import Byte.
From Verif Require Import Base StreamModel BlobModel.
Import ListNotations.
Local Open Scope N_scope.

(** stream.h 447-451, get_hex of a uint256_t (four words of eight bytes). *)
Definition get_hex (h : endian) (b : blob) : outcome unit bytes :=
  match ds_get_hex (blob_serialize h 8 b (ds_new [])) with Ret t _ => Ret t tt | Exn e _ => Exn e tt | Undef => Undef end.

(** util.h 81-84: substr(0, 10); position 0 is in every text, so it throws nothing. *)
Definition get_hex10 (h : endian) (b : blob) : outcome unit bytes :=
  match get_hex h b with Ret t _ => Ret (takeN 10 t) tt | Exn e _ => Exn e tt | Undef => Undef end.
