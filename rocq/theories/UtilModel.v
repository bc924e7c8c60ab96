(** src/util.cpp: error strings, vstringprintf, split, trim; conn.h 475-478. *)
From Coq Require Import NArith ZArith String List Bool.
From Coq.Init Require Import Byte.
From Verif Require Import Base.
Import ListNotations.
Local Open Scope N_scope.

(** Model only: a string literal. *)
Definition txt (s : string) : bytes := list_byte_of_string s.

(** include/salticidae/util.h 86-118, enum SalticidaeErrorCode, in source
    order. *)
Inductive errcode :=
| SALTI_NORMAL | SALTI_ERROR_GENERIC | SALTI_ERROR_ACCEPT | SALTI_ERROR_LISTEN
| SALTI_ERROR_CONNECT | SALTI_ERROR_PEER_ALREADY_EXISTS | SALTI_ERROR_PEER_NOT_EXIST
| SALTI_ERROR_PEER_NOT_READY | SALTI_ERROR_PEER_NOT_MATCH | SALTI_ERROR_CLIENT_NOT_EXIST
| SALTI_ERROR_NETADDR_INVALID | SALTI_ERROR_OPTVAL_INVALID | SALTI_ERROR_OPTNAME_ALREADY_EXISTS
| SALTI_ERROR_OPT_UNKNOWN_ACTION | SALTI_ERROR_CONFIG_LINE_TOO_LONG | SALTI_ERROR_OPT_INVALID
| SALTI_ERROR_TLS_LOAD_CERT | SALTI_ERROR_TLS_LOAD_KEY | SALTI_ERROR_TLS_GENERIC
| SALTI_ERROR_TLS_X509 | SALTI_ERROR_TLS_KEY | SALTI_ERROR_TLS_KEY_NOT_MATCH
| SALTI_ERROR_TLS_NO_PEER_CERT | SALTI_ERROR_FD | SALTI_ERROR_LIBUV_INIT
| SALTI_ERROR_LIBUV_START | SALTI_ERROR_RAND_SOURCE | SALTI_ERROR_CONN_NOT_READY
| SALTI_ERROR_NOT_AVAIL | SALTI_ERROR_UNKNOWN | SALTI_ERROR_CONN_OVERSIZED_MSG.

(** util.h 86-118: the order of the enumeration. *)
Definition enum_order : list errcode :=
  [SALTI_NORMAL; SALTI_ERROR_GENERIC; SALTI_ERROR_ACCEPT; SALTI_ERROR_LISTEN;
   SALTI_ERROR_CONNECT; SALTI_ERROR_PEER_ALREADY_EXISTS; SALTI_ERROR_PEER_NOT_EXIST;
   SALTI_ERROR_PEER_NOT_READY; SALTI_ERROR_PEER_NOT_MATCH; SALTI_ERROR_CLIENT_NOT_EXIST;
   SALTI_ERROR_NETADDR_INVALID; SALTI_ERROR_OPTVAL_INVALID; SALTI_ERROR_OPTNAME_ALREADY_EXISTS;
   SALTI_ERROR_OPT_UNKNOWN_ACTION; SALTI_ERROR_CONFIG_LINE_TOO_LONG; SALTI_ERROR_OPT_INVALID;
   SALTI_ERROR_TLS_LOAD_CERT; SALTI_ERROR_TLS_LOAD_KEY; SALTI_ERROR_TLS_GENERIC;
   SALTI_ERROR_TLS_X509; SALTI_ERROR_TLS_KEY; SALTI_ERROR_TLS_KEY_NOT_MATCH;
   SALTI_ERROR_TLS_NO_PEER_CERT; SALTI_ERROR_FD; SALTI_ERROR_LIBUV_INIT;
   SALTI_ERROR_LIBUV_START; SALTI_ERROR_RAND_SOURCE; SALTI_ERROR_CONN_NOT_READY;
   SALTI_ERROR_NOT_AVAIL; SALTI_ERROR_UNKNOWN; SALTI_ERROR_CONN_OVERSIZED_MSG].

(** src/util.cpp 37-69, SALTICIDAE_ERROR_STRINGS. *)
Definition error_strings : list bytes :=
  map txt [""; "generic"; "unable to accept"; "unable to listen"; "unable to connect";
    "peer already exists"; "peer does not exist"; "peer is not ready";
    "peer id does not match the record"; "client does not exist"; "invalid NetAddr format";
    "invalid OptVal format"; "option name already exists"; "unknown action";
    "configuration file line too long"; "invalid option format"; "unable to load cert";
    "unable to load key"; "tls generic error"; "x509 cert error"; "EVP_PKEY error";
    "tls key does not match the cert"; "tls fail to get peer cert"; "fd error";
    "libuv init failed"; "libuv start failed"; "rand source is not available, try again";
    "connection is not ready"; "operation not available"; "unknown error";
    "oversized message"]%string.

(** src/util.cpp 95-100, salticidae_strerror; None is a read outside the
    table. *)
Definition strerror (code : Z) : option bytes :=
  if ((code <? 0) || (Z.of_nat (length error_strings) <=? code))%Z
  then Some (txt "invalid")
  else nth_error error_strings (Z.to_nat code).

(** vsnprintf(&buff[0], size, ...) producing the formatted text [t]: stores at
    most size-1 characters and a NUL, returns the full length.  None: the
    write does not fit in the buffer. *)
Definition vsnprintf (buff : bytes) (size : N) (t : bytes) : option bytes :=
  if size =? 0 then Some buff
  else let w := takeN (size - 1) t ++ [x00] in
       if lenN w <=? lenN buff then Some (w ++ dropN (lenN w) buff) else None.

(** std::string::resize. *)
Definition str_resize (n : N) (s : bytes) : bytes := takeN n s ++ repeat x00 (N.to_nat (n - lenN s)).

(** src/util.cpp 113-132, vstringprintf; [t] is the formatted text, whose
    length fits an int (otherwise vsnprintf returns a negative value). *)
Definition vstringprintf (t : bytes) : outcome unit bytes :=
  let guessed_size := 1024 in
  let buff := str_resize guessed_size [] in
  match vsnprintf buff guessed_size t with
  | None => Undef
  | Some buff =>
    let nwrote := lenN t in
    let buff := str_resize nwrote buff in
    if guessed_size <? nwrote then
      match vsnprintf buff nwrote t with
      | None => Undef
      | Some buff => Ret buff tt
      end
    else Ret buff tt
  end.

(** Whether [d] is a prefix of [s]. *)
Fixpoint prefixb (d s : bytes) : bool :=
  match d, s with
  | [], _ => true
  | x :: d', y :: s' => byte_eqb x y && prefixb d' s'
  | _ :: _, [] => false
  end.
(** std::string::find: offset of the leftmost occurrence in [s]. *)
Fixpoint find_sub (d s : bytes) : option nat :=
  if prefixb d s then Some O
  else match s with
       | [] => None
       | _ :: s' => option_map S (find_sub d s')
       end.
(** src/util.cpp 357-365: the loop, on the part of the string from lastpos on.
    None: still looping after [fuel] rounds. *)
Fixpoint split_loop (fuel : nat) (s d : bytes) (res : list bytes) : option (list bytes) :=
  match find_sub d s with
  | None => Some (res ++ [s])
  | Some pos =>
    match fuel with
    | O => None
    | S f => split_loop f (skipn (pos + length d) s) d (res ++ [firstn pos s])
    end
  end.

(** Model only: a character occurs in a set. *)
Definition mem (c : byte) (l : bytes) : bool := existsb (byte_eqb c) l.
(** std::string::find_first_not_of. *)
Fixpoint find_first_not_of (space s : bytes) : option nat :=
  match s with
  | [] => None
  | c :: r => if mem c space then option_map S (find_first_not_of space r) else Some O
  end.
(** std::string::find_last_not_of. *)
Fixpoint find_last_not_of (space s : bytes) : option nat :=
  match s with
  | [] => None
  | c :: r => match find_last_not_of space r with
              | Some i => Some (S i)
              | None => if mem c space then None else Some O
              end
  end.
(** src/util.cpp 369-375, trim.  find_last_not_of cannot be npos at 374; were
    it, new_end - new_begin + 1 would be npos - new_begin + 1 and substr would
    return the rest of the string. *)
Definition trim (s space : bytes) : bytes :=
  match find_first_not_of space s with
  | None => []
  | Some b => match find_last_not_of space s with
              | Some e => firstn (e - b + 1) (skipn b s)
              | None => skipn b s
              end
  end.
(** src/util.cpp 377-382, trim_all, with the default blanks of util.h 74-75. *)
Definition default_space : bytes := [x09; x0d; x0a; x20].
Definition trim_all (ss : list bytes) : list bytes := map (fun s => trim s default_space) ss.

(** conn.h 475-478, Config::tls_skip_ca_check(bool * ): the pointer (None for
    nullptr, otherwise the pointed-to value) is converted to bool. *)
Definition tls_skip_ca_check (x : option bool) : bool :=
  match x with None => false | Some _ => true end.
