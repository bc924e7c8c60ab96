(** NetAddr (include/salticidae/netaddr.h 41-107) and the handshake payload
    MsgPing / MsgPong (include/salticidae/network.h 403-427). *)
From Coq Require Import NArith ZArith List Bool.
From Coq.Init Require Import Byte.
From Verif Require Import Base StreamModel.
Import ListNotations.
Local Open Scope N_scope.

(** netaddr.h 42-43: the two members, as the unsigned values the host sees.
    Their memory images are in network order. *)
Record netaddr := mkNA { na_ip : N; na_port : N }.

(** netaddr.h 45, NetAddr(). *)
Definition na_null : netaddr := mkNA 0 0.

(** htons: the value whose memory image is the big-endian image of [x]. *)
Definition htons (h : endian) (x : N) : N := native_word h (rev (le_bytes 2 x)).
(** ntohs. *)
Definition ntohs (h : endian) (x : N) : N := le_word (rev (native_bytes h 2 x)).

(** util.h 86-97: SALTI_ERROR_NETADDR_INVALID is the eleventh enumerator. *)
Definition netaddr_invalid : exn := ExnSalti 10.

(** netaddr.h 53-59, set_by_ip_port.  [resolve] is gethostbyname: the four
    bytes of h_addr_list[0] for a host name, or failure. *)
Definition na_set_by_ip_port (h : endian) (resolve : bytes -> option bytes)
    (addr : bytes) (port : N) : outcome unit netaddr :=
  match resolve (cstr addr) with
  | None => Exn netaddr_invalid tt
  | Some ip4 => Ret (mkNA (native_word h ip4) (htons h port)) tt
  end.

(** std::string::find(":"): the text before and after the first colon. *)
Fixpoint split_colon (s : bytes) : option (bytes * bytes) :=
  match s with
  | [] => None
  | c :: r =>
    if byte_val c =? 58 then Some ([], r)
    else match split_colon r with
         | Some (a, b) => Some (c :: a, b)
         | None => None
         end
  end.

(** The value of a decimal digit character. *)
Definition dec_val (c : byte) : option N :=
  let v := byte_val c in if (48 <=? v) && (v <=? 57) then Some (v - 48) else None.

(** The longest run of decimal digits: value and number of digits. *)
Fixpoint scan_dec (s : bytes) (acc : N) (cnt : nat) : N * nat :=
  match s with
  | c :: r => match dec_val c with
              | Some d => scan_dec r (acc * 10 + d) (S cnt)
              | None => (acc, cnt)
              end
  | [] => (acc, cnt)
  end.

(** std::stol(port_str.c_str()), i.e. strtol in base 10 on a C string with a
    64-bit long: optional white space, optional sign, digits, anything after.
    None stands for std::invalid_argument and std::out_of_range, both
    std::logic_error. *)
Definition stol (p : bytes) : option Z :=
  let s := skip_space (cstr p) in
  let '(neg, s1) :=
    match s with
    | c :: r => if byte_val c =? 45 then (true, r)
                else if byte_val c =? 43 then (false, r) else (false, s)
    | [] => (false, s)
    end in
  match scan_dec s1 0 0 with
  | (_, O) => None
  | (v, S _) =>
    let z := if neg then (- Z.of_N v)%Z else Z.of_N v in
    if ((- 2 ^ 63 <=? z) && (z <? 2 ^ 63))%Z then Some z else None
  end.

(** netaddr.h 61-78, NetAddr(const std::string &). *)
Definition na_parse (h : endian) (resolve : bytes -> option bytes) (s : bytes)
  : outcome unit netaddr :=
  match split_colon s with
  | None => Exn netaddr_invalid tt
  | Some (ip_str, port_str) =>
    match stol port_str with
    | None => Exn netaddr_invalid tt
    | Some port =>
      if (port <? 0)%Z then Exn netaddr_invalid tt
      else if (65535 <? port)%Z then Exn netaddr_invalid tt
      else na_set_by_ip_port h resolve ip_str (Z.to_N port)
    end
  end.

(** netaddr.h 80-83, NetAddr(const struct sockaddr_in * ): copies the two
    network-order fields, given by their memory images. *)
Definition na_of_sock (h : endian) (addr4 port2 : bytes) : netaddr :=
  mkNA (native_word h addr4) (native_word h port2).

(** netaddr.h 85-91, operator== and operator!=. *)
Definition na_eqb (a b : netaddr) : bool := (na_ip a =? na_ip b) && (na_port a =? na_port b).
Definition na_neqb (a b : netaddr) : bool :=
  negb (na_ip a =? na_ip b) || negb (na_port a =? na_port b).

(** netaddr.h 102, is_null. *)
Definition na_is_null (a : netaddr) : bool := (na_ip a =? 0) && (na_port a =? 0).

(** netaddr.h 104, serialize. *)
Definition na_serialize (h : endian) (a : netaddr) (s : dstream) : dstream :=
  ds_put_int h 2 (na_port a) (ds_put_int h 4 (na_ip a) s).

(** netaddr.h 106, unserialize (the object left behind by an exception is not
    modelled). *)
Definition na_unserialize (h : endian) (s : dstream) : outcome dstream netaddr :=
  obind (ds_get_int h 4 s) (fun ip s1 =>
  obind (ds_get_int h 2 s1) (fun port s2 => Ret (mkNA ip port) s2)).

(** netaddr.h 111-125, std::hash<NetAddr>. *)
Definition na_hash (a : netaddr) : N := N.lxor (na_ip a) (na_port a).

(** std::to_string of an unsigned value (decimal digits, most significant
    first).  [fuel] bounds the number of digits. *)
Fixpoint dec_digits (fuel : nat) (x : N) (acc : bytes) : bytes :=
  match fuel with
  | O => acc
  | S f => let acc' := byte_of (48 + x mod 10) :: acc in
           if x / 10 =? 0 then acc' else dec_digits f (x / 10) acc'
  end.
(** std::to_string of an unsigned number. *)
Definition to_string (x : N) : bytes := dec_digits (S (N.to_nat (N.log2 x))) x [].

(** inet_ntoa: the four bytes in memory order, in decimal, separated by dots. *)
Definition inet_ntoa (h : endian) (ip : N) : bytes :=
  match native_bytes h 4 ip with
  | [a; b; c; d] => to_string (byte_val a) ++ x2e :: to_string (byte_val b) ++ x2e ::
                    to_string (byte_val c) ++ x2e :: to_string (byte_val d)
  | _ => []
  end.

(** netaddr.h 93-100, operator std::string: "<NetAddr a.b.c.d:port>". *)
Definition na_string (h : endian) (a : netaddr) : bytes :=
  [x3c; x4e; x65; x74; x41; x64; x64; x72; x20] ++ inet_ntoa h (na_ip a)
  ++ x3a :: to_string (ntohs h (na_port a)) ++ [x3e].

(** ** MsgPing, MsgPong *)

(** network.h 403-407 and 426, the decoded fields. *)
Record ping := mkPing { pg_addr : netaddr; pg_nonce : N }.

(** network.h 408, MsgPing(): a heartbeat. *)
Definition ping_heartbeat : dstream := ds_put_int LittleE 1 0 (ds_new []).

(** network.h 409-411, MsgPing(addr, nonce). *)
Definition ping_make (h : endian) (a : netaddr) (nonce : N) : dstream :=
  ds_put_int h 4 (htole h 4 nonce) (na_serialize h a (ds_put_int h 1 1 (ds_new []))).

(** network.h 412-418, MsgPing(DataStream &&).  [junk] is the indeterminate
    initial value of nonce. *)
Definition ping_parse (h : endian) (junk : N) (s : dstream) : outcome dstream ping :=
  obind (ds_get_int h 1 s) (fun flag s1 =>
    if flag =? 0 then Ret (mkPing na_null (letoh h 4 junk)) s1
    else obind (na_unserialize h s1) (fun a s2 =>
         obind (ds_get_int h 4 s2) (fun n s3 => Ret (mkPing a (letoh h 4 n)) s3))).

(** network.h 998-999 and 1079: a message whose claimed address is null is
    handled as a heartbeat. *)
Definition ping_is_heartbeat (p : ping) : bool := na_is_null (pg_addr p).
