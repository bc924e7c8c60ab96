(** DataStream (include/salticidae/stream.h 38-199) and its C wrappers
    (src/stream.cpp).  Built without SALTICIDAE_NOCHECK, as by default. *)
From Coq Require Import NArith List Bool.
From Coq.Init Require Import Byte.
From Verif Require Import Base.
Import ListNotations.
Local Open Scope N_scope.

(** stream.h 39-40: the two data members; [ds_off] is a size_t. *)
Record dstream := mkDS { ds_buf : bytes; ds_off : N }.

(** stream.h 44-49, the constructors from bytes (pointer pair, bytearray_t,
    std::string): all copy/move the bytes and start at offset 0. *)
Definition ds_new (bs : bytes) : dstream := mkDS bs 0.

(** stream.h 84-87, clear. *)
Definition ds_clear (s : dstream) : dstream := mkDS [] 0.

(** stream.h 89-91, size: unsigned subtraction. *)
Definition ds_size (s : dstream) : N := szsub (lenN (ds_buf s)) (ds_off s).

(** stream.h 95-99, operator<<(T) for an integral T of [w] bytes: appends the
    object's memory image. *)
Definition ds_put_int (h : endian) (w : nat) (x : N) (s : dstream) : dstream :=
  mkDS (ds_buf s ++ native_bytes h w x) (ds_off s).

(** stream.h 101-114 and 133-136, put_data and operator<< for byte ranges,
    std::string, bytearray_t and C strings: append the bytes. *)
Definition ds_put_data (bs : bytes) (s : dstream) : dstream :=
  mkDS (ds_buf s ++ bs) (ds_off s).

(** stream.h 140-148, operator>>(T&) for an integral T of [w] bytes.  The test
    at 142 is made on the wrapped size_t sum; [Undef] is the read of
    buffer[offset] outside the vector. *)
Definition ds_get_int (h : endian) (w : nat) (s : dstream) : outcome dstream N :=
  let n := N.of_nat w in
  if lenN (ds_buf s) <? szadd (ds_off s) n then Exn ExnFailure s
  else if ds_off s + n <=? lenN (ds_buf s) then
    Ret (native_word h (takeN n (dropN (ds_off s) (ds_buf s))))
        (mkDS (ds_buf s) (ds_off s + n))
  else Undef.

(** stream.h 116-124, get_data_inplace.  Line 118 advances the offset before
    the test at 120, so the exception leaves the advanced offset behind.  The
    returned pointer is modelled by the [len] bytes it designates; [Undef]
    stands for a returned pointer that is not followed by [len] bytes of the
    buffer (the formation of a past-the-end pointer at 117 on a throwing path
    is not counted as undefined). *)
Definition ds_get_data (len : N) (s : dstream) : outcome dstream bytes :=
  let off' := szadd (ds_off s) len in
  if lenN (ds_buf s) <? off' then Exn ExnFailure (mkDS (ds_buf s) off')
  else if ds_off s + len <=? lenN (ds_buf s) then
    Ret (takeN len (dropN (ds_off s) (ds_buf s))) (mkDS (ds_buf s) off')
  else Undef.

(** stream.h 186-188 and 194-196, operator bytearray_t() const & and operator
    std::string() const &: the range [begin()+offset, end()), undefined when
    offset is past the end. *)
Definition ds_bytes (s : dstream) : outcome dstream bytes :=
  if ds_off s <=? lenN (ds_buf s) then Ret (dropN (ds_off s) (ds_buf s)) s else Undef.

(** stream.h 190-192, operator bytearray_t() &&: the whole vector. *)
Definition ds_bytes_rvalue (s : dstream) : outcome dstream bytes := Ret (ds_buf s) s.

(** stream.h 435-439, get_hash: digest of size() bytes from offset; the digest
    is SHA-256 in the code and any function here. *)
Definition ds_get_hash (sha256 : bytes -> bytes) (s : dstream) : outcome dstream bytes :=
  if ds_off s <=? lenN (ds_buf s) then Ret (sha256 (dropN (ds_off s) (ds_buf s))) s else Undef.

(** ** Hexadecimal text *)

(** printf("%x") digit of a value below 16 (lower case). *)
Definition hex_char (d : N) : byte := byte_of (if d <? 10 then 48 + d else 87 + d).

(** stream.h 157-166, get_hex: "%02x" of every byte from offset on. *)
Definition hex_of_byte (b : byte) : bytes :=
  [hex_char (byte_val b / 16); hex_char (byte_val b mod 16)].
Definition ds_get_hex (s : dstream) : outcome dstream bytes :=
  if ds_off s <=? lenN (ds_buf s)
  then Ret (flat_map hex_of_byte (dropN (ds_off s) (ds_buf s))) s else Undef.

(** The value of a hexadecimal digit character, as strtoul base 16. *)
Definition hex_val (c : byte) : option N :=
  let v := byte_val c in
  if (48 <=? v) && (v <=? 57) then Some (v - 48)
  else if (97 <=? v) && (v <=? 102) then Some (v - 87)
  else if (65 <=? v) && (v <=? 70) then Some (v - 55)
  else None.

(** isspace in the C locale. *)
Definition is_space (c : byte) : bool :=
  let v := byte_val c in (v =? 32) || ((9 <=? v) && (v <=? 13)).

(** sscanf skips leading spaces. *)
Fixpoint skip_space (s : bytes) : bytes :=
  match s with
  | c :: r => if is_space c then skip_space r else s
  | [] => []
  end.

(** The C string starting at the head of [s]: up to the first NUL. *)
Fixpoint cstr (s : bytes) : bytes :=
  match s with
  | c :: r => if byte_val c =? 0 then [] else c :: cstr r
  | [] => []
  end.

(** Up to [w] hexadecimal digits; the number and how many were read. *)
Fixpoint scan_digits (w : nat) (s : bytes) (acc : N) (cnt : nat) : N * nat :=
  match w, s with
  | S w', c :: r =>
    match hex_val c with
    | Some d => scan_digits w' r (acc * 16 + d) (S cnt)
    | None => (acc, cnt)
    end
  | _, _ => (acc, cnt)
  end.

(** sscanf(p, "%02x", &tmp) (called at stream.h 180), as in the C standard:
    skip white space, then at most two characters: optional sign, hexadecimal
    digits.  A "0x" prefix read as 0 needs no special case: the scan stops at
    the x.  None stands for a return value other than 1. *)
Definition scan_02x (p : bytes) : option N :=
  let s := skip_space (cstr p) in
  match s with
  | [] => None
  | c :: r =>
    let '(neg, s1, w) :=
      if byte_val c =? 45 then (true, r, 1%nat)
      else if byte_val c =? 43 then (false, r, 1%nat)
      else (false, s, 2%nat) in
    match scan_digits w s1 0 0 with
    | (_, O) => None
    | (v, S _) => Some (if neg then (u32_max1 - v) mod u32_max1 else v)
    end
  end.

(** std::vector::resize with value initialisation. *)
Definition vec_resize (n : N) (buf : bytes) : bytes :=
  takeN n buf ++ repeat x00 (N.to_nat (n - lenN buf)).

(** stream.h 177-183, the loop of load_hex: [done] the bytes already stored,
    [todo] the part of the vector not yet overwritten (one byte per pair of
    characters left in [p]). *)
Fixpoint load_hex_loop (p : bytes) (done todo : bytes) : outcome dstream unit :=
  match todo with
  | [] => Ret tt (mkDS done 0)
  | _ :: todo' =>
    match scan_02x p with
    | None => Exn ExnInvalidArg (mkDS (done ++ todo) 0)
    | Some v => load_hex_loop (skipn 2 p) (done ++ [byte_of v]) todo'
    end
  end.

(** stream.h 168-184, load_hex. *)
Definition ds_load_hex (hex : bytes) (s : dstream) : outcome dstream unit :=
  if N.odd (lenN hex) then Exn ExnInvalidArg s
  else load_hex_loop hex [] (vec_resize (lenN hex / 2) (ds_buf s)).

(** stream.h 453-457, from_hex. *)
Definition from_hex (hex : bytes) : outcome dstream bytes :=
  obind (ds_load_hex hex (ds_new [])) (fun _ s => ds_bytes_rvalue s).

(** ** C wrappers *)

(** src/stream.cpp 102-110, datastream_get_u8 ... datastream_get_i64: returns
    the value (0 if the read threw) and the final contents of *succ, assigned
    false in the handler and then true unconditionally. *)
Definition c_get_int (h : endian) (w : nat) (s : dstream) : outcome dstream (N * bool) :=
  match ds_get_int h w s with
  | Ret v s' => let succ := true in Ret (v, succ) s'
  | Exn _ s' => let succ := false in let succ := true in Ret (0, succ) s'
  | Undef => Undef
  end.

(** src/stream.cpp 112-118, datastream_get_data_inplace: None for nullptr. *)
Definition c_get_data (len : N) (s : dstream) : outcome dstream (option bytes) :=
  match ds_get_data len s with
  | Ret bs s' => Ret (Some bs) s'
  | Exn _ s' => Ret None s'
  | Undef => Undef
  end.

(** src/stream.cpp 128-142, bytearray_new_moved_from_datastream (rvalue
    conversion) and bytearray_new_copied_from_datastream (lvalue). *)
Definition c_moved_from (s : dstream) := ds_bytes_rvalue s.
Definition c_copied_from (s : dstream) := ds_bytes s.
