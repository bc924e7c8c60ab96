(** Blob<N, T> (include/salticidae/stream.h 233-315) and _Bits<T> (317-429).
    [w] is sizeof(T); a Blob of [n] words has N = 8*w*n bits. *)
From Coq Require Import NArith List Bool.
From Coq.Init Require Import Byte.
From Verif Require Import Base StreamModel.
Import ListNotations.
Local Open Scope N_scope.

(** stream.h 239-240, the data members. *)
Record blob := mkBlob { bl_data : list N; bl_loaded : bool }.

(** stream.h 244, Blob(). *)
Definition blob_null (n : nat) : blob := mkBlob (repeat 0 n) false.

(** stream.h 257-259, one word of load: the bytes are read downwards, so the
    argument is the reversed byte sequence.  Running out of bytes is the
    out-of-bounds read of *(--arr). *)
Fixpoint load_word (w0 w : nat) (r : bytes) (x : N) : option (N * bytes) :=
  match w with
  | O => Some (x, r)
  | S w' =>
    match r with
    | b :: r' => load_word w0 w' r' (N.lor (N.shiftl x 8 mod word_mod w0) (byte_val b))
    | [] => None
    end
  end.

(** stream.h 255-261, the outer loop of load: fills the words downwards. *)
Fixpoint load_words (w n : nat) (r : bytes) (acc : list N) : option (list N) :=
  match n with
  | O => Some acc
  | S n' =>
    match load_word w w r 0 with
    | Some (x, r') => load_words w n' r' (x :: acc)
    | None => None
    end
  end.

(** stream.h 253-263, load: [arr] must designate N/8 readable bytes. *)
Definition blob_load (w n : nat) (arr : bytes) : option blob :=
  option_map (fun d => mkBlob d true) (load_words w n (rev (firstn (n * w) arr)) []).

(** stream.h 245-249, Blob(const bytearray_t &). *)
Definition blob_of_bytes (w n : nat) (arr : bytes) : outcome unit blob :=
  if lenN arr =? N.of_nat (n * w) then
    match blob_load w n arr with Some b => Ret b tt | None => Undef end
  else Exn ExnInvalidArg tt.

(** stream.h 265, is_null. *)
Definition blob_is_null (b : blob) : bool := negb (bl_loaded b).

(** stream.h 267-272, operator== (both operands have the same number of words). *)
Fixpoint words_eqb (a b : list N) : bool :=
  match a, b with
  | x :: a', y :: b' => if negb (x =? y) then false else words_eqb a' b'
  | _, _ => true
  end.
Definition blob_eqb (a b : blob) : bool := words_eqb (bl_data a) (bl_data b).

(** stream.h 274-276, operator!=. *)
Definition blob_neqb (a b : blob) : bool := negb (blob_eqb a b).

(** stream.h 278-283, operator<: from the last word down to word 1, then 0. *)
Fixpoint words_ltb_loop (i : nat) (a b : list N) : bool :=
  match i with
  | O => nth 0 a 0 <? nth 0 b 0
  | S i' => if negb (nth i a 0 =? nth i b 0) then nth i a 0 <? nth i b 0
            else words_ltb_loop i' a b
  end.
Definition blob_ltb (a b : blob) : bool :=
  words_ltb_loop (length (bl_data a) - 1) (bl_data a) (bl_data b).

(** stream.h 285, cheap_hash. *)
Definition blob_cheap_hash (b : blob) : N := nth 0 (bl_data b) 0.

(** stream.h 287-298, serialize. *)
Definition blob_serialize (h : endian) (w : nat) (b : blob) (s : dstream) : dstream :=
  if bl_loaded b
  then fold_left (fun s x => ds_put_int h w (htole h w x) s) (bl_data b) s
  else fold_left (fun s _ => ds_put_int h w (htole h w 0) s) (bl_data b) s.

(** stream.h 300-308, unserialize: words already stored stay stored if a read
    throws. *)
Fixpoint blob_unser_loop (h : endian) (w : nat) (done todo : list N) (loaded : bool)
    (s : dstream) : outcome (blob * dstream) unit :=
  match todo with
  | [] => Ret tt (mkBlob done true, s)
  | _ :: todo' =>
    match ds_get_int h w s with
    | Ret x s' => blob_unser_loop h w (done ++ [letoh h w x]) todo' loaded s'
    | Exn e s' => Exn e (mkBlob (done ++ todo) loaded, s')
    | Undef => Undef
    end
  end.
(** stream.h 300-308, unserialize from the first word on. *)
Definition blob_unserialize (h : endian) (w : nat) (b : blob) (s : dstream) :=
  blob_unser_loop h w [] (bl_data b) (bl_loaded b) s.

(** stream.h 310-314 and 224-228, operator bytearray_t / to_bytes: the rvalue
    conversion of a fresh stream. *)
Definition blob_to_bytes (h : endian) (w : nat) (b : blob) : bytes :=
  ds_buf (blob_serialize h w b (ds_new [])).

(** ** Bits *)

(** stream.h 323-325.  Default-constructed (null) objects, whose nbits and
    ndata are indeterminate (329), are not modelled. *)
Record bits := mkBits { bt_data : list N; bt_nbits : N; bt_ndata : N }.

(** stream.h 320-321. *)
Definition bpd (w : nat) : N := 8 * N.of_nat w.
Definition bshift (w : nat) : N := N.log2 (bpd w).

(** stream.h 341, 349, 383: number of words, in uint32_t arithmetic. *)
Definition bits_ndata (w : nat) (nbits : N) : N :=
  ((nbits + bpd w - 1) mod u32_max1) / bpd w.

(** stream.h 340-343, _Bits(nbits): the new array is not initialised, [junk]
    is whatever it contains. *)
Definition bits_new (w : nat) (nbits : N) (junk : list N) : bits :=
  mkBits junk nbits (bits_ndata w nbits).

(** stream.h 357, "*(arr++) << k": a byte promoted to int and shifted.  None
    is the undefined shift by 32 or more; a result of 2^31 or more is
    converted to a negative int (C++14 [expr.shift]/2 and [conv.integral]),
    i.e. sign-extended when combined into T. *)
Definition shl_int (w : nat) (b : byte) (k : N) : option N :=
  if 32 <=? k then None
  else let raw := byte_val b * 2 ^ k in
       Some ((if raw <? 2 ^ 31 then raw else raw + (2 ^ 64 - 2 ^ 32)) mod word_mod w).

(** stream.h 355-357, one word of load. *)
Fixpoint load_datum (w0 : nat) (j : nat) (k : N) (arr : bytes) (x : N) : option (N * bytes) :=
  match j with
  | O => Some (x, arr)
  | S j' =>
    match arr with
    | b :: arr' =>
      match shl_int w0 b k with
      | Some v => load_datum w0 j' (k + 8) arr' (N.lor x v)
      | None => None
      end
    | [] => load_datum w0 j' (k + 8) [] x
    end
  end.
(** stream.h 353-359, the outer loop of load. *)
Fixpoint load_data (w : nat) (n : nat) (arr : bytes) (acc : list N) : option (list N) :=
  match n with
  | O => Some acc
  | S n' =>
    match load_datum w w 0 arr 0 with
    | Some (x, arr') => load_data w n' arr' (acc ++ [x])
    | None => None
    end
  end.
(** stream.h 347-360, load; len is truncated to uint32_t by the call. *)
Definition bits_load (w : nat) (arr : bytes) : outcome unit bits :=
  let len := lenN arr mod u32_max1 in
  let nbits := (len * 8) mod u32_max1 in
  let nd := bits_ndata w nbits in
  match load_data w (N.to_nat nd) (takeN len arr) [] with
  | Some d => Ret (mkBits d nbits nd) tt
  | None => Undef
  end.

(** stream.h 366-378, serialize of a non-null object. *)
Definition bits_serialize (h : endian) (w : nat) (b : bits) (s : dstream) : dstream :=
  fold_left (fun s x => ds_put_int h w (htole h w x) s) (bt_data b)
            (ds_put_int h 4 (htole h 4 (bt_nbits b)) s).

(** stream.h 385-390, the word loop of unserialize. *)
Fixpoint bits_unser_loop (h : endian) (w : nat) (n : nat) (acc : list N) (s : dstream)
  : outcome dstream (list N) :=
  match n with
  | O => Ret acc s
  | S n' => obind (ds_get_int h w s) (fun x s' => bits_unser_loop h w n' (acc ++ [letoh h w x]) s')
  end.
(** stream.h 380-391, unserialize; the object left behind by an exception is
    not modelled (only the stream is). *)
Definition bits_unserialize (h : endian) (w : nat) (s : dstream) : outcome dstream bits :=
  obind (ds_get_int h 4 s) (fun x s1 =>
    let nbits := letoh h 4 x in
    let nd := bits_ndata w nbits in
    obind (bits_unser_loop h w (N.to_nat nd) [] s1) (fun d s2 => Ret (mkBits d nbits nd) s2)).

(** stream.h 399-402, get.  Undef: the word index is outside the array. *)
Definition bits_get (w : nat) (b : bits) (idx : N) : outcome unit N :=
  match nth_error (bt_data b) (N.to_nat (N.shiftr idx (bshift w))) with
  | Some d => Ret (N.land (N.shiftr d (N.land idx (bpd w - 1))) 1) tt
  | None => Undef
  end.

(** Common shape of set/unset/flip: data[i] ^= f data[i] pos. *)
Definition bits_xor (w : nat) (f : N -> N -> N) (b : bits) (idx : N) : outcome bits unit :=
  let i := N.to_nat (N.shiftr idx (bshift w)) in
  let pos := N.land idx (bpd w - 1) in
  match nth_error (bt_data b) i with
  | Some d => Ret tt (mkBits (upd i (N.lxor d (f d pos mod word_mod w)) (bt_data b))
                             (bt_nbits b) (bt_ndata b))
  | None => Undef
  end.
(** stream.h 404-408, set. *)
Definition bits_set w := bits_xor w (fun d pos => N.shiftl (N.lxor (N.land (N.shiftr d pos) 1) 1) pos).
(** stream.h 410-414, unset. *)
Definition bits_unset w := bits_xor w (fun d pos => N.shiftl (N.land (N.shiftr d pos) 1) pos).
(** stream.h 416-420, flip. *)
Definition bits_flip w := bits_xor w (fun d pos => N.shiftl 1 pos).
(** stream.h 422-424, clear: memset of ndata words. *)
Definition bits_clear (b : bits) : bits :=
  mkBits (repeat 0 (N.to_nat (bt_ndata b)) ++ skipn (N.to_nat (bt_ndata b)) (bt_data b))
         (bt_nbits b) (bt_ndata b).
(** stream.h 428, size. *)
Definition bits_size (b : bits) : N := bt_nbits b.
