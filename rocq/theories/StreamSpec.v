(** What a user expects of DataStream, in terms of the unread bytes. *)
From Coq Require Import NArith List Bool.
From Coq.Init Require Import Byte.
From Verif Require Import Base StreamModel.
Import ListNotations.
Local Open Scope N_scope.

(** The stream is usable and its unread bytes are [u]; vectors are limited to
    2^62 bytes so that adding a width never wraps by itself. *)
Definition unread (s : dstream) (u : bytes) : Prop :=
  exists consumed, ds_buf s = consumed ++ u /\ ds_off s = lenN consumed
                   /\ lenN (ds_buf s) < 2 ^ 62.

(** One value put into / taken from a stream. *)
Inductive item := IInt (w : nat) (x : N) | IBytes (bs : bytes).
Inductive shape := ShInt (w : nat) | ShBytes (n : N).
Definition shape_of (i : item) : shape :=
  match i with IInt w _ => ShInt w | IBytes bs => ShBytes (lenN bs) end.
Definition item_ok (i : item) : Prop :=
  match i with IInt w x => x < word_mod w | IBytes _ => True end.
Definition item_len (i : item) : N :=
  match i with IInt w _ => N.of_nat w | IBytes bs => lenN bs end.

(** A client program that writes the items in order. *)
Definition write_item (h : endian) (s : dstream) (i : item) : dstream :=
  match i with IInt w x => ds_put_int h w x s | IBytes bs => ds_put_data bs s end.
Definition write_items (h : endian) (items : list item) (s : dstream) : dstream :=
  fold_left (write_item h) items s.

(** A client program that reads the shapes in order. *)
Definition read_item (h : endian) (sh : shape) (s : dstream) : outcome dstream item :=
  match sh with
  | ShInt w => obind (ds_get_int h w s) (fun x s' => Ret (IInt w x) s')
  | ShBytes n => obind (ds_get_data n s) (fun bs s' => Ret (IBytes bs) s')
  end.
Fixpoint read_items (h : endian) (shs : list shape) (s : dstream) : outcome dstream (list item) :=
  match shs with
  | [] => Ret [] s
  | sh :: shs' =>
    obind (read_item h sh s) (fun i s1 =>
    obind (read_items h shs' s1) (fun is s2 => Ret (i :: is) s2))
  end.

(** A client that goes on after catching exceptions: the result of each read. *)
Inductive rres := RGot (i : item) | RFail | RUndef.
Fixpoint read_history (h : endian) (shs : list shape) (s : dstream) : list rres :=
  match shs with
  | [] => []
  | sh :: shs' =>
    match read_item h sh s with
    | Ret i s' => RGot i :: read_history h shs' s'
    | Exn _ s' => RFail :: read_history h shs' s'
    | Undef => [RUndef]
    end
  end.
Definition shape_len (sh : shape) : N :=
  match sh with ShInt w => N.of_nat w | ShBytes n => n end.
Definition total_len (shs : list shape) : N := fold_right (fun sh n => shape_len sh + n) 0 shs.

(** Hexadecimal notation, independently of printf/sscanf: digit characters
    '0'..'9', 'a'..'f', 'A'..'F'. *)
Definition digit_denotes (c : byte) (d : N) : Prop :=
  (d < 10 /\ byte_val c = 48 + d) \/
  (10 <= d < 16 /\ (byte_val c = 97 + (d - 10) \/ byte_val c = 65 + (d - 10))).
Inductive hex_denotes : bytes -> bytes -> Prop :=
| HexNil : hex_denotes [] []
| HexCons c1 c2 t b bs d1 d2 :
    digit_denotes c1 d1 -> digit_denotes c2 d2 -> byte_val b = 16 * d1 + d2 ->
    hex_denotes t bs -> hex_denotes (c1 :: c2 :: t) (b :: bs).
Definition is_hex_digit (c : byte) : Prop := exists d, digit_denotes c d.
Definition lower_case (c : byte) : Prop := ~ (65 <= byte_val c <= 90).
