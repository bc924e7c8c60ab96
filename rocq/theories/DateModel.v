(** The time of a log line: get_current_datetime (util.cpp 142-151).

    Simplified: localtime is a parameter, giving the fields of the time in the
    zone; numbers are natural numbers (years from 0);
    tv_usec, a long, is printed by %u as if it were unsigned. *)
From Coq Require Import String List Arith Bool.
From Coq.Init Require Import Byte.
From Verif Require Import Base StreamModel UtilModel.
Import ListNotations.

(** struct tm, as far as it is printed: year, month 1-12, day, hour, minute, second. *)
Record tm := mkTm { t_year : nat; t_mon : nat; t_day : nat; t_hour : nat; t_min : nat; t_sec : nat }.

(** The C library: decimal digits of a number (of at most 20 digits), and with leading zeros up to width w (%0wu). *)
Definition digit (d : nat) : byte := nth d [x30; x31; x32; x33; x34; x35; x36; x37; x38; x39] x30.
Fixpoint dec (fuel n : nat) : bytes :=
  match fuel with 0 => [] | S k => if n <? 10 then [digit n] else dec k (n / 10) ++ [digit (n mod 10)] end.
Definition zeros (w n : nat) : bytes := let d := dec 20 n in repeat x30 (w - length d) ++ d.

(** util.cpp 148: strftime(fmt, 64, "%Y-%m-%d %H:%M:%S.%%06u", tmp). *)
Definition fmt (t : tm) : bytes :=
  zeros 1 (t_year t) ++ txt "-" ++ zeros 2 (t_mon t) ++ txt "-" ++ zeros 2 (t_day t) ++ txt " " ++
  zeros 2 (t_hour t) ++ txt ":" ++ zeros 2 (t_min t) ++ txt ":" ++ zeros 2 (t_sec t) ++ txt ".%06u".

(** The C library: printf of a format in which %06u is the only conversion. *)
Fixpoint expand (f : bytes) (u : nat) : bytes :=
  match f with
  | [] => []
  | c :: r => match f with x25 :: x30 :: x36 :: x75 :: r' => zeros 6 u ++ r' | _ => c :: expand r u end
  end.

(** util.cpp 142-151: the time is s seconds and u microseconds; buf has 64 characters with the NUL. *)
Definition datetime (localtime : nat -> tm) (s u : nat) : bytes := firstn 63 (expand (fmt (localtime s)) u).
