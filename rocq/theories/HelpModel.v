(** Model of Config::print_help: src/util.cpp 338-352.
    The number of bytes of a name is below 2^31 (the code keeps it in an int);
    fprintf does not fail. *)
From Coq Require Import Arith List Bool.
From Coq.Init Require Import Byte.
From Verif Require Import Base.
Import ListNotations.

(** util.h 383-403, Opt, as far as print_help uses it.  None for the letter is
    the default argument -1 of add_opt (util.h 423). *)
Record hopt := mkH { h_name : bytes; h_doc : bytes; h_short : option byte }.

(** util.h 388: the letter is a char, which may be signed or not, as the
    platform has it; -1 becomes the byte 0xff. *)
Definition stored (o : hopt) : byte := match h_short o with Some c => c | None => xff end.
(** util.cpp 346: short_opt != -1, after promotion to int. *)
Definition has_letter (signed : bool) (o : hopt) : bool := if signed then negb (byte_eqb (stored o) xff) else true.

(** c_str() printed with %s: up to the first NUL. *)
Fixpoint c_str (s : bytes) : bytes := match s with [] => [] | c :: r => if byte_eqb c x00 then [] else c :: c_str r end.
(** fprintf of a space with %*c: padded on the left to the given width, at least itself. *)
Definition spaces (w : nat) : bytes := repeat x20 (Nat.max w 1).
(** util.cpp 339-341. *)
Definition name_width (os : list hopt) : nat := fold_left (fun w o => Nat.max w (length (h_name o))) os 0.
(** util.cpp 344-350, one round. *)
Definition print_row (signed : bool) (w : nat) (o : hopt) : bytes :=
  [x20; x20; x2d; x2d] ++ c_str (h_name o) ++ spaces (w - length (h_name o) + 4)
  ++ (if has_letter signed o then [x2d; stored o; x09] else [x09; x09])
  ++ c_str (h_doc o) ++ [x0a].
(** util.cpp 338-352. *)
Definition print_help (signed : bool) (os : list hopt) : bytes := flat_map (print_row signed (name_width os)) os.
