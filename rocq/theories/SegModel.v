(** SegBuffer (include/salticidae/buffer.h 7-118). *)
From Coq Require Import NArith List Bool.
From Coq.Init Require Import Byte.
From Verif Require Import Base.
Import ListNotations.
Local Open Scope N_scope.

(** buffer.h 9-35, buffer_entry_t: the iterator [offset] is modelled by its
    distance from data.begin(); the copy and move operations (15-33) preserve
    that distance. *)
Record entry := mkEntry { e_data : bytes; e_off : N }.
(** buffer.h 13-14. *)
Definition entry_new (d : bytes) : entry := mkEntry d 0.
(** buffer.h 35, length. *)
Definition entry_length (e : entry) : N := lenN (e_data e) - e_off e.

(** buffer.h 39-40; [sg_size] is a size_t. *)
Record seg := mkSeg { sg_list : list entry; sg_size : N }.
(** buffer.h 43. *)
Definition seg_new : seg := mkSeg [] 0.

(** buffer.h 76-79, rewind. *)
Definition seg_rewind (d : bytes) (s : seg) : seg :=
  mkSeg (entry_new d :: sg_list s) (szadd (sg_size s) (lenN d)).
(** buffer.h 81-84, push. *)
Definition seg_push (d : bytes) (s : seg) : seg :=
  mkSeg (sg_list s ++ [entry_new d]) (szadd (sg_size s) (lenN d)).
(** buffer.h 86-91, move_pop: takes the whole vector of the front entry;
    undefined on an empty list. *)
Definition seg_move_pop (s : seg) : outcome seg bytes :=
  match sg_list s with
  | [] => Undef
  | e :: r => Ret (e_data e) (mkSeg r (szsub (sg_size s) (lenN (e_data e))))
  end.
(** buffer.h 93-105, the loop of pop and the erase: the bytes collected and
    the entries left. *)
Fixpoint pop_loop (len : N) (es : list entry) : bytes * list entry :=
  match es with
  | [] => ([], [])
  | e :: r =>
    if len =? 0 then ([], es)
    else
      let copy_len := N.min (entry_length e) len in
      let chunk := takeN copy_len (dropN (e_off e) (e_data e)) in
      let e' := mkEntry (e_data e) (e_off e + copy_len) in
      if e_off e' =? lenN (e_data e)
      then let '(bs, es') := pop_loop (len - copy_len) r in (chunk ++ bs, es')
      else (* the loop test fails next: len - copy_len = 0 *)
        (chunk, e' :: r)
  end.
(** buffer.h 93-108, pop. *)
Definition seg_pop (len : N) (s : seg) : bytes * seg :=
  let '(res, es) := pop_loop len (sg_list s) in (res, mkSeg es (szsub (sg_size s) (lenN res))).
(** buffer.h 110-112, size, len, empty. *)
Definition seg_size (s : seg) : N := sg_size s.
Definition seg_len (s : seg) : N := lenN (sg_list s).
Definition seg_empty (s : seg) : bool := match sg_list s with [] => true | _ => false end.
(** buffer.h 114-117, clear. *)
Definition seg_clear (s : seg) : seg := mkSeg [] 0.
