(** The smart pointers of include/salticidae/ref.h: BoxObj, RcObj and WeakObj
    (with _RCCtl), used by one thread.

    A program is a sequence of operations on named variables (slots).  An
    object is a number; the model records how often it was destroyed, and
    likewise how often a control block was freed.  Counters are unbounded
    (ref_cnt and weak_cnt are size_t and never exceed the number of
    variables).  Handles stored inside an object are dropped by operations
    following its destruction. *)
From Coq Require Import Arith List Bool.
Import ListNotations.

(** ref.h 157-177, _RCCtl. *)
Record ctl := mkCtl { c_ref : nat; c_weak : nat; c_freed : nat }.

(** Contents of a variable: the two pointer members of _RcObjBase (278-281)
    and _WeakObjBase (206-209), the one of _BoxObj (60-63). *)
Inductive var :=
| VNone                                  (* no object in this variable *)
| VRc (o : option nat) (c : option nat)
| VWk (o : option nat) (c : option nat)
| VBox (o : option nat).

(** Objects, control blocks (ref.h 157-176), the user's variables. *)
Record mem := mkMem {
  m_objs : list nat;      (* per object: times destroyed *)
  m_ctls : list ctl;
  m_vars : list var;
  m_raw : list nat }.     (* objects handed to the caller by unwrap() *)

(** Model only: the result of a program. *)
Inductive ares := AOk (m : mem) | ABad | AUndef.

(** Model only: one program after the other. *)
Definition abind (r : ares) (f : mem -> ares) : ares :=
  match r with AOk m => f m | ABad => ABad | AUndef => AUndef end.

(** Model only: one entry replaced. *)
Fixpoint repl {A} (n : nat) (v : A) (l : list A) : list A :=
  match l, n with
  | [], _ => []
  | _ :: l, O => v :: l
  | x :: l, S n => x :: repl n v l
  end.

(** Model only: the state with one field replaced. *)
Definition set_var x v m := mkMem (m_objs m) (m_ctls m) (repl x v (m_vars m)) (m_raw m).
Definition set_ctl c k m := mkMem (m_objs m) (repl c k (m_ctls m)) (m_vars m) (m_raw m).
Definition get_var x m : var := nth x (m_vars m) VNone.

(** Access to a control block; a freed one may not be touched. *)
Definition with_ctl (c : nat) (f : ctl -> ares) (m : mem) : ares :=
  match nth_error (m_ctls m) c with
  | Some k => if c_freed k =? 0 then f k else AUndef
  | None => AUndef
  end.

(** ref.h 160, 161. *)
Definition add_ref (c : nat) (m : mem) : ares :=
  with_ctl c (fun k => AOk (set_ctl c (mkCtl (S (c_ref k)) (c_weak k) 0) m)) m.
Definition add_weak (c : nat) (m : mem) : ares :=
  with_ctl c (fun k => AOk (set_ctl c (mkCtl (c_ref k) (S (c_weak k)) 0) m)) m.

(** ref.h 33-43, D()(obj). *)
Definition destroy (o : option nat) (m : mem) : ares :=
  match o with
  | None => AOk m
  | Some o => match nth_error (m_objs m) o with
              | Some d => AOk (mkMem (repl o (S d) (m_objs m)) (m_ctls m) (m_vars m) (m_raw m))
              | None => AUndef
              end
  end.

(** ref.h 162-167 and 363-366, ~_RcObjBase. *)
Definition release_ref (o : option nat) (c : nat) (m : mem) : ares :=
  with_ctl c (fun k =>
    match c_ref k with
    | O => AUndef       (* the counter would wrap *)
    | S n =>
      let m := set_ctl c (mkCtl n (c_weak k) (if (n =? 0) && (c_weak k =? 0) then 1 else 0)) m in
      if n =? 0 then destroy o m else AOk m
    end) m.

(** ref.h 168-172 and 248, ~_WeakObjBase. *)
Definition release_weak (c : nat) (m : mem) : ares :=
  with_ctl c (fun k =>
    match c_weak k with
    | O => AUndef
    | S n => AOk (set_ctl c (mkCtl (c_ref k) n (if (n =? 0) && (c_ref k =? 0) then 1 else 0)) m)
    end) m.

(** The destructors: ref.h 83-85, 248, 363-366. *)
Definition destruct_value (v : var) (m : mem) : ares :=
  match v with
  | VRc o (Some c) => release_ref o c m
  | VWk _ (Some c) => release_weak c m
  | VBox (Some o) => destroy (Some o) m
  | _ => AOk m
  end.

(** Model only: equality test. *)
Definition is_none (v : var) : bool := match v with VNone => true | _ => false end.
Definition fresh (x : nat) (m : mem) : bool := (x <? length (m_vars m)) && is_none (get_var x m).

(** Copy construction: ref.h 214-217, 291-301, static_pointer_cast of an
    lvalue 444-452.  BoxObj has none (72). *)
Definition op_copy (x y : nat) (m : mem) : ares :=
  if fresh x m then
    match get_var y m with
    | VRc o None => AOk (set_var x (VRc o None) m)
    | VRc o (Some c) => abind (add_ref c m) (fun m => AOk (set_var x (VRc o (Some c)) m))
    | VWk o None => AOk (set_var x (VWk o None) m)
    | VWk o (Some c) => abind (add_weak c m) (fun m => AOk (set_var x (VWk o (Some c)) m))
    | _ => ABad
    end
  else ABad.

(** Move construction: ref.h 73-81, 219-222, 296-312, static_pointer_cast of
    an rvalue 454-461.  Rc and Weak clear the control pointer only. *)
Definition op_move (x y : nat) (m : mem) : ares :=
  if fresh x m then
    match get_var y m with
    | VRc o c => AOk (set_var y (VRc o None) (set_var x (VRc o c) m))
    | VWk o c => AOk (set_var y (VWk o None) (set_var x (VWk o c) m))
    | VBox o => AOk (set_var y (VBox None) (set_var x (VBox o) m))
    | VNone => ABad
    end
  else ABad.

(** ref.h 87, 224-227, 314-317, swap. *)
Definition op_swap (x y : nat) (m : mem) : ares :=
  let a := get_var x m in let b := get_var y m in
  AOk (set_var x b (set_var y a m)).

(** End of a variable's life. *)
Definition op_drop (x : nat) (m : mem) : ares :=
  abind (destruct_value (get_var x m) m) (fun m => AOk (set_var x VNone m)).

(** Model only: equality test. *)
Definition same_kind (a b : var) : bool :=
  match a, b with VRc _ _, VRc _ _ | VWk _ _, VWk _ _ | VBox _, VBox _ => true | _, _ => false end.

(** Entering and leaving the scope of a local variable. *)
Definition push_slot (m : mem) : mem := mkMem (m_objs m) (m_ctls m) (m_vars m ++ [VNone]) (m_raw m).
Definition pop_slot (m : mem) : mem := mkMem (m_objs m) (m_ctls m) (removelast (m_vars m)) (m_raw m).

(** ref.h 90-97, 229-245, 319-335: assignment through a local [tmp]. *)
Definition op_assign (mk : nat -> nat -> mem -> ares) (x y : nat) (m : mem) : ares :=
  if same_kind (get_var x m) (get_var y m) then
    if x =? y then AOk m
    else
      let t := length (m_vars m) in
      abind (mk t y (push_slot m)) (fun m =>
      abind (op_swap t x m) (fun m =>
      abind (op_drop t m) (fun m => AOk (pop_slot m))))
  else ABad.

(** What the user does with the smart pointers. *)
Inductive op :=
| OpNewRc (x : nat)            (* RcObj(new T) *)
| OpNewBox (x : nat)           (* BoxObj(new T) *)
| OpNull (x : nat) (v : var)   (* default construction *)
| OpCopy (x y : nat) | OpMove (x y : nat)
| OpAssign (x y : nat) | OpMoveAssign (x y : nat)
| OpDrop (x : nat)
| OpWeak (x y : nat)           (* WeakObj(const RcObj &) *)
| OpUpgrade (x y : nat)        (* RcObj(const WeakObj &) *)
| OpFromBox (x y : nat)        (* RcObj(BoxObj &&) *)
| OpUnwrap (x : nat)           (* BoxObj::unwrap *)
| OpCastBox (x y : nat).       (* static_pointer_cast(BoxObj &&) *)

Definition exec (o : op) (m : mem) : ares :=
  match o with
  | OpNewRc x =>                                                       (* 286, 174 *)
    if fresh x m then
      AOk (mkMem (m_objs m ++ [0]) (m_ctls m ++ [mkCtl 1 0 0])
             (repl x (VRc (Some (length (m_objs m))) (Some (length (m_ctls m)))) (m_vars m)) (m_raw m))
    else ABad
  | OpNewBox x =>                                                      (* 71 *)
    if fresh x m then
      AOk (mkMem (m_objs m ++ [0]) (m_ctls m) (repl x (VBox (Some (length (m_objs m)))) (m_vars m)) (m_raw m))
    else ABad
  | OpNull x v =>                                                      (* 70, 212, 285 *)
    if fresh x m then
      match v with
      | VRc None None | VWk None None | VBox None => AOk (set_var x v m)
      | _ => ABad
      end
    else ABad
  | OpCopy x y => op_copy x y m
  | OpMove x y => op_move x y m
  | OpAssign x y => op_assign op_copy x y m
  | OpMoveAssign x y => op_assign op_move x y m
  | OpDrop x => op_drop x m
  | OpWeak x y =>                                                      (* 463-468 *)
    if fresh x m then
      match get_var y m with
      | VRc o None => AOk (set_var x (VWk o None) m)
      | VRc o (Some c) => abind (add_weak c m) (fun m => AOk (set_var x (VWk o (Some c)) m))
      | _ => ABad
      end
    else ABad
  | OpUpgrade x y =>                                                   (* 337-361 *)
    if fresh x m then
      match get_var y m with
      | VWk o None => AOk (set_var x (VRc None None) m)
      | VWk o (Some c) =>
        with_ctl c (fun k =>
          if c_ref k =? 0 then AOk (set_var x (VRc None None) m)
          else abind (add_ref c m) (fun m => AOk (set_var x (VRc o (Some c)) m))) m
      | _ => ABad
      end
    else ABad
  | OpFromBox x y =>                                                   (* 287-289 *)
    if fresh x m then
      match get_var y m with
      | VBox o =>
        AOk (set_var y (VBox None)
              (mkMem (m_objs m) (m_ctls m ++ [mkCtl 1 0 0]) (repl x (VRc o (Some (length (m_ctls m)))) (m_vars m)) (m_raw m)))
      | _ => ABad
      end
    else ABad
  | OpUnwrap x =>                                                      (* 101-105 *)
    match get_var x m with
    | VBox None => AOk m
    | VBox (Some o) => AOk (mkMem (m_objs m) (m_ctls m) (repl x (VBox None) (m_vars m)) (m_raw m ++ [o]))
    | _ => ABad
    end
  | OpCastBox x y =>                                                   (* 150-155 *)
    if fresh x m then
      match get_var y m with
      | VBox o => AOk (set_var x (VBox o) m)
      | _ => ABad
      end
    else ABad
  end.

(** A run: one event after the other; it stops where an event cannot happen.  Model only. *)
Fixpoint execs (os : list op) (m : mem) : ares :=
  match os with
  | [] => AOk m
  | o :: os => abind (exec o m) (execs os)
  end.

(** [n] variables, nothing created yet. *)
Definition minit (n : nat) : mem := mkMem [] [] (repeat VNone n) [].

(** ref.h 369, 108 (get, operator bool) and 368 (get_cnt). *)
Definition is_null (v : var) : bool := match v with VRc None _ | VBox None => true | _ => false end.
Definition get_cnt (v : var) (m : mem) : option nat :=
  match v with
  | VRc _ (Some c) => match nth_error (m_ctls m) c with Some k => Some (c_ref k) | None => None end
  | VRc _ None => Some 0
  | _ => None
  end.
