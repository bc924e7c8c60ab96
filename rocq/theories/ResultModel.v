(** The results of ThreadCall (include/salticidae/event.h 525-544, 692-807): the
    class Result, which owns a value behind a void pointer together with a
    deleter; Handle, which a task uses to set its result; ThreadNotifier, through
    which a waiting caller gets it.

    Values are named by numbers that are never used again (an address of the
    heap may be).  A deleter is named by the type it deletes. *)
From Coq Require Import Arith List Bool.
Import ListNotations.

(** event.h 701-704: data, error, deleter ([None]: empty std::function). *)
Record res := mkR { r_data : option nat; r_err : option nat; r_del : option nat }.
(** event.h 705. *)
Definition res0 : res := mkR None None None.

(** What happens to values.  [OBad]: use of a value that is gone, deletion of
    one, deletion as another type, or a call of an empty deleter. *)
Inductive obs :=
| ONew (a ty : nat)
| ODel (a ty : nat)
| OBad.

(** Values alive, with type and content; next name; how many std::functions
    have been moved from; history. *)
Record world := mkW { w_heap : list (nat * (nat * nat)); w_next : nat; w_moved : nat; w_log : list obs }.
(** Model only: the state at the beginning. *)
Definition w0 : world := mkW [] 0 0 [].

(** Model only: the value at an address. *)
Fixpoint look (a : nat) (h : list (nat * (nat * nat))) : option (nat * nat) :=
  match h with [] => None | (b, x) :: h => if b =? a then Some x else look a h end.
(** Model only: something is recorded. *)
Definition say (o : obs) (w : world) : world := mkW (w_heap w) (w_next w) (w_moved w) (w_log w ++ [o]).

(** A moved-from std::function is valid but unspecified: [junk n] is what the
    n-th one holds. *)
Section Junk.
Variable junk : nat -> option nat.

(** event.h 706-707, with the value allocated as in 754-755. *)
Definition res_new (ty v : nat) (w : world) : res * world :=
  (mkR (Some (w_next w)) None (Some ty),
   mkW (w_heap w ++ [(w_next w, (ty, v))]) (S (w_next w)) (w_moved w) (w_log w ++ [ONew (w_next w) ty])).

(** event.h 708, 755: the destructor. *)
Definition res_destroy (r : res) (w : world) : world :=
  match r_data r with
  | None => w
  | Some a =>
      match r_del r, look a (w_heap w) with
      | Some ty, Some (ty', _) =>
          if ty =? ty' then mkW (filter (fun x => negb (fst x =? a)) (w_heap w)) (w_next w) (w_moved w) (w_log w ++ [ODel a ty])
          else say OBad w
      | _, _ => say OBad w
      end
  end.

(** event.h 710-715: move constructor; the new object and what is left of the
    old one.  A moved-from exception_ptr is null (libstdc++, libc++). *)
Definition res_move (o : res) (w : world) : res * res * world :=
  (mkR (r_data o) (r_err o) (r_del o),
   mkR None None (junk (w_moved w)),
   mkW (w_heap w) (w_next w) (S (w_moved w)) (w_log w)).

(** event.h 722-729: move assignment between different objects: the object
    assigned to, what is left of the other; 716-720 swap. *)
Definition res_assign (this other : res) (w : world) : res * res * world :=
  let '(tmp, other', w1) := res_move other w in
  let '(tmp', this') := (this, tmp) in
  (this', other', res_destroy tmp' w1).

(** event.h 730-733: get(), and the value behind the pointer. *)
Inductive got := GNull | GVal (ty v : nat) | GExc (e : nat) | GBad.
Definition res_get (r : res) (w : world) : got :=
  match r_err r with
  | Some e => GExc e
  | None => match r_data r with
            | None => GNull
            | Some a => match look a (w_heap w) with Some (ty, v) => GVal ty v | None => GBad end
            end
  end.

(** event.h 751-756: set_result; the temporary dies at the end of it. *)
Definition set_result (ty v : nat) (r : res) (w : world) : res * world :=
  let '(t, w1) := res_new ty v w in
  let '(r', t', w2) := res_assign r t w1 in
  (r', res_destroy t' w2).

(** A task: the results it sets, in order (type, value), and the exception it
    ends with, if any. *)
Record task := mkTask { t_sets : list (nat * nat); t_throw : option nat }.
(** A callback that sets its results one after the other (event.h 746-748). *)
Fixpoint callback (sets : list (nat * nat)) (r : res) (w : world) : res * world :=
  match sets with
  | [] => (r, w)
  | (ty, v) :: sets => let '(r, w) := set_result ty v r w in callback sets r w
  end.

(** SALTI_ERROR_NOT_AVAIL, thrown at event.h 769; the type int of 771's 0. *)
Definition not_avail : nat := 0.
Definition t_int : nat := 0.

(** event.h 766-774: one round of the loop; 743-750 exec and return_sync, 538-543
    notify, 534-537 wait and the end of the notifier.  [None]: nobody waits. *)
Definition exec (stopped sync : bool) (t : task) (w : world) : option res * world :=
  let '(r, exc, w) := if stopped then (res0, Some not_avail, w)
                      else let '(r, w) := callback (t_sets t) res0 w in (r, t_throw t, w) in
  let '(r, w) := match exc with
                 | None => (r, w)
                 | Some e => let '(r, w) := set_result t_int 0 r w in (mkR (r_data r) (Some e) (r_del r), w)
                 end in
  if sync then
    let '(n, r, w) := res_assign res0 r w in       (* 541 *)
    let w := res_destroy r w in                    (* 774: delete h *)
    let '(ret, n, w) := res_move n w in            (* 536 *)
    (Some ret, res_destroy n w)                    (* 801-802 *)
  else (None, res_destroy r w).                    (* 774 *)

(** The results callers hold ([None]: destroyed), the tasks waiting. *)
Record st := mkSt { s_slots : list (option res); s_q : list (bool * task); s_stop : bool; s_gone : bool; s_w : world }.
(** Model only: the state at the beginning. *)
Definition st0 : st := mkSt [] [] false false w0.

Inductive ev :=
| VCall (sync : bool) (t : task)   (* call, async_call: 786-802 *)
| VRun                             (* the loop takes a task: 765-775 *)
| VStop                            (* 805 *)
| VGone                            (* ~ThreadCall: 781-784; tasks not run have set no result *)
| VMake                            (* caller: Result r; *)
| VMove (i : nat)                  (* caller: Result r(std::move(i)) *)
| VAssign (i j : nat)              (* caller: i = std::move(j) *)
| VDrop (i : nat)                  (* caller: i goes out of scope *)
| VGet (i : nat).                  (* caller: i.get() *)

(** Model only: one entry replaced. *)
Fixpoint put {A} (i : nat) (x : A) (l : list A) : list A :=
  match l, i with [], _ => [] | _ :: l, O => x :: l | y :: l, S i => y :: put i x l end.
(** Model only: a variable of the user. *)
Definition slot (i : nat) (l : list (option res)) : option res := match nth_error l i with Some (Some r) => Some r | _ => None end.

Definition step (e : ev) (s : st) : option (st * list (nat * got)) :=
  let '(mkSt l q sp gone w) := s in
  match e with
  | VCall sync t => if gone then None else Some (mkSt l (q ++ [(sync, t)]) sp gone w, [])
  | VRun => match q with
            | [] => None
            | (sync, t) :: q => let '(r, w) := exec sp sync t w in
                                Some (mkSt (match r with Some r => l ++ [Some r] | None => l end) q sp gone w, [])
            end
  | VStop => if gone then None else Some (mkSt l q true gone w, [])
  | VGone => if gone then None else Some (mkSt l [] sp true w, [])
  | VMake => Some (mkSt (l ++ [Some res0]) q sp gone w, [])
  | VMove i => match slot i l with
               | Some r => let '(n, r, w) := res_move r w in Some (mkSt (put i (Some r) l ++ [Some n]) q sp gone w, [])
               | None => None
               end
  | VAssign i j => match slot i l, slot j l with
                   | Some a, Some b => if i =? j then Some (s, [])       (* 723 *)
                                       else let '(a, b, w) := res_assign a b w in Some (mkSt (put i (Some a) (put j (Some b) l)) q sp gone w, [])
                   | _, _ => None
                   end
  | VDrop i => match slot i l with Some r => Some (mkSt (put i None l) q sp gone (res_destroy r w), []) | None => None end
  | VGet i => match slot i l with Some r => Some (s, [(i, res_get r w)]) | None => None end
  end.
Fixpoint run (es : list ev) (s : st) : option (st * list (nat * got)) :=
  match es with
  | [] => Some (s, [])
  | e :: es => match step e s with
               | Some (s1, o1) => match run es s1 with Some (s2, o2) => Some (s2, o1 ++ o2) | None => None end
               | None => None
               end
  end.
End Junk.

(** ** ThreadNotifier: the two threads (event.h 525-544) *)

(** The caller: constructed (the lock is taken by the constructor, 533),
    in cv.wait with the lock given up (535), woken and wanting the lock, with the
    lock again, returned (536; the notifier is then destroyed). *)
Inductive wpc := WHold | WSleep | WWant | WBack | WGone.
(** The loop's thread in notify: before the lock (539), with the lock and ready
    unset, ready set (540), data set (541), notified (542), out (543). *)
Inductive npc := NStart | NLocked | NReady | NData | NTold | NOut.
Record hs := mkH { h_w : wpc; h_n : npc; h_ready : bool; h_data : option nat; h_ret : option (option nat); h_bad : bool }.
Definition hs0 : hs := mkH WHold NStart false None None false.
Inductive hev :=
| HWait             (* 535: the predicate is looked at; sleep if it is false *)
| HWake             (* a spurious wake-up, 535 *)
| HGetLock          (* the caller gets the lock again *)
| HReturn           (* 535-536: the predicate holds *)
| HNotify.          (* the next step of notify *)
(** Who has the lock. *)
Definition w_has (p : wpc) : bool := match p with WHold | WBack => true | _ => false end.
Definition n_has (p : npc) : bool := match p with NLocked | NReady | NData | NTold => true | _ => false end.
Definition hstep (v : nat) (e : hev) (s : hs) : option hs :=
  let '(mkH w n rd d ret bad) := s in
  match e with
  | HWait => match w with WHold | WBack => if rd then None else Some (mkH WSleep n rd d ret bad) | _ => None end
  | HWake => match w with WSleep => Some (mkH WWant n rd d ret bad) | _ => None end
  | HGetLock => match w with WWant => if n_has n then None else Some (mkH WBack n rd d ret bad) | _ => None end
  | HReturn => match w with WHold | WBack => if rd then Some (mkH WGone n rd None (Some d) bad) else None | _ => None end
  | HNotify =>
      (* any step on a notifier that is gone is bad *)
      let bad := match w with WGone => true | _ => bad end in
      match n with
      | NStart => if w_has w then None else Some (mkH w NLocked rd d ret bad)
      | NLocked => Some (mkH w NReady true d ret bad)
      | NReady => Some (mkH w NData rd (Some v) ret bad)
      | NData => Some (mkH (match w with WSleep => WWant | w => w end) NTold rd d ret bad)
      | NTold => Some (mkH w NOut rd d ret bad)
      | NOut => None
      end
  end.
(** A run: one event after the other; it stops where an event cannot happen.  Model only. *)
Fixpoint hrun (v : nat) (es : list hev) (s : hs) : option hs :=
  match es with [] => Some s | e :: es => match hstep v e s with Some s => hrun v es s | None => None end end.
