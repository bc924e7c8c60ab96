(** Fatal errors: what a network does after a task of one of its threads has
    failed (include/salticidae/conn.h 239-360, 519-541, 549-588, 630-638;
    include/salticidae/event.h 761-779, 804-805; src/conn.cpp 276-359, 437-451;
    include/salticidae/network.h 1071, 1151, 1184, 1206-1214, 1230, 1249, 1274).

    The network has been started.  Each thread has a queue of tasks (its
    ThreadCall); that of the dispatcher, which is the first of the workers, is
    stopped by a fatal error.  Besides its queue the dispatcher has the events
    of sockets and timers, and a second ThreadCall used only to end it.

    Simplified: a connection is there, set up or not, until it is closed; what
    is received and sent is not here; a task of ping or pong messages, of the
    user, or of their other threads is one kind of task; the user has
    registered an error handler. *)
From Coq Require Import Arith List Bool.
Import ListNotations.

(** Tasks of the threads' queues. *)
Inductive task :=
| TCall (id : nat) (sync : bool)   (* an operation of the user, or a message of a peer (not sync); sync: the caller waits *)
| TFwd (e : nat)                   (* conn.h 529-532 *)
| TFeed (c : nat)                  (* conn.h 289-333 *)
| TSetup (c : nat)                 (* conn.h 317-325 *)
| TDel (c : nat)                   (* conn.cpp 281-283 *)
| TStop.                           (* conn.h 337-339 *)

(** A connection: not there; dialled; open, not known to its worker yet; fed; set up; ended (the dispatcher has still to
    close it); closed. *)
Inductive phase := Fresh | Dialled | Open | Fed | Up | Ended | Closed.
(** A thread: running, over, joined. *)
Inductive tstat := Run | Over | Joined.
(** Where stop() is. *)
Inductive pos := Tell (i : nat) | Join (i : nat) | Tear.

Record st := mkS {
  s_q : nat -> list task;
  s_stop : bool;                   (* stopped of the dispatcher's ThreadCall, event.h 698 *)
  s_exit : bool;                   (* a task waits in exit_tcall, conn.h 242 *)
  s_uq : list nat;                 (* fatal errors the user's loop has still to hear of *)
  s_thr : nat -> tstat;
  s_conn : nat -> phase;
  s_work : nat -> nat;             (* Conn::worker *)
  s_max : nat;                     (* connections are numbered in order *)
  s_pc : option pos;               (* stop() is being executed *)
  s_off : bool }.                  (* system_state is 2 *)

(** Model only: the state after start(). *)
Definition init : st := mkS (fun _ => []) false false [] (fun _ => Run) (fun _ => Fresh) (fun _ => 0) 0 None false.

(** What can be seen: a fatal error occurs in a thread; the user's handler is called with it; an operation is
    executed; a waiting caller goes on, with a result or with an exception; a connection is opened, is set up, is closed;
    stop() returns. *)
Inductive obs :=
| OFatal (i e : nat) | OReport (e : nat) | ODone (id : nat) | OAns (id : nat) (ok : bool)
| OOpen (c : nat) | OServe (c : nat) | OClose (c : nat) | ORet.

Inductive ev :=
| ECall (id : nat) (sync : bool)   (* the user calls an operation, or a worker hands a message on *)
| EDisp (bad : option nat)         (* the dispatcher executes its next task; [Some e]: which fails with e *)
| EWork (i : nat) (bad : option nat)
| ETimer (bad : option nat)        (* a timer of the dispatcher *)
| EAccept (w : nat)                (* the dispatcher accepts a connection (conn.cpp 301-337), for some worker *)
| EDial                            (* a timer dials (network.h 1206-1214, conn.cpp 393-435); dials of the user's tasks are not apart *)
| EEstab (c w : nat)               (* a connection that was dialled is established (conn.cpp 339-349) *)
| EFail (c : nat)                  (* or not (350-358) *)
| EEnd (c : nat)                   (* a connection is lost or terminated *)
| EUser                            (* the user's loop *)
| EStop                            (* the user calls stop() *)
| EGo                              (* stop() goes on *)
| EExit.                           (* the dispatcher executes the task in exit_tcall *)

(** Model only: one entry replaced. *)
Definition upd {B} (f : nat -> B) (i : nat) (v : B) : nat -> B := fun j => if j =? i then v else f j.
(** Model only: updates of the state. *)
Definition set_q f s := mkS f (s_stop s) (s_exit s) (s_uq s) (s_thr s) (s_conn s) (s_work s) (s_max s) (s_pc s) (s_off s).
Definition set_uq l s := mkS (s_q s) (s_stop s) (s_exit s) l (s_thr s) (s_conn s) (s_work s) (s_max s) (s_pc s) (s_off s).
Definition set_thr f s := mkS (s_q s) (s_stop s) (s_exit s) (s_uq s) f (s_conn s) (s_work s) (s_max s) (s_pc s) (s_off s).
Definition set_conn f s := mkS (s_q s) (s_stop s) (s_exit s) (s_uq s) (s_thr s) f (s_work s) (s_max s) (s_pc s) (s_off s).
Definition set_pc p o s := mkS (s_q s) (s_stop s) (s_exit s) (s_uq s) (s_thr s) (s_conn s) (s_work s) (s_max s) p o.
Definition set_stop s := mkS (s_q s) true (s_exit s) (s_uq s) (s_thr s) (s_conn s) (s_work s) (s_max s) (s_pc s) (s_off s).
Definition set_exit b s := mkS (s_q s) (s_stop s) b (s_uq s) (s_thr s) (s_conn s) (s_work s) (s_max s) (s_pc s) (s_off s).
Definition set_work f s := mkS (s_q s) (s_stop s) (s_exit s) (s_uq s) (s_thr s) (s_conn s) f (s_max s) (s_pc s) (s_off s).
Definition grow x s := mkS (s_q s) (s_stop s) (s_exit s) (s_uq s) (s_thr s) (upd (s_conn s) (s_max s) x)
                           (s_work s) (S (s_max s)) (s_pc s) (s_off s).
(** Model only: async_call, event.h 787-792: the task is put at the end of a queue. *)
Definition post (i : nat) (t : task) (s : st) : st := set_q (upd (s_q s) i (s_q s i ++ [t])) s.
(** Model only: does a thread run? *)
Definition runs (s : st) (i : nat) : bool := match s_thr s i with Run => true | _ => false end.

(** disp_error_cb, conn.h 519-526 *)
Definition disp_error (e : nat) (s : st) : st := set_uq (s_uq s ++ [e]) (set_stop s).
(** The callback of a worker: conn.h 528-533, 534-541; the dispatcher's is disp_error_cb *)
Definition on_fatal (i e : nat) (s : st) : st := match i with 0 => disp_error e s | S _ => post 0 (TFwd e) s end.

(** A task of a thread's queue is executed; [bad]: its body throws. *)
Definition exec (i : nat) (bad : option nat) (t : task) (s : st) : st * list obs :=
  match t with
  | TCall id sync => (* network.h 1071, 1151, 1184, 1230, 1249, 1274; conn.h 630-638 *)
      match bad, sync with
      | Some e, false => (on_fatal i e s, [OFatal i e])
      | Some _, true => (s, [OAns id false])             (* the caller gets the exception: event.h 770-773 *)
      | None, false => (s, [ODone id])
      | None, true => (s, [ODone id; OAns id true])
      end
  | TFwd e => (disp_error e s, [])
  | TFeed c => (* conn.h 289-333 *)
      match bad with
      | Some e => (on_fatal i e s, [OFatal i e])
      | None => match s_conn s c with
                | Open => (post 0 (TSetup c) (set_conn (upd (s_conn s) c Fed) s), [])
                | _ => (s, [])
                end
      end
  | TSetup c => match s_conn s c with
                | Fed => (set_conn (upd (s_conn s) c Up) s, [OServe c])
                | Ended => (s, [OServe c])
                | _ => (s, [])
                end
  | TDel c => match s_conn s c with
              | Ended => (set_conn (upd (s_conn s) c Closed) s, [OClose c])
              | _ => (s, [])
              end
  | TStop => (set_thr (upd (s_thr s) i Over) s, [])
  end.

(** event.h 767-775: a task of a stopped ThreadCall is not executed; a waiting caller gets an exception *)
Definition refuse (t : task) : list obs := match t with TCall id true => [OAns id false] | _ => [] end.

(** Model only: the workers that stop() and the error handler end. *)
Definition tell_all (n : nat) (s : st) : st := set_q (fun i => if (1 <=? i) && (i <? n) then s_q s i ++ [TStop] else s_q s i) s.
(** Has a connection an entry in the pool? *)
Definition in_pool (x : phase) : bool := match x with Dialled | Open | Fed | Up | Ended => true | _ => false end.
(** Model only: the connections of the pool. *)
Definition pooled (s : st) : list nat := filter (fun c => in_pool (s_conn s c)) (seq 0 (s_max s)).

(** stop_workers goes on, conn.h 559-580; [n] is the number of workers *)
Definition go (n : nat) (s : st) : option (st * list obs) :=
  match s_pc s with
  | None => None
  | Some (Tell 0) => Some (set_pc (Some (Join 0)) true (set_exit true s), [])          (* 564, 341-344 *)
  | Some (Join 0) => match s_thr s 0 with                                              (* 565 *)
                     | Over => Some (set_pc (Some (if 1 <? n then Tell 1 else Tear)) true (set_thr (upd (s_thr s) 0 Joined) s), [])
                     | _ => None
                     end
  | Some (Tell i) => Some (set_pc (Some (if S i <? n then Tell (S i) else Join 1)) true (post i TStop s), [])   (* 567-568 *)
  | Some (Join i) => match s_thr s i with                                              (* 570-571 *)
                     | Over => Some (set_pc (Some (if S i <? n then Join (S i) else Tear)) true (set_thr (upd (s_thr s) i Joined) s), [])
                     | _ => None
                     end
  | Some Tear => (* 572-579 *)
      Some (set_pc None true (set_conn (fun c => if in_pool (s_conn s c) then Closed else s_conn s c) s), map OClose (pooled s) ++ [ORet])
  end.

(** One step. *)
Definition step (n : nat) (e : ev) (s : st) : option (st * list obs) :=
  match e with
  | ECall id sync => Some (post 0 (TCall id sync) s, [])
  | EDisp bad => (* event.h 762-778 *)
      match s_q s 0 with
      | t :: q => if runs s 0 then
                    let s := set_q (upd (s_q s) 0 q) s in
                    if s_stop s then Some (s, refuse t) else Some (exec 0 bad t s)
                  else None
      | [] => None
      end
  | EWork i bad =>
      match i, s_q s i with
      | S _, t :: q => if runs s i && (i <? n) then Some (exec i bad t (set_q (upd (s_q s) i q) s)) else None
      | _, _ => None
      end
  | ETimer bad => (* network.h 1206-1214 *)
      if runs s 0 then match bad with Some e => Some (disp_error e s, [OFatal 0 e]) | None => Some (s, []) end else None
  | EAccept w => (* conn.cpp 304-335 *)
      if runs s 0 && (w <? n) then Some (post w (TFeed (s_max s)) (set_work (upd (s_work s) (s_max s) w) (grow Open s)), [OOpen (s_max s)]) else None
  | EDial => if runs s 0 then Some (grow Dialled s, [OOpen (s_max s)]) else None
  | EEstab c w => (* conn.cpp 341-348 *)
      match s_conn s c with
      | Dialled => if runs s 0 && (w <? n) then Some (post w (TFeed c) (set_work (upd (s_work s) c w) (set_conn (upd (s_conn s) c Open) s)), []) else None
      | _ => None
      end
  | EFail c => (* conn.cpp 355-357, 293-298 *)
      match s_conn s c with
      | Dialled => if runs s 0 then Some (post 0 (TDel c) (set_conn (upd (s_conn s) c Ended) s), []) else None
      | _ => None
      end
  | EEnd c => (* conn.cpp 276-285 *)
      match s_conn s c with
      | Fed | Up => if runs s (s_work s c) then Some (post 0 (TDel c) (set_conn (upd (s_conn s) c Ended) s), []) else None
      | _ => None
      end
  | EUser => (* conn.h 521-525 *)
      match s_uq s with
      | e :: l => Some (tell_all n (set_uq l s), [OReport e])
      | [] => None
      end
  | EStop => (* conn.h 559-561 *)
      match s_pc s with
      | Some _ => None
      | None => if s_off s then Some (s, [ORet]) else Some (set_pc (Some (Tell 0)) true s, [])
      end
  | EGo => go n s
  | EExit => (* conn.h 341-344: exit_tcall is not stopped by fatal errors *)
      if s_exit s && runs s 0 then Some (set_exit false (set_thr (upd (s_thr s) 0 Over) s), []) else None
  end.

(** A run, with what was seen.  Model only. *)
Fixpoint run (n : nat) (es : list ev) (s : st) : option (st * list obs) :=
  match es with
  | [] => Some (s, [])
  | e :: es => match step n e s with
               | Some (s1, o1) => match run n es s1 with Some (s2, o2) => Some (s2, o1 ++ o2) | None => None end
               | None => None end
  end.
