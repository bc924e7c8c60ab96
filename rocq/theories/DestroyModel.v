(** Destroying a network while it works: MsgNetwork, ClientNetwork and
    PeerNetwork objects with their threads (include/salticidae/conn.h 151-222,
    239-355, 500-600; src/conn.cpp 276-337, 437-460; include/salticidae/network.h
    126-196, 272-311, 612, 1366-1414).

    The object consists of the members of its classes: those of the pool,
    those of MsgNetwork and, in a ClientNetwork or PeerNetwork, the table.  A
    destructor first executes its body, then destroys the members of its class;
    the destructors of the classes follow each other from the derived class to
    the pool, and the virtual functions are those of the class whose destructor
    runs.  Meanwhile the threads go on until they are told to stop.

    Simplified: the user calls start, stop and the destructor from the thread
    of their event loop, so none of their callbacks runs meanwhile; of the
    tasks of the threads only those of connections, of the table and of peers'
    timers are there, each as one step; what a connection does between them is
    PoolModel's subject. *)
From Coq Require Import Arith List Bool.
Import ListNotations.

(** The three classes of networks. *)
Inductive kind := KMsg | KClient | KPeer.
(** Groups of members: addr2conn (network.h 280) or known_peers and what belongs
    to it (network.h 500-534); incoming_msgs and handler_map (network.h 126-132);
    the members of the pool, with the threads' task queues (conn.h 151-222). *)
Inductive part := Tab | Que | Pool.
(** The class whose virtual functions are called now. *)
Inductive level := LDer | LMsg | LPool.

(** A thread (conn.h 263-270): not started; running; told to stop; over; joined. *)
Inductive tstat := TNone | TRun | TTold | TDone | TJoined.
(** A connection: none yet; in the pool, its worker still to be fed (conn.h 289-333);
    fed, its setup still to be done by the dispatcher; set up; torn down by its worker before the
    setup, after it, still to be deleted; deleted. *)
Inductive phase := Fresh | Accepted | Fed | Up | Doomed | Dying | Gone.

(** Steps of stop and of the destructors.  A thread is told to stop, then joined. *)
Inductive instr :=
| IStop                  (* stop_workers: conn.h 559-561 *)
| ITell (i : nat)        (* conn.h 564 (i = 0), 567-568 *)
| IJoin (i : nat)        (* conn.h 565 (i = 0), 570-571 *)
| ITear                  (* conn.h 572-579 *)
| IFree (p : part)       (* members of a class are destroyed *)
| IAs (l : level).       (* the destructor of the next class begins *)

Record st := mkS {
  s_sys : nat;                     (* system_state, conn.h 151 *)
  s_thr : nat -> tstat;
  s_dead : part -> bool;
  s_lev : level;
  s_pc : list instr;               (* what the user's call of stop or of the destructor has still to do *)
  s_over : bool;                   (* the destructor was called *)
  s_conn : nat -> phase;
  s_work : nat -> nat;             (* Conn::worker *)
  s_max : nat;                     (* connections are numbered in order *)
  s_task : nat }.                  (* tasks of the user that wait for the dispatcher and use the table *)
(** Model only: the state at the beginning. *)
Definition init : st := mkS 0 (fun _ => TNone) (fun _ => false) LDer [] false (fun _ => Fresh) (fun _ => 0) 0 0.

(** What can be seen: uses of the members ([true]: of members that are there), connections
    closed, the process aborted, the call returned, the call threw. *)
Inductive obs := OUse (p : part) (ok : bool) | OClose (c : nat) | OAbort | ORet | OThrow.

Inductive ev :=
| UStart (fail : option nat)       (* start(); [Some j]: the j-th thread cannot be created *)
| UStop | UDestroy
| UTask                            (* send_msg_deferred with an address or peer, add_peer, conn_peer, ... *)
| UGo                              (* the user's thread goes on with stop() or the destructor *)
| TEnd (i : nat)                   (* a thread that was told to stop ends *)
| DAccept (w : nat)                (* the dispatcher accepts or dials *)
| WFeed (c : nat)                  (* the worker is fed *)
| DSetup (c : nat)                 (* the dispatcher sets the connection up *)
| WRead (c : nat)                  (* the worker receives *)
| WTerm (c : nat)                  (* the worker terminates the connection *)
| DDel (c : nat)                   (* the dispatcher deletes it *)
| DTask                            (* the dispatcher executes a task of the user *)
| DTimer.                          (* a peer's timer *)

(** Model only: one entry replaced. *)
Definition upd {B} (f : nat -> B) (i : nat) (v : B) : nat -> B := fun j => if j =? i then v else f j.
(** Model only: equality test. *)
Definition peq (a b : part) : bool := match a, b with Tab, Tab | Que, Que | Pool, Pool => true | _, _ => false end.
(** Model only: updates of the state. *)
Definition set_pc l s := mkS (s_sys s) (s_thr s) (s_dead s) (s_lev s) l (s_over s) (s_conn s) (s_work s) (s_max s) (s_task s).
Definition set_sys n s := mkS n (s_thr s) (s_dead s) (s_lev s) (s_pc s) (s_over s) (s_conn s) (s_work s) (s_max s) (s_task s).
Definition set_thr f s := mkS (s_sys s) f (s_dead s) (s_lev s) (s_pc s) (s_over s) (s_conn s) (s_work s) (s_max s) (s_task s).
Definition set_lev l s := mkS (s_sys s) (s_thr s) (s_dead s) l (s_pc s) (s_over s) (s_conn s) (s_work s) (s_max s) (s_task s).
Definition kill p s := mkS (s_sys s) (s_thr s) (fun q => peq q p || s_dead s q) (s_lev s) (s_pc s) (s_over s) (s_conn s) (s_work s) (s_max s) (s_task s).
Definition set_conn f s := mkS (s_sys s) (s_thr s) (s_dead s) (s_lev s) (s_pc s) (s_over s) f (s_work s) (s_max s) (s_task s).
Definition set_task n s := mkS (s_sys s) (s_thr s) (s_dead s) (s_lev s) (s_pc s) (s_over s) (s_conn s) (s_work s) (s_max s) n.
Definition begin l s := mkS (s_sys s) (s_thr s) (s_dead s) (s_lev s) l true (s_conn s) (s_work s) (s_max s) (s_task s).
Definition grow w s := mkS (s_sys s) (s_thr s) (s_dead s) (s_lev s) (s_pc s) (s_over s) (upd (s_conn s) (s_max s) Accepted)
                           (upd (s_work s) (s_max s) w) (S (s_max s)) (s_task s).

(** Model only: a use of members. *)
Definition use (s : st) (p : part) : obs := OUse p (negb (s_dead s p)).

(** Does the class have a table? *)
Definition has_tab (k : kind) : bool := match k with KMsg => false | _ => true end.
(** on_dispatcher_setup and on_dispatcher_teardown are virtual: network.h 1366-1382
    (ClientNetwork), 783-887 (PeerNetwork); those of MsgNetwork do nothing (conn.h 183, 192) *)
Definition hook (k : kind) (s : st) : list obs :=
  match s_lev s with LDer => if has_tab k then [use s Tab] else [] | _ => [] end.

(** The destructors: ~PeerNetwork (network.h 612), that of ClientNetwork (network.h 272-311: none is
    written, it only destroys the table), ~MsgNetwork (196), ~ConnPool (conn.h 544) *)
Definition dtor (k : kind) : list instr :=
  match k with
  | KMsg => []
  | KClient => [IFree Tab]
  | KPeer => [IStop; IFree Tab]
  end ++ [IAs LMsg; IStop; IFree Que; IAs LPool; IStop; IFree Pool].

(** A thread runs. *)
Definition act (t : tstat) : bool := match t with TRun | TTold => true | _ => false end.
(** std::thread::joinable *)
Definition joinable (t : tstat) : bool := match t with TRun | TTold | TDone => true | _ => false end.

(** Has a connection an entry in the pool? *)
Definition in_pool (x : phase) : bool := match x with Accepted | Fed | Up | Doomed | Dying => true | _ => false end.
(** Model only: the connections of the pool. *)
Definition pooled (s : st) : list nat := filter (fun c => in_pool (s_conn s c)) (seq 0 (s_max s)).

(** One step of stop or of a destructor; [n] is the number of workers. *)
Definition go (k : kind) (n : nat) (s : st) : option (st * list obs) :=
  match s_pc s with
  | [] => None
  | i :: l =>
      let ret := match l with [] => [ORet] | _ => [] end in
      match i with
      | IStop => (* conn.h 559-561 *)
          if s_sys s =? 1 then Some (set_pc (ITell 0 :: l) (set_sys 2 s), [])
          else Some (set_pc l s, ret)
      | ITell i => (* 564, 567-568 *)
          let s' := match s_thr s i with TRun => set_thr (upd (s_thr s) i TTold) s | _ => s end in
          let next := match i with
                      | 0 => IJoin 0
                      | S _ => if S i <? n then ITell (S i) else IJoin 1
                      end in
          Some (set_pc (next :: l) s', [use s Pool])
      | IJoin i => (* 565, 570-571: waits until the thread is over *)
          match s_thr s i with
          | TDone =>
              let next := match i with
                          | 0 => if 1 <? n then ITell 1 else ITear
                          | S _ => if S i <? n then IJoin (S i) else ITear
                          end in
              Some (set_pc (next :: l) (set_thr (upd (s_thr s) i TJoined) s), [use s Pool])
          | _ => None
          end
      | ITear => (* 572-579: on_worker_teardown, release_conn (conn.cpp 445-451); the pool keeps its entries *)
          Some (set_pc l (set_conn (fun c => if in_pool (s_conn s c) then Gone else s_conn s c) s),
                flat_map (fun c => use s Pool :: hook k s ++ [OClose c]) (pooled s) ++ ret)
      | IFree p => (* destroying the workers aborts if a thread was not joined *)
          Some (set_pc l (kill p s),
                match p with Pool => if existsb (fun i => joinable (s_thr s i)) (seq 0 n) then [OAbort] else [] | _ => [] end ++ ret)
      | IAs lev => Some (set_pc l (set_lev lev s), ret)
      end
  end.

(** Model only: may the user call functions of the network? *)
Definition idle (s : st) : bool := match s_pc s with [] => negb (s_over s) | _ => false end.
(** Model only: does the dispatcher run, the worker of a connection? *)
Definition disp (s : st) : bool := act (s_thr s 0).
Definition work (s : st) (c : nat) : bool := act (s_thr s (s_work s c)).

(** One step. *)
Definition step (k : kind) (n : nat) (e : ev) (s : st) : option (st * list obs) :=
  match e with
  | UStart f => (* conn.h 549-556; a thread that cannot be created throws *)
      if idle s then
        if s_sys s =? 0 then
          match f with
          | None => Some (set_sys 1 (set_thr (fun i => if i <? n then TRun else s_thr s i) s), [ORet])
          | Some j => if j <? n then Some (set_thr (fun i => if i <? j then TRun else s_thr s i) s, [OThrow]) else None
          end
        else Some (s, [ORet])
      else None
  | UStop => if idle s then Some (set_pc [IStop] s, []) else None
  | UDestroy => if idle s then Some (begin (dtor k) s, []) else None
  | UTask => (* network.h 1388-1398, 1168-1280 *)
      if idle s && has_tab k then Some (set_task (S (s_task s)) s, [use s Pool]) else None
  | UGo => go k n s
  | TEnd i => match s_thr s i with TTold => Some (set_thr (upd (s_thr s) i TDone) s, []) | _ => None end
  | DAccept w => (* conn.cpp 301-337, 393-435, 339-359 *)
      if disp s && (w <? n) then Some (grow w s, [use s Pool]) else None
  | WFeed c => (* conn.h 289-333 *)
      match s_conn s c with
      | Accepted => if work s c then Some (set_conn (upd (s_conn s) c Fed) s, [use s Pool]) else None
      | _ => None
      end
  | DSetup c => (* conn.h 317-325 *)
      match s_conn s c with
      | Fed => if disp s then Some (set_conn (upd (s_conn s) c Up) s, hook k s ++ [use s Pool]) else None
      | Doomed => if disp s then Some (set_conn (upd (s_conn s) c Dying) s, hook k s ++ [use s Pool]) else None
      | _ => None
      end
  | WRead c => (* network.h 649-700; on_read is virtual, that of the pool does nothing *)
      match s_conn s c with
      | Up => if work s c then Some (s, match s_lev s with LPool => [] | _ => [use s Que] end) else None
      | _ => None
      end
  | WTerm c => (* conn.cpp 276-285 *)
      match s_conn s c with
      | Fed => if work s c then Some (set_conn (upd (s_conn s) c Doomed) s, [use s Pool]) else None
      | Up => if work s c then Some (set_conn (upd (s_conn s) c Dying) s, [use s Pool]) else None
      | _ => None
      end
  | DDel c => (* conn.cpp 437-451 *)
      match s_conn s c with
      | Dying => if disp s then Some (set_conn (upd (s_conn s) c Gone) s, use s Pool :: hook k s ++ [OClose c]) else None
      | _ => None
      end
  | DTask => (* the tasks use the table, whichever destructor runs *)
      match s_task s with
      | 0 => None
      | S m => if disp s then Some (set_task m s, [use s Tab; use s Pool]) else None
      end
  | DTimer => (* network.h 889-911, 1206-1211 *)
      match k with KPeer => if disp s then Some (s, [use s Tab; use s Pool]) else None | _ => None end
  end.

(** A run, with what was seen.  Model only. *)
Fixpoint run (k : kind) (n : nat) (es : list ev) (s : st) : option (st * list obs) :=
  match es with
  | [] => Some (s, [])
  | e :: es => match step k n e s with
               | Some (s1, o1) => match run k n es s1 with Some (s2, o2) => Some (s2, o1 ++ o2) | None => None end
               | None => None end
  end.
