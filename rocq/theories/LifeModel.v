(** Descriptors and the life of a connection pool: start, listen, connect,
    accept, termination, stop and destruction (src/conn.cpp, conn.h,
    network.h).

    One step is one task of the dispatcher or one call of the user.  What the
    threads do between the moment a connection is terminated and the moment
    the dispatcher deletes it is PoolModel's subject; here a connection that is
    terminated waits for its deletion.  The kernel is the environment: it
    answers the calls and chooses descriptors, which are free at that time; the
    rest of the process opens and closes descriptors of its own.

    Simplified: descriptors of event loops and queues are left out, except
    that creating a connection may fail for want of one (create_conn). *)
From Coq Require Import Arith List Bool.
Import ListNotations.

(** What the kernel answers in _listen (conn.cpp 361-391). *)
Record lans := mkL { l_sock : option nat; l_opt : bool; l_fcntl : bool; l_bind : bool; l_listen : bool; l_ev : bool }.
(** In _connect (393-435); [c_new]: create_conn succeeds. *)
Record cans := mkC { c_sock : option nat; c_opt : bool; c_fcntl : bool; c_new : bool; c_conn : bool; c_ev : bool }.
(** In accept_client (301-337). *)
Record aans := mkA { a_sock : option nat; a_opt : bool; a_fcntl : bool; a_new : bool }.

(** A connection in the pool: live, or terminated and waiting for del_conn. *)
Inductive cst := Live | Dying.
(** A connection (conn.h 77-98). *)
Definition conn : Type := nat * cst.       (* its descriptor *)

(** Calls that wait for the dispatcher. *)
Inductive call := CListen (port : nat) | CConnect.

(** What can be seen from outside. *)
Inductive ev :=
| EOpen (fd : nat) | EClose (fd : nat)     (* by the pool *)
| EBound (fd port : nat)                   (* the port is taken *)
| EReady (fd port : nat)                   (* connections to the port are accepted *)
| ERet (c : call) | EThrow (c : call)      (* the call returned, threw *)
| EErr                                     (* error callback *)
| EStarted                                 (* the threads were started *)
| EOther (fd : nat) | EOtherClose (fd : nat).   (* the rest of the process opens, closes a descriptor *)

Inductive sys := Idle | Running | Stopped | Gone.    (* system_state 0, 1, 2 (conn.h 151); destroyed *)
Record st := mkS {
  s_sys : sys;
  s_lfd : option nat;          (* listen_fd *)
  s_acc : bool;                (* ev_listen is active *)
  s_pool : list conn;          (* pool *)
  s_wait : list call;          (* disp_tcall: listen, connect_sync *)
  s_open : list nat }.         (* all open descriptors of the process *)

(** Model only: the state at the beginning. *)
Definition init : st := mkS Idle None false [] [] [].

(** Model only: tests and updates of the state. *)
Definition is_open (s : st) (fd : nat) : bool := existsb (Nat.eqb fd) (s_open s).
Definition drop (fd : nat) (l : list nat) : list nat := filter (fun x => negb (x =? fd)) l.
Definition set_wait s q := mkS (s_sys s) (s_lfd s) (s_acc s) (s_pool s) q (s_open s).
Definition kopen (fd : nat) (s : st) : st := mkS (s_sys s) (s_lfd s) (s_acc s) (s_pool s) (s_wait s) (fd :: s_open s).
Definition kclose (fd : nat) (s : st) : st := mkS (s_sys s) (s_lfd s) (s_acc s) (s_pool s) (s_wait s) (drop fd (s_open s)).
Definition set_listen (f : option nat) (b : bool) (s : st) : st := mkS (s_sys s) f b (s_pool s) (s_wait s) (s_open s).
Definition set_pool (p : list conn) (s : st) : st := mkS (s_sys s) (s_lfd s) (s_acc s) p (s_wait s) (s_open s).
Definition set_sys (x : sys) (s : st) : st := mkS x (s_lfd s) (s_acc s) (s_pool s) (s_wait s) (s_open s).

(** 363-367: reset the previous listen() *)
Definition unlisten (s : st) : st * list ev :=
  match s_lfd s with
  | Some fd => (set_listen None false (kclose fd s), [EClose fd])
  | None => (s, [])
  end.

(** _listen, 361-391 *)
Definition do_listen (port : nat) (a : lans) (s : st) : option (st * list ev) :=
  let '(s, e) := unlisten s in
  let c := CListen port in
  match l_sock a with
  | None => Some (set_listen None false s, e ++ [EThrow c])       (* 368-369: listen_fd is -1 *)
  | Some fd =>
      if is_open s fd then None else
      let s := set_listen (Some fd) false (kopen fd s) in
      let e := e ++ [EOpen fd] in
      if negb (l_opt a) || negb (l_fcntl a) then Some (s, e ++ [EThrow c]) else
      if negb (l_bind a) then Some (s, e ++ [EThrow c]) else
      let e := e ++ [EBound fd port] in
      if negb (l_listen a) || negb (l_ev a) then Some (s, e ++ [EThrow c]) else
      Some (set_listen (Some fd) true s, e ++ [EReady fd port; ERet c])
  end.

(** _connect, 393-435.  connect() failing at once terminates the connection
    by a task of its own (424); an exception after add_conn would come from the
    event object (428-431). *)
Definition do_connect (a : cans) (s : st) : option (st * list ev) :=
  match c_sock a with
  | None => Some (s, [EThrow CConnect])
  | Some fd =>
      if is_open s fd then None else
      let s := kopen fd s in
      if negb (c_opt a) || negb (c_fcntl a) || negb (c_new a) then Some (s, [EOpen fd; EThrow CConnect]) else
      let k := if c_conn a then Live else Dying in
      let s := set_pool (s_pool s ++ [(fd, k)]) s in
      if c_conn a && negb (c_ev a) then Some (s, [EOpen fd; EThrow CConnect])
      else Some (s, [EOpen fd; ERet CConnect])
  end.

(** accept_client, 301-337 *)
Definition do_accept (a : aans) (s : st) : option (st * list ev) :=
  match a_sock a with
  | None => Some (set_listen (s_lfd s) false s, [EErr])           (* 308: ev_listen.del() *)
  | Some fd =>
      if is_open s fd then None else
      let s := kopen fd s in
      if negb (a_opt a) || negb (a_fcntl a) || negb (a_new a) then Some (s, [EOpen fd; EErr]) else
      Some (set_pool (s_pool s ++ [(fd, Live)]) s, [EOpen fd])
  end.

(** del_conn and release_conn, 437-451 *)
Definition do_del (fd : nat) (s : st) : st * list ev :=
  (kclose fd (set_pool (filter (fun c => negb (fst c =? fd)) (s_pool s)) s), [EClose fd]).

(** stop_workers, conn.h 558-579: every connection in the pool is released;
    the pool is not emptied, but never used again. *)
Fixpoint close_all (l : list nat) (s : st) : st * list ev :=
  match l with
  | [] => (s, [])
  | fd :: l => let '(s, e) := close_all l (kclose fd s) in (s, EClose fd :: e)
  end.
Definition stop_workers (s : st) : st * list ev :=
  match s_sys s with
  | Running => close_all (map fst (s_pool s)) (set_sys Stopped s)
  | _ => (s, [])
  end.
(** ConnPool::stop, 581-588 *)
Definition pool_stop (s : st) : st * list ev :=
  let '(s, e) := stop_workers s in
  match s_lfd s with
  | Some fd => (set_listen None (s_acc s) (kclose fd s), e ++ [EClose fd])
  | None => (s, e)
  end.

Inductive label :=
| LStart                        (* ConnPool::start, 549-556 *)
| LCall (c : call)              (* listen, connect_sync: wait for the dispatcher, 591-599, 618-621 *)
| LListen (a : lans) | LConnect (a : cans)   (* the dispatcher serves the first waiting call *)
| LDial (a : cans)              (* connect, conn.h 602-612: reports instead of throwing *)
| LAccept (a : aans)            (* the listening socket is readable *)
| LTerm (fd : nat)              (* a connection is terminated: worker_terminate, disp_terminate, conn.cpp 275-299 *)
| LDel (fd : nat)               (* the dispatcher deletes it *)
| LStop                         (* MsgNetwork::stop, network.h 265: stop_workers *)
| LPoolStop                     (* ConnPool::stop *)
| LDestroy                      (* ~MsgNetwork (196), ~ConnPool (conn.h 544) *)
| LOther (fd : nat) | LOtherClose (fd : nat).   (* descriptors of the rest of the process *)

(** Model only: the threads run. *)
Definition running (s : st) : bool := match s_sys s with Running => true | _ => false end.

(** [o]: the descriptors the pool opened and did not close; the rest of the
    process does not close these. *)
Definition step (l : label) (o : list nat) (s : st) : option (st * list ev) :=
  match s_sys s, l with
  | Gone, _ => None
  | Idle, LStart => Some (set_sys Running s, [EStarted])
  | _, LStart => Some (s, [])                                      (* 551: system_state is not 0 *)
  | _, LCall c => Some (set_wait s (s_wait s ++ [c]), [])
  | Running, LListen a =>
      match s_wait s with
      | CListen p :: q => do_listen p a (set_wait s q)
      | _ => None
      end
  | Running, LConnect a =>
      match s_wait s with
      | CConnect :: q => do_connect a (set_wait s q)
      | _ => None
      end
  | Running, LDial a =>
      match do_connect a s with
      | Some (s, e) => Some (s, map (fun x => match x with EThrow _ => EErr | _ => x end) (filter (fun x => match x with ERet _ => false | _ => true end) e))
      | None => None
      end
  | Running, LAccept a => if s_acc s then do_accept a s else None
  | Running, LTerm fd =>
      if existsb (fun c => (fst c =? fd) && match snd c with Live => true | Dying => false end) (s_pool s) then
        Some (set_pool (map (fun c => if fst c =? fd then (fd, Dying) else c) (s_pool s)) s, [])
      else None
  | Running, LDel fd =>
      if existsb (fun c => (fst c =? fd) && match snd c with Dying => true | Live => false end) (s_pool s) then Some (do_del fd s) else None
  | _, LStop => Some (stop_workers s)
  | _, LPoolStop => Some (pool_stop s)
  | _, LDestroy =>
      let '(s, e) := stop_workers s in
      let '(s, f) := pool_stop s in
      Some (set_sys Gone s, e ++ f)
  | _, LOther fd => if is_open s fd then None else Some (kopen fd s, [EOther fd])
  | _, LOtherClose fd => if existsb (Nat.eqb fd) o || negb (is_open s fd) then None else Some (kclose fd s, [EOtherClose fd])
  | _, _ => None
  end.

(** Descriptors the pool opened and did not close, in a trace. *)
Fixpoint own (o : list nat) (tr : list ev) : list nat :=
  match tr with
  | [] => o
  | EOpen fd :: tr => own (fd :: o) tr
  | EClose fd :: tr => own (drop fd o) tr
  | _ :: tr => own o tr
  end.

(** A run, with the descriptors the pool holds. *)
Fixpoint run (l : list label) (o : list nat) (s : st) : option (st * list ev) :=
  match l with
  | [] => Some (s, [])
  | a :: l => match step a o s with
              | Some (s, e) => match run l (own o e) s with Some (s, f) => Some (s, e ++ f) | None => None end
              | None => None
              end
  end.
