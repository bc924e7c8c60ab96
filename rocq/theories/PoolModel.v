(** Model of ConnPool (include/salticidae/conn.h, src/conn.cpp): life cycle of
    connections across the user thread, the dispatcher and the workers.

    One thread per event loop.  A task posted to a loop ([ThreadCall::async_call],
    FIFO by C42) is a list of actions, each one an access to something that
    another thread may access too; actions of different threads interleave in
    every way.  Socket and timer callbacks start only between two batches of
    tasks (event.h 761-778: a batch is at most [burst] tasks).

    Simplified: the choice of the worker ([select_worker], modelled separately
    below), the kernel's answers, the results of callbacks and the outcome of
    hooks of derived classes are arguments of the events, so a theorem about
    all runs covers all of them; contents of messages, reading and writing
    themselves are in RecvModel/SendModel; sockets leaked by a failing setsockopt or
    fcntl (306-314, 396-401) are ignored; an exception in [feed] is taken to come from its first
    statement; exceptions thrown by posted tasks are
    swallowed as in event.h 767-773. *)
From Coq Require Import Arith NArith List Bool.
Import ListNotations.

(** user_tcall's loop; workers[i]'s loop, workers[0] being the dispatcher
    (conn.h 511-514). *)
Inductive tid := U | W (i : nat).
Notation D := (W 0).
Definition tid_eqb (a b : tid) : bool :=
  match a, b with U, U => true | W i, W j => i =? j | _, _ => false end.

(** recv_data_func (conn.h 95-105). *)
Inductive rfun := RNone | RPlain | RHand | RDummy | RTls.

(** Conn (conn.h 77-98): fd, worker, terminated, ev_connect active, ev_socket
    present, ev_socket started (some events asked for), ready_send,
    recv_data_func. *)
Record conn := mkConn {
  c_fd : nat; c_worker : option nat; c_term : bool; c_evc : bool;
  c_evs : bool; c_arm : bool; c_rs : bool; c_recv : rfun }.
(** conn.h 111-120. *)
Definition conn0 : conn := mkConn 0 None false false false false false RNone.

(** Model only: a connection with one field replaced. *)
Definition set_worker w c := mkConn (c_fd c) (Some w) (c_term c) (c_evc c) (c_evs c) (c_arm c) (c_rs c) (c_recv c).
Definition set_term c := mkConn (c_fd c) (c_worker c) true (c_evc c) (c_evs c) (c_arm c) (c_rs c) (c_recv c).
Definition set_evc b c := mkConn (c_fd c) (c_worker c) (c_term c) b (c_evs c) (c_arm c) (c_rs c) (c_recv c).
Definition set_sock e a c := mkConn (c_fd c) (c_worker c) (c_term c) (c_evc c) e a (c_rs c) (c_recv c).
Definition set_rs b c := mkConn (c_fd c) (c_worker c) (c_term c) (c_evc c) (c_evs c) (c_arm c) b (c_recv c).
Definition set_recv f c := mkConn (c_fd c) (c_worker c) (c_term c) (c_evc c) (c_evs c) (c_arm c) (c_rs c) f.

(** Actions.  The first group are posted tasks, the second group only
    continue a task. *)
Inductive act :=
| AConn (id : N)               (* conn.h 606-612: _connect, id of the async operation *)
| ADispTerm (c : nat)          (* conn.h 630-636, conn.cpp 288-299: disp_terminate *)
| ADExch (c : nat)             (* conn.cpp 293-298 *)
| ADel (c : nat)               (* conn.cpp 437-440: del_conn *)
| ASetup (c : nat)             (* conn.h 319-327, conn.cpp 250-258 *)
| AFeed (c : nat)              (* conn.h 287-331: Worker::feed's task *)
| AWExch (c : nat)             (* conn.cpp 276-277: worker_terminate's task *)
| AGo (c : nat) (ret : bool)   (* conn.h 218-227 with TLS, 230-233 without *)
| ACb (c : nat) (b : bool)     (* conn.h 212-213: user's connection callback *)
| AErr (fatal : bool) (id : option N)  (* conn.h 167-169, 520; None is -1 *)
| AFatal                       (* conn.h 515-530 *)
| AInc (c : nat)               (* conn.h 332 *)
| ATearW (c : nat)             (* conn.cpp 278, conn.h 186-191: on_worker_teardown, by the worker *)
| ATearD (c : nat)             (* conn.cpp 295: the same by the dispatcher *)
| APostDel (c : nat)           (* conn.cpp 280-282 *)
| AOff (c : nat)               (* conn.cpp 441: update_conn(conn, false) *)
| ARelease (c : nat)           (* conn.cpp 445-451: release_conn *)
| APostGo (c : nat) (ret : bool) (* conn.h 214-234 *).

(** What can be seen from outside. *)
Inductive obs :=
| OCb (c : nat) (b : bool) (r : option bool)  (* conn_cb(c, b) returned r; None: it threw *)
| OClose (c fd : nat)                         (* close(fd) on behalf of c *)
| ORecv (c : nat) (bs : list nat)             (* bytes put into c's receive buffer *)
| OIo (c fd : nat)                            (* a read or write on fd on behalf of c *)
| OFed (c : nat) | OTorn (c : nat)            (* accepted by / given up by its worker *)
| OAsync (id : N)                             (* connect() returned id *)
| OThrow (id : N)                             (* the operation id failed with an exception *)
| OErr (fatal : bool) (id : option N)         (* error_cb(fatal, id) *)
| OUb (c : nat).                                      (* an assertion fails or a null pointer is used, serving c *)

Record st := mkSt {
  s_tls : bool;                  (* enable_tls *)
  s_conn : nat -> conn; s_nc : nat;  (* connections made so far *)
  s_cur : tid -> list act;       (* what is left of the task being run *)
  s_q : tid -> list act;         (* tasks waiting, by their first action *)
  s_left : tid -> nat;           (* tasks this batch may still run *)
  s_pool : list (nat * nat);     (* pool: fd -> connection *)
  s_open : list nat;             (* open sockets of this process *)
  s_load : nat -> N;             (* nconn of each worker, modulo 2^64 *)
  s_aid : N;                     (* async_id *)
  s_listen : bool;               (* ev_listen started *)
  s_dead : bool;                 (* dispatcher's ThreadCall stopped *)
  s_stop : bool }.               (* threads have been joined *)

(** Model only: one entry replaced. *)
Definition upd {A} (f : nat -> A) i x := fun j => if j =? i then x else f j.
Definition updt {A} (f : tid -> A) i x := fun j => if tid_eqb j i then x else f j.

(** Model only: the state with one field replaced. *)
Definition w_conn f s := mkSt (s_tls s) f (s_nc s) (s_cur s) (s_q s) (s_left s) (s_pool s) (s_open s) (s_load s) (s_aid s) (s_listen s) (s_dead s) (s_stop s).
Definition w_cur f s := mkSt (s_tls s) (s_conn s) (s_nc s) f (s_q s) (s_left s) (s_pool s) (s_open s) (s_load s) (s_aid s) (s_listen s) (s_dead s) (s_stop s).
Definition w_q f s := mkSt (s_tls s) (s_conn s) (s_nc s) (s_cur s) f (s_left s) (s_pool s) (s_open s) (s_load s) (s_aid s) (s_listen s) (s_dead s) (s_stop s).
Definition w_left f s := mkSt (s_tls s) (s_conn s) (s_nc s) (s_cur s) (s_q s) f (s_pool s) (s_open s) (s_load s) (s_aid s) (s_listen s) (s_dead s) (s_stop s).
Definition w_load f s := mkSt (s_tls s) (s_conn s) (s_nc s) (s_cur s) (s_q s) (s_left s) (s_pool s) (s_open s) f (s_aid s) (s_listen s) (s_dead s) (s_stop s).
Definition w_aid a s := mkSt (s_tls s) (s_conn s) (s_nc s) (s_cur s) (s_q s) (s_left s) (s_pool s) (s_open s) (s_load s) a (s_listen s) (s_dead s) (s_stop s).
Definition w_listen b s := mkSt (s_tls s) (s_conn s) (s_nc s) (s_cur s) (s_q s) (s_left s) (s_pool s) (s_open s) (s_load s) (s_aid s) b (s_dead s) (s_stop s).
Definition w_dead s := mkSt (s_tls s) (s_conn s) (s_nc s) (s_cur s) (s_q s) (s_left s) (s_pool s) (s_open s) (s_load s) (s_aid s) (s_listen s) true (s_stop s).
Definition w_fds p o s := mkSt (s_tls s) (s_conn s) (s_nc s) (s_cur s) (s_q s) (s_left s) p o (s_load s) (s_aid s) (s_listen s) (s_dead s) (s_stop s).
Definition w_stop s := mkSt (s_tls s) (s_conn s) (s_nc s) (s_cur s) (s_q s) (s_left s) (s_pool s) (s_open s) (s_load s) (s_aid s) (s_listen s) (s_dead s) true.

(** event.h 786-793: async_call. *)
Definition post (t : tid) (a : act) (s : st) : st := w_q (updt (s_q s) t (s_q s t ++ [a])) s.
(** The actions left of the task of thread t; the next actions of it. *)
Definition go (t : tid) (l : list act) (s : st) : st := w_cur (updt (s_cur s) t l) s.
Definition front (t : tid) (l : list act) (s : st) : st := go t (l ++ s_cur s t) s.
Definition on (c : nat) (f : conn -> conn) (s : st) : st := w_conn (upd (s_conn s) c (f (s_conn s c))) s.

(** unordered_map<int, conn_t>: find, erase (conn.cpp 438-440). *)
Definition pool_find (fd : nat) (p : list (nat * nat)) : option nat :=
  match find (fun x => fst x =? fd) p with Some (_, c) => Some c | None => None end.
Definition pool_erase (fd : nat) (p : list (nat * nat)) : list (nat * nat) := filter (fun x => negb (fst x =? fd)) p.

(** conn.cpp 316-330 / 402-411 with add_conn (453-456): a new connection on
    the socket fd; its number is the count of connections so far. *)
Definition new_conn (fd : nat) (w : option nat) (evc : bool) (s : st) : st :=
  mkSt (s_tls s) (upd (s_conn s) (s_nc s) (mkConn fd w false evc false false false RNone)) (S (s_nc s)) (s_cur s) (s_q s) (s_left s)
    ((fd, s_nc s) :: s_pool s) (fd :: s_open s) (s_load s) (s_aid s) (s_listen s) (s_dead s) (s_stop s).

(** conn.cpp 275-284: worker_terminate; a connection without a worker would
    be a null pointer access. *)
Definition worker_terminate (c : nat) (s : st) : st * list obs :=
  match c_worker (s_conn s c) with Some w => (post (W w) (AWExch c) s, []) | None => (s, [OUb c]) end.

(** conn.cpp 288-299: disp_terminate. *)
Definition disp_terminate (c : nat) (s : st) : st :=
  match c_worker (s_conn s c) with Some w => post (W w) (AWExch c) s | None => post D (ADExch c) s end.

(** size_t counts modulo 2^64 (nconn, conn.h 245). *)
Definition M64 : N := 2 ^ 64.
Definition dec (x : N) : N := ((x + (M64 - 1)) mod M64)%N.
Definition inc (x : N) : N := ((x + 1) mod M64)%N.

(** Outcome of what an action asks the environment: success, exception, fd. *)
Inductive choice := Ch (ok thr : bool) (fd : nat).

(** One action of thread t, already taken off the thread's list. *)
Definition act_step (t : tid) (a : act) (ch : choice) (s : st) : option (st * list obs) :=
  let '(Ch ok thr fd) := ch in
  match a with
  | AConn id =>
      (* conn.cpp 393-435 *)
      if thr then Some (post U (AErr false (Some id)) s, [OThrow id])   (* 396-402; conn.h 610 *)
      else if existsb (Nat.eqb fd) (s_open s) then None        (* the kernel gives an unused descriptor *)
      else let s1 := new_conn fd None ok s in
           Some (if ok then s1 else disp_terminate (s_nc s) s1, [])   (* 419-433 *)
  | ADispTerm c => Some (disp_terminate c s, [])
  | ADExch c =>
      if c_term (s_conn s c) then Some (s, [])
      else Some (front t [ATearD c; ADel c] (on c set_term s), [])
  | ADel c =>
      (* 438-440: erase the entry found under the descriptor; 442: release *)
      match pool_find (c_fd (s_conn s c)) (s_pool s) with
      | None => Some (s, [OUb c])
      | Some _ => Some (front t [AOff c; ARelease c] (w_fds (pool_erase (c_fd (s_conn s c)) (s_pool s)) (s_open s) s), [])
      end
  | ASetup c =>
      if ok then Some (post U (ACb c true) s, [])
      else Some (disp_terminate c (post U (AErr false None) s), [])
  | AFeed c =>
      if ok then
        (* conn.h 289-299, 301-308: started at once with TLS only *)
        let s1 := front t [AInc c] (on c (fun k => set_recv (if s_tls s then RHand else RPlain) (set_sock true (s_tls s) k)) s) in
        Some (if s_tls s then s1 else post D (ASetup c) s1, [])
      else match t with
           | D => Some (front t [AFatal] s, [])
           | _ => Some (post D AFatal s, [])
           end
  | AWExch c =>
      if c_term (s_conn s c) then Some (s, [])
      else Some (front t [ATearW c; APostDel c] (on c set_term s), [])
  | AGo c ret =>
      if c_term (s_conn s c) then Some (s, [])
      else if negb (c_evs (s_conn s c)) then Some (s, [OUb c])   (* event.h 153 *)
      else if s_tls s
      then if ret then Some (on c (fun k => set_recv RTls (set_sock true true k)) s, [])
           else Some (worker_terminate c s)
      else Some (on c (set_sock true true) s, [])
  | ACb c b =>
      if thr then Some (s, [OCb c b None])
      else Some (if b then front t [APostGo c ok] s else s, [OCb c b (Some ok)])
  | AErr f id => Some (s, [OErr f id])
  | AFatal => Some (post U (AErr true None) (w_dead s), [])
  | AInc c => match t with
              | W w => Some (w_load (upd (s_load s) w (inc (s_load s w))) s, [OFed c])
              | U => None
              end
  | ATearW c | ATearD c =>
      let s1 := match c_worker (s_conn s c) with
                | Some w => w_load (upd (s_load s) w (dec (s_load s w))) s
                | None => s
                end in
      Some (on c (set_sock false false) s1, [OTorn c])
  | APostDel c => Some (post D (ADel c) s, [])
  | AOff c => Some (post U (ACb c false) s, [])
  | ARelease c =>
      let k := s_conn s c in
      Some (w_fds (s_pool s) (filter (fun x => negb (x =? c_fd k)) (s_open s)) (on c (fun k => set_evc false (set_sock false false k)) s),
            [OClose c (c_fd k)])
  | APostGo c ret =>
      match c_worker (s_conn s c) with
      | Some w => Some (post (W w) (AGo c ret) s, [])
      | None => Some (s, [OUb c])
      end
  end.

(** What a socket callback of a connection does. *)
Inductive io :=
| IoRead (bs : list nat) (fin : bool)   (* conn.cpp 107-149 / 188-228: bytes received, then terminate or not *)
| IoWrite (fin rs : bool)               (* 63-105 / 152-186: terminate or not; new value of ready_send *)
| IoHand (wr : bool) (res : option bool). (* 230-269: on a write event or not; Some done, None: exception *)

Definition io_step (t : tid) (c : nat) (i : io) (s : st) : option (st * list obs) :=
  let k := s_conn s c in
  let term (s : st) (o : list obs) := let '(s', o') := worker_terminate c s in Some (s', o ++ o') in
  match i, c_recv k with
  | IoRead bs fin, (RPlain | RTls) =>
      if fin then term s [OIo c (c_fd k); ORecv c bs] else Some (s, [OIo c (c_fd k); ORecv c bs])
  | IoRead _ false, RDummy => Some (s, [])   (* _recv_data_dummy, 273: nothing is read *)
  | IoWrite fin rs, (RPlain | RDummy | RTls) =>
      let s1 := on c (fun k => set_sock true true (set_rs rs k)) s in
      if fin then term s1 [OIo c (c_fd k)] else Some (s1, [OIo c (c_fd k)])
  | IoHand wr res, RHand =>
      let s1 := if wr then on c (set_rs true) s else s in
      match res with
      | None => let '(s2, o) := worker_terminate c (post U (AErr false None) s1) in Some (s2, OIo c (c_fd k) :: o)  (* conn.h 296-298 *)
      | Some true => Some (post D (ASetup c) (on c (fun k => set_recv RDummy (set_sock true false k)) s1), [OIo c (c_fd k)])
      | Some false => Some (on c (set_sock true true) s1, [OIo c (c_fd k)])
      end
  | _, _ => None
  end.

Inductive ev :=
| EConnect                                    (* user: connect(addr), conn.h 604-614 *)
| ETerm (c : nat)                             (* user: terminate(conn), 628-638 *)
| EBad (c : nat)                              (* user: a message of c does not parse, network.h 243-248 *)
| EAccept (fd w : nat) (ok : bool)            (* ev_listen's callback, conn.cpp 301-337 *)
| EReady (c w : nat) (tmo ok : bool)          (* ev_connect's callback, 339-359 *)
| ESock (c : nat) (i : io)                    (* ev_socket's callback *)
| ESendq (c : nat)                            (* the send queue's handler, conn.h 271-282 *)
| EBatch (t : tid)                            (* the loop turns to its task queue *)
| ENext (t : tid)                             (* take the next task, event.h 765-776 *)
| EAct (t : tid) (ch : choice)
| EStop.                                      (* stop(): conn.h 560-588 *)

(** Model only: the thread is in its event loop, between callbacks. *)
Definition idle (t : tid) (s : st) : bool :=
  match s_cur s t, s_left s t with [], 0 => true | _, _ => false end.

Section Pool.
(** ThreadCall's burst_size (event.h 761: 128) and nworker (conn.h 366). *)
Variables burst nw : nat.

Definition step (e : ev) (s : st) : option (st * list obs) :=
  if s_stop s then None else
  match e with
  | EConnect => let id := s_aid s in
                Some (post D (AConn id) (w_aid ((id + 1) mod 2 ^ 16)%N s), [OAsync id])
  | ETerm c => if c <? s_nc s then Some (post D (ADispTerm c) s, []) else None
  | EBad c => match c_worker (s_conn s c) with Some _ => Some (worker_terminate c s) | None => None end
  | EAccept fd w ok =>
      if idle D s && s_listen s && (w <? nw) then
        if ok then if existsb (Nat.eqb fd) (s_open s) then None
                   else Some (post (W w) (AFeed (s_nc s)) (new_conn fd (Some w) false s), [])
        else Some (post U (AErr false None) (w_listen false s), [])     (* 307-311, 336 *)
      else None
  | EReady c w tmo ok =>
      if idle D s && c_evc (s_conn s c) && (w <? nw) then
        if ok then Some (post (W w) (AFeed c) (on c (fun k => set_worker w (set_evc false k)) s), [])
        else Some (post U (AErr false None) (disp_terminate c (on c (set_evc (negb tmo)) s)), [])
      else None
  | ESock c i =>
      match c_worker (s_conn s c) with
      | Some w => if idle (W w) s && c_evs (s_conn s c) && c_arm (s_conn s c) then io_step (W w) c i s else None
      | None => None
      end
  | ESendq c =>
      match c_worker (s_conn s c) with
      | Some w => if idle (W w) s && c_evs (s_conn s c) && c_rs (s_conn s c) then Some (on c (set_sock true true) s, []) else None
      | None => None
      end
  | EBatch t => if idle t s then Some (w_left (updt (s_left s) t burst) s, []) else None
  | ENext t =>
      match s_cur s t, s_left s t with
      | [], S n => match s_q s t with
                   | [] => Some (w_left (updt (s_left s) t 0) s, [])
                   | a :: q => let s1 := w_left (updt (s_left s) t n) (w_q (updt (s_q s) t q) s) in
                               match t with
                               | D => Some (if s_dead s then s1 else go t [a] s1, [])     (* event.h 768-769 *)
                               | _ => Some (go t [a] s1, [])
                               end
                   end
      | _, _ => None
      end
  | EAct t ch => match s_cur s t with a :: rest => act_step t a ch (go t rest s) | [] => None end
  | EStop =>
      (* the dispatcher and the workers have been joined; every connection left in the pool is torn down and closed *)
      if forallb (fun x => match s_cur s (W x) with [] => true | _ => false end) (seq 0 nw) then
        Some (w_stop s, flat_map (fun x => [OTorn (snd x); OClose (snd x) (fst x)]) (s_pool s))
      else None
  end.

(** A run: one event after the other; it stops where an event cannot happen.  Model only. *)
Fixpoint run (es : list ev) (s : st) : option (st * list obs) :=
  match es with
  | [] => Some (s, [])
  | e :: es => match step e s with
               | Some (s1, o1) => match run es s1 with Some (s2, o2) => Some (s2, o1 ++ o2) | None => None end
               | None => None
               end
  end.
End Pool.

(** conn.h 494-541: a pool just started and listening; [used] are the sockets
    of the process that do not belong to the pool. *)
Definition st0 (tls : bool) (aid : N) (used : list nat) : st :=
  mkSt tls (fun _ => conn0) 0 (fun _ => []) (fun _ => []) (fun _ => 0) [] used (fun _ => 0%N) aid true false false.

(** conn.h 370-383: select_worker, reading the workers' nconn in order
    (workers[0] twice). *)
Fixpoint select_from (i idx : nat) (best : N) (loads : list N) : nat :=
  match loads with
  | [] => idx
  | t :: loads => if (t <? best)%N then select_from (S i) i t loads else select_from (S i) idx best loads
  end.
Definition select_worker (loads : list N) : nat :=
  match loads with [] => 0 | t :: _ => select_from 0 0 t loads end.
