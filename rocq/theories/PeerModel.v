(** PeerNetwork (include/salticidae/network.h 339-646, 742-1362): the state the
    dispatcher keeps about peers and their connections.  A step is one task of
    the dispatcher, one firing of a timer, one hook called by the connection
    pool (PoolModel.v), or one task of the user's loop; a run is any sequence of
    steps, with any outcome of the random source, of connect() and of writes,
    and any messages from the other ends.

    Simplified: the pool is reduced to what the hooks can observe (a connection
    is created, possibly set up, marked terminated at any time, torn down once
    after that); timers fire at any time while armed; a write to a connection
    is an observation; locks are left out (only the dispatcher changes this
    state); user callbacks do not throw; stop() is not modelled. *)
From Coq Require Import Arith NArith ZArith List Bool.
Import ListNotations.

(** An address; 0 is the null address (netaddr.h: is_null).  A peer id. *)
Definition addr := N.
Definition pid := N.

(** ConnPool::Conn::ConnMode (conn.h 70-73). *)
Inductive mode := Active | Passive.

(** A connection (351-366 with conn.h 96-148).  [k_cert] is the id derived from
    the certificate of the other end, None if ids come from addresses
    (529-538).  [k_set], [k_torn]: its hooks have run. *)
Record conn := mkConn { k_mode : mode; k_addr : addr; k_cert : option pid; k_manual : bool; k_peer : option nat; k_term : bool; k_set : bool; k_torn : bool }.

(** Peer::State (network.h 452-456). *)
Inductive pstate := Disconnected | Connected | Reset.

(** struct Peer: 428-495.  [p_live] is false once it is freed; flags that the
    constructor leaves uninitialised are None. *)
Record peer := mkPeer {
  p_live : bool; p_id : pid; p_addr : addr; p_nonce : N; p_conn : option nat;
  p_ntry : Z; p_cur : Z; p_timer : bool; p_ton : bool;      (* ev_retry_timer: initialised, armed *)
  p_chosen : option nat; p_in : option nat; p_out : option nat;
  p_ping : bool; p_ptok : option bool; p_pmok : option bool;  (* ev_ping_timer armed; ping_timer_ok, pong_msg_ok *)
  p_pre : option (addr * N);                                  (* inbound_preempt_ping *)
  p_state : pstate }.

(** network.h 348. *)
Definition passive_nonce : N := 0xffff.

(** 454-464. *)
Definition new_peer (i : pid) : peer :=
  mkPeer true i 0%N passive_nonce None 0%Z 0%Z false false None None None false None None None Disconnected.

(** util.h 92-95, 114; crypto's SALTI_ERROR_RAND_SOURCE. *)
Inductive code := AlreadyExists | NotExist | NotReady | NotMatch | ConnNotReady | RandSource.

(** Tasks of the dispatcher.  The first argument of the asynchronous ones is
    the id returned to the caller. *)
Inductive dtask :=
| TAdd (id : N) (i : pid) | TDel (id : N) (i : pid) | TSetAddr (id : N) (i : pid) (a : addr) | TConn (id : N) (i : pid) (ntry : Z)
| THas (i : pid) | TGetConn (i : pid)
| TPeer (c : nat)                                 (* Conn::get_peer_id: 380-386; get_peer_addr, 371-377, does the same *)
| TSend (id : N) (i : pid) (m : N) | TMulti (id : N) (l : list pid) (m : N)
| TPing (c : option nat) (a : addr) (n : N)      (* a = 0: a heartbeat *)
| TPong (c : nat) (a : addr) (n : N).

(** Tasks of the user's loop: peer_cb (p: the peer's record, which the code
    does not pass), peer_cb and then ping_handler, unknown_peer_cb. *)
Inductive utask := UCb (p : nat) (c : nat) (up : bool) | UPre (p : nat) (c : nat) (a : addr) (n : N) (inb : option nat) | UUnknown (a : addr) (c : nat).

(** What a step shows.  OUb: access through a null or freed pointer, or to an
    uninitialised value.  OAssert: an assert() does not hold (the code goes on, as compiled
    with NDEBUG). *)
Inductive why := Null | Freed | Uninit.
(** What can be seen from outside. *)
Inductive obs :=
| OExec (t : dtask)                       (* the dispatcher starts a task *)
| OErr (id : option N) (e : code)         (* recoverable_error *)
| OHas (i : pid) (b : bool) | OId (c : nat) (i : option pid) | OConn (i : pid) (c : option nat) | OThrow (i : pid) (e : code)
| OQueue (c : nat) (m : N)                (* a user message written to c *)
| OPing (c : nat) (hs : option N) | OPong (c : nat) (hs : option N)   (* sent; None: heartbeat *)
| OKill (c : nat)                         (* disp_terminate(c) *)
| ODial (i : pid) (c : nat) (a : addr)
| OMove (old new : nat)                   (* the send queue of old is written to new *)
| OCb (p : nat) (c : nat) (up : bool)     (* peer_cb runs *)
| OUnknown (a : addr) (c : nat)
| OFatal                                  (* disp_error_cb *)
| OAssert | OUb (w : why).

(** PeerNetwork (network.h 497-511), the queues of tasks, the peers and connections made so far. *)
Record st := mkSt {
  s_conn : nat -> conn; s_nc : nat;
  s_peer : nat -> peer; s_np : nat;
  s_known : list (pid * nat);        (* known_peers: at most one entry per id *)
  s_pend : list (addr * nat);        (* pending_peers *)
  s_q : list dtask; s_uq : list utask;
  s_halt : bool }.                   (* dispatcher stopped by a fatal error, or undefined behaviour *)

(** Model only: the state at the beginning. *)
Definition conn0 : conn := mkConn Passive 0%N None true None true true true.

(** Model only: one entry replaced. *)
Definition upd {B} (f : nat -> B) (i : nat) (v : B) : nat -> B := fun j => if j =? i then v else f j.
Definition w_conn f s := mkSt f (s_nc s) (s_peer s) (s_np s) (s_known s) (s_pend s) (s_q s) (s_uq s) (s_halt s).
Definition w_peer f s := mkSt (s_conn s) (s_nc s) f (s_np s) (s_known s) (s_pend s) (s_q s) (s_uq s) (s_halt s).
Definition w_known l s := mkSt (s_conn s) (s_nc s) (s_peer s) (s_np s) l (s_pend s) (s_q s) (s_uq s) (s_halt s).
Definition w_pend l s := mkSt (s_conn s) (s_nc s) (s_peer s) (s_np s) (s_known s) l (s_q s) (s_uq s) (s_halt s).
Definition w_q l s := mkSt (s_conn s) (s_nc s) (s_peer s) (s_np s) (s_known s) (s_pend s) l (s_uq s) (s_halt s).
Definition w_uq l s := mkSt (s_conn s) (s_nc s) (s_peer s) (s_np s) (s_known s) (s_pend s) (s_q s) l (s_halt s).
Definition halt s := mkSt (s_conn s) (s_nc s) (s_peer s) (s_np s) (s_known s) (s_pend s) (s_q s) (s_uq s) true.
Definition upost (t : utask) s := w_uq (s_uq s ++ [t]) s.

(** Model only: one connection, one peer, one field changed. *)
Definition onc (c : nat) (f : conn -> conn) s := w_conn (upd (s_conn s) c (f (s_conn s c))) s.
Definition onp (p : nat) (f : peer -> peer) s := w_peer (upd (s_peer s) p (f (s_peer s p))) s.
Definition k_setpeer v k := mkConn (k_mode k) (k_addr k) (k_cert k) (k_manual k) v (k_term k) (k_set k) (k_torn k).
Definition k_flags t u x k := mkConn (k_mode k) (k_addr k) (k_cert k) (k_manual k) (k_peer k) t u x.
Definition p_dead p := mkPeer false (p_id p) (p_addr p) (p_nonce p) (p_conn p) (p_ntry p) (p_cur p) false false (p_chosen p) (p_in p) (p_out p) false (p_ptok p) (p_pmok p) (p_pre p) (p_state p).
Definition st0 : st := mkSt (fun _ => conn0) 0 (fun _ => p_dead (new_peer 0%N)) 0 [] [] [] [] false.
Definition p_setaddr a p := mkPeer (p_live p) (p_id p) a (p_nonce p) (p_conn p) (p_ntry p) (p_cur p) (p_timer p) (p_ton p) (p_chosen p) (p_in p) (p_out p) (p_ping p) (p_ptok p) (p_pmok p) (p_pre p) (p_state p).
Definition p_setnonce n p := mkPeer (p_live p) (p_id p) (p_addr p) n (p_conn p) (p_ntry p) (p_cur p) (p_timer p) (p_ton p) (p_chosen p) (p_in p) (p_out p) (p_ping p) (p_ptok p) (p_pmok p) (p_pre p) (p_state p).
Definition p_setconn c p := mkPeer (p_live p) (p_id p) (p_addr p) (p_nonce p) c (p_ntry p) (p_cur p) (p_timer p) (p_ton p) (p_chosen p) (p_in p) (p_out p) (p_ping p) (p_ptok p) (p_pmok p) (p_pre p) (p_state p).
Definition p_settry n c p := mkPeer (p_live p) (p_id p) (p_addr p) (p_nonce p) (p_conn p) n c (p_timer p) (p_ton p) (p_chosen p) (p_in p) (p_out p) (p_ping p) (p_ptok p) (p_pmok p) (p_pre p) (p_state p).
Definition p_settimer t o p := mkPeer (p_live p) (p_id p) (p_addr p) (p_nonce p) (p_conn p) (p_ntry p) (p_cur p) t o (p_chosen p) (p_in p) (p_out p) (p_ping p) (p_ptok p) (p_pmok p) (p_pre p) (p_state p).
Definition p_setlinks ch i o p := mkPeer (p_live p) (p_id p) (p_addr p) (p_nonce p) (p_conn p) (p_ntry p) (p_cur p) (p_timer p) (p_ton p) ch i o (p_ping p) (p_ptok p) (p_pmok p) (p_pre p) (p_state p).
Definition p_sethb g t m p := mkPeer (p_live p) (p_id p) (p_addr p) (p_nonce p) (p_conn p) (p_ntry p) (p_cur p) (p_timer p) (p_ton p) (p_chosen p) (p_in p) (p_out p) g t m (p_pre p) (p_state p).
Definition p_setpre x p := mkPeer (p_live p) (p_id p) (p_addr p) (p_nonce p) (p_conn p) (p_ntry p) (p_cur p) (p_timer p) (p_ton p) (p_chosen p) (p_in p) (p_out p) (p_ping p) (p_ptok p) (p_pmok p) x (p_state p).
Definition p_setstate x p := mkPeer (p_live p) (p_id p) (p_addr p) (p_nonce p) (p_conn p) (p_ntry p) (p_cur p) (p_timer p) (p_ton p) (p_chosen p) (p_in p) (p_out p) (p_ping p) (p_ptok p) (p_pmok p) (p_pre p) x.

(** unordered_map: find, erase. *)
Definition find_by (k : N) (l : list (N * nat)) : option nat := match find (fun x => N.eqb (fst x) k) l with Some (_, v) => Some v | None => None end.
Definition drop_by (k : N) (l : list (N * nat)) : list (N * nat) := filter (fun x => negb (N.eqb (fst x) k)) l.

(** A computation: new state and observations; [ub] ends everything. *)
Definition out := (st * list obs)%type.
Definition ub (w : why) (s : st) : out := (halt s, [OUb w]).
Definition seq (x : out) (f : st -> out) : out :=
  let '(s, o) := x in if s_halt s then (s, o) else let '(s', o') := f s in (s', o ++ o').
Notation "x ;; f" := (seq x f) (at level 61, right associativity).
(** Model only: a piece of code gives a new state and what is seen of it. *)
Definition say (l : list obs) (s : st) : out := (s, l).
Definition check (b : bool) (s : st) : out := (s, if b then [] else [OAssert]).
Definition oeq (x y : option nat) : bool := match x, y with Some a, Some b => a =? b | None, None => true | _, _ => false end.

Section Net.
(** The digest of an address (network.h 315-317), and listen_addr (513). *)
Variable hash : addr -> pid.

(** 529-538: the id of the other end of c, if its address is a. *)
Definition ident (k : conn) (a : addr) : pid := match k_cert k with Some i => i | None => hash a end.

(** What a step asks the environment: the random source (None: failure), a
    connect() succeeding, the certificate the other end will show, writes being
    accepted. *)
Record env := mkEnv { g_rnd : option N; g_ok : bool; g_cert : option pid; g_write : nat -> bool }.

(** 479-488: get_nonce; None is the exception. *)
Definition get_nonce (g : env) (p : nat) (s : st) : option (st * N) :=
  let n := p_nonce (s_peer s p) in
  if (n =? 0)%N then
    match g_rnd g with
    | Some x => let n := (x mod 2 ^ 16 + 1)%N in Some (onp p (p_setnonce n) s, n)
    | None => None
    end
  else Some (s, n).

(** 882-886: reset_ping_timer. *)
Definition reset_ping_timer (p : nat) (s : st) : st := onp p (fun x => p_sethb true (p_ptok x) (p_pmok x) x) s.
(** 889-895: send_ping. *)
Definition send_ping (p : nat) (s : st) : out :=
  match p_chosen (s_peer s p) with
  | Some c => (onp p (fun x => p_sethb (p_ping x) (Some false) (Some false) x) s, [OPing c None])
  | None => ub Null s
  end.

(** Model only: conn->peer = nullptr. *)
Definition clear_peer_of (c : option nat) (s : st) : st := match c with Some c => onc c (k_setpeer None) s | None => s end.

(** 908-953: finish_handshake. *)
Definition finish_handshake (p : nat) (s : st) : out :=
  check (match p_state (s_peer s p) with Disconnected => true | _ => false end) s ;; fun s =>
  let s := onp p (fun x => p_sethb false (p_ptok x) (p_pmok x) x) s in                                     (* 910 *)
  let s := clear_peer_of (p_out (s_peer s p)) s in                                                         (* 913-917 *)
  let s := onp p (fun x => p_setstate Connected (p_setlinks (p_chosen x) None None x)) s in                (* 911-918 *)
  send_ping p (reset_ping_timer p s) ;; fun s =>                                                           (* 919-920 *)
  let s := onp p (fun x => p_settry (p_ntry x) (p_ntry x) (p_settimer (p_timer x) false x)) s in            (* 921-922 *)
  match p_chosen (s_peer s p) with
  | None => ub Null s
  | Some c =>
    match p_conn (s_peer s p) with
    | None => say [] s
    | Some o => check (k_term (s_conn s o)) s ;; fun s => say [OMove o c] (onc o (k_setpeer None) s)        (* 925-936 *)
    end ;; fun s =>
    let s := onc c (k_setpeer (Some p)) (onp p (p_setconn (Some c)) s) in                                   (* 937-938 *)
    let s := upost (UCb p c true) s in                                                    (* 939-941 *)
    say [] (w_pend (drop_by (k_addr (s_conn s c)) (s_pend s)) s)                                            (* 942 *)
  end.

(** 956-969: replace_pending_conn. *)
Definition replace_pending_conn (c : nat) (s : st) : out :=
  let a := k_addr (s_conn s c) in
  match find_by a (s_pend s) with
  | Some o => if o =? c then say [] s else say [OKill o] (w_pend ((a, c) :: drop_by a (s_pend s)) s)
  | None => say [] (w_pend ((a, c) :: s_pend s) s)
  end.

(** 784-814: on_dispatcher_setup; an exception is reported by the pool, which
    terminates the connection (conn.h 249-259). *)
Definition setup (g : env) (c : nat) (s : st) : out :=
  let k := s_conn s c in
  match k_mode k with
  | Active =>
      match find_by (ident k (k_addr k)) (s_known s) with
      | None => if k_manual k then say [OPing c (Some 0%N)] s else say [OErr None NotMatch; OKill c] s
      | Some p => match get_nonce g p s with
                  | Some (s, n) => say [OPing c (Some n)] s
                  | None => say [OErr None RandSource; OKill c] s
                  end
      end
  | Passive => replace_pending_conn c s
  end.

(** 817-879: on_dispatcher_teardown. *)
Definition teardown (c : nat) (s : st) : out :=
  let k := s_conn s c in
  let s := w_pend (drop_by (k_addr k) (s_pend s)) s in
  match k_peer k with
  | None => say [] s
  | Some p =>
    if (match k_mode k with Active => true | Passive => false end) && k_manual k then say [] s
    else if negb (p_live (s_peer s p)) then ub Freed s
    else
      match p_state (s_peer s p) with
      | Disconnected => say [] s
      | _ => check (oeq (p_conn (s_peer s p)) (Some c)) s ;; fun s =>
             match p_conn (s_peer s p) with
             | None => ub Null s                                                                             (* 852: *(p->conn) *)
             | Some _ => say [] (onp p (fun x => p_sethb false (p_ptok x) (p_pmok x) (p_setlinks (p_chosen x) (p_in x) None (p_setstate Disconnected x))) s)
             end
      end ;; fun s =>
      let x := s_peer s p in
      match p_pre x with
      | Some (a, n) => say [] (onp p (fun x => p_setlinks (p_chosen x) None (p_out x) (p_setpre None x)) (upost (UPre p c a n (p_in x)) s))   (* 855-866 *)
      | None =>
        let s := upost (UCb p c false) s in
        let cur := if (0 <? p_cur x)%Z then (p_cur x - 1)%Z else p_cur x in
        let s := onp p (fun x => p_settry (p_ntry x) cur (p_setlinks (p_chosen x) None (p_out x) x)) s in
        if (cur =? 0)%Z then say [] (onp p (p_setnonce passive_nonce) s)
        else if p_timer x then say [] (onp p (fun x => p_settimer true true (p_setnonce 0%N x)) s) else ub Null s
      end
  end.

(** 972-981: start_active_conn; None: connect() failed with an exception. *)
Definition start_active_conn (g : env) (p : nat) (s : st) : option out :=
  if g_ok g then
    let a := p_addr (s_peer s p) in
    let c := s_nc s in
    Some (check (negb (a =? 0)%N) s ;; fun s =>
          let s := mkSt (upd (s_conn s) c (mkConn Active a (g_cert g) false (Some p) false false false)) (S c) (s_peer s) (s_np s) (s_known s) (s_pend s) (s_q s) (s_uq s) (s_halt s) in
          say (ODial (p_id (s_peer s p)) c a :: match p_out (s_peer s p) with Some o => [OKill o] | None => [] end)
              (onp p (fun x => p_setlinks (p_chosen x) (p_in x) (Some c) x) s) ;; fun s =>
          check (match find_by a (s_pend s) with None => true | Some _ => false end) s)
  else None.

(** 1003-1072: the task of ping_handler. *)
Definition ping_task (g : env) (c : option nat) (a : addr) (n : N) (s : st) : out :=
  match c with
  | None => ub Null s                                        (* 1004: conn->is_terminated() *)
  | Some c =>
    let k := s_conn s c in
    if k_term k then say [] s
    else if (a =? 0)%N then say [OPong c None] s
    else match k_mode k with
    | Active => say [] s
    | Passive =>
      match find_by (ident k a) (s_known s) with
      | None => say [OKill c] (upost (UUnknown a c) s)
      | Some p =>
        if (n =? 0)%N then say [] s
        else match p_state (s_peer s p) with
        | Connected =>
            let s := onp p (fun x => p_setnonce passive_nonce (p_setlinks (p_chosen x) (Some c) (p_out x) (p_setpre (Some (a, n)) x))) s in
            match p_conn (s_peer s p) with Some o => say [OKill o] s | None => ub Null s end
        | Reset => say [] s
        | Disconnected =>
            match get_nonce g p s with
            | None => say [OFatal] (halt s)
            | Some (s, mine) =>
              say [OPong c (Some mine)] s ;; fun s =>
              match p_in (s_peer s p) with
              | Some o => if o =? c then say [] s else check (oeq (k_peer (s_conn s o)) None) s ;; say [OKill o]
              | None => say [] s
              end ;; fun s =>
              let s := onp p (fun x => p_setlinks (p_chosen x) (Some c) (p_out x) x) s in
              if (n <? mine)%N || (p_addr (s_peer s p) =? 0)%N
              then finish_handshake p (onp p (fun x => p_setlinks (Some c) (p_in x) (p_out x) x) s)
              else say [OKill c] s
            end
        end
      end
    end
  end.

(** 1077-1152: the task of pong_handler. *)
Definition pong_task (g : env) (c : nat) (a : addr) (n : N) (s : st) : out :=
  let k := s_conn s c in
  if k_term k then say [] s
  else if (a =? 0)%N then
    match k_peer k with
    | None => say [] s
    | Some p =>
      if negb (p_live (s_peer s p)) then ub Freed s
      else let s := onp p (fun x => p_sethb (p_ping x) (p_ptok x) (Some true) x) s in
           match p_ptok (s_peer s p) with
           | None => ub Uninit s
           | Some true => send_ping p (reset_ping_timer p s)
           | Some false => say [] s
           end
    end
  else match k_mode k with
  | Passive => say [] s
  | Active =>
    match find_by (ident k (k_addr k)) (s_known s) with
    | None => say [OKill c] s
    | Some p =>
      check (negb (p_addr (s_peer s p) =? 0)%N && (p_addr (s_peer s p) =? k_addr k)%N) s ;; fun s =>
      match p_state (s_peer s p) with
      | Disconnected =>
        if negb (p_addr (s_peer s p) =? a)%N then say [] s
        else
          match p_out (s_peer s p) with
          | Some o => if o =? c then say [] s else check (oeq (k_peer (s_conn s o)) None) s ;; say [OKill o]
          | None => say [] s
          end ;; fun s =>
          let s := onp p (fun x => p_setlinks (p_chosen x) (p_in x) (Some c) x) s in
          match get_nonce g p s with
          | None => say [OFatal] (halt s)
          | Some (s, mine) =>
            if (mine <? n)%N
            then finish_handshake p (reset_ping_timer p (onp p (fun x => p_setlinks (Some c) (p_in x) (p_out x) x) s))
            else say [OKill c] s
          end
      | _ => say [] s
      end
    end
  end.

(** Model only: the termination of a connection, if there is one. *)
Definition out_kill (c : option nat) : list obs := match c with Some c => [OKill c] | None => [] end.

(** 1348-1352: the loop of _multicast_msg; None is the exception. *)
Fixpoint multi (g : env) (l : list pid) (m : N) (s : st) : list obs * option bool :=
  match l with
  | [] => ([], Some true)
  | i :: l => match find_by i (s_known s) with
              | None => ([], None)
              | Some p => match p_conn (s_peer s p) with
                          | None => ([OUb Null], Some true)
                          | Some c => let '(o, r) := multi g l m s in
                                      ((if g_write g c then [OQueue c m] else []) ++ o, match r with Some b => Some (g_write g c && b) | None => None end)
                          end
              end
  end.

(** The tasks of add_peer (1168-1186), del_peer (1257-1277), set_peer_addr
    (1237-1252), conn_peer (1191-1232), has_peer (1297-1300), get_peer_conn
    (1284-1291), get_peer_id (382), send_msg_deferred (1320-1326, 1338-1340), multicast_msg
    (1345-1355). *)
Definition task (g : env) (t : dtask) (s : st) : out :=
  match t with
  | TAdd id i =>
      match find_by i (s_known s) with
      | Some _ => say [OErr (Some id) AlreadyExists] s
      | None =>
        let p := s_np s in let c := s_nc s in
        say [] (mkSt (upd (s_conn s) c (mkConn Passive 0%N None true (Some p) true false true)) (S c)
                     (upd (s_peer s) p (p_setconn (Some c) (new_peer i))) (S p) ((i, p) :: s_known s) (s_pend s) (s_q s) (s_uq s) (s_halt s))
      end
  | TDel id i =>
      match find_by i (s_known s) with
      | None => say [OErr (Some id) NotExist] s
      | Some p =>
        match p_conn (s_peer s p) with
        | None => ub Null s
        | Some c =>
          let x := s_peer s p in
          let s := clear_peer_of (p_out x) (clear_peer_of (p_in x) (onc c (k_setpeer None) s)) in   (* 1263, 492-493 *)
          say (OKill c :: out_kill (p_in x) ++ out_kill (p_out x)) (onp p p_dead (w_known (drop_by i (s_known s)) s))
        end
      end
  | TSetAddr id i a =>
      match find_by i (s_known s) with
      | None => say [OErr (Some id) NotExist] s
      | Some p => say [] (onp p (p_setaddr a) s)
      end
  | TConn id i n =>
      match find_by i (s_known s) with
      | None => say [OErr (Some id) NotExist] s
      | Some p =>
        if (p_addr (s_peer s p) =? 0)%N then say [OErr (Some id) NotReady] s
        else
          let s := onp p (fun x => p_settimer true false (p_setnonce 0%N (p_sethb false (p_ptok x) (p_pmok x) (p_setlinks (p_chosen x) None None (p_settry n n x))))) s in
          match p_state (s_peer s p) with
          | Disconnected => say [] (if (n =? 0)%Z then s else onp p (p_settimer true true) s)
          | Connected => match p_conn (s_peer s p) with
                         | Some c => say [OKill c] (onp p (p_setstate Reset) s)
                         | None => ub Null s
                         end
          | Reset => say [] s
          end
      end
  | THas i => say [OHas i (match find_by i (s_known s) with Some _ => true | None => false end)] s
  | TGetConn i => match find_by i (s_known s) with
                  | Some p => say [OConn i (p_conn (s_peer s p))] s
                  | None => say [OThrow i NotExist] s
                  end
  | TPeer c => match k_peer (s_conn s c) with
               | None => say [OId c None] s
               | Some p => if p_live (s_peer s p) then say [OId c (Some (p_id (s_peer s p)))] s else ub Freed s
               end
  | TSend id i m =>
      match find_by i (s_known s) with
      | None => say [OErr (Some id) NotExist] s
      | Some p => match p_conn (s_peer s p) with
                  | None => ub Null s
                  | Some c => say (if g_write g c then [OQueue c m] else [OErr (Some id) ConnNotReady]) s
                  end
      end
  | TMulti id l m =>
      let '(o, r) := multi g l m s in
      say (o ++ match r with Some true => [] | Some false => [OErr (Some id) ConnNotReady] | None => [OErr (Some id) NotExist] end) s
  | TPing c a n => ping_task g c a n s
  | TPong c a n => pong_task g c a n s
  end.

Inductive ev :=
| EPost (t : dtask)                 (* the user's thread or loop calls an operation, or a handler gets a ping or pong *)
| EDisp (g : env)                   (* the dispatcher runs its next task *)
| EUser                             (* the user's loop runs its next task *)
| EAccept (a : addr) (cert : option pid)   (* conn.cpp 301-337 *)
| EDial (a : addr) (cert : option pid)     (* connect() by the user: conn.h 591-614 *)
| ESetup (c : nat) (g : env)
| ETerm (c : nat)                   (* conn.cpp 277 or 294: set_terminated *)
| ETear (c : nat)
| ERetry (p : nat) (g : env)        (* 1208-1214 *)
| EPingT (p : nat).                 (* 898-905 *)

(** A worker posts the set-up of a connection to the dispatcher before it reads
    from it (conn.h 312-325, conn.cpp 245-268), so the task of a message comes
    after the set-up. *)
Definition postable (s : st) (t : dtask) : bool :=
  match t with
  | TPing (Some c) _ _ | TPong c _ _ => (c <? s_nc s) && k_set (s_conn s c)
  | TPing None _ _ => false
  | TPeer c => c <? s_nc s
  | _ => true
  end.

Definition step (e : ev) (s : st) : option out :=
  if s_halt s then None else
  match e with
  | EPost t => if postable s t then Some (say [] (w_q (s_q s ++ [t]) s)) else None
  | EDisp g => match s_q s with
               | t :: q => Some (let '(s', o) := task g t (w_q q s) in (s', OExec t :: o))
               | [] => None
               end
  | EUser => match s_uq s with
             | UCb p c b :: q => Some (say [OCb p c b] (w_uq q s))
             | UPre p c a n inb :: q => Some (say [OCb p c false] (w_q (s_q s ++ [TPing inb a n]) (w_uq q s)))   (* 861-862 *)
             | UUnknown a c :: q => Some (say [OUnknown a c] (w_uq q s))
             | [] => None
             end
  | EAccept a cert => Some (say [] (mkSt (upd (s_conn s) (s_nc s) (mkConn Passive a cert true None false false false)) (S (s_nc s)) (s_peer s) (s_np s) (s_known s) (s_pend s) (s_q s) (s_uq s) (s_halt s)))
  | EDial a cert => Some (say [] (mkSt (upd (s_conn s) (s_nc s) (mkConn Active a cert true None false false false)) (S (s_nc s)) (s_peer s) (s_np s) (s_known s) (s_pend s) (s_q s) (s_uq s) (s_halt s)))
  | ESetup c g => let k := s_conn s c in
                  if (c <? s_nc s) && negb (k_set k) && negb (k_torn k) then Some (setup g c (onc c (k_flags (k_term k) true (k_torn k)) s)) else None
  | ETerm c => let k := s_conn s c in
               if (c <? s_nc s) && negb (k_term k) then Some (say [] (onc c (k_flags true (k_set k) (k_torn k)) s)) else None
  | ETear c => let k := s_conn s c in
               if (c <? s_nc s) && k_term k && negb (k_torn k) then Some (teardown c (onc c (k_flags true (k_set k) true) s)) else None
  | ERetry p g => let x := s_peer s p in
                  if p_live x && p_timer x && p_ton x then
                    let s := onp p (p_settimer true false) s in
                    match start_active_conn g p s with
                    | Some r => Some (r ;; fun s => say [] (onp p (p_settimer true true) s))
                    | None => Some (say [OFatal] (halt s))
                    end
                  else None
  | EPingT p => let x := s_peer s p in
                if p_live x && p_ping x then
                  let s := onp p (fun x => p_sethb false (Some true) (p_pmok x) x) s in
                  match p_pmok x with
                  | None => Some (ub Uninit s)
                  | Some true => Some (send_ping p (reset_ping_timer p s))
                  | Some false => Some (say [] s)
                  end
                else None
  end.

(** A run: one event after the other; it stops where an event cannot happen.  Model only. *)
Fixpoint run (es : list ev) (s : st) : option out :=
  match es with
  | [] => Some (s, [])
  | e :: es => match step e s with
               | Some (s1, o1) => match run es s1 with Some (s2, o2) => Some (s2, o1 ++ o2) | None => None end
               | None => None
               end
  end.
End Net.

(** 1304-1309 and 1295-1301: the dispatcher stores a size_t, the caller reads
    its first byte as a bool; a byte other than 0 and 1 is not a bool (None:
    undefined).  [big]: the host's byte order. *)
Definition size_bytes (big : bool) (n : N) : list N :=
  let l := map (fun i => (n / 2 ^ (8 * N.of_nat i)) mod 256)%N [0; 1; 2; 3; 4; 5; 6; 7] in if big then rev l else l.
Definition read_bool (l : list N) : option bool := match l with 0%N :: _ => Some false | 1%N :: _ => Some true | _ => None end.
Definition get_npending (big : bool) (s : st) : option N :=
  match read_bool (size_bytes big (N.of_nat (length (s_pend s)))) with Some b => Some (if b then 1 else 0)%N | None => None end.
Definition has_peer (big : bool) (s : st) (i : pid) : option bool :=
  read_bool (size_bytes big (match find_by i (s_known s) with Some _ => 1 | None => 0 end)%N).
