(** The receive side of a MsgNetwork connection, run by its worker thread:
    Conn::_recv_data (src/conn.cpp 107-149; _recv_data_tls 195-234 has the
    same text with SSL_read for recv), MsgNetwork::on_read
    (include/salticidae/network.h 648-702), the retry timer (137-150) and the
    socket callback (include/salticidae/conn.h 289-299).

    The kernel is an argument: every event carries the list of results of the
    recv calls made while it is handled ([ks], "would block" once exhausted)
    and the answers of incoming_msgs.enqueue ([qs], accepted once exhausted).
    The bytes themselves come in order from [r_net], the part of the peer's
    byte stream not yet received. *)
From Coq Require Import NArith ZArith List Bool.
From Coq.Init Require Import Byte.
From Verif Require Import Base StreamModel MsgModel SegModel.
Import ListNotations.
Local Open Scope N_scope.

(** conn.h 198-199 recv_chunk_size, max_recv_buff_size; network.h 124
    max_msg_size. *)
Record rcfg := mkRcfg { rx_msg : msg_cfg; rx_chunk : N; rx_maxbuf : N; rx_maxmsg : N }.

(** Result of recv / SSL_read: KData n: the kernel would hand out n bytes. *)
Inductive kres := KData (n : N) | KAgain | KEof | KErr.

(** network.h 79-83 and conn.h 76-98, the worker's fields of a connection.
    [r_rd], [r_wr]: events enabled on ev_socket; [r_timer]: ev_enqueue_poll
    armed; [r_est]: the READ|WRITE of conn.h 224/232 was added; [r_up]: not
    torn down; [r_term]: a worker_terminate task is queued; [r_errs]: errors
    passed to recoverable_error; [r_crash]: an exception left a libuv
    callback; [r_in]: messages put into incoming_msgs, oldest first. *)
Record rconn := mkR {
  r_buf : seg; r_msg : msg; r_payload : bool; r_sleep : bool; r_timer : bool;
  r_ready_recv : bool; r_ready_send : bool; r_rd : bool; r_wr : bool;
  r_est : bool; r_up : bool; r_term : bool; r_errs : list exn; r_crash : bool;
  r_in : list msg; r_net : bytes }.

(** A connection just fed to its worker (conn.h 112-121, network.h 94, 139). *)
Definition rinit (stream : bytes) : rconn :=
  mkR seg_new (msg_empty 0 0 0) false false false false false false false
      false true false [] false [] stream.

(** Model only: the state with one field replaced. *)
Definition set_buf b s := mkR b (r_msg s) (r_payload s) (r_sleep s) (r_timer s) (r_ready_recv s) (r_ready_send s) (r_rd s) (r_wr s) (r_est s) (r_up s) (r_term s) (r_errs s) (r_crash s) (r_in s) (r_net s).
Definition set_msg m p s := mkR (r_buf s) m p (r_sleep s) (r_timer s) (r_ready_recv s) (r_ready_send s) (r_rd s) (r_wr s) (r_est s) (r_up s) (r_term s) (r_errs s) (r_crash s) (r_in s) (r_net s).
Definition set_sleep b t s := mkR (r_buf s) (r_msg s) (r_payload s) b t (r_ready_recv s) (r_ready_send s) (r_rd s) (r_wr s) (r_est s) (r_up s) (r_term s) (r_errs s) (r_crash s) (r_in s) (r_net s).
Definition set_ready_recv b s := mkR (r_buf s) (r_msg s) (r_payload s) (r_sleep s) (r_timer s) b (r_ready_send s) (r_rd s) (r_wr s) (r_est s) (r_up s) (r_term s) (r_errs s) (r_crash s) (r_in s) (r_net s).
Definition set_ready_send b s := mkR (r_buf s) (r_msg s) (r_payload s) (r_sleep s) (r_timer s) (r_ready_recv s) b (r_rd s) (r_wr s) (r_est s) (r_up s) (r_term s) (r_errs s) (r_crash s) (r_in s) (r_net s).
Definition set_mask rd wr s := mkR (r_buf s) (r_msg s) (r_payload s) (r_sleep s) (r_timer s) (r_ready_recv s) (r_ready_send s) rd wr (r_est s) (r_up s) (r_term s) (r_errs s) (r_crash s) (r_in s) (r_net s).
Definition set_est s := mkR (r_buf s) (r_msg s) (r_payload s) (r_sleep s) (r_timer s) (r_ready_recv s) (r_ready_send s) (r_rd s) (r_wr s) true (r_up s) (r_term s) (r_errs s) (r_crash s) (r_in s) (r_net s).
(** worker_terminate (src/conn.cpp 275-284): posts a task. *)
Definition set_term s := mkR (r_buf s) (r_msg s) (r_payload s) (r_sleep s) (r_timer s) (r_ready_recv s) (r_ready_send s) (r_rd s) (r_wr s) (r_est s) (r_up s) true (r_errs s) (r_crash s) (r_in s) (r_net s).
(** The task: on_worker_teardown (network.h 152-156, conn.h 186-191). *)
Definition set_down s := mkR (r_buf s) (r_msg s) (r_payload s) (r_sleep s) false (r_ready_recv s) (r_ready_send s) false false (r_est s) false true (r_errs s) (r_crash s) (r_in s) (r_net s).
(** recoverable_error (conn.h 166-170). *)
Definition add_err e s := mkR (r_buf s) (r_msg s) (r_payload s) (r_sleep s) (r_timer s) (r_ready_recv s) (r_ready_send s) (r_rd s) (r_wr s) (r_est s) (r_up s) (r_term s) (r_errs s ++ [e]) (r_crash s) (r_in s) (r_net s).
Definition set_crash s := mkR (r_buf s) (r_msg s) (r_payload s) (r_sleep s) (r_timer s) (r_ready_recv s) (r_ready_send s) (r_rd s) (r_wr s) (r_est s) (r_up s) (r_term s) (r_errs s) true (r_in s) (r_net s).
Definition add_in m s := mkR (r_buf s) (r_msg s) (r_payload s) (r_sleep s) (r_timer s) (r_ready_recv s) (r_ready_send s) (r_rd s) (r_wr s) (r_est s) (r_up s) (r_term s) (r_errs s) (r_crash s) (r_in s ++ [m]) (r_net s).
Definition set_net n s := mkR (r_buf s) (r_msg s) (r_payload s) (r_sleep s) (r_timer s) (r_ready_recv s) (r_ready_send s) (r_rd s) (r_wr s) (r_est s) (r_up s) (r_term s) (r_errs s) (r_crash s) (r_in s) n.

(** util.h 118: SALTI_ERROR_CONN_OVERSIZED_MSG. *)
Definition oversized : exn := ExnSalti 30.

(** How the parsing loop ends: break, return after queue-full, exception;
    PUndef: undefined behaviour or fuel exhausted. *)
Inductive pres :=
| PBreak (qs : list bool) (s : rconn) | PSleep (qs : list bool) (s : rconn)
| PThrow (e : exn) (s : rconn) | PUndef.

(** network.h 674-691, the payload branch; [k] is the next round of the loop. *)
Definition payload_step (c : rcfg) (k : list bool -> rconn -> pres) (qs : list bool) (s : rconn) : pres :=
  let len := m_length (r_msg s) in
  if seg_size (r_buf s) <? len then PBreak qs s
  else
    let '(p, b) := seg_pop len (r_buf s) in
    let s := set_msg (msg_set_payload p (r_msg s)) false (set_buf b s) in
    match (if mc_ck (rx_msg c) then msg_verify (rx_msg c) (r_msg s) else Ret true (r_msg s)) with
    | Ret false _ => PBreak qs s
    | Ret true _ =>
      let '(ok, qs) := match qs with [] => (true, []) | q :: r => (q, r) end in
      if ok : bool then k qs (add_in (r_msg s) s)
      else PSleep qs (set_sleep true true s)
    | Exn e _ => PThrow e s
    | Undef => PUndef
    end.

(** network.h 656-693, the loop of on_read. *)
Fixpoint parse_loop (c : rcfg) (fuel : nat) (qs : list bool) (s : rconn) : pres :=
  match fuel with
  | O => PUndef
  | S f =>
    if r_payload s then payload_step c (parse_loop c f) qs s
    else
      let hs := header_size (rx_msg c) in
      if seg_size (r_buf s) <? hs then PBreak qs s
      else
        let '(hb, b) := seg_pop hs (r_buf s) in
        match msg_parse_header (rx_msg c) 0 (ds_new hb) with
        | Ret m _ =>
          let s := set_msg m false (set_buf b s) in
          if rx_maxmsg c <? m_length m then PThrow oversized s
          else payload_step c (parse_loop c f) qs (set_msg m true s)
        | Exn e _ => PThrow e (set_buf b s)
        | Undef => PUndef
        end
  end.

(** conn.cpp 115-145, the receive loop.  LFull: buffer full (117-124); LDone:
    left by a short read or EWOULDBLOCK; LClosed: end of stream or error. *)
Inductive lres :=
| LFull (ks : list kres) (s : rconn) | LDone (ks : list kres) (s : rconn) | LClosed (ks : list kres) (s : rconn).
Fixpoint recv_loop (c : rcfg) (ks : list kres) (s : rconn) : lres :=
  if rx_maxbuf c <=? seg_len (r_buf s) then LFull ks s
  else match ks with
  | [] => LDone [] s
  | KAgain :: ks => LDone ks s
  | KEof :: ks | KErr :: ks => LClosed ks s
  | KData n :: ks =>
    let d := takeN (N.min n (rx_chunk c)) (r_net s) in
    if lenN d =? 0 then LDone ks s (* nothing available: EWOULDBLOCK *)
    else
      let s := set_net (dropN (lenN d) (r_net s)) (set_buf (seg_push d (r_buf s)) s) in
      if lenN d =? rx_chunk c then recv_loop c ks s else LDone ks s
  end.

(** Normal return, exception, undefined. *)
Inductive ores := ORet (s : rconn) | OThrow (e : exn) (s : rconn) | OUndef.

(** conn.cpp 113-148, _recv_data without the ERROR test; [onread] is
    cpool->on_read. *)
Definition recv_data (c : rcfg) (onread : list kres -> list bool -> rconn -> ores)
    (ks : list kres) (qs : list bool) (s : rconn) : ores :=
  match recv_loop c ks s with
  | LFull _ s => ORet (set_ready_recv true (set_mask false (negb (r_ready_send s)) s))
  | LClosed _ s => ORet (set_term s)
  | LDone ks s => onread ks qs (set_ready_recv false s)
  end.

(** network.h 649-702, on_read; [depth] bounds the mutual recursion with
    recv_data (proved never to run out). *)
Fixpoint on_read (c : rcfg) (depth : nat) (ks : list kres) (qs : list bool) (s : rconn) : ores :=
  if r_sleep s then ORet s
  else
    match parse_loop c (N.to_nat (seg_size (r_buf s)) + 2) qs s with
    | PSleep _ s => ORet s
    | PThrow e s => OThrow e s
    | PUndef => OUndef
    | PBreak qs s =>
      if r_ready_recv s && (seg_len (r_buf s) <? rx_maxbuf c) then
        match depth with
        | O => OUndef
        | S d => recv_data c (on_read c d) ks qs (set_mask true (negb (r_ready_send s)) s)
        end
      else ORet s
    end.

(** What happens in the worker's event loop. *)
Inductive rev :=
| EvEstablish                                  (* conn.h 218-233, the task of update_conn *)
| EvRead (ks : list kres) (qs : list bool)     (* socket readable, conn.h 291-292 *)
| EvSockErr                                    (* socket error, conn.h 294, conn.cpp 64-68 *)
| EvTimer (ks : list kres) (qs : list bool)    (* network.h 140-149 *)
| EvSendIdle                                   (* conn.cpp 100-104 *)
| EvSendBlocked                                (* conn.cpp 96 *)
| EvSendNotify                                 (* conn.h 274-278 *)
| EvKill                                       (* worker_terminate called elsewhere *)
| EvTermTask.                                  (* conn.cpp 276-283 *)

(** Model only: the result of a step. *)
Inductive sres := SOk (s : rconn) | SDisabled | SUndef.

(** conn.h 290-298: exceptions are reported and terminate the connection. *)
Definition guarded (o : ores) : sres :=
  match o with
  | ORet s => SOk s
  | OThrow e s => SOk (set_term (add_err e s))
  | OUndef => SUndef
  end.
(** event.h 182-185: nothing catches an exception of a timer callback. *)
Definition unguarded (o : ores) : sres :=
  match o with
  | ORet s => SOk s
  | OThrow e s => SOk (set_crash s)
  | OUndef => SUndef
  end.
Definition when (b : bool) (r : sres) : sres := if b then r else SDisabled.

(** One event; the lines are given with the events above. *)
Definition rstep (c : rcfg) (ev : rev) (s : rconn) : sres :=
  if r_crash s then SDisabled else
  if negb (r_up s) then SDisabled else
  match ev with
  | EvEstablish => when (negb (r_est s)) (SOk (set_est (set_mask true true s)))
  | EvRead ks qs => when (r_rd s) (guarded (recv_data c (on_read c 1) ks qs s))
  | EvSockErr => when (r_rd s || r_wr s) (SOk (set_term s))
  | EvTimer ks qs =>
    when (r_timer s)
      (let '(ok, qs) := match qs with [] => (true, []) | q :: r => (q, r) end in
       if ok : bool then unguarded (on_read c 1 ks qs (set_sleep false false (add_in (r_msg s) s)))
       else SOk (set_sleep true true s))
  | EvSendIdle => when (r_est s) (SOk (set_ready_send true (set_mask (negb (r_ready_recv s)) false s)))
  | EvSendBlocked => when (r_est s) (SOk (set_ready_send false s))
  | EvSendNotify => when (r_est s) (SOk (set_mask (negb (r_ready_recv s)) true s))
  | EvKill => SOk (set_term s)
  | EvTermTask => when (r_term s) (SOk (set_down s))
  end.

(** A run: one event after the other; it stops where an event cannot happen.  Model only. *)
Fixpoint rrun (c : rcfg) (evs : list rev) (s : rconn) : sres :=
  match evs with
  | [] => SOk s
  | ev :: r => match rstep c ev s with SOk s' => rrun c r s' | x => x end
  end.
