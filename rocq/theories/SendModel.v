(** The send side of one connection: Conn::write (conn.h 145-147), the
    event-driven send queue (buffer.h 120-147, event.h 600-645), the worker's
    queue handler (conn.h 270-283) and _send_data / _send_data_tls
    (conn.cpp 63-105, 152-193).  Any number of threads write concurrently with
    the connection's worker; a step is one access to shared state.

    The queue itself is a list here (its head first): QueueModel.v has the
    lock-free structure.  Under TLS [send] is tls->send and the socket is
    replaced by the TLS engine, with the same results. *)
From Coq Require Import NArith List Bool.
From Coq.Init Require Import Byte.
From Verif Require Import Base.
Import ListNotations.
Local Open Scope N_scope.

(** Where the worker is. *)
Inductive wpc :=
| WIdle                 (* in the event loop *)
| WSig                  (* event.h 614, after nfd.reset() *)
| WFunc                 (* event.h 622, after wait_sig.exchange(true) *)
| WLoop                 (* conn.cpp 70, top of the loop *)
| WHold (d : bytes)     (* conn.cpp 75, a non-empty segment popped *)
| WEnd.                 (* conn.cpp 100, after the loop *)

Record sconn := mkSconn {
  s_q : list bytes;      (* the send queue *)
  s_pushed : nat;        (* writers between event.h 632 and 635 *)
  s_won : nat;           (* writers between event.h 635 and 638 *)
  s_sig : bool;          (* wait_sig *)
  s_nfd : bool;          (* the eventfd is readable *)
  s_pc : wpc;
  s_ready : bool;        (* ready_send *)
  s_wr : bool;           (* ev_socket listens for WRITE *)
  s_reg : bool;          (* the queue handler is registered *)
  s_est : bool;          (* the task of update_conn has run *)
  s_up : bool;           (* on_worker_teardown has not run *)
  s_term : bool;         (* worker_terminate was called *)
  s_sent : bytes;        (* bytes handed to the socket *)
  s_acc : list bytes     (* data of the writes that returned true, in queue order *)
}.

(** conn.h 113-121, event.h 608. *)
Definition sinit : sconn := mkSconn [] 0 0 true false WIdle false false false false true false [] [].

(** Result of send() / SSL_write. *)
Inductive sendres := SendN (n : N) | SendBlock | SendErr.

Inductive sev :=
| SvPush (d : bytes) (ok : bool)    (* a writer: conn.h 146, event.h 632 *)
| SvExch                            (* a writer: event.h 635 *)
| SvNotify                          (* a writer: event.h 638 *)
| SvHandshake                       (* worker, TLS: conn.cpp 237-240 *)
| SvReg                             (* worker: conn.h 270-283, conn.cpp 249-252 *)
| SvEstablish                       (* worker: conn.h 221-233 *)
| SvRecvMask                        (* worker: conn.cpp 120-121, network.h 697-699 *)
| SvHandler                         (* worker: event.h 612-614 *)
| SvSig                             (* worker: event.h 621 *)
| SvFunc                            (* worker: conn.h 274-279 *)
| SvWritable                        (* worker: conn.h 292-295 *)
| SvError                           (* worker: conn.cpp 64-68 *)
| SvPop                             (* worker: conn.cpp 72-74 *)
| SvSend (r : sendres)              (* worker: conn.cpp 75-98 *)
| SvEnd                             (* worker: conn.cpp 102-104 *)
| SvKill                            (* worker_terminate called elsewhere *)
| SvTermTask.                       (* worker: conn.cpp 276-283, conn.h 186-191 *)

(** Model only: the worker is in its event loop. *)
Definition idle (s : sconn) : bool := match s_pc s with WIdle => true | _ => false end.

(** Model only: the state with one field replaced. *)
Definition set_q q s := mkSconn q (s_pushed s) (s_won s) (s_sig s) (s_nfd s) (s_pc s) (s_ready s) (s_wr s) (s_reg s) (s_est s) (s_up s) (s_term s) (s_sent s) (s_acc s).
Definition set_prod p w sg n s := mkSconn (s_q s) p w sg n (s_pc s) (s_ready s) (s_wr s) (s_reg s) (s_est s) (s_up s) (s_term s) (s_sent s) (s_acc s).
Definition set_pc pc s := mkSconn (s_q s) (s_pushed s) (s_won s) (s_sig s) (s_nfd s) pc (s_ready s) (s_wr s) (s_reg s) (s_est s) (s_up s) (s_term s) (s_sent s) (s_acc s).
Definition set_ctl rdy wr s := mkSconn (s_q s) (s_pushed s) (s_won s) (s_sig s) (s_nfd s) (s_pc s) rdy wr (s_reg s) (s_est s) (s_up s) (s_term s) (s_sent s) (s_acc s).
Definition set_life reg est up term s := mkSconn (s_q s) (s_pushed s) (s_won s) (s_sig s) (s_nfd s) (s_pc s) (s_ready s) (s_wr s) reg est up term (s_sent s) (s_acc s).
Definition add_sent b s := mkSconn (s_q s) (s_pushed s) (s_won s) (s_sig s) (s_nfd s) (s_pc s) (s_ready s) (s_wr s) (s_reg s) (s_est s) (s_up s) (s_term s) (s_sent s ++ b) (s_acc s).
Definition add_acc d s := mkSconn (s_q s) (s_pushed s) (s_won s) (s_sig s) (s_nfd s) (s_pc s) (s_ready s) (s_wr s) (s_reg s) (s_est s) (s_up s) (s_term s) (s_sent s) (s_acc s ++ [d]).

(** Model only: a step that can happen only if. *)
Definition when (b : bool) (s : sconn) : option sconn := if b then Some s else None.

(** One step; None when it is not possible in this state. *)
Definition sstep (ev : sev) (s : sconn) : option sconn :=
  match ev with
  | SvPush d ok =>
    Some (if ok then add_acc d (set_q (s_q s ++ [d]) (set_prod (S (s_pushed s)) (s_won s) (s_sig s) (s_nfd s) s)) else s)
  | SvExch =>
    match s_pushed s with
    | O => None
    | S p => Some (set_prod p (if s_sig s then S (s_won s) else s_won s) false (s_nfd s) s)
    end
  | SvNotify =>
    match s_won s with
    | O => None
    | S w => Some (set_prod (s_pushed s) w (s_sig s) true s)
    end
  | SvHandshake => when (idle s && s_up s && negb (s_reg s) && negb (s_est s)) (set_ctl true (s_wr s) s)
  | SvReg => when (idle s && s_up s && negb (s_reg s) && negb (s_est s)) (set_ctl (s_ready s) false (set_life true (s_est s) (s_up s) (s_term s) s))
  | SvEstablish => when (idle s && s_up s && s_reg s && negb (s_est s)) (set_ctl (s_ready s) true (set_life (s_reg s) true (s_up s) (s_term s) s))
  | SvRecvMask => when (idle s && s_up s && s_est s) (set_ctl (s_ready s) (negb (s_ready s)) s)
  | SvHandler => when (idle s && s_up s && s_reg s && s_nfd s) (set_pc WSig (set_prod (s_pushed s) (s_won s) (s_sig s) false s))
  | SvSig => match s_pc s with WSig => Some (set_pc WFunc (set_prod (s_pushed s) (s_won s) true (s_nfd s) s)) | _ => None end
  | SvFunc => match s_pc s with
              | WFunc => Some (if s_ready s then set_pc WLoop (set_ctl true true s) else set_pc WIdle s)
              | _ => None end
  | SvWritable => when (idle s && s_up s && s_wr s) (set_pc WLoop s)
  | SvError => when (idle s && s_up s && s_est s) (set_life (s_reg s) (s_est s) (s_up s) true s)
  | SvPop => match s_pc s with
             | WLoop => Some (match s_q s with
                              | [] => set_pc WEnd s
                              | d :: q => if lenN d =? 0 then set_pc WEnd (set_q q s) else set_pc (WHold d) (set_q q s)
                              end)
             | _ => None end
  | SvSend r =>
    match s_pc s with
    | WHold d =>
      match r with
      | SendN n =>
        if lenN d <? n then None
        else if n =? lenN d then Some (set_pc WLoop (add_sent d s))
        else Some (set_pc WIdle (set_ctl false (s_wr s) (set_q (dropN n d :: s_q s) (add_sent (takeN n d) s))))
      | SendBlock => Some (set_pc WIdle (set_ctl false (s_wr s) (set_q (d :: s_q s) s)))
      | SendErr => Some (set_pc WIdle (set_life (s_reg s) (s_est s) (s_up s) true (set_q (d :: s_q s) s)))
      end
    | _ => None end
  | SvEnd => match s_pc s with WEnd => Some (set_pc WIdle (set_ctl true false s)) | _ => None end
  | SvKill => Some (set_life (s_reg s) (s_est s) (s_up s) true s)
  | SvTermTask => when (idle s && s_up s && s_term s) (set_ctl (s_ready s) false (set_life false (s_est s) false true s))
  end.

(** A run: one event after the other; it stops where an event cannot happen.  Model only. *)
Fixpoint srun (evs : list sev) (s : sconn) : option sconn :=
  match evs with
  | [] => Some s
  | ev :: evs => match sstep ev s with Some s' => srun evs s' | None => None end
  end.
