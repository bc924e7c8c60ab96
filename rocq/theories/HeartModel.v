(** The heartbeat of one connection of a PeerNetwork and the timeout that ends it
    (network.h 743-777, 792, 882-905, 919-920, 1135-1151): times in milliseconds.

    Three threads take part: the worker of the connection has the timeout, the
    dispatcher the ping timer and the flags, the user's thread hands pongs on.
    Each runs its tasks and timers when it gets to it: time may pass at any
    point. *)
From Coq Require Import Arith List Bool Lia.
Import ListNotations.

Record st := mkSt {
  s_now : nat;
  s_wq : list nat;          (* tasks of tcall_reset_timeout in the worker's queue (network.h 745): when they were posted *)
  s_dl : option nat;        (* conn->ev_timeout: when it expires; None: not started *)
  s_uq : list nat;          (* heartbeat pongs waiting for the user's thread: when they arrived *)
  s_dq : list nat;          (* pong tasks waiting for the dispatcher (network.h 1087): when they were posted *)
  s_est : bool;             (* the connection is its peer's (network.h 937-938); never so for connections the user made with connect() *)
  s_timer : option nat;     (* ev_ping_timer: when it expires; None: not started *)
  s_ptok : bool;            (* ping_timer_ok *)
  s_pmok : bool;            (* pong_msg_ok *)
  s_fired : bool;           (* ev_timeout has expired and was served: worker_terminate called *)
  s_gone : bool;            (* terminated; what follows is in PoolModel and PeerModel *)
  (* not in the code: *)
  s_last : nat;             (* when the timeout was last ordered to be restarted *)
  s_wait : bool;            (* nothing came since *)
  s_heard : nat }.          (* when something was last heard from the other side: made, handshake, pong *)

(** A connection that was just set up: on_dispatcher_setup (network.h 792). *)
Definition st0 : st := mkSt 0 [0] None [] [] false None false false false false 0 true 0.

Inductive ev :=
| Tick (d : nat)       (* time passes *)
| Data                 (* a message arrives that is no heartbeat pong *)
| Arrive               (* a heartbeat pong arrives, asked for or not *)
| User                 (* the user's thread calls pong_handler: network.h 1085-1087 *)
| Shake (x y : nat)    (* finish_handshake: network.h 919-920; x: the time drawn for the ping timer; y: age of the loop's clock *)
| Pong (x y : nat)     (* the dispatcher runs a pong task: network.h 1135-1151 *)
| Ping (x y : nat)     (* the ping timer: network.h 898-905 *)
| Reset (y : nat)      (* the worker runs a task of tcall_reset_timeout: network.h 747-749 *)
| Fire                 (* ev_timeout: network.h 762-769 *)
| Term.                (* terminated, for whatever reason *)

Inductive obs := OPing | OTimeout.

(** network.h 882-886 with util.cpp 109-111: the time drawn is between the ping
    period and one and a half of it; event.h 243: whole milliseconds. *)
Definition drawn (P x : nat) : bool := (P <=? x) && (x <=? P + P / 2).

(** reset_ping_timer and send_ping, network.h 882-895. *)
Definition send_ping (x y : nat) (s : st) : st :=
  mkSt (s_now s) (s_wq s ++ [s_now s]) (s_dl s) (s_uq s) (s_dq s) (s_est s) (Some (s_now s + x - y)) false false (s_fired s) (s_gone s) (s_now s) true (s_heard s).

(** One event.  P is ping_period, T is conn_timeout.  libuv starts a timer from
    the clock of its loop, which is up to G old (C85). *)
Definition step (P T G : nat) (e : ev) (s : st) : option (st * list (nat * obs)) :=
  let '(mkSt now wq dl uq dq est timer ptok pmok fired gone last wait heard) := s in
  let ping x y s := if drawn P x && (y <=? G) then Some (send_ping x y s, [(now, OPing)]) else None in
  match e with
  | Tick d => Some (mkSt (now + d) wq dl uq dq est timer ptok pmok fired gone last wait heard, [])
  | _ =>
    if gone then None else
    match e with
    | Tick _ => None
    | Data => Some (s, [])
    | Arrive => Some (mkSt now wq dl (uq ++ [now]) dq est timer ptok pmok fired gone last false now, [])
    | User => match uq with
              | _ :: uq => Some (mkSt now wq dl uq (dq ++ [now]) est timer ptok pmok fired gone last wait heard, [])
              | [] => None
              end
    | Shake x y => if est then None else ping x y (mkSt now wq dl uq dq true timer ptok pmok fired gone last wait now)
    | Pong x y => match dq with
                | _ :: dq =>
                  if est then
                    if ptok then ping x y (mkSt now wq dl uq dq est timer ptok true fired gone last wait heard)
                    else Some (mkSt now wq dl uq dq est timer ptok true fired gone last wait heard, [])
                  else Some (mkSt now wq dl uq dq est timer ptok pmok fired gone last wait heard, [])   (* 1137-1143: unexpected *)
                | [] => None
                end
    | Ping x y => match timer with
                | Some p =>
                  if p <=? now then
                    if pmok then ping x y (mkSt now wq dl uq dq est None true pmok fired gone last wait heard)
                    else Some (mkSt now wq dl uq dq est None true pmok fired gone last wait heard, [])
                  else None
                | None => None
                end
    | Reset y => match wq with
               | _ :: wq => if y <=? G then Some (mkSt now wq (Some (now + T - y)) uq dq est timer ptok pmok fired gone last wait heard, []) else None
               | [] => None
               end
    | Fire => match dl with
              | Some d => if d <=? now then Some (mkSt now wq None uq dq est timer ptok pmok true gone last wait heard, [(now, OTimeout)]) else None
              | None => None
              end
    | Term => Some (mkSt now wq dl uq dq est timer ptok pmok fired true last wait heard, [])
    end
  end.
(** A run: one event after the other; it stops where an event cannot happen.  Model only. *)
Fixpoint run (P T G : nat) (es : list ev) (s : st) : option (st * list (nat * obs)) :=
  match es with
  | [] => Some (s, [])
  | e :: es' => match step P T G e s with
                | Some (s', o) => option_map (fun x => (fst x, o ++ snd x)) (run P T G es' s')
                | None => None
                end
  end.
(** Something holds all the time during a run. *)
Fixpoint along (P T G : nat) (Q : st -> Prop) (es : list ev) (s : st) : Prop :=
  Q s /\ match es with
         | [] => True
         | e :: es' => match step P T G e s with Some (s', _) => along P T G Q es' s' | None => True end
         end.

(** The threads of the pool serve tasks and timers within L, the user's thread
    serves messages within U. *)
Definition prompt (L U : nat) (s : st) : Prop :=
  (forall x, In x (s_wq s) -> s_now s <= x + L) /\ (forall x, In x (s_dq s) -> s_now s <= x + L) /\ (forall x, In x (s_uq s) -> s_now s <= x + U) /\
  (forall p, s_timer s = Some p -> s_now s <= p + L) /\ (forall d, s_dl s = Some d -> s_now s <= d + L).
(** Every ping is answered within R; the handshake takes at most H. *)
Definition answered (R : nat) (s : st) : Prop := s_est s = true -> s_wait s = true -> s_now s <= s_last s + R.
Definition shaken (H : nat) (s : st) : Prop := s_est s = false -> s_now s <= H.
(** While the connection is not terminated. *)
Definition up (Q : st -> Prop) (s : st) : Prop := s_gone s = false -> Q s.
