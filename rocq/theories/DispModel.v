(** The user loop's side of MsgNetwork: the queue of incoming messages and its
    handler (include/salticidae/network.h 203-229), on top of the event-driven
    queue (event.h 600-645).  A step is one access to shared state; producers
    are the workers (network.h 683, on_read).  The queue is a list
    (QueueModel.v has its structure); a message refused for lack of capacity
    never gets here (RecvModel.v).  Handlers that throw are not modelled
    (those of reg_handler, 237-251, catch). *)
From Coq Require Import Arith NArith List Bool.
Import ListNotations.

(** A message: opcode and an arbitrary tag standing for payload and connection. *)
Record msg := mkMsg { m_op : N; m_tag : nat }.

(** What happened, in order: set_handler (253-256), a handler called with a
    message, a message skipped as of unknown opcode, a message taken off the
    queue and dropped. *)
Inductive tr := TReg (op : N) (h : nat) | TCall (h : nat) (m : msg) | TSkip (m : msg) | TLost (m : msg).

(** Where the user loop is: as lpc in CallModel.v. *)
Inductive dpc := DIdle | DSig | DFunc (cnt : nat) | DMore.

Record disp := mkDisp {
  d_q : list msg; d_pushed : nat; d_won : nat; d_sig : bool; d_nfd : bool; d_pc : dpc;
  d_sys : nat;                     (* system_state: conn.h 151 *)
  d_map : list (N * nat);          (* handler_map, newest first *)
  d_tr : list tr }.

(** network.h 197-203, conn.h 487. *)
Definition d_new : disp := mkDisp [] 0 0 true false DIdle 0 [] [].

Inductive dev :=
| DSet (op : N) (h : nat)   (* set_handler: 253-256; in the user loop, outside of handlers *)
| DStart | DStop            (* conn.h 549-556, 558-560 *)
| DPush (m : msg)           (* a worker: event.h 632 *)
| DExch | DNotify           (* a worker: 635, 638 *)
| DReset | DSigs            (* 614, 621 *)
| DDeq                      (* one round of network.h 207-227, or its end 228 *)
| DRenotify.                (* event.h 622-623 *)

(** unordered_map::find (network.h 211). *)
Definition find_handler (op : N) (m : list (N * nat)) : option nat :=
  match find (fun x => N.eqb (fst x) op) m with Some (_, h) => Some h | None => None end.

Definition dstep (burst : nat) (ev : dev) (s : disp) : option disp :=
  let '(mkDisp q pushed won sig nfd pc sys map t) := s in
  match ev with
  | DSet op h => match pc with DIdle => Some (mkDisp q pushed won sig nfd pc sys ((op, h) :: map) (t ++ [TReg op h])) | _ => None end
  | DStart => Some (mkDisp q pushed won sig nfd pc (if sys =? 0 then 1 else sys) map t)
  | DStop => Some (mkDisp q pushed won sig nfd pc (if sys =? 1 then 2 else sys) map t)
  | DPush m => Some (mkDisp (q ++ [m]) (S pushed) won sig nfd pc sys map t)
  | DExch => match pushed with
             | O => None
             | S p => Some (mkDisp q p (if sig then S won else won) false nfd pc sys map t)
             end
  | DNotify => match won with
               | O => None
               | S w => Some (mkDisp q pushed w sig true pc sys map t)
               end
  | DReset => match pc with
              | DIdle => if nfd then Some (mkDisp q pushed won sig false DSig sys map t) else None
              | _ => None end
  | DSigs => match pc with
             | DSig => Some (mkDisp q pushed won true nfd (DFunc 0) sys map t)
             | _ => None end
  | DDeq => match pc with
            | DFunc cnt =>
              match q with
              | [] => Some (mkDisp q pushed won sig nfd DIdle sys map t)
              | m :: q =>
                (* 207: the message is off the queue before the state is looked at *)
                if sys =? 1
                then Some (mkDisp q pushed won sig nfd (if S cnt =? burst then DMore else DFunc (S cnt)) sys map
                                  (t ++ [match find_handler (m_op m) map with Some h => TCall h m | None => TSkip m end]))
                else Some (mkDisp q pushed won sig nfd DIdle sys map (t ++ [TLost m]))
              end
            | _ => None end
  | DRenotify => match pc with
                 | DMore => Some (mkDisp q pushed won sig true DIdle sys map t)
                 | _ => None end
  end.

(** A run: one event after the other; it stops where an event cannot happen.  Model only. *)
Fixpoint drun (burst : nat) (evs : list dev) (s : disp) : option disp :=
  match evs with
  | [] => Some s
  | ev :: evs => match dstep burst ev s with Some s => drun burst evs s | None => None end
  end.
