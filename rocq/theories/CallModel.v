(** Event-driven queues (include/salticidae/event.h 600-690) and ThreadCall
    (692-807).  A step is one access to shared state, so a run is an arbitrary
    interleaving of producers and event loops.  The underlying lock-free queue
    is a list here (QueueModel.v has its structure). *)
From Coq Require Import Arith List Bool.
Import ListNotations.

(** Model only: one entry replaced. *)
Fixpoint repl {A} (n : nat) (v : A) (l : list A) : list A :=
  match l, n with
  | [], _ => []
  | _ :: l, O => v :: l
  | x :: l, S n => x :: repl n v l
  end.

(** ** Event-driven queue *)

(** Where a registered consumer is. *)
Inductive cpc :=
| CIdle     (* in its event loop *)
| CSig      (* nfd.reset() succeeded: event.h 614 / 661 *)
| CFunc     (* wait_sig set: inside func, 622 / 664 *)
| CMore.    (* func returned true: before nfd.notify(), 623 / 665 *)

Section Evq.
Variable A : Type.

Record evq := mkEvq {
  e_q : list A;
  e_pushed : nat;    (* producers between the queue operation (632/677) and the exchange (635/680) *)
  e_won : nat;       (* producers between the exchange and nfd.notify() (638/683) *)
  e_sig : bool;      (* wait_sig *)
  e_nfd : bool;      (* the eventfd counter is not 0 *)
  e_cons : list cpc  (* one per registered handler; MPSCQueueEventDriven has one *)
}.

(** event.h 607-608 / 656-657, with [n] handlers registered. *)
Definition evq_new (n : nat) : evq := mkEvq [] 0 0 true false (repeat CIdle n).

Inductive eev :=
| EPush (a : A) (ok : bool)  (* a producer: 632 / 677; ok = false: refused, no block left *)
| EExch                      (* a producer: 635 / 680 *)
| ENotify                    (* a producer: 638 / 683 *)
| EReset (i : nat)           (* handler i called: 614 / 661 *)
| EResetFail (i : nat)       (* handler i called too late, reset() fails: 661 *)
| ESig (i : nat)             (* 621 / 663 *)
| EDeq (i : nat)             (* func dequeues an element *)
| EMore (i : nat)            (* func returns true *)
| EQuit (i : nat)            (* func finds the queue empty and returns false *)
| ERenotify (i : nat).       (* 623 / 665 *)

(** Model only: equality test. *)
Definition at_pc (i : nat) (p : cpc) (s : evq) : bool :=
  match nth_error (e_cons s) i, p with
  | Some CIdle, CIdle | Some CSig, CSig | Some CFunc, CFunc | Some CMore, CMore => true
  | _, _ => false
  end.
(** Model only: the state with one field replaced. *)
Definition set_cons i p s := mkEvq (e_q s) (e_pushed s) (e_won s) (e_sig s) (e_nfd s) (repl i p (e_cons s)).

(** One step; the lines are given with the events above. *)
Definition estep (ev : eev) (s : evq) : option evq :=
  match ev with
  | EPush a ok => Some (if ok then mkEvq (e_q s ++ [a]) (S (e_pushed s)) (e_won s) (e_sig s) (e_nfd s) (e_cons s) else s)
  | EExch => match e_pushed s with
             | O => None
             | S p => Some (mkEvq (e_q s) p (if e_sig s then S (e_won s) else e_won s) false (e_nfd s) (e_cons s))
             end
  | ENotify => match e_won s with
               | O => None
               | S w => Some (mkEvq (e_q s) (e_pushed s) w (e_sig s) true (e_cons s))
               end
  | EReset i => if at_pc i CIdle s && e_nfd s
                then Some (set_cons i CSig (mkEvq (e_q s) (e_pushed s) (e_won s) (e_sig s) false (e_cons s)))
                else None
  | EResetFail i => if at_pc i CIdle s && negb (e_nfd s) then Some s else None
  | ESig i => if at_pc i CSig s
              then Some (set_cons i CFunc (mkEvq (e_q s) (e_pushed s) (e_won s) true (e_nfd s) (e_cons s)))
              else None
  | EDeq i => if at_pc i CFunc s
              then match e_q s with
                   | [] => None
                   | _ :: q => Some (mkEvq q (e_pushed s) (e_won s) (e_sig s) (e_nfd s) (e_cons s))
                   end
              else None
  | EMore i => if at_pc i CFunc s then Some (set_cons i CMore s) else None
  | EQuit i => if at_pc i CFunc s
               then match e_q s with [] => Some (set_cons i CIdle s) | _ => None end
               else None
  | ERenotify i => if at_pc i CMore s
                   then Some (set_cons i CIdle (mkEvq (e_q s) (e_pushed s) (e_won s) (e_sig s) true (e_cons s)))
                   else None
  end.

(** A run: one event after the other; it stops where an event cannot happen.  Model only. *)
Fixpoint erun (evs : list eev) (s : evq) : option evq :=
  match evs with
  | [] => Some s
  | ev :: evs => match estep ev s with Some s => erun evs s | None => None end
  end.
End Evq.
Arguments mkEvq {A}. Arguments e_q {A}. Arguments e_pushed {A}. Arguments e_won {A}.
Arguments e_sig {A}. Arguments e_nfd {A}. Arguments e_cons {A}. Arguments evq_new {A}.
Arguments EPush {A}. Arguments EExch {A}. Arguments ENotify {A}. Arguments EReset {A}. Arguments EResetFail {A}.
Arguments ESig {A}. Arguments EDeq {A}. Arguments EMore {A}. Arguments EQuit {A}. Arguments ERenotify {A}.
Arguments estep {A}. Arguments erun {A}. Arguments at_pc {A}. Arguments set_cons {A}.

(** ** ThreadCall *)

(** What a task's callback does to its Handle: set_result(v), nothing, or
    throw.  Other effects of callbacks (posting tasks, calling stop()) are
    separate events of the run. *)
Inductive tout := OVal (v : option nat) | OThrow (e : nat).
(** ThreadCall::Handle (event.h 735-757): its number, whether a caller waits, what the callback does. *)
Record task := mkTask { t_id : nat; t_sync : bool; t_out : tout }.

(** What ThreadNotifier::wait delivers to the caller (event.h 534-543,
    Result::get 731-734). *)
Inductive answer := AVal (v : option nat) | AExc (e : nat) | ANotAvail.

(** Where the loop's handler is (event.h 613-624, 763-777). *)
Inductive lpc := LIdle | LSig | LFunc (cnt : nat) | LMore.

(** ThreadCall (event.h 692-698) with its queue (600-606). *)
Record tcall := mkTC {
  k_q : list task; k_pushed : nat; k_won : nat; k_sig : bool; k_nfd : bool; k_pc : lpc;
  k_stopped : bool;
  k_done : list (task * bool);        (* tasks dequeued, oldest first, and whether they were run *)
  k_answers : list (nat * answer);    (* notifications sent to synchronous callers *)
  k_gone : bool }.                    (* destructor executed *)

(** event.h 760-761. *)
Definition tc_new : tcall := mkTC [] 0 0 true false LIdle false [] [] false.

Inductive tev :=
| TPost (t : task)   (* async_call / call up to the queue operation: 783-799, 632 *)
| TExch | TNotify    (* 635, 638 *)
| TStop              (* 805 *)
| TReset | TSig      (* 614, 621 *)
| TDeq               (* one round of the loop 764-775, or its end 776 *)
| TRenotify          (* 622-623 *)
| TDestroy.          (* 778-781; the event loop must have ended *)

(** event.h 766-772: exec or refusal, and the notification; 746-752. *)
Definition run_task (stopped : bool) (t : task) : answer :=
  if stopped then ANotAvail
  else match t_out t with OVal v => AVal v | OThrow e => AExc e end.

(** One step; the lines are given with the events above. *)
Definition tstep (burst : nat) (ev : tev) (s : tcall) : option tcall :=
  let '(mkTC q pushed won sig nfd pc st done ans gone) := s in
  if gone then None else
  match ev with
  | TPost t => Some (mkTC (q ++ [t]) (S pushed) won sig nfd pc st done ans gone)
  | TExch => match pushed with
             | O => None
             | S p => Some (mkTC q p (if sig then S won else won) false nfd pc st done ans gone)
             end
  | TNotify => match won with
               | O => None
               | S w => Some (mkTC q pushed w sig true pc st done ans gone)
               end
  | TStop => Some (mkTC q pushed won sig nfd pc true done ans gone)
  | TReset => match pc with
              | LIdle => if nfd then Some (mkTC q pushed won sig false LSig st done ans gone) else None
              | _ => None end
  | TSig => match pc with
            | LSig => Some (mkTC q pushed won true nfd (LFunc 0) st done ans gone)
            | _ => None end
  | TDeq => match pc with
            | LFunc cnt =>
              match q with
              | [] => Some (mkTC q pushed won sig nfd LIdle st done ans gone)
              | t :: q => Some (mkTC q pushed won sig nfd (if S cnt =? burst then LMore else LFunc (S cnt)) st
                                     (done ++ [(t, negb st)])
                                     (if t_sync t then ans ++ [(t_id t, run_task st t)] else ans) gone)
              end
            | _ => None end
  | TRenotify => match pc with
                 | LMore => Some (mkTC q pushed won sig true LIdle st done ans gone)
                 | _ => None end
  | TDestroy => match pc with
                | LIdle => Some (mkTC [] pushed won sig nfd LIdle st done ans true)
                | _ => None end
  end.

(** A run: one event after the other; it stops where an event cannot happen.  Model only. *)
Fixpoint trun (burst : nat) (evs : list tev) (s : tcall) : option tcall :=
  match evs with
  | [] => Some s
  | ev :: evs => match tstep burst ev s with Some s => trun burst evs s | None => None end
  end.
