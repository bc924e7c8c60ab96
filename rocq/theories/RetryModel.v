(** When a PeerNetwork dials: PeerModel with the times of the retry timers
    (network.h 436-439, 868-878, 1190-1230; util.cpp 109-111).  Times in
    milliseconds; they are doubles in seconds in the code, and libuv's timers
    take whole milliseconds (event.h 243). *)
From Coq Require Import Arith NArith ZArith List Bool.
From Verif Require Import PeerModel.
Import ListNotations.

Record tst := mkT {
  t_s : st;
  t_now : nat;
  t_dl : nat -> option nat;    (* ev_retry_timer of a record: when it expires; None: not started *)
  t_pace : nat -> nat }.       (* retry_delay of a record, 436 *)

(** 462: retry_delay(0), and the timer has not been made. *)
Definition tst0 : tst := mkT st0 0 (fun _ => None) (fun _ => 0).

Inductive tev :=
| Tick (k : nat)              (* time passes *)
| Do (e : ev) (x y : nat).    (* an event; x: the delay drawn for a timer it starts, y: the age of the loop's clock *)

(** util.cpp 109-111: gen_rand_timeout, between the delay and one and a half of it. *)
Definition drawn (d x : nat) : bool := (d <=? x) && (x <=? d + d / 2).

Definition isdisc (x : peer) : bool := match p_state x with Disconnected => true | _ => false end.

(** Which retry timer an event starts, and if with a delay drawn (true) or with none.
    1211-1212: when it has fired, after start_active_conn, unless that throws.
    868-876: when a connection of the peer is torn down; the state is never
    RESET here, since 837 has set it, so the delay is always drawn.
    1218-1219: conn_peer, with none. *)
Definition starts (e : ev) (s s' : st) : option (nat * bool) :=
  match e with
  | ERetry p g => if g_ok g then Some (p, true) else None
  | ETear c =>
      match k_peer (s_conn s c) with
      | Some p =>
          if ((match k_mode (s_conn s c) with Active => true | Passive => false end) && k_manual (s_conn s c))
             || negb (p_live (s_peer s p)) || (match p_pre (s_peer s p) with Some _ => true | None => false end) || (p_cur (s_peer s' p) =? 0)%Z
          then None else Some (p, true)
      | None => None
      end
  | EDisp _ =>
      match s_q s with
      | TConn _ i n :: _ =>
          match find_by i (s_known s) with
          | Some p => if (p_addr (s_peer s p) =? 0)%N || (n =? 0)%Z || negb (isdisc (s_peer s p)) then None else Some (p, false)
          | None => None
          end
      | _ => None
      end
  | _ => None
  end.

(** 1203: conn_peer stores the delay; the others keep theirs.  D: the retry
    delay in the call with that id. *)
Definition paces (D : N -> nat) (e : ev) (s : st) (f : nat -> nat) : nat -> nat :=
  match e with
  | EDisp _ =>
      match s_q s with
      | TConn id i _ :: _ =>
          match find_by i (s_known s) with
          | Some p => if (p_addr (s_peer s p) =? 0)%N then f else upd f p (D id)
          | None => f
          end
      | _ => f
      end
  | _ => f
  end.

(** An event of PeerModel may happen if, when it is a timer, the time has come.
    A timer that PeerModel says is not started has no time: it has fired, was
    deleted (921), replaced (1208) or destroyed.  libuv starts a timer from the
    clock of its loop, which is up to G old (C85). *)
Definition tstep (hash : addr -> pid) (D : N -> nat) (G : nat) (v : tev) (T : tst) : option (tst * list (nat * obs)) :=
  match v with
  | Tick k => Some (mkT (t_s T) (t_now T + k) (t_dl T) (t_pace T), [])
  | Do e x y =>
      if match e with ERetry p _ => match t_dl T p with Some t => t <=? t_now T | None => false end | _ => true end then
        match step hash e (t_s T) with
        | None => None
        | Some (s', o) =>
            let pace := paces D e (t_s T) (t_pace T) in
            match
              match starts e (t_s T) s' with
              | None => Some (t_dl T)
              | Some (p, false) => Some (upd (t_dl T) p (Some (t_now T)))
              | Some (p, true) => if drawn (pace p) x && (y <=? G) then Some (upd (t_dl T) p (Some (t_now T + x - y))) else None
              end
            with
            | None => None
            | Some dl => Some (mkT s' (t_now T) (fun q => if p_ton (s_peer s' q) then dl q else None) pace, map (pair (t_now T)) o)
            end
        end
      else None
  end.

(** A run.  Model only. *)
Fixpoint trun (hash : addr -> pid) (D : N -> nat) (G : nat) (vs : list tev) (T : tst) : option (tst * list (nat * obs)) :=
  match vs with
  | [] => Some (T, [])
  | v :: vs => match tstep hash D G v T with
               | None => None
               | Some (T1, o1) => match trun hash D G vs T1 with None => None | Some (T2, o2) => Some (T2, o1 ++ o2) end
               end
  end.

(** Something holds of every state of a run.  Model only. *)
Fixpoint talong (hash : addr -> pid) (D : N -> nat) (G : nat) (Q : tev -> tst -> Prop) (vs : list tev) (T : tst) : Prop :=
  match vs with
  | [] => True
  | v :: vs => Q v T /\ match tstep hash D G v T with Some (T1, _) => talong hash D G Q vs T1 | None => True end
  end.
