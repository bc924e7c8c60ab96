(** What becomes of the messages queued on a lost connection: the loop of
    finish_handshake (network.h 923-936), which writes the segments left in the
    old connection's send queue to the new connection, together with the send
    sides of both (SendModel.v).

    The loop runs on the dispatcher after the old connection's tear-down
    (PeerCalmProps.v: the connection of a disconnected peer is torn down), which
    the pool posts from the worker's (conn.cpp 276-298), so the old worker no longer
    touches the queue.  Threads that got hold of the old connection before may
    still write to it: send_msg (1326-1331) reads the peer's connection and writes to
    it in the caller's thread. *)
From Coq Require Import NArith List Bool.
From Coq.Init Require Import Byte.
From Verif Require Import Base SendModel.
Import ListNotations.
Local Open Scope N_scope.

(** The dispatcher is before, in, or after the loop. *)
Inductive mpc := MBefore | MLoop | MDone.
(** The old and the new connection's send queue, where the loop is, what was lost. *)
Record mv := mkMv {
  v_old : sconn; v_new : sconn; v_pc : mpc;
  v_moved : list bytes     (* segments the loop took from the old queue *)
}.
(** Model only: the state at the beginning. *)
Definition minit : mv := mkMv sinit sinit MBefore [].

Inductive mev :=
| MOld (e : sev)     (* a thread uses the old connection *)
| MNew (e : sev)     (* a thread uses the new one *)
| MStart             (* network.h 925 *)
| MMove (ok : bool). (* 929-933; [ok]: the result of write, which is ignored *)

(** One step; the lines are given with the events and places above. *)
Definition mstep (e : mev) (s : mv) : option mv :=
  match e with
  | MOld e => match sstep e (v_old s) with Some o => Some (mkMv o (v_new s) (v_pc s) (v_moved s)) | None => None end
  | MNew e => match sstep e (v_new s) with Some n => Some (mkMv (v_old s) n (v_pc s) (v_moved s)) | None => None end
  | MStart => match v_pc s with
              | MBefore => if idle (v_old s) && negb (s_up (v_old s)) then Some (mkMv (v_old s) (v_new s) MLoop (v_moved s)) else None
              | _ => None
              end
  | MMove ok =>
    match v_pc s with
    | MLoop =>
      match s_q (v_old s) with
      | [] => Some (mkMv (v_old s) (v_new s) MDone (v_moved s))
      | d :: q =>
        if lenN d =? 0 then Some (mkMv (set_q q (v_old s)) (v_new s) MDone (v_moved s))
        else match sstep (SvPush d ok) (v_new s) with
             | Some n => Some (mkMv (set_q q (v_old s)) n MLoop (v_moved s ++ [d]))
             | None => None
             end
      end
    | _ => None
    end
  end.

(** A run: one event after the other; it stops where an event cannot happen.  Model only. *)
Fixpoint mrun (es : list mev) (s : mv) : option mv :=
  match es with
  | [] => Some s
  | e :: es => match mstep e s with Some s' => mrun es s' | None => None end
  end.
