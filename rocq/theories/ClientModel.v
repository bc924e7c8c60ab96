(** ClientNetwork: the registry of clients by address
    (include/salticidae/network.h 272-311, 1366-1414).  Everything here runs on
    the dispatcher (sends of the user's own thread read the same map without a
    lock and are modelled as if they ran there).  An address is a number. *)
From Coq Require Import Arith NArith List Bool.
Import ListNotations.

(** Life of a connection as the hooks see it: accepted, set up, torn down. *)
Inductive phase := Fresh | Accepted | Up | Gone.

(** The table (network.h 280), the connections and their addresses. *)
Record cnet := mkCnet {
  n_map : list (N * nat);        (* addr2conn: at most one entry per address *)
  n_phase : nat -> phase;
  n_addr : nat -> N }.
(** Model only: the state at the beginning. *)
Definition c_new : cnet := mkCnet [] (fun _ => Fresh) (fun _ => 0%N).

Inductive cev :=
| CAccept (c : nat) (a : N)   (* conn.cpp 316-326: accept_client, the client's address *)
| CSetup (c : nat)            (* network.h 1366-1375 *)
| CTear (c : nat)             (* network.h 1377-1382 *)
| CSend (a : N).              (* _send_msg: 1407-1413 *)

(** What a send gives: the connection used, or the exception (network.h 1411-1413). *)
Inductive cobs := Sent (c : nat) | NotExist.

(** Model only: one entry replaced. *)
Definition upd {B} (f : nat -> B) (c : nat) (v : B) : nat -> B := fun d => if d =? c then v else f d.
Definition erase (a : N) (m : list (N * nat)) : list (N * nat) := filter (fun x => negb (N.eqb (fst x) a)) m.
Definition lookup (a : N) (m : list (N * nat)) : option nat := match find (fun x => N.eqb (fst x) a) m with Some (_, c) => Some c | None => None end.

Definition cstep (ev : cev) (s : cnet) : option (cnet * list cobs) :=
  match ev with
  | CAccept c a => match n_phase s c with
                   | Fresh => Some (mkCnet (n_map s) (upd (n_phase s) c Accepted) (upd (n_addr s) c a), [])
                   | _ => None end
  | CSetup c => match n_phase s c with
                | Accepted => (* 1373-1374: erase, insert *)
                    Some (mkCnet ((n_addr s c, c) :: erase (n_addr s c) (n_map s)) (upd (n_phase s) c Up) (n_addr s), [])
                | _ => None end
  | CTear c => match n_phase s c with
               | Accepted | Up => (* 1381 *)
                   Some (mkCnet (erase (n_addr s c) (n_map s)) (upd (n_phase s) c Gone) (n_addr s), [])
               | _ => None end
  | CSend a => Some (s, [match lookup a (n_map s) with Some c => Sent c | None => NotExist end])
  end.

(** A run: one event after the other; it stops where an event cannot happen.  Model only. *)
Fixpoint crun (evs : list cev) (s : cnet) : option (cnet * list cobs) :=
  match evs with
  | [] => Some (s, [])
  | ev :: evs => match cstep ev s with
                 | Some (s1, o1) => match crun evs s1 with Some (s2, o2) => Some (s2, o1 ++ o2) | None => None end
                 | None => None end
  end.
