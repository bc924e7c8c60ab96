(** The claims of ReconProps.v: a node that keeps dialling a node that waits
    (PeerPair.v), with connections that break and dials that overlap. *)
From Coq Require Import Arith NArith ZArith List Bool Lia.
From Verif Require Import PeerModel PeerPair DialProps.
Import ListNotations.

(** An end of a connection fails by itself (conn.cpp 277, 294), or anything of PeerPair.v. *)
Inductive lev := LEv (e : pev) | LBreak (n : bool) (c : nat).
Definition lstep (e : lev) (y : sys) : option (sys * list (bool * obs)) :=
  match e with LEv e => pstep e y | LBreak n c => local n (ETerm c) y end.
(** A run of these.  Model only. *)
Fixpoint lrun (es : list lev) (y : sys) : option (sys * list (bool * obs)) :=
  match es with
  | [] => Some (y, [])
  | e :: es => match lstep e y with
               | Some (y1, o1) => match lrun es y1 with Some (y2, o2) => Some (y2, o1 ++ o2) | None => None end
               | None => None
               end
  end.

(** A working random source, with nonces below the passive one (C59). *)
Definition rnd_ok (g : env) : Prop := exists x, g_rnd g = Some x /\ (x mod 2 ^ 16 + 1 < passive_nonce)%N.
(** What may happen, in any order and any number of times: dials, also while an earlier one is
    under way, refused connections, breaks, everything the pool, the network, the ping timers and the
    user's loops do; the user asks and sends. *)
Definition lossy (e : lev) : Prop :=
  match e with
  | LBreak _ _ => True
  | LEv e => match e with
             | PApi _ t => match t with THas _ | TGetConn _ | TSend _ _ _ => True | _ => False end
             | PSetup _ _ g | PDisp _ g => rnd_ok g
             | PRetry _ _ g => g_ok g = true /\ g_cert g = None
             | _ => True
             end
  end.
(** Nothing breaks, nothing is refused, no further dial. *)
Definition calm (e : lev) : Prop :=
  lossy e /\ match e with LBreak _ _ => False | LEv e => match e with PRetry _ _ _ | PRefuse _ => False | _ => True end end.

(** What must not happen. *)
Definition fine (x : obs) : Prop := match x with OUb _ | OFatal | OUnknown _ _ => False | _ => True end.

(** Both nodes have the other as a connected peer, by one connection, which has not ended. *)
Definition joined (y : sys) : Prop :=
  exists l d, In l (y_l y) /\ l_by l = false /\ l_d l = Some d /\
    p_state (s_peer (y_a y) 0) = Connected /\ p_conn (s_peer (y_a y) 0) = Some (l_c l) /\ k_term (s_conn (y_a y) (l_c l)) = false /\
    p_state (s_peer (y_b y) 0) = Connected /\ p_conn (s_peer (y_b y) 0) = Some d /\ k_term (s_conn (y_b y) d) = false.
(** The dialling node is not connected, and its retry timer runs. *)
Definition trying (y : sys) : Prop :=
  p_state (s_peer (y_a y) 0) = Disconnected /\ p_timer (s_peer (y_a y) 0) = true /\ p_ton (s_peer (y_a y) 0) = true.
(** The connection dialled last has ended, or was established. *)
Definition no_dial (y : sys) : Prop := forall c, p_out (s_peer (y_a y) 0) = Some c -> k_term (s_conn (y_a y) c) = true.


(** A state that comes after [prepare] (DialProps.v: the dialling node adds the other as a
    peer, gives its address and calls conn_peer with z < 0, the other adds it and waits)
    and after events es, with what was seen. *)
Definition reached (z : Z) (sb : bool) (es : list lev) (y : sys) (o : list (bool * obs)) : Prop :=
  (z < 0)%Z /\ Forall lossy es /\ lrun (map LEv (prepare z sb) ++ es) sys0 = Some (y, o).
