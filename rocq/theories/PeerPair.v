(** Two nodes running PeerModel.v with the connections between them: a
    connection dialled by one is accepted by the other or refused, the handshake messages
    written to it arrive in order, and an end of it breaks only if its own
    dispatcher ended it or the other end is gone, or it was never accepted. *)
From Coq Require Import Arith NArith ZArith List Bool Lia.
From Verif Require Import PeerModel.
Import ListNotations.

(** The id of a node is its listening address (the ids of IdentityMode
    ADDR_BASED are hashes of addresses: network.h 444-449). *)
Definition hash2 (a : addr) : pid := a.
Definition addr_of (n : bool) : addr := if n then 2%N else 1%N.

(** MsgPing and MsgPong (network.h 284-340): handshake with a nonce, which carries the
    sender's listening address, or heartbeat. *)
Inductive msg := MPing (hs : option N) | MPong (hs : option N).

(** A connection: who dialled, the connection number at either end, the
    messages under way in either direction. *)
Record link := mkLink { l_by : bool; l_c : nat; l_d : option nat; l_fwd : list msg; l_bwd : list msg }.
(** Two nodes and the links between them. *)
Record sys := mkSys { y_a : st; y_b : st; y_l : list link; y_kill : list (bool * nat) }.
(** Model only: one of the two nodes. *)
Definition node (n : bool) (y : sys) : st := if n then y_b y else y_a y.
Definition set_node (n : bool) (s : st) (y : sys) : sys := if n then mkSys (y_a y) s (y_l y) (y_kill y) else mkSys s (y_b y) (y_l y) (y_kill y).
Definition w_l l y := mkSys (y_a y) (y_b y) l (y_kill y).
Definition sys0 : sys := mkSys st0 st0 [] [].

(** Put a message on the link that is connection c of node n. *)
Definition put (n : bool) (c : nat) (m : msg) (l : link) : link :=
  if eqb (l_by l) n && (l_c l =? c) then mkLink (l_by l) (l_c l) (l_d l) (l_fwd l ++ [m]) (l_bwd l)
  else if eqb (l_by l) (negb n) && oeq (l_d l) (Some c) then mkLink (l_by l) (l_c l) (l_d l) (l_fwd l) (l_bwd l ++ [m])
  else l.

(** What an observation of node n does to the network. *)
Definition route (n : bool) (x : obs) (y : sys) : sys :=
  match x with
  | OPing c hs => w_l (map (put n c (MPing hs)) (y_l y)) y
  | OPong c hs => w_l (map (put n c (MPong hs)) (y_l y)) y
  | ODial _ c a => if (a =? addr_of (negb n))%N then w_l (y_l y ++ [mkLink n c None [] []]) y else y
  | OKill c => mkSys (y_a y) (y_b y) (y_l y) ((n, c) :: y_kill y)
  | _ => y
  end.

(** What can happen in the system of two nodes. *)
Inductive pev :=
| PApi (n : bool) (t : dtask) | PDisp (n : bool) (g : env) | PUser (n : bool) | PSetup (n : bool) (c : nat) (g : env)
| PTear (n : bool) (c : nat) | PRetry (n : bool) (p : nat) (g : env) | PBeat (n : bool) (p : nat)
| PAccept (l : nat) | PRefuse (l : nat) | PGet (l : nat) (fwd : bool) | PTerm (n : bool) (c : nat).

(** A step of one node; its messages go on the links. *)
Definition local (n : bool) (e : ev) (y : sys) : option (sys * list (bool * obs)) :=
  match step hash2 e (node n y) with
  | Some (s, o) => Some (fold_left (fun y x => route n x y) o (set_node n s y), map (pair n) o)
  | None => None
  end.

(** The message as a task of the receiver's dispatcher, at its connection c. *)
Definition incoming (n : bool) (c : nat) (m : msg) : dtask :=
  match m with
  | MPing (Some x) => TPing (Some c) (addr_of (negb n)) x | MPing None => TPing (Some c) 0%N 0%N
  | MPong (Some x) => TPong c (addr_of (negb n)) x | MPong None => TPong c 0%N 0%N
  end.

(** Model only: one entry replaced. *)
Definition set_nth {B} (i : nat) (v : B) (l : list B) : list B := firstn i l ++ v :: skipn (S i) l.

(** Has the other end of connection c of node n gone? *)
Definition gone (n : bool) (c : nat) (y : sys) : bool :=
  existsb (fun l => if eqb (l_by l) n && (l_c l =? c) then match l_d l with Some d => k_term (s_conn (node (negb n) y) d) | None => false end
                    else if eqb (l_by l) (negb n) && oeq (l_d l) (Some c) then k_term (s_conn (node (negb n) y) (l_c l)) else false) (y_l y).

(** Model only: tasks that come from the user, not from the network. *)
Definition user_call (t : dtask) : bool := match t with TPing _ _ _ | TPong _ _ _ => false | _ => true end.

(** One step of the system. *)
Definition pstep (e : pev) (y : sys) : option (sys * list (bool * obs)) :=
  match e with
  | PApi n t => if user_call t then local n (EPost t) y else None
  | PDisp n g => local n (EDisp g) y
  | PUser n => local n EUser y
  | PSetup n c g => local n (ESetup c g) y
  | PTear n c => local n (ETear c) y
  | PRetry n p g => local n (ERetry p g) y
  | PBeat n p => local n (EPingT p) y
  | PAccept i => match nth_error (y_l y) i with
                 | Some (mkLink by_ c None f b) =>
                     let n := negb by_ in
                     if k_term (s_conn (node by_ y) c) then None else
                     match local n (EAccept (100 + N.of_nat i)%N None) y with
                     | Some (y', o) => Some (w_l (set_nth i (mkLink by_ c (Some (s_nc (node n y))) f b) (y_l y')) y', o)
                     | None => None
                     end
                 | _ => None
                 end
  | PRefuse i => match nth_error (y_l y) i with
                 | Some (mkLink by_ c None f b) => if k_set (s_conn (node by_ y) c) then None else local by_ (ETerm c) y
                 | _ => None
                 end
  | PGet i fwd => match nth_error (y_l y) i with
                  | Some (mkLink by_ c (Some d) f b) =>
                      if fwd then match f with
                                  | m :: f => local (negb by_) (EPost (incoming (negb by_) d m)) (w_l (set_nth i (mkLink by_ c (Some d) f b) (y_l y)) y)
                                  | [] => None
                                  end
                      else match b with
                           | m :: b => local by_ (EPost (incoming by_ c m)) (w_l (set_nth i (mkLink by_ c (Some d) f b) (y_l y)) y)
                           | [] => None
                           end
                  | _ => None
                  end
  | PTerm n c => if existsb (fun x => eqb (fst x) n && (snd x =? c)) (y_kill y) || gone n c y then local n (ETerm c) y else None
  end.

(** A run: one event after the other; it stops where an event cannot happen.  Model only. *)
Fixpoint prun (es : list pev) (y : sys) : option (sys * list (bool * obs)) :=
  match es with
  | [] => Some (y, [])
  | e :: es => match pstep e y with
               | Some (y1, o1) => match prun es y1 with Some (y2, o2) => Some (y2, o1 ++ o2) | None => None end
               | None => None
               end
  end.

(** Nothing is under way: no task, no message, no connection to end or to tear
    down. *)
Definition settled (y : sys) : bool :=
  forallb (fun n => let s := node n y in
    match s_q s, s_uq s with [], [] => true | _, _ => false end
    && forallb (fun c => let k := s_conn s c in (k_set k || k_torn k) && implb (k_term k) (k_torn k)) (List.seq 0 (s_nc s))) [true; false]
  && forallb (fun x => k_term (s_conn (node (fst x) y) (snd x))) (y_kill y)
  && forallb (fun l => match l_d l with
                       | Some d => let ka := s_conn (node (l_by l) y) (l_c l) in let kb := s_conn (node (negb (l_by l)) y) d in
                                   eqb (k_term ka) (k_term kb) && (k_term ka || match l_fwd l, l_bwd l with [], [] => true | _, _ => false end)
                       | None => k_torn (s_conn (node (l_by l) y) (l_c l)) end) (y_l y).
