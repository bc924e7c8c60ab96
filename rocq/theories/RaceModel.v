(** The table of known peers, used by several threads at once (network.h,
    PeerNetwork).

    The dispatcher runs the tasks of all functions but one; send_msg with a peer
    id looks the peer up in the thread of the caller.  A shared lock is taken
    around most of the accesses.  Each access and each locking is a step. *)
From Coq Require Import Arith List Bool Lia.
Import ListNotations.

(** D is the dispatcher's thread; U n are threads of the user. *)
Inductive tid := D | U (n : nat).
(** Model only: equality test. *)
Definition teq (a b : tid) : bool :=
  match a, b with D, D => true | U i, U j => Nat.eqb i j | _, _ => false end.

(** Members of a Peer (network.h 429-456): conn; all the others (of which only the
    dispatcher knows) count as one. *)
Inductive fld := FConn | FRest.

(** Statements of the functions, as far as they use the lock, the table or a
    peer.  The scoped locks (pinfo_slock_t, pinfo_ulock_t, network.h 502-503)
    are released at the end of the scope, also when something is thrown. *)
Inductive instr :=
| ILockS                  (* pinfo_slock_t _g(known_peers_lock) *)
| ILockX                  (* pinfo_ulock_t _g(known_peers_lock) *)
| IUnlock                 (* end of the scope *)
| IFind (i : nat)         (* known_peers.find; throws or returns if there is none *)
| IFresh (i : nat)        (* known_peers.count; throws if there is one *)
| IHas (i : nat)          (* known_peers.count as a result *)
| IInsert (i c : nat)     (* new Peer with its connection, known_peers.insert *)
| IErase (i : nat)        (* known_peers.erase: destroys the Peer *)
| IGet                    (* copies p->conn, as a result or to send to it *)
| IConn (c : nat)         (* p->conn = c *)
| IRd (f : fld)           (* other reads and writes of the peer *)
| IWr (f : fld).

(** The functions.  Peers are named by numbers, so are connections. *)
Inductive op :=
| OAdd (i c : nat) | ODel (i : nat) | OConnPeer (i : nat) | OSetAddr (i : nat)
| OHas (i : nat) | OGetConn (i : nat)
| OSend (i : nat) | OMulti (l : list nat)
| OShake (i : nat) (fin : option nat)
| OSetup (i : nat) | OOwn (p : nat).

Definition prog (o : op) : list instr :=
  match o with
  | OAdd i c => [ILockX; IFresh i; IInsert i c; IUnlock]            (* network.h 1171-1181 *)
  | ODel i => [ILockX; IFind i; IRd FConn; IRd FRest; IErase i; IUnlock]   (* network.h 1260-1271 *)
  | OConnPeer i => [ILockS; IFind i; IRd FRest; IWr FRest; IRd FConn; IUnlock]   (* network.h 1194-1224 *)
  | OSetAddr i => [ILockS; IFind i; IWr FRest; IUnlock]             (* network.h 1240-1245 *)
  | OHas i => [ILockS; IHas i; IUnlock]                             (* network.h 1298-1299 *)
  | OGetConn i => [ILockS; IFind i; IGet; IUnlock]                  (* network.h 1285-1289 *)
  | OSend i => [ILockS; IFind i; IGet; IUnlock]                     (* network.h 1338-1339, 985-988 *)
  | OMulti l => ILockS :: flat_map (fun i => [IFind i; IGet]) l ++ [IUnlock]    (* network.h 1354-1357 *)
  | OShake i fin => [ILockS; IFind i; IRd FRest; IWr FRest; IRd FConn]          (* network.h 1003-1056, 1085-1134 *)
      ++ match fin with Some c => [IConn c] | None => [] end ++ [IUnlock]       (* finish_handshake, network.h 937 *)
  | OSetup i => [IFind i; ILockS; IRd FRest; IWr FRest; IUnlock]    (* network.h 796-809: found before locking *)
  | OOwn _ => [IRd FRest; IWr FRest; IRd FConn]                     (* network.h 829-885 (a connection's peer), 889-911, 1206-1211 (timers): no lock *)
  end.

(** How a call ends: well, or with PeerNetworkError (network.h 1174, 1263, 986). *)
Inductive status := Ok | NoPeer | Exists.

(** A call under way: what is left to do, the peer it found, what it got so far. *)
Record call := mkCall { k_op : op; k_rest : list instr; k_reg : option nat; k_acc : list nat; k_st : status }.
(** known_peers and known_peers_lock (network.h 500-505), the Peer objects, the calls under way. *)
Record st := mkSt {
  s_tab : nat -> option nat;      (* known_peers: the Peer object of a peer *)
  s_next : nat;                   (* Peer objects made so far *)
  s_live : nat -> bool;           (* not destroyed *)
  s_conn : nat -> nat;            (* p->conn *)
  s_rd : list tid;                (* threads that hold the lock shared *)
  s_wr : option tid;              (* thread that holds it exclusively *)
  s_call : tid -> option call }.
(** Model only: the state at the beginning. *)
Definition st0 : st := mkSt (fun _ => None) 0 (fun _ => false) (fun _ => 0) [] None (fun _ => None).

(** Model only: one entry replaced. *)
Definition upd {A} (f : nat -> A) (n : nat) (x : A) : nat -> A := fun m => if Nat.eqb m n then x else f m.
Definition tupd {A} (f : tid -> A) (t : tid) (x : A) : tid -> A := fun u => if teq u t then x else f u.
Definition w_call t k s := mkSt (s_tab s) (s_next s) (s_live s) (s_conn s) (s_rd s) (s_wr s) (tupd (s_call s) t k).
Definition w_lock r w s := mkSt (s_tab s) (s_next s) (s_live s) (s_conn s) r w (s_call s).

(** How a thread holds the lock. *)
Inductive mode := HN | HS | HX.
(** Model only: read off the state. *)
Definition hold (s : st) (t : tid) : mode :=
  if match s_wr s with Some u => teq t u | None => false end then HX else if existsb (teq t) (s_rd s) then HS else HN.

(** Leaving the scope by an exception: only the release is left. *)
Definition abort (h : mode) : list instr := match h with HN => [] | _ => [IUnlock] end.
(** The dispatcher waits for the lock; only it takes it exclusively. *)
Definition wants (s : st) : bool :=
  match s_call s D with Some k => match k_rest k with ILockX :: _ => true | _ => false end | None => false end.

(** One statement.  [pref]: the lock lets no reader pass a waiting writer.
    C++ leaves that open; both are possible. *)
Definition exec (pref : bool) (t : tid) (i : instr) (k : call) (s : st) : option st :=
  let next := mkCall (k_op k) (tl (k_rest k)) (k_reg k) (k_acc k) (k_st k) in
  let quit e := w_call t (Some (mkCall (k_op k) (abort (hold s t)) (k_reg k) (k_acc k) e)) s in
  match i with
  | ILockS => if match s_wr s with Some _ => true | None => pref && wants s end then None
              else Some (w_call t (Some next) (w_lock (t :: s_rd s) (s_wr s) s))
  | ILockX => match s_wr s, s_rd s with None, [] => Some (w_call t (Some next) (w_lock [] (Some t) s)) | _, _ => None end
  | IUnlock => Some (w_call t (Some next) (w_lock (filter (fun u => negb (teq t u)) (s_rd s))
                 (match s_wr s with Some u => if teq t u then None else Some u | None => None end) s))
  | IFind j => Some (match s_tab s j with
                     | Some p => w_call t (Some (mkCall (k_op k) (tl (k_rest k)) (Some p) (k_acc k) (k_st k))) s
                     | None => quit NoPeer
                     end)
  | IFresh j => Some (match s_tab s j with Some _ => quit Exists | None => w_call t (Some next) s end)
  | IHas j => Some (w_call t (Some (mkCall (k_op k) (tl (k_rest k)) (k_reg k) (k_acc k ++ [match s_tab s j with Some _ => 1 | None => 0 end]) (k_st k))) s)
  | IInsert j c => Some (w_call t (Some next) (mkSt (upd (s_tab s) j (Some (s_next s))) (1 + s_next s) (upd (s_live s) (s_next s) true)
                           (upd (s_conn s) (s_next s) c) (s_rd s) (s_wr s) (s_call s)))
  | IErase j => match s_tab s j with
                | Some p => Some (w_call t (Some (mkCall (k_op k) (tl (k_rest k)) None (k_acc k) (k_st k)))
                              (mkSt (upd (s_tab s) j None) (s_next s) (upd (s_live s) p false) (s_conn s) (s_rd s) (s_wr s) (s_call s)))
                | None => None
                end
  | IGet => match k_reg k with
            | Some p => Some (w_call t (Some (mkCall (k_op k) (tl (k_rest k)) (k_reg k) (k_acc k ++ [s_conn s p]) (k_st k))) s)
            | None => None
            end
  | IConn c => match k_reg k with
               | Some p => Some (w_call t (Some next) (mkSt (s_tab s) (s_next s) (s_live s) (upd (s_conn s) p c) (s_rd s) (s_wr s) (s_call s)))
               | None => None
               end
  | IRd _ | IWr _ => match k_reg k with Some _ => Some (w_call t (Some next) s) | None => None end
  end.

(** A thread begins a call, takes a step of it, ends it.  Threads of the user
    run send_msg themselves; their other calls are tasks of the dispatcher
    (network.h 1169, 1192, 1238, 1258, 1283, 1297, 1322, 1352).  A connection's
    peer and the peer of a timer exist (C61 is about that). *)
Inductive ev := EStart (t : tid) (o : op) | EStep (t : tid) | EEnd (t : tid).
Definition runs (t : tid) (o : op) (s : st) : bool :=
  match t, o with U _, OSend _ => true | U _, _ => false | D, OOwn p => s_live s p | D, _ => true end.
Definition begin (o : op) : call := mkCall o (prog o) (match o with OOwn p => Some p | _ => None end) [] Ok.
(** The result of a call. *)
Definition out := (tid * op * list nat * status)%type.
Definition step (pref : bool) (e : ev) (s : st) : option (st * list out) :=
  match e with
  | EStart t o => match s_call s t with
                  | None => if runs t o s then Some (w_call t (Some (begin o)) s, []) else None
                  | Some _ => None
                  end
  | EStep t => match s_call s t with
               | Some k => match k_rest k with i :: _ => option_map (fun s' => (s', [])) (exec pref t i k s) | [] => None end
               | None => None
               end
  | EEnd t => match s_call s t with
              | Some k => match k_rest k with [] => Some (w_call t None s, [(t, k_op k, k_acc k, k_st k)]) | _ :: _ => None end
              | None => None
              end
  end.
(** A run: one event after the other; it stops where an event cannot happen.  Model only. *)
Fixpoint run (pref : bool) (es : list ev) (s : st) : option (st * list out) :=
  match es with
  | [] => Some (s, [])
  | e :: es' => match step pref e s with
                | Some (s', o) => option_map (fun x => (fst x, o ++ snd x)) (run pref es' s')
                | None => None
                end
  end.

(** What the next step of a thread reads and writes. *)
Inductive var := VTab | VFld (p : nat) (f : fld).
(** Model only: an access. *)
Definition acc := (var * bool)%type.       (* with true if it is written *)
Definition accs (s : st) (t : tid) : list acc :=
  match s_call s t with
  | None => []
  | Some k =>
    let own x := match k_reg k with Some p => [(VFld p (fst x), snd x)] | None => [] end in
    match k_rest k with
    | [] => []
    | i :: _ =>
      match i with
      | ILockS | ILockX | IUnlock => []
      | IFind _ | IFresh _ | IHas _ => [(VTab, false)]
      | IInsert _ _ => [(VTab, true); (VFld (s_next s) FConn, true); (VFld (s_next s) FRest, true)]
      | IErase j => (VTab, true) :: match s_tab s j with Some p => [(VFld p FConn, true); (VFld p FRest, true)] | None => [] end
      | IGet => own (FConn, false)
      | IConn _ => own (FConn, true)
      | IRd f => own (f, false)
      | IWr f => own (f, true)
      end
    end
  end.
(** Two threads can take a step now, both steps access the variable, at least one writes it. *)
Definition race (pref : bool) (s : st) (v : var) : Prop :=
  exists t1 t2 w1 w2, t1 <> t2 /\ w1 || w2 = true /\
  (exists x, step pref (EStep t1) s = Some x) /\ (exists x, step pref (EStep t2) s = Some x) /\
  In (v, w1) (accs s t1) /\ In (v, w2) (accs s t2).
