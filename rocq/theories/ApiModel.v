(** The user's side of the networks: deferred sends and their error reports
    (network.h, conn.h), and the C functions (src/*.cpp) around them. *)
From Coq Require Import String Arith NArith List Bool.
Import ListNotations.

(** ** Exceptions *)

(** SalticidaeError (util.h 122-151) with its codes; the operating system's
    code is not set by two of the three constructors (None). *)
Inductive exn :=
| XSal (code : nat) (os : option nat)
| XStd                                   (* another std::exception *)
| XAny.                                  (* anything else *)
Definition sal (code : nat) : exn := XSal code (Some 0).              (* 135-140 *)
Definition sal_os (code os : nat) : exn := XSal code (Some os).
Definition sal_text : exn := XSal 1 None.                             (* 130-133 *)

(** util.h 86-118 *)
Definition E_GENERIC := 1. Definition E_LISTEN := 3. Definition E_CONNECT := 4. Definition E_EXISTS := 5. Definition E_PEER := 6. Definition E_NOT_READY := 7.
Definition E_CLIENT := 9. Definition E_NETADDR := 10.
Definition E_LOAD_CERT := 16. Definition E_LOAD_KEY := 17. Definition E_TLS := 18. Definition E_X509 := 19. Definition E_KEY := 20. Definition E_MATCH := 21.
Definition E_FD := 23. Definition E_INIT := 24. Definition E_START := 25. Definition E_RAND := 26. Definition E_CONN := 27. Definition E_AVAIL := 28. Definition E_UNKNOWN := 29.

(** ** Deferred operations *)

(** The three classes: MsgNetwork, PeerNetwork, ClientNetwork (network.h 41, 349, 274). *)
Inductive net := NMsg | NPeer | NClient.
(** A deferred send: the network, its receiver, the id the caller got, and its
    number (not in the code: used to tell operations apart). *)
Record task := mkT { t_net : net; t_to : nat; t_id : N; t_no : nat }.
(** A call of the error callback on its way: the error, the id, the number. *)
Record rep := mkR { r_err : exn; r_id : N; r_no : nat }.

(** What can be seen from outside. *)
Inductive ev :=
| EIssue (t : task)                     (* the call returned [t_id t] *)
| EQueued (t : task)                    (* the message is in the connection's send buffer *)
| ECallback (r : rep)                   (* error_cb(err, false, id) *)
| EFatal.                               (* error_cb(err, true, -1) *)

Record st := mkS {
  s_ctr : N;                            (* async_id, conn.h 161: 16 bits *)
  s_no : nat;
  s_peer : nat -> bool;                 (* known_peers *)
  s_client : nat -> bool;               (* addr2conn *)
  s_disp : list task;                   (* disp_tcall *)
  s_user : list (option rep);           (* user_tcall; None: a fatal error *)
  s_stop : bool;                        (* disp_tcall was stopped, event.h 768 *)
  s_cb : bool }.                        (* error_cb is set *)

(** What [_send_msg] does: throws, or returns what conn->write returned. *)
Inductive res := RThrow (e : exn) | RBool (b : bool).
(** network.h 731-741 *)
Definition send_conn (b : bool) : res := RBool b.
(** 1337-1340, 984-989 *)
Definition send_peer (s : st) (p : nat) (b : bool) : res := if s_peer s p then send_conn b else RThrow (sal E_PEER).
(** 1408-1414 *)
Definition send_client (s : st) (a : nat) (b : bool) : res := if s_client s a then send_conn b else RThrow (sal E_CLIENT).

(** The dispatcher's part: 713-719, 1320-1326, 1393-1398.  Result: was the
    message queued, and the error reported. *)
Definition body (s : st) (t : task) (b : bool) : bool * option exn :=
  match t_net t with
  | NMsg => match send_conn b with
            | RBool true => (true, None)
            | RBool false => (false, Some (sal E_CONN))
            | RThrow e => (false, Some e)
            end
  | NPeer => match send_peer s (t_to t) b with
             | RBool true => (true, None)
             | RBool false => (false, Some (sal E_CONN))
             | RThrow e => (false, Some e)
             end
  | NClient => match send_client s (t_to t) b with
               | RBool b => (b, None)           (* the result is not looked at *)
               | RThrow e => (false, Some e)
               end
  end.

Inductive label :=
| LCall (n : net) (to : nat)            (* any thread *)
| LDisp (b : bool)                      (* the dispatcher; [b]: what write returns *)
| LUser                                 (* the user's loop *)
| LPeer (p : nat) (b : bool) | LClient (a : nat) (b : bool)    (* tables change *)
| LFatal                                (* an error in a callback of the dispatcher or a worker: disp_error_cb, conn.h 516-523 *)
| LReg.                                 (* reg_error_handler, conn.h 628 *)

(** Model only: one entry replaced. *)
Definition upd (f : nat -> bool) (k : nat) (b : bool) : nat -> bool := fun x => if x =? k then b else f x.

Definition step (l : label) (s : st) : option (st * list ev) :=
  match l with
  | LCall n to =>
      (* gen_async_id, conn.h 163; async_call is a FIFO (CallModel, C42) *)
      let t := mkT n to (s_ctr s) (s_no s) in
      Some (mkS ((s_ctr s + 1) mod 65536)%N (S (s_no s)) (s_peer s) (s_client s) (s_disp s ++ [t]) (s_user s) (s_stop s) (s_cb s), [EIssue t])
  | LDisp b =>
      match s_disp s with
      | [] => None
      | t :: q =>
          if s_stop s then                (* event.h 768-773: nobody waits for the exception *)
            Some (mkS (s_ctr s) (s_no s) (s_peer s) (s_client s) q (s_user s) true (s_cb s), [])
          else
          let '(ok, e) := body s t b in
          Some (mkS (s_ctr s) (s_no s) (s_peer s) (s_client s) q
                    (s_user s ++ match e with Some e => [Some (mkR e (t_id t) (t_no t))] | None => [] end) false (s_cb s),   (* recoverable_error, conn.h 166-170 *)
                if ok then [EQueued t] else [])
      end
  | LUser =>
      match s_user s with
      | [] => None
      | r :: q => Some (mkS (s_ctr s) (s_no s) (s_peer s) (s_client s) (s_disp s) q (s_stop s) (s_cb s),
                        if s_cb s then [match r with Some r => ECallback r | None => EFatal end] else [])
      end
  | LPeer p b => Some (mkS (s_ctr s) (s_no s) (upd (s_peer s) p b) (s_client s) (s_disp s) (s_user s) (s_stop s) (s_cb s), [])
  | LClient a b => Some (mkS (s_ctr s) (s_no s) (s_peer s) (upd (s_client s) a b) (s_disp s) (s_user s) (s_stop s) (s_cb s), [])
  | LFatal => Some (mkS (s_ctr s) (s_no s) (s_peer s) (s_client s) (s_disp s) (s_user s ++ [None]) true (s_cb s), [])
  | LReg => Some (mkS (s_ctr s) (s_no s) (s_peer s) (s_client s) (s_disp s) (s_user s) (s_stop s) true, [])
  end.

(** A run: one event after the other; it stops where an event cannot happen.  Model only. *)
Fixpoint run (l : list label) (s : st) : option (st * list ev) :=
  match l with
  | [] => Some (s, [])
  | a :: l => match step a s with
              | Some (s, e) => match run l s with Some (s, f) => Some (s, e ++ f) | None => None end
              | None => None
              end
  end.

(** Model only: the state at the beginning. *)
Definition init : st := mkS 0 0 (fun _ => false) (fun _ => false) [] [] false false.

(** ** C functions: sending at once (network.cpp 82-84, 296-303, 366-373) *)

(** What a C function gives back, or what escapes from it. *)
Inductive cres (A : Type) := CRet (a : A) | CEscape (e : exn).
Arguments CRet {A}. Arguments CEscape {A}.

(** network.cpp: the send functions of the C interface; the exceptions escape. *)
Definition c_send (n : net) (s : st) (to : nat) (b : bool) : cres bool :=
  match n with
  | NMsg => match send_conn b with RBool r => CRet r | RThrow e => CEscape e end
  | NPeer => match send_peer s to b with RBool _ => CRet true | RThrow _ => CRet false end
  | NClient => match send_client s to b with RBool _ => CRet true | RThrow _ => CRet false end
  end.
(** The message is in the send buffer. *)
Definition queued (n : net) (s : st) (to : nat) (b : bool) : bool :=
  match n with
  | NMsg => b
  | NPeer => s_peer s to && b
  | NClient => s_client s to && b
  end.

(** ** C functions: errors *)

(** A struct SalticidaeCError (util.h 33-36); None: not initialised. *)
Definition cerr : Type := nat * option nat.
Definition cerr_normal : cerr := (0, Some 0).                 (* util.cpp 81-86 *)
Definition cerr_unknown : cerr := (E_UNKNOWN, Some 0).        (* 88-93 *)

(** How a C function deals with exceptions. *)
Inductive guard :=
| GErr      (* SALTICIDAE_CERROR_TRY and _CATCH, util.h 47-53; afterwards a null pointer is returned *)
| GAll      (* try { } catch (...) { }: a null pointer or false is returned *)
| GNone.    (* no try *)

(** What the body does. *)
Inductive bres := BRet | BThrow (e : exn).
(** What the caller gets: whether there is a result, and the error object. *)
Inductive got := GotRes (err : option cerr) | GotNone (err : option cerr) | GotEscape (e : exn).

Definition get_cerr (e : exn) : cerr := match e with XSal c o => (c, o) | _ => cerr_unknown end.   (* util.h 145-150 *)
Definition c_call (g : guard) (b : bres) : got :=
  match g, b with
  | GErr, BRet => GotRes (Some cerr_normal)
  | GErr, BThrow (XSal c o) => GotNone (Some (get_cerr (XSal c o)))
  | GErr, BThrow XStd => GotNone (Some cerr_unknown)
  | GErr, BThrow XAny => GotEscape XAny
  | GAll, BRet => GotRes None
  | GAll, BThrow _ => GotNone None
  | GNone, BRet => GotRes None
  | GNone, BThrow e => GotEscape e
  end.

(** msgnetwork_reg_error_handler, network.cpp 142-156: what the C callback
    gets. *)
Definition c_report (e : exn) : cerr := match e with XSal c o => (c, o) | _ => cerr_unknown end.

(** The C functions, with the exceptions their bodies may throw: those named
    in throw expressions reached from them (not std::bad_alloc).  Functions
    that cannot throw and only read or set a field, copy or free an object are
    left out. *)
Local Open Scope string_scope.
(** A C function: its name, how it catches, what it may throw. *)
Record cfun := mkF { f_name : string; f_guard : guard; f_throws : list exn }.
(** Abbreviations for the exceptions of the lists below. *)
Definition uv_init := sal E_INIT. Definition uv_start := sal E_START.
Definition conn_pool : list exn :=                       (* ConnPool::ConnPool, conn.h 480-530; event loops *)
  [uv_init; uv_start; sal E_FD; XStd; sal E_LOAD_CERT; sal E_LOAD_KEY; sal E_MATCH; sal E_X509; sal E_KEY].
Definition capi : list cfun := [
  (* network.cpp *)
  mkF "msgnetwork_new" GErr conn_pool;
  mkF "msgnetwork_connect_sync" GErr [sal_os E_CONNECT 1; sal E_AVAIL; uv_init; uv_start; sal E_FD];
  mkF "msgnetwork_listen" GErr [sal_os E_LISTEN 1; sal E_AVAIL; uv_init; uv_start; sal E_FD];
  mkF "msgnetwork_start" GNone [];
  mkF "msgnetwork_stop" GNone [];
  mkF "msgnetwork_send_msg" GNone [];
  mkF "msgnetwork_send_msg_deferred_by_move" GNone [];
  mkF "msgnetwork_connect" GNone [];
  mkF "msgnetwork_terminate" GNone [];
  mkF "peernetwork_new" GErr (sal E_RAND :: conn_pool);
  mkF "peernetwork_add_peer" GNone [];
  mkF "peernetwork_del_peer" GNone [];
  mkF "peernetwork_conn_peer" GNone [];
  mkF "peernetwork_set_peer_addr" GNone [];
  mkF "peernetwork_has_peer" GNone [sal E_AVAIL];           (* ThreadCall::call: event.h 769 *)
  mkF "peernetwork_get_peer_conn" GErr [sal E_PEER; sal E_AVAIL];
  mkF "peernetwork_conn_get_peer_addr" GNone [sal E_AVAIL];
  mkF "peernetwork_conn_get_peer_id" GNone [sal E_AVAIL];
  mkF "peernetwork_send_msg" GAll [sal E_PEER];
  mkF "peernetwork_send_msg_deferred_by_move" GNone [];
  mkF "peernetwork_multicast_msg_by_move" GNone [];
  mkF "peernetwork_listen" GErr [sal_os E_LISTEN 1; sal E_AVAIL; uv_init; uv_start; sal E_FD];
  mkF "peerid_new_from_x509" GNone [sal E_X509; sal E_KEY; XStd];
  mkF "peerid_new_from_netaddr" GNone [XStd];
  mkF "clientnetwork_new" GErr conn_pool;
  mkF "clientnetwork_send_msg" GAll [sal E_CLIENT];
  mkF "clientnetwork_send_msg_deferred_by_move" GNone [];
  (* crypto.cpp *)
  mkF "x509_new_from_pem_file" GErr [sal E_X509];
  mkF "x509_new_from_der" GErr [sal E_X509];
  mkF "x509_get_pubkey" GNone [sal E_X509];
  mkF "x509_get_der" GNone [sal E_X509];
  mkF "pkey_new_privkey_from_pem_file" GErr [sal E_KEY];
  mkF "pkey_new_privkey_from_der" GErr [sal E_KEY];
  mkF "pkey_get_pubkey_der" GNone [sal E_KEY];
  mkF "pkey_get_privkey_der" GNone [sal E_KEY];
  (* netaddr.cpp *)
  mkF "netaddr_new_from_ip_port" GErr [];
  mkF "netaddr_new_from_sip_port" GErr [sal_os E_NETADDR 1; sal E_NETADDR];
  mkF "netaddr_new_from_sipport" GErr [sal_os E_NETADDR 1; sal E_NETADDR];
  (* stream.cpp *)
  mkF "uint256_new_from_bytes" GAll [XStd];
  mkF "uint256_new_from_bytearray" GAll [XStd];
  mkF "uint256_serialize" GNone [];
  mkF "uint256_unserialize" GNone [XStd];
  mkF "datastream_put_data" GAll [];
  mkF "datastream_get_data_inplace" GAll [XStd];
  mkF "datastream_get_hash" GAll [XStd];
  mkF "bytearray_new_from_hex" GAll [XStd];
  mkF "datastream_get_hex" GNone [];
  (* msg.cpp *)
  mkF "msg_consume_payload" GNone [XStd];
  (* event.cpp *)
  mkF "eventcontext_new" GNone [uv_init];
  mkF "eventcontext_dispatch" GNone [];
  mkF "sigev_new" GNone [uv_init];
  mkF "sigev_add" GNone [uv_start];
  mkF "timerev_new" GNone [uv_init];
  mkF "timerev_add" GNone [uv_start];
  mkF "threadcall_new" GNone [sal E_FD; uv_init; uv_start];
  mkF "threadcall_async_call" GNone [];
  mkF "mpscqueue_reg_handler" GNone [sal E_FD; uv_init; uv_start] ].
