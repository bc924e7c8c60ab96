(** A connection in the hands of its worker, both directions together: the socket
    callback, the choice between reading and writing, the events asked for, the TLS
    handshake, and the contract of the TLS engine.
    Source: src/conn.cpp 63-284; include/salticidae/conn.h 186-191, 211-236, 270-325;
    include/salticidae/buffer.h 132-144; include/salticidae/queue.h 244-289;
    include/salticidae/crypto.h 375-415; include/salticidae/network.h 137-150, 649-702.
    RecvModel and SendModel have one direction each, in more detail: the parser, and
    the writers' threads.  Here a step is a whole callback; writers push between
    callbacks; the parser is an argument (how many segments it takes off the buffer;
    a parser that takes part of a segment is not modelled here).
    The TLS engine is OpenSSL as documented: SSL_read returns data of one record; after
    SSL_write asked to be repeated the next call must pass the same buffer, as
    SSL_MODE_ACCEPT_MOVING_WRITE_BUFFER is not set (crypto.h 375 sets
    SSL_MODE_ENABLE_PARTIAL_WRITE only); records without data are skipped
    (SSL_MODE_AUTO_RETRY, the default since OpenSSL 1.1.1). *)
From Coq Require Import Arith List Bool.
From Coq.Init Require Import Byte.
From Verif Require Import Base.
Import ListNotations.

(** recv_chunk_size, max_recv_buff_size (conn.h 198-199), enable_tls. *)
Record wcfg := mkCfg { w_chunk : nat; w_max : nat; w_tls : bool }.

(** send_data_func, recv_data_func (conn.h 96-97). *)
Inductive sfun := SfHs | SfPlain | SfTls.
Inductive rfun := RfHs | RfPlain | RfTls | RfDummy.

(** [w_rd], [w_wr]: the events ev_socket was added with.  [w_rs], [w_rr]: ready_send,
    ready_recv.  [w_q]: the send queue, each element with the address of its storage.
    [w_pend]: the buffer and size of an SSL_write that is to be repeated.  [w_rbuf]: the
    segments of recv_buffer; [w_got]: what the parser took, in order (a ghost).  [w_plain]: decrypted bytes still inside the engine.
    [w_sock]: what the kernel holds, record by record (an empty one: a record without
    data for us).  [w_want]: what the engine waits for in the handshake.  [w_ok]: the
    user's callback approved, or there is no TLS.  [w_term]: worker_terminate was
    called.  [w_up]: not torn down.  [w_bad]: SSL_write refused a repetition. *)
Record wst := mkW {
  w_sf : sfun; w_rf : rfun; w_rd : bool; w_wr : bool; w_rs : bool; w_rr : bool;
  w_q : list (nat * bytes); w_next : nat; w_pend : option (nat * nat); w_sent : bytes;
  w_got : bytes; w_rbuf : list bytes; w_plain : bytes; w_sock : list bytes;
  w_want : bool * bool; w_reg : bool; w_ok : bool; w_term : bool; w_up : bool; w_bad : bool }.

(** Model only: the state with one field replaced. *)
Definition set_fun a b s := mkW a b (w_rd s) (w_wr s) (w_rs s) (w_rr s) (w_q s) (w_next s) (w_pend s) (w_sent s) (w_got s) (w_rbuf s) (w_plain s) (w_sock s) (w_want s) (w_reg s) (w_ok s) (w_term s) (w_up s) (w_bad s).
Definition set_mask a b s := mkW (w_sf s) (w_rf s) a b (w_rs s) (w_rr s) (w_q s) (w_next s) (w_pend s) (w_sent s) (w_got s) (w_rbuf s) (w_plain s) (w_sock s) (w_want s) (w_reg s) (w_ok s) (w_term s) (w_up s) (w_bad s).
Definition set_rs a s := mkW (w_sf s) (w_rf s) (w_rd s) (w_wr s) a (w_rr s) (w_q s) (w_next s) (w_pend s) (w_sent s) (w_got s) (w_rbuf s) (w_plain s) (w_sock s) (w_want s) (w_reg s) (w_ok s) (w_term s) (w_up s) (w_bad s).
Definition set_rr a s := mkW (w_sf s) (w_rf s) (w_rd s) (w_wr s) (w_rs s) a (w_q s) (w_next s) (w_pend s) (w_sent s) (w_got s) (w_rbuf s) (w_plain s) (w_sock s) (w_want s) (w_reg s) (w_ok s) (w_term s) (w_up s) (w_bad s).
Definition set_q a n s := mkW (w_sf s) (w_rf s) (w_rd s) (w_wr s) (w_rs s) (w_rr s) a n (w_pend s) (w_sent s) (w_got s) (w_rbuf s) (w_plain s) (w_sock s) (w_want s) (w_reg s) (w_ok s) (w_term s) (w_up s) (w_bad s).
Definition set_pend a s := mkW (w_sf s) (w_rf s) (w_rd s) (w_wr s) (w_rs s) (w_rr s) (w_q s) (w_next s) a (w_sent s) (w_got s) (w_rbuf s) (w_plain s) (w_sock s) (w_want s) (w_reg s) (w_ok s) (w_term s) (w_up s) (w_bad s).
Definition add_sent a s := mkW (w_sf s) (w_rf s) (w_rd s) (w_wr s) (w_rs s) (w_rr s) (w_q s) (w_next s) (w_pend s) (w_sent s ++ a) (w_got s) (w_rbuf s) (w_plain s) (w_sock s) (w_want s) (w_reg s) (w_ok s) (w_term s) (w_up s) (w_bad s).
Definition set_in b p k s := mkW (w_sf s) (w_rf s) (w_rd s) (w_wr s) (w_rs s) (w_rr s) (w_q s) (w_next s) (w_pend s) (w_sent s) (w_got s) b p k (w_want s) (w_reg s) (w_ok s) (w_term s) (w_up s) (w_bad s).
(** on_read (network.h 649-693): [take] segments go to the parser. *)
Definition eat (take : nat) s := mkW (w_sf s) (w_rf s) (w_rd s) (w_wr s) (w_rs s) (w_rr s) (w_q s) (w_next s) (w_pend s) (w_sent s) (w_got s ++ concat (firstn take (w_rbuf s))) (skipn take (w_rbuf s)) (w_plain s) (w_sock s) (w_want s) (w_reg s) (w_ok s) (w_term s) (w_up s) (w_bad s).
Definition set_want a s := mkW (w_sf s) (w_rf s) (w_rd s) (w_wr s) (w_rs s) (w_rr s) (w_q s) (w_next s) (w_pend s) (w_sent s) (w_got s) (w_rbuf s) (w_plain s) (w_sock s) a (w_reg s) (w_ok s) (w_term s) (w_up s) (w_bad s).
Definition set_life reg ok term up s := mkW (w_sf s) (w_rf s) (w_rd s) (w_wr s) (w_rs s) (w_rr s) (w_q s) (w_next s) (w_pend s) (w_sent s) (w_got s) (w_rbuf s) (w_plain s) (w_sock s) (w_want s) reg ok term up (w_bad s).
Definition set_bad s := mkW (w_sf s) (w_rf s) (w_rd s) (w_wr s) (w_rs s) (w_rr s) (w_q s) (w_next s) (w_pend s) (w_sent s) (w_got s) (w_rbuf s) (w_plain s) (w_sock s) (w_want s) (w_reg s) (w_ok s) (w_term s) (w_up s) true.

(** worker_terminate (conn.cpp 275-284) posts a task. *)
Definition term s := set_life (w_reg s) (w_ok s) true (w_up s) s.

(** conn.h 285-325, feed: the socket event and the two functions. *)
Definition winit (c : wcfg) : wst :=
  if w_tls c then mkW SfHs RfHs true true false false [] 0 None [] [] [] [] [] (true, true) false false false true false
  else mkW SfPlain RfPlain false false false false [] 0 None [] [] [] [] [] (false, false) true false false true false.

(** What send or SSL_write says: WN n, n bytes were taken; WBlock: EWOULDBLOCK or
    SSL_ERROR_WANT_WRITE; WWantRead: SSL_ERROR_WANT_READ; WErr: anything else. *)
Inductive wres := WN (n : nat) | WBlock | WWantRead | WErr.
(** What recv or SSL_read says when there are no data: RBlock: EWOULDBLOCK or
    SSL_ERROR_WANT_READ; RWantWrite: SSL_ERROR_WANT_WRITE. *)
Inductive rres := RBlock | RWantWrite | REof | RErr.
(** What SSL_do_handshake says (crypto.h 381-394); HDone cert: whether the peer has
    shown a certificate (crypto.h 396-401). *)
Inductive hres := HDone (cert : bool) | HWantRead | HWantWrite | HErr.

(** SSL_write's test for a repetition: another buffer, or fewer bytes. *)
Definition retry_ok (c : wcfg) (addr len : nat) (s : wst) : bool :=
  if w_tls c then match w_pend s with Some (a, n) => Nat.eqb a addr && Nat.leb n len | None => true end else true.

(** conn.cpp 100-104, 190-192, after the loop. *)
Definition send_end (s : wst) : wst := set_rs true (set_mask (negb (w_rr s)) false s).

(** conn.cpp 63-105 and 152-193, the loop of _send_data and _send_data_tls.  The popped
    segment is a copy (buffer.h 140-144 returns a member of a local), in storage of its
    own, as the original is still there while the copy is made; rewind moves the storage
    back into the queue (queue.h 269-289).  Arguments: the queue, and
    the answers of send (everything is taken once they are exhausted). *)
Fixpoint send_loop (c : wcfg) (q : list (nat * bytes)) (ws : list wres) (s : wst) : wst :=
  match q with
  | [] => send_end (set_q [] (w_next s) s)
  | (_, d) :: q' =>
    let a := w_next s in
    let s := set_q q' (S a) s in
    match d with
    | [] => send_end s
    | _ =>
      let back s := set_q ((a, d) :: q') (w_next s) s in
      if negb (retry_ok c a (length d) s) then term (back (set_bad s))
      else
        match hd (WN (length d)) ws with
        | WN n =>
          if Nat.eqb n 0 then set_rs false (back s)
          else if Nat.leb (length d) n then send_loop c q' (tl ws) (add_sent d (set_pend None s))
          else set_rs false (set_q ((w_next s, skipn n d) :: q') (S (w_next s)) (add_sent (firstn n d) (set_pend None s)))
        | WBlock => set_rs false (set_pend (if w_tls c then Some (a, length d) else None) (back s))
        | WWantRead => term (back s)
        | WErr => term (back s)
        end
    end
  end.

(** SSL_read (the bytes of one record at most), and recv. *)
Fixpoint next_rec (k : list bytes) : bytes * list bytes :=
  match k with
  | [] => ([], [])
  | [] :: k' => next_rec k'
  | d :: k' => (d, k')
  end.
(** Model only: up to n bytes taken from what the socket has. *)
Definition read (c : wcfg) (n : nat) (s : wst) : bytes * wst :=
  if w_tls c then
    match w_plain s with
    | [] => let (d, k) := next_rec (w_sock s) in (firstn n d, set_in (w_rbuf s) (skipn n d) k s)
    | p => (firstn n p, set_in (w_rbuf s) (skipn n p) (w_sock s) s)
    end
  else let b := concat (w_sock s) in (firstn n b, set_in (w_rbuf s) [] (match skipn n b with [] => [] | x => [x] end) s).

(** conn.cpp 107-149 and 195-234, _recv_data and _recv_data_tls; [f]: the answer when
    there are no data; [take]: how many segments on_read takes off the buffer.  It does
    not resume reading, as ready_recv is false (network.h 694).  [fuel]: enough for
    every pass but the last reads a whole chunk. *)
Fixpoint recv_loop (c : wcfg) (fuel : nat) (f : rres) (take : nat) (s : wst) : option wst :=
  match fuel with
  | O => None
  | S fuel =>
    if Nat.leb (w_max c) (length (w_rbuf s)) then Some (set_rr true (set_mask false (negb (w_rs s)) s))
    else
      let (d, s1) := read c (w_chunk c) s in
      match d with
      | [] =>
        match f with
        | RBlock => Some (eat take (set_rr false s1))
        | _ => Some (term s1)
        end
      | _ =>
        let s2 := set_in (w_rbuf s1 ++ [d]) (w_plain s1) (w_sock s1) s1 in
        if Nat.eqb (length d) (w_chunk c) then recv_loop c fuel f take s2
        else Some (eat take (set_rr false s2))
      end
  end.
(** Model only: more rounds than the loop can make. *)
Definition fuel_of (s : wst) : nat := S (S (length (w_plain s) + length (concat (w_sock s)))).
Definition recv_data c f take s := recv_loop c (fuel_of s) f take s.

(** conn.cpp 236-271, the handshake.  An exception ends in the handler of conn.h
    295-298. *)
Definition handshake (h : hres) (s : wst) : wst :=
  match h with
  | HDone true => set_life true (w_ok s) (w_term s) (w_up s) (set_mask false false (set_fun SfTls RfDummy s))
  | HDone false => term (set_mask false false (set_fun SfTls RfDummy s))
  | HWantRead => set_want (true, false) (set_mask true false s)
  | HWantWrite => set_want (false, true) (set_mask false true s)
  | HErr => term s
  end.

(** Calling send_data_func and recv_data_func. *)
Definition call_send (c : wcfg) (ws : list wres) (h : hres) (s : wst) : wst :=
  match w_sf s with
  | SfHs => handshake h (set_rs true s)
  | _ => send_loop c (w_q s) ws s
  end.
(** conn.h: recv_data_func called through its pointer. *)
Definition call_recv (c : wcfg) (f : rres) (take : nat) (h : hres) (s : wst) : option wst :=
  match w_rf s with
  | RfHs => Some (handshake h s)
  | RfDummy => Some s
  | _ => recv_data c f take s
  end.

Inductive wev :=
| WPush (d : bytes)                      (* a writer *)
| WArrive (d : bytes)                    (* a record arrives (without TLS: bytes) *)
| WQueue (ws : list wres)                (* the queue's handler: conn.h 272-282 *)
| WIo (r w : bool) (f : rres) (take : nat) (ws : list wres) (h : hres)  (* the socket: conn.h 289-299 *)
| WFail (h : hres)                       (* the socket reports an error *)
| WApprove (ok : bool)                   (* the task of update_conn: conn.h 211-236 *)
| WTimer (f : rres) (take more : nat)    (* on_read, called by the retry timer: network.h 139-149, 694-701 *)
| WKill                                  (* worker_terminate called elsewhere *)
| WDown.                                 (* the task: conn.h 186-191 *)

(** Model only: a step that can happen only if. *)
Definition guard (b : bool) (x : option wst) : option wst := if b then x else None.

Definition wstep (c : wcfg) (e : wev) (s : wst) : option wst :=
  match e with
  | WPush d => Some (set_q (w_q s ++ [(w_next s, d)]) (S (w_next s)) s)
  | WArrive d => Some (set_in (w_rbuf s) (w_plain s) (w_sock s ++ [d]) s)
  | WQueue ws =>
    guard (w_up s && w_reg s)
      (Some (if w_rs s then call_send c ws HErr (set_mask (negb (w_rr s)) true s) else s))
  | WIo r w f take ws h =>
    guard (w_up s && (r || w) && implb r (w_rd s) && implb w (w_wr s))
      (if r then call_recv c f take h s else Some (call_send c ws h s))
  (* conn.cpp 64-68, 153-157: what is neither READ nor WRITE goes to send_data_func; after
     an error libuv has stopped the event *)
  | WFail h =>
    guard (w_up s && (w_rd s || w_wr s))
      (let s := set_mask false false s in
       Some (match w_sf s with SfHs => handshake h (set_rs true s) | _ => term s end))
  | WApprove ok =>
    guard (w_up s && w_reg s && negb (w_ok s) && negb (w_tls c && negb (match w_rf s with RfDummy => true | _ => false end)))
      (Some (if w_tls c then
               if ok then set_mask true true (set_fun (w_sf s) RfTls (set_life (w_reg s) true (w_term s) (w_up s) s))
               else term (set_life (w_reg s) true (w_term s) (w_up s) s)
             else set_mask true true (set_life (w_reg s) true (w_term s) (w_up s) s)))
  | WTimer f take more =>
    guard (w_up s && w_ok s)
      (let s := eat take s in
       if w_rr s && Nat.ltb (length (w_rbuf s)) (w_max c)
       then call_recv c f more HErr (set_mask true (negb (w_rs s)) s)
       else Some s)
  | WKill => Some (term s)
  | WDown => guard (w_up s && w_term s) (Some (set_mask false false (set_life false (w_ok s) true false s)))
  end.

(** A run: one event after the other; it stops where an event cannot happen.  Model only. *)
Fixpoint wrun (c : wcfg) (es : list wev) (s : wst) : option wst :=
  match es with
  | [] => Some s
  | e :: r => match wstep c e s with Some s' => wrun c r s' | None => None end
  end.
