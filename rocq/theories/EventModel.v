(** Model of the event classes FdEvent, TimerEvent, SigEvent, CheckEvent and
    TimedFdEvent.
    Source: include/salticidae/event.h 40-523.
    What libuv does is the environment: a registration (handle) that was started
    may become ready, expire or be signalled; a closed one is freed some time
    later.  Objects are numbered; their numbers stand for their addresses, 0 is
    the temporary of operator=.  CheckEvent is the same code as SigEvent and is
    covered by its class here.  One thread: objects of several event contexts are
    used, but one callback runs at a time.
    Not modelled: failures of uv_*_start, the C bindings, a user's EventContext
    made from a raw pointer. *)
From Coq Require Import Arith List Bool.
Import ListNotations.

(** FdEvent (event.h 84-170); TimerEvent (173-254); SigEvent and CheckEvent
    (357-523); TimedFdEvent (256-355). *)
Inductive cls := CFd | CTimer | CSig | CTimed.

(** A handle's [data]: an object, or the TimerEvent part of a TimedFdEvent, which
    has another address.  (The FdEvent part has the address of the whole.) *)
Inductive ptr := PObj (o : nat) | PTimer (o : nat).

(** Lost: allocated, but libuv refused to initialise it. *)
Inductive hst := Open | Closing | Freed | Lost.

(** What a handle was started with.  [timed]: TimedFdEvent's fd_then or timer_then,
    else FdEvent's or TimerEvent's. *)
Inductive start :=
| SPoll (rd wr timed : bool)
| STimer (due : nat) (timed : bool)
| SSig (once : bool).

(** A libuv handle: its loop, its data pointer, its state, what it waits for. *)
Record hnd := mkH { h_loop : nat; h_data : ptr; h_st : hst; h_on : option start }.

(** The members: ec, fd, ev_fd (or ev_timer, ev_sig), the ev_timer of a
    TimedFdEvent, callback, timeout.  The two [ec] of a TimedFdEvent are always the
    same.  A callback is a number. *)
Record obj := mkO { o_cls : cls; o_ec : option nat; o_fd : nat; o_ev : option nat; o_ev2 : option nat; o_cb : option nat; o_tmo : nat }.

(** [s_run]: the object whose callback is running.  [s_now]: the real time;
    [s_lt]: the time as the loop knows it, both in milliseconds. *)
Record st := mkS { s_obj : nat -> option obj; s_h : nat -> hnd; s_hn : nat; s_bound : nat;
                   s_user : nat -> bool; s_dead : nat -> bool; s_run : option nat; s_now : nat; s_lt : nat -> nat }.

(** What can be observed: a callback of an object, with its argument; an exception. *)
Inductive arg := AFd (fd : nat) (rd wr err : bool) | ATimeout (fd : nat) | ATimer | ASig.
(** What can be seen: callbacks run, exceptions. *)
Inductive obs := OCall (o f : nat) (a : arg) | OThrow.

(** Ub: undefined behaviour or a failing assertion.  Off: not a possible event. *)
Inductive out := Next (s : st) (l : list obs) | Ub | Off.

(** Model only: one entry replaced. *)
Definition upd {A : Type} (f : nat -> A) (n : nat) (v : A) (m : nat) : A := if Nat.eqb m n then v else f m.

(** Model only: the state with one field replaced. *)
Definition w_obj x s := mkS x (s_h s) (s_hn s) (s_bound s) (s_user s) (s_dead s) (s_run s) (s_now s) (s_lt s).
Definition w_h x s := mkS (s_obj s) x (s_hn s) (s_bound s) (s_user s) (s_dead s) (s_run s) (s_now s) (s_lt s).
Definition w_hn x s := mkS (s_obj s) (s_h s) x (s_bound s) (s_user s) (s_dead s) (s_run s) (s_now s) (s_lt s).
Definition w_bound x s := mkS (s_obj s) (s_h s) (s_hn s) x (s_user s) (s_dead s) (s_run s) (s_now s) (s_lt s).
Definition w_user x s := mkS (s_obj s) (s_h s) (s_hn s) (s_bound s) x (s_dead s) (s_run s) (s_now s) (s_lt s).
Definition w_dead x s := mkS (s_obj s) (s_h s) (s_hn s) (s_bound s) (s_user s) x (s_run s) (s_now s) (s_lt s).
Definition w_run x s := mkS (s_obj s) (s_h s) (s_hn s) (s_bound s) (s_user s) (s_dead s) x (s_now s) (s_lt s).
Definition w_now x s := mkS (s_obj s) (s_h s) (s_hn s) (s_bound s) (s_user s) (s_dead s) (s_run s) x (s_lt s).
Definition w_lt x s := mkS (s_obj s) (s_h s) (s_hn s) (s_bound s) (s_user s) (s_dead s) (s_run s) (s_now s) x.

(** Model only: an object set. *)
Definition put (o : nat) (q : option obj) (s : st) : st := w_bound (Nat.max (s_bound s) (S o)) (w_obj (upd (s_obj s) o q) s).
Definition set_h (h : nat) (x : hnd) (s : st) : st := w_h (upd (s_h s) h x) s.
Definition set_data (h : nat) (p : ptr) (s : st) : st := let x := s_h s h in set_h h (mkH (h_loop x) p (h_st x) (h_on x)) s.
(** uv_poll_start, uv_timer_start, uv_signal_start and the stop functions. *)
Definition set_on (h : nat) (x : option start) (s : st) : st := let y := s_h s h in set_h h (mkH (h_loop y) (h_data y) (h_st y) x) s.

(** A new handle, initialised (uv_poll_init and the like) or not. *)
Definition new_h (l : nat) (p : ptr) (ok : bool) (s : st) : st :=
  w_hn (S (s_hn s)) (set_h (s_hn s) (mkH l p (if ok then Open else Lost) None) s).

(** The sequence of two steps. *)
Definition bind (r : out) (k : st -> out) : out :=
  match r with
  | Next s l => match k s with Next s' l' => Next s' (l ++ l') | x => x end
  | x => x
  end.
(** Model only: nothing seen. *)
Definition ok1 (s : st) : out := Next s [].

(** uv_*_stop and uv_close, as clear calls them (event.h 148-149, 230-231, 412-413, 499-500); closing
    a handle that is not open aborts. *)
Definition close (h : nat) (s : st) : out :=
  let x := s_h s h in
  match h_st x with
  | Open => ok1 (set_h h (mkH (h_loop x) (h_data x) Closing None) s)
  | _ => Ub
  end.

(** event.h 145-153, 227-235, 409-417, 496-504, clear, of the part in [o_ev]. *)
Definition clear1 (o : nat) (s : st) : out :=
  match s_obj s o with
  | None => Ub
  | Some q =>
    match o_ev q with
    | Some h => bind (close h s) (fun s => ok1 (put o (Some (mkO (o_cls q) (o_ec q) (o_fd q) None (o_ev2 q) None (o_tmo q))) s))
    | None => ok1 (put o (Some (mkO (o_cls q) (o_ec q) (o_fd q) None (o_ev2 q) None (o_tmo q))) s)
    end
  end.
(** event.h 227-235, clear of the TimerEvent part of a TimedFdEvent. *)
Definition clear2 (o : nat) (s : st) : out :=
  match s_obj s o with
  | None => Ub
  | Some q =>
    match o_ev2 q with
    | Some h => bind (close h s) (fun s => ok1 (put o (Some (mkO (o_cls q) (o_ec q) (o_fd q) (o_ev q) None (o_cb q) (o_tmo q))) s))
    | None => ok1 s
    end
  end.
(** clear; event.h 325-329 for a TimedFdEvent. *)
Definition clear (o : nat) (s : st) : out :=
  match s_obj s o with
  | None => Ub
  | Some q => match o_cls q with CTimed => bind (clear2 o s) (clear1 o) | _ => clear1 o s end
  end.

(** event.h 143, 225, 323, 407, 494, the destructors. *)
Definition destroy (o : nat) (s : st) : out := bind (clear o s) (fun s => ok1 (put o None s)).

(** Setting [data] of the handles of an object: the parts (event.h 119-120,
    128-131, 202-203, 210-213, 384-385, 392-395) ... *)
Definition fix1 (o : nat) (s : st) : st :=
  match s_obj s o with Some q => match o_ev q with Some h => set_data h (PObj o) s | None => s end | None => s end.
Definition fix2 (o : nat) (s : st) : st :=
  match s_obj s o with Some q => match o_ev2 q with Some h => set_data h (PTimer o) s | None => s end | None => s end.
(** ... and a whole TimedFdEvent (event.h 296-300, 308-311). *)
Definition fix_timed (o : nat) (s : st) : out :=
  match s_obj s o with
  | Some q =>
    match o_ev q with
    | Some h => match o_ev2 q with Some h2 => ok1 (set_data h (PObj o) (set_data h2 (PObj o) s)) | None => Ub end
    | None => ok1 s
    end
  | None => ok1 s
  end.
Definition fix_all (o : nat) (s : st) : out :=
  match s_obj s o with
  | Some q => match o_cls q with CTimed => fix_timed o (fix2 o (fix1 o s)) | _ => ok1 (fix1 o s) end
  | None => ok1 s
  end.

(** event.h 115-121, 198-204, 291-301, 380-386, 467-473, the move constructors. *)
Definition move_new (o p : nat) (s : st) : out :=
  match s_obj s p with
  | None => Ub
  | Some q =>
    fix_all o (put p (Some (mkO (o_cls q) None (o_fd q) None None None (o_tmo q))) (put o (Some q) s))
  end.
(** event.h 123-132, 206-214, 303-312, 388-396, 475-483, swap.  The two calls of
    std::swap on the parts of a TimedFdEvent are three moves each; only their result
    is modelled. *)
Definition swap (o p : nat) (s : st) : out :=
  match s_obj s o, s_obj s p with
  | Some q, Some r => bind (fix_all o (put o (Some r) (put p (Some q) s))) (fix_all p)
  | _, _ => Ub
  end.
(** event.h 134-141, 216-223, 314-321, 398-405, 485-492, operator=. *)
Definition assign (o p : nat) (s : st) : out :=
  if Nat.eqb o p then ok1 s
  else bind (bind (move_new 0 p s) (swap 0 o)) (destroy 0).

(** The callback member of an object must not be changed while it runs: the running
    function would be destroyed or moved away. *)
Definition touch (o : nat) (s : st) : out := match s_run s with Some r => if Nat.eqb r o then Ub else ok1 s | None => ok1 s end.

(** Model only: equality test. *)
Definition cls_eqb (a b : cls) : bool := match a, b with CFd, CFd => true | CTimer, CTimer => true | CSig, CSig => true | CTimed, CTimed => true | _, _ => false end.

(** Calling the callback (event.h 101, 184, 267, 278, 366, 453): no function is an
    exception thrown into libuv. *)
Definition call (o : nat) (a : arg) (s : st) : out :=
  match s_obj s o with
  | Some q => match o_cb q with Some f => Next (w_run (Some o) s) [OCall o f a] | None => Ub end
  | None => Ub
  end.

(** What the user and the loop can do. *)
Inductive ev :=
(* calls *)
| ENew (o : nat) (c : cls) (l fd f : nat) (ok : bool)
| ENewTimed (o l fd f : nat) (ok ok' : bool)
| EDefault (o : nat) (c : cls)
| EMove (o p : nat)
| EAssign (o p : nat)
| EClear (o : nat)
| ESetCb (o f : nat)
| EAddPoll (o : nat) (rd wr : bool)
| EAddTimer (o ms : nat)
| EAddSig (o : nat) (once : bool)
| EAddTimed (o : nat) (rd wr : bool) (ms : nat)
| EDel (o : nat)
| EDestroy (o : nat)
| EDrop (l : nat)
(* the environment *)
| EDie (l : nat)
| ETick (d : nat)
| EUpdate (l : nat)
| EFire (h : nat) (rd wr err : bool)
| EExpire (h : nat)
| ESignal (h : nat)
| EClosed (h : nat)
| ERet.

(** A valid object that is no temporary. *)
Definition live (o : nat) (s : st) : option obj := match o with O => None | _ => s_obj s o end.
Definition free (o : nat) (s : st) : bool := match o with O => false | _ => match s_obj s o with None => true | Some _ => false end end.

(** uv_poll_start with no events stops the handle. *)
Definition poll_start (rd wr timed : bool) : option start := if rd || wr then Some (SPoll rd wr timed) else None.

Definition step (e : ev) (s : st) : out :=
  match e with
  (* event.h 106-112, 189-195, 371-377, 458-464 *)
  | ENew o c l fd f ok =>
    if free o s && negb (cls_eqb c CTimed) && s_user s l then
      let s1 := new_h l (PObj o) ok s in
      if ok then ok1 (put o (Some (mkO c (Some l) fd (Some (s_hn s)) None (Some f) 0)) s1)
      else Next s1 [OThrow]
    else Off
  (* event.h 283-289: the FdEvent part, then the TimerEvent part; if the second fails
     the first is destroyed *)
  | ENewTimed o l fd f ok ok' =>
    if free o s && s_user s l then
      let s1 := new_h l (PObj o) ok s in
      if ok then
        let s2 := new_h l (PTimer o) ok' s1 in
        if ok' then bind (fix_timed o (put o (Some (mkO CTimed (Some l) fd (Some (s_hn s)) (Some (S (s_hn s))) (Some f) 0)) s2)) ok1
        else bind (close (s_hn s) s2) (fun s => Next s [OThrow])
      else Next s1 [OThrow]
    else Off
  (* event.h 105, 188, 282, 370, 457 *)
  | EDefault o c => if free o s then ok1 (put o (Some (mkO c None 0 None None None 0)) s) else Off
  | EMove o p => if free o s then match live p s with Some _ => bind (touch p s) (move_new o p) | None => Off end else Off
  | EAssign o p =>
    match live o s, live p s with
    | Some q, Some r => if cls_eqb (o_cls q) (o_cls r) then if Nat.eqb o p then ok1 s else bind (bind (touch o s) (touch p)) (assign o p) else Off
    | _, _ => Off
    end
  | EClear o => match live o s with Some _ => bind (touch o s) (clear o) | None => Off end
  (* event.h 155-157, 237-239, 336-338, 419-421, 506-508 *)
  | ESetCb o f => match live o s with
                  | Some q => bind (touch o s) (fun s => ok1 (put o (Some (mkO (o_cls q) (o_ec q) (o_fd q) (o_ev q) (o_ev2 q) (Some f) (o_tmo q))) s))
                  | None => Off
                  end
  (* event.h 159-163 *)
  | EAddPoll o rd wr =>
    match live o s with
    | Some q => match o_cls q with
                | CFd => match o_ev q with Some h => ok1 (set_on h (poll_start rd wr false) s) | None => Ub end
                | _ => Off
                end
    | None => Off
    end
  (* event.h 241-245; the loop's time may be behind the real time *)
  | EAddTimer o ms =>
    match live o s with
    | Some q => match o_cls q with
                | CTimer => match o_ev q with Some h => ok1 (set_on h (Some (STimer (s_lt s (h_loop (s_h s h)) + ms) false)) s) | None => Ub end
                | _ => Off
                end
    | None => Off
    end
  (* event.h 423-433, 510-514 *)
  | EAddSig o once =>
    match live o s with
    | Some q => match o_cls q with
                | CSig => match o_ev q with Some h => ok1 (set_on h (Some (SSig once)) s) | None => Ub end
                | _ => Off
                end
    | None => Off
    end
  (* event.h 340-347 *)
  | EAddTimed o rd wr ms =>
    match live o s with
    | Some q => match o_cls q with
                | CTimed =>
                  match o_ev q, o_ev2 q with
                  | Some h, Some h2 =>
                    let s1 := put o (Some (mkO CTimed (o_ec q) (o_fd q) (o_ev q) (o_ev2 q) (o_cb q) ms)) s in
                    ok1 (set_on h (poll_start rd wr true) (set_on h2 (Some (STimer (s_lt s (h_loop (s_h s h2)) + ms) true)) s1))
                  | _, _ => Ub
                  end
                | _ => Off
                end
    | None => Off
    end
  (* event.h 165-167, 247-249, 349-352, 435-437, 516-518 *)
  | EDel o =>
    match live o s with
    | Some q => let s1 := match o_ev2 q with Some h => set_on h None s | None => s end in
                ok1 (match o_ev q with Some h => set_on h None s1 | None => s1 end)
    | None => Off
    end
  | EDestroy o => match live o s with Some _ => bind (touch o s) (destroy o) | None => Off end
  (* the user gives up an EventContext *)
  | EDrop l => ok1 (w_user (upd (s_user s) l false) s)
  (* event.h 42-57, the deleter, when no object and no user refers to the loop (ArcObj:
     see ArcModel).  Simplified: not inside a callback (giving up the last reference to a
     loop inside one of its own callbacks runs the loop recursively).  Every handle that is not closing is closed, and the loop runs until
     all are freed *)
  | EDie l =>
    if negb (s_user s l) && negb (s_dead s l) && (match s_run s with None => true | Some _ => false end) &&
       forallb (fun o => match s_obj s o with Some q => match o_ec q with Some l' => negb (Nat.eqb l' l) | None => true end | None => true end) (List.seq 0 (s_bound s))
    then ok1 (w_dead (upd (s_dead s) l true)
               (w_h (fun h => let x := s_h s h in if Nat.ltb h (s_hn s) && Nat.eqb (h_loop x) l then match h_st x with Lost => x | _ => mkH (h_loop x) (h_data x) Freed None end else x) s))
    else Off
  | ETick d => ok1 (w_now (s_now s + d) s)
  (* uv__update_time, at the beginning of a round and after polling *)
  | EUpdate l => ok1 (w_lt (upd (s_lt s) l (s_now s)) s)
  (* a descriptor is ready: event.h 97-102, and 270-279; after an error libuv has
     stopped the handle *)
  | EFire h rd wr err =>
    match s_run s, h_st (s_h s h), h_on (s_h s h) with
    | None, Open, Some (SPoll mr mw timed) =>
      if negb (Nat.ltb h (s_hn s)) then Off
      else if (if err then negb rd && negb wr else (rd || wr) && (implb rd mr) && (implb wr mw)) then
        let s1 := if err then set_on h None s else s in
        match h_data (s_h s h) with
        | PTimer _ => Ub
        | PObj o =>
          match s_obj s1 o with
          | None => Ub
          | Some q =>
            if timed then
              match o_ev2 q with
              | None => Ub
              | Some h2 => call o (AFd (o_fd q) rd wr err) (set_on h2 (Some (STimer (s_lt s1 (h_loop (s_h s1 h2)) + o_tmo q) true)) s1)
              end
            else call o (AFd (o_fd q) rd wr err) s1
          end
        end
      else Off
    | _, _, _ => Off
    end
  (* a timer is due: libuv stops it, then event.h 182-185, or 264-268 *)
  | EExpire h =>
    match s_run s, h_st (s_h s h), h_on (s_h s h) with
    | None, Open, Some (STimer due timed) =>
      if Nat.ltb h (s_hn s) && Nat.leb due (s_lt s (h_loop (s_h s h))) then
        let s1 := set_on h None s in
        match h_data (s_h s h) with
        | PTimer _ => Ub
        | PObj o =>
          match s_obj s1 o with
          | None => Ub
          | Some q =>
            if timed then
              call o (ATimeout (o_fd q)) (match o_ev q with Some h1 => set_on h1 None s1 | None => s1 end)
            else call o ATimer s1
          end
        end
      else Off
    | _, _, _ => Off
    end
  (* a signal, or a round of the loop: event.h 364-367, 451-454 *)
  | ESignal h =>
    match s_run s, h_st (s_h s h), h_on (s_h s h) with
    | None, Open, Some (SSig once) =>
      if Nat.ltb h (s_hn s) then
        let s1 := if once then set_on h None s else s in
        match h_data (s_h s h) with
        | PTimer _ => Ub
        | PObj o => call o ASig s1
        end
      else Off
    | _, _, _ => Off
    end
  (* event.h 40, _on_uv_handle_close *)
  | EClosed h =>
    match h_st (s_h s h) with
    | Closing => if Nat.ltb h (s_hn s) then ok1 (set_h h (mkH (h_loop (s_h s h)) (h_data (s_h s h)) Freed None) s) else Off
    | _ => Off
    end
  | ERet => ok1 (w_run None s)
  end.

(** Model only: the state at the beginning. *)
Definition h0 : hnd := mkH 0 (PObj 0) Freed None.
(** Every EventContext exists from the start, in the user's hands. *)
Definition init : st := mkS (fun _ => None) (fun _ => h0) 0 0 (fun _ => true) (fun _ => false) None 0 (fun _ => 0).

(** A run: one event after the other; it stops where an event cannot happen.  Model only. *)
Fixpoint run (es : list ev) (s : st) : out :=
  match es with
  | [] => ok1 s
  | e :: r => bind (step e s) (run r)
  end.
