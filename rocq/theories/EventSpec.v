(** What the event classes are meant to do (C84-C87), without handles, their data
    pointers and their closing: an object holds a registration or none; a move hands
    the registration over; an occurrence calls the callback of whoever holds the
    registration now. *)
From Coq Require Import Arith List Bool.
From Verif Require Import EventModel.
Import ListNotations.

(** A registration: its number (registrations are numbered as they are made; that of
    a TimedFdEvent has two numbers, for the descriptor and the timer), context,
    descriptor, callback, and what it waits for. *)
Record reg := mkReg { r_id : nat; r_loop : nat; r_fd : nat; r_cb : nat;
                      r_poll : option (bool * bool); r_timer : option nat; r_sig : option bool; r_ms : nat }.

Record ast := mkA { a_obj : nat -> option (cls * option reg); a_next : nat; a_user : nat -> bool; a_run : option nat; a_now : nat; a_lt : nat -> nat }.

Definition a0 : ast := mkA (fun _ => None) 0 (fun _ => true) None 0 (fun _ => 0).

Definition a_put (o : nat) (x : option (cls * option reg)) (a : ast) : ast := mkA (upd (a_obj a) o x) (a_next a) (a_user a) (a_run a) (a_now a) (a_lt a).
Definition a_bump (n : nat) (a : ast) : ast := mkA (a_obj a) (a_next a + n) (a_user a) (a_run a) (a_now a) (a_lt a).
Definition a_calls (o : nat) (a : ast) : ast := mkA (a_obj a) (a_next a) (a_user a) (Some o) (a_now a) (a_lt a).

Definition w_poll x r := mkReg (r_id r) (r_loop r) (r_fd r) (r_cb r) x (r_timer r) (r_sig r) (r_ms r).
Definition w_timer x r := mkReg (r_id r) (r_loop r) (r_fd r) (r_cb r) (r_poll r) x (r_sig r) (r_ms r).
Definition w_sig x r := mkReg (r_id r) (r_loop r) (r_fd r) (r_cb r) (r_poll r) (r_timer r) x (r_ms r).
Definition w_ms x r := mkReg (r_id r) (r_loop r) (r_fd r) (r_cb r) (r_poll r) (r_timer r) (r_sig r) x.
Definition w_cb x r := mkReg (r_id r) (r_loop r) (r_fd r) x (r_poll r) (r_timer r) (r_sig r) (r_ms r).
Definition quiet r := w_poll None (w_timer None (w_sig None r)).

(** The number of the descriptor's part and of the timer's part. *)
Definition polls (c : cls) (r : reg) (h : nat) : Prop := (c = CFd \/ c = CTimed) /\ h = r_id r.
Definition times (c : cls) (r : reg) (h : nat) : Prop := c = CTimer /\ h = r_id r \/ c = CTimed /\ h = S (r_id r).

Definition mask (rd wr : bool) : option (bool * bool) := if rd || wr then Some (rd, wr) else None.
(** The events reported are among those asked for; an error comes alone. *)
Definition asked (rd wr err mr mw : bool) : Prop :=
  if err then rd = false /\ wr = false else (rd = true \/ wr = true) /\ (rd = true -> mr = true) /\ (wr = true -> mw = true).

Inductive astep (a : ast) : ev -> list obs -> ast -> Prop :=
| A_new o c l fd f : a_obj a o = None -> o <> 0 -> c <> CTimed -> a_user a l = true ->
    astep a (ENew o c l fd f true) [] (a_bump 1 (a_put o (Some (c, Some (mkReg (a_next a) l fd f None None None 0))) a))
| A_new_fail o c l fd f : a_obj a o = None -> o <> 0 -> c <> CTimed -> a_user a l = true ->
    astep a (ENew o c l fd f false) [OThrow] (a_bump 1 a)
| A_timed o l fd f : a_obj a o = None -> o <> 0 -> a_user a l = true ->
    astep a (ENewTimed o l fd f true true) [] (a_bump 2 (a_put o (Some (CTimed, Some (mkReg (a_next a) l fd f None None None 0))) a))
| A_timed_fail o l fd f ok : a_obj a o = None -> o <> 0 -> a_user a l = true ->
    astep a (ENewTimed o l fd f false ok) [OThrow] (a_bump 1 a)
| A_timed_fail2 o l fd f : a_obj a o = None -> o <> 0 -> a_user a l = true ->
    astep a (ENewTimed o l fd f true false) [OThrow] (a_bump 2 a)
| A_default o c : a_obj a o = None -> o <> 0 -> astep a (EDefault o c) [] (a_put o (Some (c, None)) a)
| A_move o p c r : a_obj a o = None -> o <> 0 -> a_obj a p = Some (c, r) -> astep a (EMove o p) [] (a_put p (Some (c, None)) (a_put o (Some (c, r)) a))
| A_assign o p c r r' : o <> p -> a_obj a o = Some (c, r) -> a_obj a p = Some (c, r') -> astep a (EAssign o p) [] (a_put p (Some (c, None)) (a_put o (Some (c, r')) a))
| A_self o c r : a_obj a o = Some (c, r) -> astep a (EAssign o o) [] a
| A_clear o c r : a_obj a o = Some (c, r) -> astep a (EClear o) [] (a_put o (Some (c, None)) a)
| A_set_cb o c r f : a_obj a o = Some (c, r) -> astep a (ESetCb o f) [] (a_put o (Some (c, option_map (w_cb f) r)) a)
| A_add_poll o r rd wr : a_obj a o = Some (CFd, Some r) -> astep a (EAddPoll o rd wr) [] (a_put o (Some (CFd, Some (w_poll (mask rd wr) r))) a)
| A_add_timer o r ms : a_obj a o = Some (CTimer, Some r) -> astep a (EAddTimer o ms) [] (a_put o (Some (CTimer, Some (w_timer (Some (a_lt a (r_loop r) + ms)) r))) a)
| A_add_sig o r once : a_obj a o = Some (CSig, Some r) -> astep a (EAddSig o once) [] (a_put o (Some (CSig, Some (w_sig (Some once) r))) a)
| A_add_timed o r rd wr ms : a_obj a o = Some (CTimed, Some r) ->
    astep a (EAddTimed o rd wr ms) [] (a_put o (Some (CTimed, Some (w_ms ms (w_timer (Some (a_lt a (r_loop r) + ms)) (w_poll (mask rd wr) r))))) a)
| A_del o c r : a_obj a o = Some (c, r) -> astep a (EDel o) [] (a_put o (Some (c, option_map quiet r)) a)
| A_destroy o c r : a_obj a o = Some (c, r) -> astep a (EDestroy o) [] (a_put o None a)
| A_drop l : astep a (EDrop l) [] (mkA (a_obj a) (a_next a) (upd (a_user a) l false) (a_run a) (a_now a) (a_lt a))
| A_die l : astep a (EDie l) [] a
| A_tick d : astep a (ETick d) [] (mkA (a_obj a) (a_next a) (a_user a) (a_run a) (a_now a + d) (a_lt a))
| A_update l : astep a (EUpdate l) [] (mkA (a_obj a) (a_next a) (a_user a) (a_run a) (a_now a) (upd (a_lt a) l (a_now a)))
(* the descriptor: reported to the holder, with its descriptor; an error ends the waiting; the
   time limit of a TimedFdEvent starts anew *)
| A_fire o c r h rd wr err mr mw : a_run a = None -> a_obj a o = Some (c, Some r) -> polls c r h -> r_poll r = Some (mr, mw) -> asked rd wr err mr mw ->
    astep a (EFire h rd wr err) [OCall o (r_cb r) (AFd (r_fd r) rd wr err)]
      (a_calls o (a_put o (Some (c, Some (let r' := if err then w_poll None r else r in if cls_eqb c CTimed then w_timer (Some (a_lt a (r_loop r) + r_ms r)) r' else r'))) a))
(* the timer: reported once; a TimedFdEvent stops waiting *)
| A_expire o c r h due : a_run a = None -> a_obj a o = Some (c, Some r) -> times c r h -> r_timer r = Some due -> due <= a_lt a (r_loop r) ->
    astep a (EExpire h) [OCall o (r_cb r) (if cls_eqb c CTimed then ATimeout (r_fd r) else ATimer)] (a_calls o (a_put o (Some (c, Some (quiet r))) a))
| A_signal o r once : a_run a = None -> a_obj a o = Some (CSig, Some r) -> r_sig r = Some once ->
    astep a (ESignal (r_id r)) [OCall o (r_cb r) ASig] (a_calls o (a_put o (Some (CSig, Some (if once then w_sig None r else r))) a))
| A_closed h : astep a (EClosed h) [] a
| A_ret : astep a ERet [] (mkA (a_obj a) (a_next a) (a_user a) None (a_now a) (a_lt a)).

Inductive arun : ast -> list ev -> list obs -> ast -> Prop :=
| AR_nil a : arun a [] [] a
| AR_cons a e o a' es os a'' : astep a e o a' -> arun a' es os a'' -> arun a (e :: es) (o ++ os) a''.

(** Misuse: clearing, moving, replacing or destroying the running callback; add on an
    object without registration. *)
Definition misuse (a : ast) (e : ev) : Prop :=
  match e with
  | EMove o p => a_run a = Some p
  | EAssign o p => o <> p /\ (a_run a = Some o \/ a_run a = Some p)
  | EClear o | ESetCb o _ | EDestroy o => a_run a = Some o
  | EAddPoll o _ _ | EAddTimer o _ | EAddSig o _ | EAddTimed o _ _ _ => exists c, a_obj a o = Some (c, None)
  | _ => False
  end.

(** What happens inside libuv without being observed. *)
Definition internal (e : ev) : Prop := match e with EDie _ | EClosed _ => True | _ => False end.

(** The numbers of a registration. *)
Definition numbered (c : cls) (r : reg) (h : nat) : Prop := h = r_id r \/ c = CTimed /\ h = S (r_id r).

(** ** Histories *)

(** The timer [h] of an object is set, for [ms]; it is stopped or gone. *)
Definition arms (a : ast) (e : ev) (h ms : nat) : Prop :=
  exists o c r, a_obj a o = Some (c, Some r) /\ times c r h /\
    match e with
    | EAddTimer o' m => o' = o /\ m = ms
    | EAddTimed o' _ _ m => o' = o /\ m = ms
    | EFire h' _ _ _ => c = CTimed /\ h' = r_id r /\ ms = r_ms r
    | _ => False
    end.
Definition ends (a : ast) (e : ev) (h : nat) : Prop :=
  exists o c r, a_obj a o = Some (c, Some r) /\ times c r h /\
    match e with
    | EDel o' | EClear o' | EDestroy o' => o' = o
    | EAssign o' p => o' = o /\ p <> o
    | EExpire h' => h' = h
    | _ => False
    end.
(** A part of a history in which the timer is neither set nor stopped. *)
Inductive calm (h : nat) : ast -> list ev -> ast -> Prop :=
| K_nil a : calm h a [] a
| K_cons a e l a' es a'' : astep a e l a' -> ~ ends a e h -> (forall ms, ~ arms a e h ms) -> calm h a' es a'' -> calm h a (e :: es) a''.

(** The same for the descriptor's part [h]: the wish for [rd], [wr] is made; it ends. *)
Definition wishes (a : ast) (e : ev) (h : nat) (rd wr : bool) : Prop :=
  exists o c r, a_obj a o = Some (c, Some r) /\ polls c r h /\
    match e with
    | EAddPoll o' x y => o' = o /\ x = rd /\ y = wr
    | EAddTimed o' x y _ => o' = o /\ x = rd /\ y = wr
    | _ => False
    end.
Definition forgets (a : ast) (e : ev) (h : nat) : Prop :=
  exists o c r, a_obj a o = Some (c, Some r) /\ polls c r h /\
    match e with
    | EDel o' | EClear o' | EDestroy o' => o' = o
    | EAssign o' p => o' = o /\ p <> o
    | EFire h' _ _ err => h' = h /\ err = true
    | EExpire h' => c = CTimed /\ h' = S h
    | _ => False
    end.
Inductive calm_fd (h : nat) : ast -> list ev -> ast -> Prop :=
| KF_nil a : calm_fd h a [] a
| KF_cons a e l a' es a'' : astep a e l a' -> ~ forgets a e h -> (forall rd wr, ~ wishes a e h rd wr) -> calm_fd h a' es a'' -> calm_fd h a (e :: es) a''.
