(** Handlers that throw and handlers that register handlers
    (include/salticidae/network.h 203-256).  DispModel has the queue and its
    wake-ups; here a message is taken and handled in one step, and what the
    handler does is in the model. *)
From Coq Require Import Arith List Bool.
Import ListNotations.

(** Exceptions: derived from std::exception, or not. *)
Inductive exn := XStd | XOther.

(** What a handler does, in order: register a handler (253-256) for an opcode,
    look at something it captured, throw. *)
Inductive act := ASet (op h : nat) | ATouch | AThrow (e : exn).

(** [h_typed]: registered with reg_handler (232-251), which parses the message
    and catches; otherwise with set_handler (253-256). *)
Record handler := mkH { h_typed : bool; h_body : list act }.

(** Opcode, connection, and what parsing the payload throws (241: the message
    type's constructor; typed handlers only). *)
Record msg := mkM { m_op : nat; m_conn : nat; m_parse : option exn }.

Inductive obs :=
| TSet (op h : nat)          (* handler registered *)
| TCall (h : nat) (m : msg)  (* handler called for a message *)
| TSkip (m : msg)            (* unknown opcode: 212-214 *)
| TTerm (c : nat)            (* worker_terminate: 248 *)
| TCrash                     (* an exception leaves the event loop's callback *)
| TUb.                       (* something captured is used after the handler was destroyed *)

(** handler_map (125-127): the entries, each opcode once. *)
Fixpoint find (op : nat) (m : list (nat * nat)) : option nat :=
  match m with [] => None | (o, h) :: m => if o =? op then Some h else find op m end.
Definition assign (op h : nat) (m : list (nat * nat)) : list (nat * nat) :=
  (op, h) :: filter (fun x => negb (fst x =? op)) m.

Section Handlers.
(** The handlers of the program. *)
Variable H : nat -> handler.

(** The body, called for opcode [op]; [alive]: the callable has not been
    replaced by itself.  An element of an unordered_map stays where it is when
    others are inserted, so only assigning to the own opcode destroys it (255). *)
Fixpoint body (op : nat) (alive : bool) (l : list act) (m : list (nat * nat)) : list (nat * nat) * list obs * option (exn * bool) :=
  match l with
  | [] => (m, [], None)
  | ASet o h :: l => let '(m, t, x) := body op (alive && negb (o =? op)) l (assign o h m) in (m, TSet o h :: t, x)
  | ATouch :: l => if alive then body op alive l m else (m, [TUb], None)
  | AThrow e :: _ => (m, [], Some (e, alive))
  end.

(** 209-224 for one message; 237-250.  The second result: the process goes on. *)
Definition handle (x : msg) (m : list (nat * nat)) : list (nat * nat) * list obs :=
  match find (m_op x) m with
  | None => (m, [TSkip x])
  | Some h =>
      let '(m, t, r) := match h_typed (H h), m_parse x with
                        | true, Some e => (m, [], Some (e, true))       (* 241 *)
                        | _, _ => body (m_op x) true (h_body (H h)) m
                        end in
      (m, TCall h x :: t ++ match r with
                            | None => []
                            | Some (XStd, alive) =>
                                if h_typed (H h) then if alive then [TTerm (m_conn x)] else [TUb]     (* 243-248: this and conn *)
                                else [TCrash]
                            | Some (XOther, _) => [TCrash]
                            end)
  end.

(** The table, the messages waiting, the end of the process, the history. *)
Record st := mkSt { s_map : list (nat * nat); s_q : list msg; s_dead : bool; s_log : list obs }.
(** Model only: the state at the beginning. *)
Definition st0 : st := mkSt [] [] false [].
Definition deadly (o : obs) : bool := match o with TCrash | TUb => true | _ => false end.

Inductive ev :=
| EReg (op h : nat)      (* the user registers a handler, outside of handlers *)
| EMsg (x : msg)         (* on_read puts a message into the queue: network.h 686 *)
| ETake.                 (* 206-226 *)
Definition step (e : ev) (s : st) : option st :=
  if s_dead s then None else
  match e with
  | EReg op h => Some (mkSt (assign op h (s_map s)) (s_q s) false (s_log s ++ [TSet op h]))
  | EMsg x => Some (mkSt (s_map s) (s_q s ++ [x]) false (s_log s))
  | ETake => match s_q s with
             | [] => None
             | x :: q => let '(m, t) := handle x (s_map s) in Some (mkSt m q (existsb deadly t) (s_log s ++ t))
             end
  end.
Fixpoint run (es : list ev) (s : st) : option st :=
  match es with [] => Some s | e :: es => match step e s with Some s => run es s | None => None end end.
End Handlers.
