(** Message statistics of a connection (SALTICIDAE_MSG_STAT, on by default:
    CMakeLists.txt 69; include/salticidae/network.h 86-114, 220-222, 735-739).

    Each counter is one atomic size_t; the counters are touched one at a time, so
    operations of different threads interleave between them.  Reads of single
    counters are the fields of the state. *)
From Coq Require Import Arith NArith List Bool.
Import ListNotations.
Local Open Scope N_scope.

(** size_t. *)
Definition wrap (n : N) : N := n mod 2 ^ 64.

(** The four counters (network.h 87-90). *)
Inductive counter := Nsent | Nrecv | Nsentb | Nrecvb.
(** Their values. *)
Record counters := mkC { nsent : N; nrecv : N; nsentb : N; nrecvb : N }.
(** Model only: one of the counters. *)
Definition get (k : counter) (c : counters) : N := match k with Nsent => nsent c | Nrecv => nrecv c | Nsentb => nsentb c | Nrecvb => nrecvb c end.
Definition set (k : counter) (v : N) (c : counters) : counters :=
  match k with
  | Nsent => mkC v (nrecv c) (nsentb c) (nrecvb c)
  | Nrecv => mkC (nsent c) v (nsentb c) (nrecvb c)
  | Nsentb => mkC (nsent c) (nrecv c) v (nrecvb c)
  | Nrecvb => mkC (nsent c) (nrecv c) (nsentb c) v
  end.

(** One access: fetch_add of ++ and +=, store of clear_msgstat. *)
Inductive acc := Add (k : counter) (n : N) | Zero (k : counter).
(** One atomic access (fetch_add, store) of a counter. *)
Definition access (a : acc) (c : counters) : counters :=
  match a with Add k n => set k (wrap (get k c + n)) c | Zero k => set k 0 c end.

(** Operations.  [Send len ok]: _send_msg (732-740) of a message with [len]
    payload bytes (get_length, msg.h), [ok] is what write() answers;
    [Recv len known]: a message taken from the queue (206-226), [known]: there is
    a handler; [Clear]: clear_msgstat (109-114). *)
Inductive op := Send (len : N) (ok : bool) | Recv (len : N) (known : bool) | Clear.
Definition accesses (o : op) : list acc :=
  match o with
  | Send len _ => [Add Nsent 1; Add Nsentb len]                       (* 736-737 *)
  | Recv len true => [Add Nrecv 1; Add Nrecvb len]                    (* 221-222 *)
  | Recv _ false => []                                                (* 212-214 *)
  | Clear => [Zero Nsent; Zero Nrecv; Zero Nsentb; Zero Nrecvb]       (* 110-113 *)
  end.

(** The counters, what each operation under way still has to do, and the
    operations begun, oldest first. *)
Record st := mkSt { s_c : counters; s_run : list (list acc); s_ops : list op }.
(** network.h 96. *)
Definition st0 : st := mkSt (mkC 0 0 0 0) [] [].

(** A call begins; the i-th call under way takes its next access. *)
Inductive ev := Begin (o : op) | Go (i : nat).
(** Model only: one entry replaced. *)
Fixpoint put {A} (i : nat) (x : A) (l : list A) : list A :=
  match l, i with [], _ => [] | _ :: l, O => x :: l | y :: l, S i => y :: put i x l end.
(** One step. *)
Definition step (e : ev) (s : st) : option st :=
  match e with
  | Begin o => Some (mkSt (s_c s) (s_run s ++ [accesses o]) (s_ops s ++ [o]))
  | Go i => match nth_error (s_run s) i with
            | Some (a :: rest) => Some (mkSt (access a (s_c s)) (put i rest (s_run s)) (s_ops s))
            | _ => None
            end
  end.
(** A run: one event after the other; it stops where an event cannot happen.  Model only. *)
Fixpoint run (es : list ev) (s : st) : option st :=
  match es with [] => Some s | e :: es => match step e s with Some s => run es s | None => None end end.
