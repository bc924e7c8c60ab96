(** The event-driven queue on weakly ordered memory.

    QueueModel.v and CallModel.v let every thread see memory at once.  Here
    the same code (queue.h 13-165 and 239-267, event.h 600-645) runs on a
    memory whose accesses have the orders the code asks for.

    The memory is the usual view machine for C++ atomics: each location has a
    set of messages, each with a time stamp (its place in the modification
    order), a value and the view it carries; each thread has a view, the
    oldest message it may still read of every location.  A load picks any
    message not older than the view; a store picks any free later time stamp;
    a read-modify-write takes the stamp right after the one it read.  A
    release store carries its thread's view, an acquire load takes over what
    it reads; a read-modify-write passes on the view of the message it read
    (release sequences).  Which messages and stamps are picked is part of the
    events, so that a theorem about all event lists covers every choice.

    Simplifications: no access is performed before an earlier one of its
    thread in program order has been (no load buffering), so there are C++
    executions that this machine does not have; eventfd calls order nothing;
    elements are natural numbers; block addresses are natural numbers and are
    never reused; rewind (270-289) is left out.  A pointer is stored as 0
    (nullptr) or [S u]. *)
From Coq Require Import Arith List Bool.
From Verif Require Import QueueModel.
Import ListNotations.

(** ** The memory *)

(** Shared words: queue.h 17-19, 25, 96-101, 106-108 and event.h 602. *)
Inductive loc :=
| LTop                     (* FreeList::top *)
| LHd | LTl                (* MPMCQueue::head, tail *)
| LSig                     (* wait_sig *)
| LFn (u : nat)            (* Node::next *)
| LRc (u : nat)            (* Node::refcnt *)
| LFreed (u : nat)         (* Node::freed *)
| LBh (u : nat)            (* Block::head *)
| LBt (u : nat)            (* Block::tail *)
| LBn (u : nat)            (* Block::next *)
| LAv (u k : nat)          (* Block::avail *)
| LEl (u k : nat).         (* Block::elem, not atomic *)

(** Model only: equality test. *)
Definition leqb (a b : loc) : bool :=
  match a, b with
  | LTop, LTop | LHd, LHd | LTl, LTl | LSig, LSig => true
  | LFn u, LFn v | LRc u, LRc v | LFreed u, LFreed v | LBh u, LBh v | LBt u, LBt v | LBn u, LBn v => u =? v
  | LAv u k, LAv v j | LEl u k, LEl v j => (u =? v) && (k =? j)
  | _, _ => false
  end.

(** A view: for each location the latest message known. *)
Definition view := loc -> nat.
Definition vzero : view := fun _ => 0.
Definition vset (V : view) (l : loc) (t : nat) : view := fun x => if leqb x l then t else V x.
Definition vjoin (V W : view) : view := fun x => max (V x) (W x).

(** Messages, memory: for each location the writes so far. *)
Record msg := mkMsg { m_ts : nat; m_val : nat; m_view : view }.
Definition mem := loc -> list msg.
Definition mset (M : mem) (l : loc) (ms : list msg) : mem := fun x => if leqb x l then ms else M x.

(** Model only: the message with a time stamp. *)
Definition find (t : nat) (ms : list msg) : option msg := List.find (fun m => m_ts m =? t) ms.
Definition used (t : nat) (ms : list msg) : bool := existsb (fun m => m_ts m =? t) ms.

(** Load of the message with stamp [r]. *)
Definition ld (acq : bool) (l : loc) (r : nat) (V : view) (M : mem) : option (nat * view) :=
  match find r (M l) with
  | Some m => if V l <=? r
              then Some (m_val m, let V' := vset V l r in if acq then vjoin V' (m_view m) else V')
              else None
  | None => None
  end.

(** Store with stamp [w]. *)
Definition st (rel : bool) (l : loc) (v w : nat) (V : view) (M : mem) : option (view * mem) :=
  if (V l <? w) && negb (used w (M l))
  then let V' := vset V l w in
       Some (V', mset M l (mkMsg w v (if rel then V' else vset vzero l w) :: M l))
  else None.

(** Read-modify-write of the message with stamp [r]. *)
Definition rmw (acq rel : bool) (l : loc) (f : nat -> nat) (r : nat) (V : view) (M : mem) : option (nat * view * mem) :=
  match find r (M l) with
  | Some m => if (V l <=? r) && negb (used (S r) (M l))
              then let V1 := vset V l (S r) in
                   let V' := if acq then vjoin V1 (m_view m) else V1 in
                   Some (m_val m, V',
                         mset M l (mkMsg (S r) (f (m_val m)) (vjoin (m_view m) (if rel then V' else vset vzero l (S r))) :: M l))
              else None
  | None => None
  end.

(** compare_exchange_weak: a failing one is a load. *)
Definition cas (acq rel spur : bool) (l : loc) (e n r : nat) (V : view) (M : mem) : option (bool * view * mem) :=
  match find r (M l) with
  | Some m => if (m_val m =? e) && negb spur
              then match rmw acq rel l (fun _ => n) r V M with
                   | Some (_, V', M') => Some (true, V', M')
                   | None => None
                   end
              else match ld acq l r V M with
                   | Some (_, V') => Some (false, V', M)
                   | None => None
                   end
  | None => None
  end.

(** Accesses to an element, which is not atomic: construction and move both
    modify it, so both count as writes.  Two of them by different threads race
    if the first is not in the view of the second. *)
Definition races (l : loc) (V : view) (M : mem) : bool := existsb (fun m => V l <? m_ts m) (M l).
Definition put (l : loc) (v w : nat) (V : view) (M : mem) : option (bool * view * mem) :=
  match st false l v w V M with Some (V', M') => Some (races l V M, V', M') | None => None end.
(** Model only: an exchange. *)
Definition take (l : loc) (r w : nat) (V : view) (M : mem) : option (nat * bool * view * mem) :=
  match ld false l r V M with
  | Some (v, V1) => match st false l 0 w V1 M with
                    | Some (V', M') => Some (v, races l V M, V', M')
                    | None => None
                    end
  | None => None
  end.

(** ** Free list: release_ref (32-48) and pop (55-87), as in [QueueModel.fstep] *)
Definition ptr (o : option nat) : nat := match o with None => 0 | Some u => S u end.
Definition optr (v : nat) : option nat := match v with 0 => None | S u => Some u end.

(** One access of release_ref (queue.h 32-48) or pop (55-87) on weak memory; places as in QueueModel. *)
Definition wfstep (spur : bool) (r w : nat) (p : flpc) (V : view) (M : mem) : option (flpc * view * mem) :=
  match p with
  | RSub u k => match rmw false false (LRc u) (fun c => c - 1) r V M with
                | Some (c, V, M) => Some (if c =? 1 then RLoad u k else fin k u, V, M)
                | None => None
                end
  | RLoad u k => match ld false LTop r V M with Some (t, V) => Some (RSet u (optr t) k, V, M) | None => None end
  | RSet u t k => match st false (LFn u) (ptr t) w V M with Some (V, M) => Some (RCas u t k, V, M) | None => None end
  | RCas u t k => match cas false true spur LTop (ptr t) (S u) r V M with
                  | Some (ok, V, M) => Some (if ok then RFix u k else RLoad u k, V, M)
                  | None => None
                  end
  | RFix u k => match st false (LRc u) 1 w V M with Some (V, M) => Some (fin k u, V, M) | None => None end
  | PLoad => match ld true LTop r V M with
             | Some (t, V) => Some (match optr t with None => FRes None | Some u => PRef u end, V, M)
             | None => None
             end
  | PRef u => match ld false (LRc u) r V M with
              | Some (c, V) => Some (if c =? 0 then PLoad else PInc u c, V, M)
              | None => None
              end
  | PInc u c => match cas false false spur (LRc u) c (c + 1) r V M with
                | Some (ok, V, M) => Some (if ok then PNext u else PLoad, V, M)
                | None => None
                end
  | PNext u => match ld false (LFn u) r V M with Some (v, V) => Some (PCas u (optr v), V, M) | None => None end
  | PCas u nv => match cas false false spur LTop (S u) (ptr nv) r V M with
                 | Some (ok, V, M) => Some (RSub u (if ok then KGot else KLoop), V, M)
                 | None => None
                 end
  | FIdle | FDone | FRes _ => None
  end.

Section Weak.
Variable B : nat.    (* MPMCQ_SIZE, queue.h 90 *)

(** ** A producer: enqueue of event.h 631-642 around _enqueue, queue.h 111-165 *)

(** [Wq]: inside _enqueue, at the places of [QueueModel.pstep]. *)
Inductive wpc :=
| Wq (f : flpc) (m : ppc)
| WX                          (* event.h 636 *)
| WN.                         (* 639 *)

(** A producer and its view. *)
Record wprod := mkWP { wp_pc : wpc; wp_v : nat; wp_unb : bool; wp_view : view }.

(** Result of a step: the thread, the memory, the number of blocks, whether
    it raced, whether it notified, and what it shows. *)
Definition wpstep (spur : bool) (r w i : nat) (p : wprod) (M : mem) (n : nat)
  : option (wprod * mem * nat * bool * bool * list (obs nat)) :=
  let '(mkWP pc v unb V) := p in
  let to pc V M := Some (mkWP pc v unb V, M, n, false, false, []) in
  let go m V M := to (Wq FIdle m) V M in
  let rel t m V M := to (Wq (RSub t KDone) m) V M in
  match pc with
  | Wq FIdle m =>
    match m with
    | P0 => match ld true LTl r V M with Some (t, V) => go (P1 (pred t)) V M | None => None end
    | P1 t => match ld false (LRc t) r V M with Some (c, V) => go (if c =? 0 then P0 else P2 t c) V M | None => None end
    | P2 t c => match cas false false spur (LRc t) c (c + 1) r V M with
                | Some (ok, V, M) => go (if ok then P3 t else P0) V M
                | None => None
                end
    | P3 t => match ld false (LFreed t) r V M with
              | Some (x, V) => if x =? 0 then go (P4 t) V M else rel t WRetry V M
              | None => None
              end
    | P4 t => match ld false (LBt t) r V M with
              | Some (x, V) => go (if B <=? x then P5 t else P9 t x) V M
              | None => None
              end
    | P5 t => match ld false (LBn t) r V M with
              | Some (x, V) => if x =? 0 then to (Wq PLoad (P6 t)) V M else rel t WRetry V M
              | None => None
              end
    | P7a t nb => match st false (LBh nb) 0 w V M with Some (V, M) => go (P7b t nb) V M | None => None end
    | P7b t nb => match st false (LBt nb) 0 w V M with Some (V, M) => go (P7c t nb) V M | None => None end
    | P7c t nb => match st false (LBn nb) 0 w V M with Some (V, M) => go (P7d t nb) V M | None => None end
    | P7d t nb => match cas true true spur (LBn t) 0 (S nb) r V M with
                  | Some (ok, V, M) => go (if ok then P8a t nb else PF t nb) V M
                  | None => None
                  end
    | PF t nb => match st false (LFreed nb) 1 w V M with Some (V, M) => rel nb (WPushed t) V M | None => None end
    | P8a t nb => match st true LTl (S nb) w V M with Some (V, M) => go (P8b t nb) V M | None => None end
    | P8b t nb => match st true (LFreed nb) 0 w V M with Some (V, M) => rel t WRetry V M | None => None end
    | P9 t k => match cas false false spur (LBt t) k (k + 1) r V M with
                | Some (true, V, M) => Some (mkWP (Wq FIdle (P10 t k)) v unb V, M, n, false, false, [OEnq i v])
                | Some (false, V, M) => rel t WRetry V M
                | None => None
                end
    | P10 t k => match put (LEl t k) v w V M with
                 | Some (race, V, M) => Some (mkWP (Wq FIdle (P11 t k)) v unb V, M, n, race, false, [])
                 | None => None
                 end
    | P11 t k => match st true (LAv t k) 1 w V M with Some (V, M) => rel t WTrue V M | None => None end
    | _ => None
    end
  | Wq FDone m =>
    match m with
    | WRetry => go P0 V M
    | WPushed t => rel t WRetry V M
    | WTrue => to WX V M
    | WFalse => Some (mkWP (Wq FIdle PReady) v unb V, M, n, false, false, [ORetE i false])
    | _ => None
    end
  | Wq (FRes x) m =>
    match m with
    | P6 t => match x with
              | Some nb => go (P7a t nb) V M
              | None => if unb then Some (mkWP (Wq FIdle (P7a t n)) v unb V, M, S n, false, false, [])   (* 132 *)
                        else rel t WFalse V M
              end
    | _ => None
    end
  | Wq f m => match wfstep spur r w f V M with Some (f, V, M) => to (Wq f m) V M | None => None end
  | WX => match rmw true true LSig (fun _ => 0) r V M with
          | Some (x, V, M) => if x =? 0 then Some (mkWP (Wq FIdle PReady) v unb V, M, n, false, false, [ORetE i true])
                              else to WN V M
          | None => None
          end
  | WN => Some (mkWP (Wq FIdle PReady) v unb V, M, n, false, true, [ORetE i true])
  end.

(** ** The consumer: the callback of event.h 614-625 around try_dequeue,
    queue.h 244-267 *)
Inductive kpc :=
| K0                          (* 247 *)
| K0a (h : nat)               (* 248 *)
| K0b (h hh : nat)            (* 249 *)
| K2 (h : nat)                (* 253 *)
| K3 (h x : nat)              (* 255 *)
| K4 (h : nat)                (* 256: push *)
| KW                          (* inside push, then the next round *)
| K1 (h hh : nat)             (* 259 *)
| K5 (h hh : nat)             (* 260, spinning *)
| K6 (h hh : nat)             (* 262 *)
| K7 (h hh e : nat).          (* 263 *)

Inductive wcpc :=
| KIdle                       (* in the event loop *)
| KSig                        (* 622 *)
| KFn (e : bool)              (* inside func; [e]: its last try_dequeue found nothing *)
| KNot                        (* 624 *)
| Kq (inh : bool) (f : flpc) (m : kpc).   (* inside try_dequeue, called by func or from elsewhere *)

(** The consumer and its view. *)
Record wcons := mkWC { wc_pc : wcpc; wc_view : view }.

(** try_dequeue returned. *)
Definition back (inh empty : bool) : wcpc := if inh then KFn empty else KIdle.

(** One step of the consumer; the lines are given with wcpc. *)
Definition wcstep (spur : bool) (r w : nat) (c : wcons) (M : mem)
  : option (wcons * mem * bool * bool * list (obs nat)) :=
  let '(mkWC pc V) := c in
  let to pc V M := Some (mkWC pc V, M, false, false, []) in
  match pc with
  | KSig => match rmw true true LSig (fun _ => 1) r V M with
            | Some (_, V, M) => to (KFn false) V M
            | None => None
            end
  | KNot => Some (mkWC KIdle V, M, false, true, [])
  | Kq inh FIdle m =>
    let go m V M := to (Kq inh FIdle m) V M in
    match m with
    | K0 => match ld false LHd r V M with Some (h, V) => go (K0a (pred h)) V M | None => None end
    | K0a h => match ld false (LBh h) r V M with Some (hh, V) => go (K0b h hh) V M | None => None end
    | K0b h hh => match ld false (LBt h) r V M with
                  | Some (x, V) => if x <=? hh
                                    then if x <? B
                                         then Some (mkWC (back inh true) V, M, false, false, [OEmpty 0; ORetD 0 None])
                                         else go (K2 h) V M
                                    else go (K1 h hh) V M
                  | None => None
                  end
    | K2 h => match ld false (LBn h) r V M with
              | Some (x, V) => if x =? 0
                               then Some (mkWC (back inh true) V, M, false, false, [OEmpty 0; ORetD 0 None])
                               else go (K3 h x) V M
              | None => None
              end
    | K3 h x => match st false LHd x w V M with Some (V, M) => go (K4 h) V M | None => None end
    | K4 h => match st false (LFreed h) 1 w V M with
              | Some (V, M) => to (Kq inh (RSub h KDone) KW) V M
              | None => None
              end
    | K1 h hh => match st false (LBh h) (hh + 1) w V M with Some (V, M) => go (K5 h hh) V M | None => None end
    | K5 h hh => match ld true (LAv h hh) r V M with
                 | Some (x, V) => go (if x =? 0 then K5 h hh else K6 h hh) V M
                 | None => None
                 end
    | K6 h hh => match take (LEl h hh) r w V M with
                 | Some (e, race, V, M) => Some (mkWC (Kq inh FIdle (K7 h hh e)) V, M, race, false, [ODeq 0 e])
                 | None => None
                 end
    | K7 h hh e => match st false (LAv h hh) 0 w V M with
                   | Some (V, M) => Some (mkWC (back inh false) V, M, false, false, [ORetD 0 (Some e)])
                   | None => None
                   end
    | KW => None
    end
  | Kq inh FDone KW => to (Kq inh FIdle K0) V M
  | Kq inh f m => match wfstep spur r w f V M with Some (f, V, M) => to (Kq inh f m) V M | None => None end
  | KIdle | KFn _ => None
  end.

(** ** The system *)

(** The whole system. *)
Record wsys := mkWS {
  w_M : mem;
  w_n : nat;              (* blocks allocated so far *)
  w_ps : list wprod;
  w_c : wcons;
  w_nfd : bool;           (* the notification descriptor is readable *)
  w_race : bool }.        (* some two accesses to an element were not ordered *)

(** Constructors (queue.h 19, 28, 171-175, event.h 607) and set_capacity
    (186-189) pushing [k] blocks before the queue is shared.  [new Block()]
    zeroes what the constructors leave alone. *)
Definition val0 (k : nat) (l : loc) : nat :=
  match l with
  | LTop => if k =? 0 then 0 else S k
  | LHd | LTl | LSig | LRc _ => 1
  | LFn u => if (2 <=? u) && (u <=? k) then u else 0
  | LFreed u => if (1 <=? u) && (u <=? k) then 1 else 0
  | LBh _ | LBt _ | LBn _ | LAv _ _ | LEl _ _ => 0
  end.

(** Model only: the state at the beginning. *)
Definition wsys0 (k np : nat) : wsys :=
  mkWS (fun l => [mkMsg 0 (val0 k l) vzero]) (S k)
       (repeat (mkWP (Wq FIdle PReady) 0 false vzero) np) (mkWC KIdle vzero) false false.

Inductive wev :=
| WEnq (i v : nat) (unb : bool)          (* producer i calls enqueue(v, unb) *)
| WProd (i : nat) (spur : bool) (r w : nat)
| WWake                                  (* the loop sees the descriptor: 615 *)
| WDeq                                   (* the consumer's thread calls try_dequeue *)
| WRet (more : bool)                     (* func returns; it returns false only if it found the queue empty *)
| WCons (spur : bool) (r w : nat).

(** One step; the lines are given with the events above. *)
Definition wstep (ev : wev) (s : wsys) : option (wsys * list (obs nat)) :=
  let '(mkWS M n ps c nfd race) := s in
  match ev with
  | WEnq i v unb => match nth_error ps i with
                    | Some (mkWP (Wq FIdle PReady) _ _ V) =>
                        Some (mkWS M n (repl i (mkWP (Wq FIdle P0) v unb V) ps) c nfd race, [OCall i v])
                    | _ => None
                    end
  | WProd i spur r w => match nth_error ps i with
                        | Some p => match wpstep spur r w i p M n with
                                    | Some (p, M, n, x, nt, o) => Some (mkWS M n (repl i p ps) c (nt || nfd) (x || race), o)
                                    | None => None
                                    end
                        | None => None
                        end
  | WWake => match c with
             | mkWC KIdle V => if nfd then Some (mkWS M n ps (mkWC KSig V) false race, []) else None
             | _ => None
             end
  | WDeq => match c with
            | mkWC KIdle V => Some (mkWS M n ps (mkWC (Kq false FIdle K0) V) nfd race, [])
            | mkWC (KFn _) V => Some (mkWS M n ps (mkWC (Kq true FIdle K0) V) nfd race, [])
            | _ => None
            end
  | WRet more => match c with
                 | mkWC (KFn e) V => if more then Some (mkWS M n ps (mkWC KNot V) nfd race, [])
                                     else if e then Some (mkWS M n ps (mkWC KIdle V) nfd race, []) else None
                 | _ => None
                 end
  | WCons spur r w => match wcstep spur r w c M with
                      | Some (c, M, x, nt, o) => Some (mkWS M n ps c (nt || nfd) (x || race), o)
                      | None => None
                      end
  end.

(** A run: one event after the other; it stops where an event cannot happen.  Model only. *)
Fixpoint wrun (evs : list wev) (s : wsys) : option (wsys * list (obs nat)) :=
  match evs with
  | [] => Some (s, [])
  | ev :: evs => match wstep ev s with
                 | Some (s, o) => match wrun evs s with Some (s, o') => Some (s, o ++ o') | None => None end
                 | None => None
                 end
  end.
End Weak.
