(** The lock-free queues of include/salticidae/queue.h: FreeList (13-88),
    MPMCQueue (92-238) and MPSCQueue (241-291).

    A step is one access to shared memory, so a run is an arbitrary
    interleaving.  Simplifications: memory is sequentially consistent (the C++
    code uses relaxed and acquire/release accesses); block addresses are
    natural numbers and are never reused (blocks are only freed by the
    destructor); refcnt and the slot indices are natural numbers (size_t and
    uint32_t in the code; they stay below the number of threads plus two and
    below [B] plus one); the block size MPMCQ_SIZE (90) is the parameter [B].
    A compare_exchange_weak may fail spuriously: every step carries a flag
    that says whether it does. *)
From Coq Require Import Arith List Bool.
Import ListNotations.

(** Update of a total map. *)
Definition fset {X} (f : nat -> X) (k : nat) (v : X) : nat -> X := fun j => if j =? k then v else f j.

(** Model only: equality test. *)
Definition oeqb (a b : option nat) : bool :=
  match a, b with
  | Some x, Some y => x =? y
  | None, None => true
  | _, _ => false
  end.

(** Model only: one entry replaced. *)
Fixpoint repl {A} (n : nat) (v : A) (l : list A) : list A :=
  match l, n with
  | [], _ => []
  | _ :: l, O => v :: l
  | x :: l, S n => x :: repl n v l
  end.

(** ** Free list *)

(** queue.h 15-24: the shared words of a FreeList and of its nodes ([freed]
    belongs to the queue below, the list itself never reads it). *)
Record fl := mkFl {
  f_top : option nat;
  f_next : nat -> option nat;   (* Node::next *)
  f_rc : nat -> nat }.          (* Node::refcnt *)

(** What follows a release_ref: return to the caller (KDone), the next round
    of pop's loop (KLoop), or the return of pop with this block (KGot). *)
Inductive rk := KDone | KLoop | KGot.

(** Position of a thread inside release_ref / pop. *)
Inductive flpc :=
| FIdle                                        (* not in the free list *)
| RSub (u : nat) (k : rk)                      (* 33 *)
| RLoad (u : nat) (k : rk)                     (* 36 *)
| RSet (u : nat) (t : option nat) (k : rk)     (* 39 *)
| RCas (u : nat) (t : option nat) (k : rk)     (* 41 *)
| RFix (u : nat) (k : rk)                      (* 44 *)
| PLoad                                        (* 59 *)
| PRef (u : nat)                               (* 62 *)
| PInc (u : nat) (c : nat)                     (* 67 *)
| PNext (u : nat)                              (* 72 *)
| PCas (u : nat) (nv : option nat)             (* 73 *)
| FDone                                        (* release_ref / push returned *)
| FRes (r : option nat).                       (* pop returned *)

(** End of release_ref: 33 (not the last reference), 45. *)
Definition fin (k : rk) (u : nat) : flpc :=
  match k with KDone => FDone | KLoop => PLoad | KGot => FRes (Some u) end.

(** One access of release_ref (32-48) or pop (55-87). *)
Definition fstep (spur : bool) (p : flpc) (f : fl) : option (flpc * fl) :=
  let '(mkFl top next rc) := f in
  match p with
  | RSub u k =>
      Some (if rc u =? 1 then RLoad u k else fin k u, mkFl top next (fset rc u (rc u - 1)))
  | RLoad u k => Some (RSet u top k, f)
  | RSet u t k => Some (RCas u t k, mkFl top (fset next u t) rc)
  | RCas u t k =>
      Some (if oeqb top t && negb spur then (RFix u k, mkFl (Some u) next rc) else (RLoad u k, f))
  | RFix u k => Some (fin k u, mkFl top next (fset rc u 1))
  | PLoad => Some (match top with None => FRes None | Some u => PRef u end, f)
  | PRef u => Some (if rc u =? 0 then PLoad else PInc u (rc u), f)
  | PInc u c =>
      Some (if (rc u =? c) && negb spur then (PNext u, mkFl top next (fset rc u (c + 1))) else (PLoad, f))
  | PNext u => Some (PCas u (next u), f)
  | PCas u nv =>
      Some (if oeqb top (Some u) && negb spur then (RSub u KGot, mkFl nv next rc) else (RSub u KLoop, f))
  | FIdle | FDone | FRes _ => None
  end.

(** *** A free list used by any number of threads

    [l_own u]: some client owns block u (it allocated it or got it from pop
    and has not pushed it since).  [l_hold u]: temporary references taken by
    clients (refcnt load and successful compare-exchange, 115-119 / 205-208,
    in one step: the two together add one iff refcnt is not 0). *)
Record lsys := mkL {
  l_fl : fl; l_n : nat; l_thr : list flpc; l_own : nat -> bool; l_hold : nat -> nat }.

(** Model only: the state at the beginning. *)
Definition linit (threads : nat) : lsys :=
  mkL (mkFl None (fun _ => None) (fun _ => 0)) 0 (repeat FIdle threads) (fun _ => false) (fun _ => 0).

Inductive lev :=
| LNew                       (* new Block(): Node ctor 19 *)
| LPush (i u : nat)          (* thread i calls push(u): 50-53 *)
| LPop (i : nat)             (* thread i calls pop *)
| LTake (u : nat)            (* some client takes a temporary reference *)
| LDrop (i u : nat)          (* thread i calls release_ref on a temporary reference *)
| LStep (i : nat) (spur : bool)
| LRet (i : nat).            (* thread i's call returns *)

(** One step; the lines are given with the events above and with fstep. *)
Definition lstep (ev : lev) (s : lsys) : option lsys :=
  let '(mkL f n thr own hold) := s in
  match ev with
  | LNew => Some (mkL (mkFl (f_top f) (fset (f_next f) n None) (fset (f_rc f) n 1)) (S n) thr (fset own n true) hold)
  | LPush i u => match nth_error thr i with
                 | Some FIdle => if own u then Some (mkL f n (repl i (RSub u KDone) thr) (fset own u false) hold) else None
                 | _ => None
                 end
  | LPop i => match nth_error thr i with
              | Some FIdle => Some (mkL f n (repl i PLoad thr) own hold)
              | _ => None
              end
  | LTake u => if (u <? n) && negb (f_rc f u =? 0)
               then Some (mkL (mkFl (f_top f) (f_next f) (fset (f_rc f) u (f_rc f u + 1))) n thr own (fset hold u (S (hold u))))
               else None
  | LDrop i u => match nth_error thr i, hold u with
                 | Some FIdle, S h => Some (mkL f n (repl i (RSub u KDone) thr) own (fset hold u h))
                 | _, _ => None
                 end
  | LStep i spur => match nth_error thr i with
                    | Some p => match fstep spur p f with
                                | Some (p', f') => Some (mkL f' n (repl i p' thr) own hold)
                                | None => None
                                end
                    | None => None
                    end
  | LRet i => match nth_error thr i with
              | Some FDone | Some (FRes None) => Some (mkL f n (repl i FIdle thr) own hold)
              | Some (FRes (Some u)) => Some (mkL f n (repl i FIdle thr) (fset own u true) hold)
              | _ => None
              end
  end.

(** A run: one event after the other; it stops where an event cannot happen.  Model only. *)
Fixpoint lrun (evs : list lev) (s : lsys) : option lsys :=
  match evs with
  | [] => Some s
  | ev :: evs => match lstep ev s with Some s => lrun evs s | None => None end
  end.

(** ** Queue *)

Section Queue.
Variable V : Type.
Variable B : nat.    (* MPMCQ_SIZE, queue.h 90 *)

(** Shared memory: queue.h 15-25 and 95-109.  Blocks are 0 .. q_n - 1. *)
Record qmem := mkQ {
  q_fl : fl;
  q_n : nat;
  q_freed : nat -> bool;
  q_bh : nat -> nat;             (* Block::head *)
  q_bt : nat -> nat;             (* Block::tail *)
  q_bnext : nat -> option nat;   (* Block::next *)
  q_el : nat -> nat -> V;
  q_av : nat -> nat -> bool;
  q_hd : nat;                    (* MPMCQueue::head *)
  q_tl : nat }.                  (* MPMCQueue::tail *)

(** Model only: the state with one field replaced. *)
Definition set_fl f m := mkQ f (q_n m) (q_freed m) (q_bh m) (q_bt m) (q_bnext m) (q_el m) (q_av m) (q_hd m) (q_tl m).
Definition set_freed u x m := mkQ (q_fl m) (q_n m) (fset (q_freed m) u x) (q_bh m) (q_bt m) (q_bnext m) (q_el m) (q_av m) (q_hd m) (q_tl m).
Definition set_bh u x m := mkQ (q_fl m) (q_n m) (q_freed m) (fset (q_bh m) u x) (q_bt m) (q_bnext m) (q_el m) (q_av m) (q_hd m) (q_tl m).
Definition set_bt u x m := mkQ (q_fl m) (q_n m) (q_freed m) (q_bh m) (fset (q_bt m) u x) (q_bnext m) (q_el m) (q_av m) (q_hd m) (q_tl m).
Definition set_bnext u x m := mkQ (q_fl m) (q_n m) (q_freed m) (q_bh m) (q_bt m) (fset (q_bnext m) u x) (q_el m) (q_av m) (q_hd m) (q_tl m).
Definition set_el u k x m := mkQ (q_fl m) (q_n m) (q_freed m) (q_bh m) (q_bt m) (q_bnext m) (fset (q_el m) u (fset (q_el m u) k x)) (q_av m) (q_hd m) (q_tl m).
Definition set_av u k x m := mkQ (q_fl m) (q_n m) (q_freed m) (q_bh m) (q_bt m) (q_bnext m) (q_el m) (fset (q_av m) u (fset (q_av m u) k x)) (q_hd m) (q_tl m).
Definition set_hd u m := mkQ (q_fl m) (q_n m) (q_freed m) (q_bh m) (q_bt m) (q_bnext m) (q_el m) (q_av m) u (q_tl m).
Definition set_tl u m := mkQ (q_fl m) (q_n m) (q_freed m) (q_bh m) (q_bt m) (q_bnext m) (q_el m) (q_av m) (q_hd m) u.

(** refcnt of a node. *)
Definition rc (m : qmem) (u : nat) : nat := f_rc (q_fl m) u.
Definition set_rc u x m := set_fl (mkFl (f_top (q_fl m)) (f_next (q_fl m)) (fset (f_rc (q_fl m)) u x)) m.

(** new Block(): 19 and 95-102 (head, tail and next are not initialized, so
    they keep the arbitrary value the memory has). *)
Definition alloc (m : qmem) : nat * qmem :=
  let n := q_n m in
  let f := q_fl m in
  (n, mkQ (mkFl (f_top f) (fset (f_next f) n None) (fset (f_rc f) n 1)) (S n) (fset (q_freed m) n false)
          (q_bh m) (q_bt m) (q_bnext m) (q_el m) (fset (q_av m) n (fun _ => false)) (q_hd m) (q_tl m)).

(** What a step shows to the outside.  [OEnq]: the slot of an enqueue is
    reserved (155); [ODeq]: try_dequeue reads its element (262 / 228);
    [OEmpty]: the load that makes try_dequeue return false; [ORew]: rewind's
    final store (287).  [ORetE], [ORetD]: the calls return. *)
Inductive obs :=
| OCall (i : nat) (v : V)          (* producer i calls enqueue(v) *)
| OEnq (i : nat) (v : V)
| ORetE (i : nat) (ok : bool)
| ODeq (i : nat) (v : V)           (* i: consumer *)
| OEmpty (i : nat)
| ORew (v : V)
| ORetD (i : nat) (r : option V).

(** *** _enqueue, 111-165 *)

Inductive ppc :=
| PReady                  (* not in a call *)
| P0                      (* 114 *)
| P1 (t : nat)            (* 115 *)
| P2 (t c : nat)          (* 117 *)
| P3 (t : nat)            (* 119 *)
| P4 (t : nat)            (* 124 *)
| P5 (t : nat)            (* 127 *)
| P6 (t : nat)            (* 130, pop *)
| P7a (t nb : nat)        (* 139 *)
| P7b (t nb : nat)        (* 140 *)
| P7c (t nb : nat)        (* 141 *)
| P7d (t nb : nat)        (* 143 *)
| PF (t nb : nat)         (* 144: push *)
| P8a (t nb : nat)        (* 147 *)
| P8b (t nb : nat)        (* 148 *)
| P9 (t k : nat)         (* 155 *)
| P10 (t k : nat)        (* 157 *)
| P11 (t k : nat)        (* 158 *)
| WRetry                  (* inside release_ref, then the next round *)
| WPushed (t : nat)       (* inside push(nblk) *)
| WTrue                   (* inside the last release_ref, then return true *)
| WFalse.                 (* inside release_ref, then return false *)

(** A producer: where it is in the free list's code and in _enqueue, its element, whether it may allocate. *)
Record prod := mkP { p_f : flpc; p_m : ppc; p_v : V; p_unb : bool }.

(** One step of producer [i]. *)
Definition pstep (spur : bool) (i : nat) (p : prod) (m : qmem) : option (prod * qmem * list obs) :=
  let '(mkP f pc v unb) := p in
  let go pc m := Some (mkP FIdle pc v unb, m, []) in
  let rel t pc m := Some (mkP (RSub t KDone) pc v unb, m, []) in
  match f with
  | FIdle =>
    match pc with
    | P0 => go (P1 (q_tl m)) m
    | P1 t => go (if rc m t =? 0 then P0 else P2 t (rc m t)) m
    | P2 t c => if (rc m t =? c) && negb spur then go (P3 t) (set_rc t (c + 1) m) else go P0 m
    | P3 t => if q_freed m t then rel t WRetry m else go (P4 t) m
    | P4 t => go (if B <=? q_bt m t then P5 t else P9 t (q_bt m t)) m
    | P5 t => match q_bnext m t with
              | None => Some (mkP PLoad (P6 t) v unb, m, [])
              | Some _ => rel t WRetry m
              end
    | P7a t nb => go (P7b t nb) (set_bh nb 0 m)
    | P7b t nb => go (P7c t nb) (set_bt nb 0 m)
    | P7c t nb => go (P7d t nb) (set_bnext nb None m)
    | P7d t nb => if oeqb (q_bnext m t) None && negb spur
                  then go (P8a t nb) (set_bnext t (Some nb) m)
                  else go (PF t nb) m
    | PF t nb => rel nb (WPushed t) (set_freed nb true m)
    | P8a t nb => go (P8b t nb) (set_tl nb m)
    | P8b t nb => rel t WRetry (set_freed nb false m)
    | P9 t k => if (q_bt m t =? k) && negb spur
                then Some (mkP FIdle (P10 t k) v unb, set_bt t (k + 1) m, [OEnq i v])
                else rel t WRetry m
    | P10 t k => go (P11 t k) (set_el t k v m)
    | P11 t k => rel t WTrue (set_av t k true m)
    | _ => None
    end
  | FDone =>
    match pc with
    | WRetry => go P0 m
    | WPushed t => rel t WRetry m
    | WTrue => Some (mkP FIdle PReady v unb, m, [ORetE i true])
    | WFalse => Some (mkP FIdle PReady v unb, m, [ORetE i false])
    | _ => None
    end
  | FRes r =>
    match pc with
    | P6 t => match r with
              | Some nb => go (P7a t nb) m
              | None => if unb then let (nb, m) := alloc m in go (P7a t nb) m    (* 132 *)
                        else rel t WFalse m                                      (* 133-136 *)
              end
    | _ => None
    end
  | _ => match fstep spur f (q_fl m) with
         | Some (f', fl') => Some (mkP f' pc v unb, set_fl fl' m, [])
         | None => None
         end
  end.

(** *** MPSCQueue::try_dequeue 244-267 and rewind 270-289 *)

Inductive cpc :=
| CReady
| D0                            (* 247-249: head and Block::head are only written by this thread *)
| D2 (h : nat)                  (* 253 *)
| D3 (h n : nat)                (* 255 *)
| D4 (h : nat)                  (* 256: push *)
| WD                            (* inside push, then the next round *)
| D1 (h hh : nat)               (* 259 *)
| D5 (h hh : nat)               (* 260, spinning *)
| D6 (h hh : nat)               (* 262 *)
| D7 (h hh : nat) (e : V)       (* 263 *)
| W0 (e : V)                    (* 271-273 *)
| WP (e : V) (h : nat)          (* 276, pop *)
| W2a (e : V) (h nb : nat)      (* 278 *)
| W2b (e : V) (h nb : nat)      (* 279 *)
| W2c (e : V) (h nb : nat)      (* 280 *)
| W2d (e : V) (nb : nat)        (* 281 *)
| W3 (e : V)                    (* 283-285 *)
| W4 (e : V) (h hh : nat)       (* 286 *)
| W5 (e : V) (h hh : nat).      (* 287 *)

(** The consumer of the MPSC queue. *)
Record cons := mkC { c_f : flpc; c_m : cpc }.

(** One step of try_dequeue (244-267) or rewind (270-289); the lines are given with cpc. *)
Definition cstep (spur : bool) (c : cons) (m : qmem) : option (cons * qmem * list obs) :=
  let '(mkC f pc) := c in
  let go pc m := Some (mkC FIdle pc, m, []) in
  match f with
  | FIdle =>
    match pc with
    | D0 => let h := q_hd m in
            if q_bt m h <=? q_bh m h
            then if q_bt m h <? B then Some (mkC FIdle CReady, m, [OEmpty 0; ORetD 0 None]) else go (D2 h) m
            else go (D1 h (q_bh m h)) m
    | D2 h => match q_bnext m h with
              | None => Some (mkC FIdle CReady, m, [OEmpty 0; ORetD 0 None])
              | Some n => go (D3 h n) m
              end
    | D3 h n => go (D4 h) (set_hd n m)
    | D4 h => Some (mkC (RSub h KDone) WD, set_freed h true m, [])
    | D1 h hh => go (D5 h hh) (set_bh h (hh + 1) m)
    | D5 h hh => go (if q_av m h hh then D6 h hh else D5 h hh) m
    | D6 h hh => Some (mkC FIdle (D7 h hh (q_el m h hh)), m, [ODeq 0 (q_el m h hh)])
    | D7 h hh e => Some (mkC FIdle CReady, set_av h hh false m, [ORetD 0 (Some e)])
    | W0 e => let h := q_hd m in
              if q_bh m h =? 0 then Some (mkC PLoad (WP e h), m, []) else go (W3 e) m
    | W2a e h nb => go (W2b e h nb) (set_bh nb B m)
    | W2b e h nb => go (W2c e h nb) (set_bt nb B m)
    | W2c e h nb => go (W2d e nb) (set_bnext nb (Some h) m)
    | W2d e nb => go (W3 e) (set_hd nb m)
    | W3 e => let h := q_hd m in let hh := q_bh m h - 1 in go (W4 e h hh) (set_el h hh e m)
    | W4 e h hh => go (W5 e h hh) (set_av h hh true m)
    | W5 e h hh => Some (mkC FIdle CReady, set_bh h hh m, [ORew e])
    | _ => None
    end
  | FDone => match pc with WD => go D0 m | _ => None end
  | FRes r =>
    match pc with
    | WP e h => match r with
                | Some nb => go (W2a e h nb) m
                | None => let (nb, m) := alloc m in go (W2a e h nb) m
                end
    | _ => None
    end
  | _ => match fstep spur f (q_fl m) with
         | Some (f', fl') => Some (mkC f' pc, set_fl fl' m, [])
         | None => None
         end
  end.

(** *** The MPSC queue: any number of producers, one consumer *)

(** The queue, its producers and its consumer. *)
Record sys := mkSys { s_m : qmem; s_ps : list prod; s_c : cons }.

(** Constructor (171-175) and set_capacity (186-189) pushing [k] blocks,
    before the queue is shared: block 0 is the chain, blocks k .. 1 are in
    the free list. *)
Definition qmem0 (dflt : V) (k : nat) : qmem :=
  mkQ (mkFl (if k =? 0 then None else Some k)
            (fun u => if (2 <=? u) && (u <=? k) then Some (u - 1) else None)
            (fun u => if u <=? k then 1 else 0))
      (S k) (fun u => (1 <=? u) && (u <=? k)) (fun _ => 0) (fun _ => 0) (fun _ => None)
      (fun _ _ => dflt) (fun _ _ => false) 0 0.

(** Model only: the state at the beginning. *)
Definition sys0 (dflt : V) (k np : nat) : sys :=
  mkSys (qmem0 dflt k) (repeat (mkP FIdle PReady dflt false) np) (mkC FIdle CReady).

Inductive qev :=
| QEnq (i : nat) (v : V) (unb : bool)   (* producer i calls enqueue(v, unb): 191-199 *)
| QProd (i : nat) (spur : bool)         (* a step of producer i *)
| QDeq                                  (* the consumer calls try_dequeue *)
| QRew (v : V)                          (* the consumer calls rewind(v) *)
| QCons (spur : bool).                  (* a step of the consumer *)

(** One step; the lines are given with the events above. *)
Definition qstep (ev : qev) (s : sys) : option (sys * list obs) :=
  let '(mkSys m ps c) := s in
  match ev with
  | QEnq i v unb => match nth_error ps i with
                    | Some (mkP FIdle PReady _ _) => Some (mkSys m (repl i (mkP FIdle P0 v unb) ps) c, [OCall i v])
                    | _ => None
                    end
  | QProd i spur => match nth_error ps i with
                    | Some p => match pstep spur i p m with
                                | Some (p', m', o) => Some (mkSys m' (repl i p' ps) c, o)
                                | None => None
                                end
                    | None => None
                    end
  | QDeq => match c with mkC FIdle CReady => Some (mkSys m ps (mkC FIdle D0), []) | _ => None end
  | QRew v => match c with mkC FIdle CReady => Some (mkSys m ps (mkC FIdle (W0 v)), []) | _ => None end
  | QCons spur => match cstep spur c m with
                  | Some (c', m', o) => Some (mkSys m' ps c', o)
                  | None => None
                  end
  end.

(** A run: one event after the other; it stops where an event cannot happen.  Model only. *)
Fixpoint qrun (evs : list qev) (s : sys) : option (sys * list obs) :=
  match evs with
  | [] => Some (s, [])
  | ev :: evs => match qstep ev s with
                 | Some (s, o) => match qrun evs s with Some (s, o') => Some (s, o ++ o') | None => None end
                 | None => None
                 end
  end.

(** *** MPMCQueue::try_dequeue 201-236 *)

Inductive mpc :=
| MReady
| M0                          (* 204 *)
| M1 (h : nat)                (* 205 *)
| M2 (h c : nat)              (* 207 *)
| M3 (h : nat)                (* 210 *)
| M4 (h hh : nat)             (* 211 *)
| M5 (h : nat)                (* 215 *)
| M6 (h n : nat)              (* 218 *)
| M6p (h : nat)               (* 219: push *)
| M7 (h hh : nat)             (* 224 *)
| M8 (h hh : nat)             (* 226, spinning *)
| M9 (h hh : nat)             (* 228 *)
| M10 (h hh : nat) (e : V)    (* 229 *)
| MRetry                      (* inside release_ref, then the next round *)
| MPushed (h : nat)           (* inside push, then release_ref *)
| MEmpty                      (* inside release_ref, then return false *)
| MGot (e : V).               (* inside release_ref, then return true *)

(** A consumer of the MPMC queue. *)
Record mcons := mkM { k_f : flpc; k_m : mpc }.

(** One step of try_dequeue; the lines are given with mpc. *)
Definition mstep (spur : bool) (i : nat) (c : mcons) (m : qmem) : option (mcons * qmem * list obs) :=
  let '(mkM f pc) := c in
  let go pc m := Some (mkM FIdle pc, m, []) in
  let rel h pc m o := Some (mkM (RSub h KDone) pc, m, o) in
  match f with
  | FIdle =>
    match pc with
    | M0 => go (M1 (q_hd m)) m
    | M1 h => go (if rc m h =? 0 then M0 else M2 h (rc m h)) m
    | M2 h c => if (rc m h =? c) && negb spur then go (M3 h) (set_rc h (c + 1) m) else go M0 m
    | M3 h => go (M4 h (q_bh m h)) m
    | M4 h hh => if q_bt m h <=? hh
                 then if q_bt m h <? B then rel h MEmpty m [OEmpty i] else go (M5 h) m
                 else go (M7 h hh) m
    | M5 h => match q_bnext m h with
              | None => rel h MEmpty m [OEmpty i]
              | Some n => go (M6 h n) m
              end
    | M6 h n => if (q_hd m =? h) && negb spur then go (M6p h) (set_hd n m) else rel h MRetry m []
    | M6p h => rel h (MPushed h) (set_freed h true m) []
    | M7 h hh => if (q_bh m h =? hh) && negb spur then go (M8 h hh) (set_bh h (hh + 1) m) else rel h MRetry m []
    | M8 h hh => go (if q_av m h hh then M9 h hh else M8 h hh) m
    | M9 h hh => Some (mkM FIdle (M10 h hh (q_el m h hh)), m, [ODeq i (q_el m h hh)])
    | M10 h hh e => rel h (MGot e) (set_av h hh false m) []
    | _ => None
    end
  | FDone =>
    match pc with
    | MRetry => go M0 m
    | MPushed h => rel h MRetry m []
    | MEmpty => Some (mkM FIdle MReady, m, [ORetD i None])
    | MGot e => Some (mkM FIdle MReady, m, [ORetD i (Some e)])
    | _ => None
    end
  | FRes _ => None
  | _ => match fstep spur f (q_fl m) with
         | Some (f', fl') => Some (mkM f' pc, set_fl fl' m, [])
         | None => None
         end
  end.

(** The queue, its producers and its consumers. *)
Record msys := mkMS { y_m : qmem; y_ps : list prod; y_cs : list mcons }.

(** Model only: the state at the beginning. *)
Definition msys0 (dflt : V) (k np nc : nat) : msys :=
  mkMS (qmem0 dflt k) (repeat (mkP FIdle PReady dflt false) np) (repeat (mkM FIdle MReady) nc).

(** As qev, with any number of consumers. *)
Inductive mev :=
| YEnq (i : nat) (v : V) (unb : bool)
| YProd (i : nat) (spur : bool)
| YDeq (i : nat)
| YCons (i : nat) (spur : bool).

(** One step; the lines are given with ppc and mpc. *)
Definition ystep (ev : mev) (s : msys) : option (msys * list obs) :=
  let '(mkMS m ps cs) := s in
  match ev with
  | YEnq i v unb => match nth_error ps i with
                    | Some (mkP FIdle PReady _ _) => Some (mkMS m (repl i (mkP FIdle P0 v unb) ps) cs, [OCall i v])
                    | _ => None
                    end
  | YProd i spur => match nth_error ps i with
                    | Some p => match pstep spur i p m with
                                | Some (p', m', o) => Some (mkMS m' (repl i p' ps) cs, o)
                                | None => None
                                end
                    | None => None
                    end
  | YDeq i => match nth_error cs i with
              | Some (mkM FIdle MReady) => Some (mkMS m ps (repl i (mkM FIdle M0) cs), [])
              | _ => None
              end
  | YCons i spur => match nth_error cs i with
                    | Some c => match mstep spur i c m with
                                | Some (c', m', o) => Some (mkMS m' ps (repl i c' cs), o)
                                | None => None
                                end
                    | None => None
                    end
  end.

(** A run: one event after the other; it stops where an event cannot happen.  Model only. *)
Fixpoint yrun (evs : list mev) (s : msys) : option (msys * list obs) :=
  match evs with
  | [] => Some (s, [])
  | ev :: evs => match ystep ev s with
                 | Some (s, o) => match yrun evs s with Some (s, o') => Some (s, o ++ o') | None => None end
                 | None => None
                 end
  end.
End Queue.
Arguments mkQ {V}. Arguments q_fl {V}. Arguments q_n {V}. Arguments q_freed {V}. Arguments q_bh {V}. Arguments q_bt {V}.
Arguments q_bnext {V}. Arguments q_el {V}. Arguments q_av {V}. Arguments q_hd {V}. Arguments q_tl {V}.
Arguments set_fl {V}. Arguments set_freed {V}. Arguments set_bh {V}. Arguments set_bt {V}. Arguments set_bnext {V}.
Arguments set_el {V}. Arguments set_av {V}. Arguments set_hd {V}. Arguments set_tl {V}. Arguments rc {V}. Arguments set_rc {V}. Arguments alloc {V}.
Arguments OCall {V}. Arguments OEnq {V}. Arguments ORetE {V}. Arguments ODeq {V}. Arguments OEmpty {V}. Arguments ORew {V}. Arguments ORetD {V}.
Arguments mkP {V}. Arguments p_f {V}. Arguments p_m {V}. Arguments p_v {V}. Arguments p_unb {V}. Arguments pstep {V}.
Arguments CReady {V}. Arguments D0 {V}. Arguments D2 {V}. Arguments D3 {V}. Arguments D4 {V}. Arguments WD {V}. Arguments D1 {V}.
Arguments D5 {V}. Arguments D6 {V}. Arguments D7 {V}. Arguments W0 {V}. Arguments WP {V}. Arguments W2a {V}. Arguments W2b {V}.
Arguments W2c {V}. Arguments W2d {V}. Arguments W3 {V}. Arguments W4 {V}. Arguments W5 {V}.
Arguments mkC {V}. Arguments c_f {V}. Arguments c_m {V}. Arguments cstep {V}.
Arguments mkSys {V}. Arguments s_m {V}. Arguments s_ps {V}. Arguments s_c {V}. Arguments qmem0 {V}. Arguments sys0 {V}.
Arguments QEnq {V}. Arguments QProd {V}. Arguments QDeq {V}. Arguments QRew {V}. Arguments QCons {V}. Arguments qstep {V}. Arguments qrun {V}.
Arguments MReady {V}. Arguments M0 {V}. Arguments M1 {V}. Arguments M2 {V}. Arguments M3 {V}. Arguments M4 {V}. Arguments M5 {V}.
Arguments M6 {V}. Arguments M6p {V}. Arguments M7 {V}. Arguments M8 {V}. Arguments M9 {V}. Arguments M10 {V}. Arguments MRetry {V}.
Arguments MPushed {V}. Arguments MEmpty {V}. Arguments MGot {V}. Arguments mkM {V}. Arguments k_f {V}. Arguments k_m {V}. Arguments mstep {V}.
Arguments mkMS {V}. Arguments y_m {V}. Arguments y_ps {V}. Arguments y_cs {V}. Arguments msys0 {V}.
Arguments YEnq {V}. Arguments YProd {V}. Arguments YDeq {V}. Arguments YCons {V}. Arguments ystep {V}. Arguments yrun {V}.
