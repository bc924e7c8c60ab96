(** The atomic reference counter of include/salticidae/ref.h (_ARCCtl, used by
    ArcObj and AweakObj), shared by any number of threads.

    One object with its control block is modelled.  Each step performs one
    atomic access to the control block (all are sequentially consistent: the
    code uses the default memory order), so a run is an arbitrary interleaving
    of the accesses of all threads.  Handles not being released are counted;
    which thread holds them does not matter, since a handle may be passed on.
    ref_cnt and weak_cnt are unbounded (size_t); dcnt wraps at 256 (uint8_t). *)
From Coq Require Import Arith List Bool.
From Verif Require Import RefModel.
Import ListNotations.

(** Operations in progress. *)
Inductive pc :=
(* ref.h 185-191 release_ref, and the object's deletion 363-366 *)
| R1   (* dcnt++ done; next: --ref_cnt *)
| R2   (* ref_cnt not 0; next: dcnt--, return false *)
| R3   (* ref_cnt is 0; next: read weak_cnt *)
| R4   (* weak_cnt not 0; next: dcnt--, return true *)
| R5   (* weak_cnt was 0; next: if (!--dcnt) delete this *)
| R6   (* returned true; next: D()(obj) *)
(* ref.h 192-197 release_weak *)
| W1   (* dcnt++ done; next: --weak_cnt *)
| W2   (* next: dcnt--, return *)
| W3   (* weak_cnt is 0; next: read ref_cnt *)
| W5   (* ref_cnt was 0; next: if (!--dcnt) delete this *)
(* ref.h 337-349, RcObj(const WeakObj &) *)
| U2.  (* ref_cnt was not 0; next: add_ref *)

(** The state of one control block (ref.h 178-181) and the references to it. *)
Record ast := mkA {
  a_ref : nat; a_weak : nat; a_dcnt : nat;
  a_hs : nat;             (* strong handles *)
  a_hw : nat;             (* weak handles *)
  a_pcs : list pc;
  a_destroyed : nat;      (* times the object was destroyed *)
  a_freed : nat;          (* times the control block was freed *)
  a_bad : bool }.         (* the control block was used after being freed *)

(** ref.h 199, _ARCCtl(), and 286: one handle. *)
Definition ainit : ast := mkA 1 0 0 1 0 [] 0 0 false.

Inductive aev :=
| ECopy        (* copy of a strong handle: ref.h 291-294, 182 *)
| EDown        (* weak handle from a strong one: 463-468, 183 *)
| EWCopy       (* copy of a weak handle: 214-217, 183 *)
| ERelS        (* ~ArcObj entered: 364, 186 *)
| ERelW        (* ~AweakObj entered: 248, 193 *)
| EUp          (* upgrade of a weak handle, the test: 338 *)
| EStep (i : nat).  (* next access of an operation in progress *)

(** Model only: one entry replaced. *)
Fixpoint remove_at {A} (i : nat) (l : list A) : list A :=
  match l, i with
  | [], _ => []
  | _ :: l, O => l
  | x :: l, S i => x :: remove_at i l
  end.

(** dcnt is a uint8_t (ref.h 181): modulo 256. *)
Definition inc8 (n : nat) : nat := (n + 1) mod 256.
Definition dec8 (n : nat) : nat := (n + 255) mod 256.

(** Model only: an access after the block was freed is recorded. *)
Definition touch (s : ast) : bool := a_bad s || negb (a_freed s =? 0).

(** One atomic access; the lines are given with the events above. *)
Definition astep (e : aev) (s : ast) : option ast :=
  let '(mkA ref weak dcnt hs hw pcs des fr bad) := s in
  let bad := touch s in
  match e with
  | ECopy => if hs =? 0 then None else Some (mkA (S ref) weak dcnt (S hs) hw pcs des fr bad)
  | EDown => if hs =? 0 then None else Some (mkA ref (S weak) dcnt hs (S hw) pcs des fr bad)
  | EWCopy => if hw =? 0 then None else Some (mkA ref (S weak) dcnt hs (S hw) pcs des fr bad)
  | ERelS => match hs with O => None | S hs => Some (mkA ref weak (inc8 dcnt) hs hw (R1 :: pcs) des fr bad) end
  | ERelW => match hw with O => None | S hw => Some (mkA ref weak (inc8 dcnt) hs hw (W1 :: pcs) des fr bad) end
  | EUp => match hw with
           | O => None
           | S hw' => if ref =? 0 then Some (mkA ref weak dcnt hs hw pcs des fr bad)
                      else Some (mkA ref weak dcnt hs hw' (U2 :: pcs) des fr bad)
           end
  | EStep i =>
    match nth_error pcs i with
    | None => None
    | Some p =>
      let go q := repl i q pcs in
      let done := remove_at i pcs in
      match p with
      | R1 => Some (mkA (pred ref) weak dcnt hs hw (go (if pred ref =? 0 then R3 else R2)) des fr bad)
      | R2 => Some (mkA ref weak (dec8 dcnt) hs hw done des fr bad)
      | R3 => Some (mkA ref weak dcnt hs hw (go (if weak =? 0 then R5 else R4)) des fr bad)
      | R4 => Some (mkA ref weak (dec8 dcnt) hs hw (go R6) des fr bad)
      | R5 => Some (mkA ref weak (dec8 dcnt) hs hw (go R6) des (if dec8 dcnt =? 0 then S fr else fr) bad)
      | R6 => Some (mkA ref weak dcnt hs hw done (S des) fr (a_bad s))
      | W1 => Some (mkA ref (pred weak) dcnt hs hw (go (if pred weak =? 0 then W3 else W2)) des fr bad)
      | W2 => Some (mkA ref weak (dec8 dcnt) hs hw done des fr bad)
      | W3 => Some (mkA ref weak dcnt hs hw (go (if ref =? 0 then W5 else W2)) des fr bad)
      | W5 => Some (mkA ref weak (dec8 dcnt) hs hw done des (if dec8 dcnt =? 0 then S fr else fr) bad)
      | U2 => Some (mkA (S ref) weak dcnt (S hs) (S hw) done des fr bad)
      end
    end
  end.

(** A run: one event after the other; it stops where an event cannot happen.  Model only. *)
Fixpoint arun (es : list aev) (s : ast) : option ast :=
  match es with
  | [] => Some s
  | e :: es => match astep e s with Some s => arun es s | None => None end
  end.
