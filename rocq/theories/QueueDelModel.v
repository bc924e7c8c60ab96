(** The destructor of the queue (queue.h 177-184) on the memory of
    QueueModel.  It runs alone: nobody else uses the queue any more.

    Simplified: the memory of a deleted block stays in the model; instead each
    access to a block and each deletion is recorded, so that an access after
    the deletion can be seen. *)
From Coq Require Import Arith List Bool.
From Verif Require Import QueueModel.
Import ListNotations.

(** What the destructor does to the memory of block [u]: an access, or
    [delete] (virtual destructor of Node, 20: the whole Block is destroyed). *)
Inductive dev := ETouch (u : nat) | EDel (u : nat).

(** Position of the destructor. *)
Inductive dpc :=
| DPool (f : flpc)                      (* 178: inside pop *)
| DChain (p : option nat)               (* 179: the loop's condition *)
| DNext (u : nat) (n : option nat)      (* 182 *)
| DEnd.

(** The blocks one access of pop / release_ref touches: 33, 39, 44, 62, 67, 72
    (the other accesses are to the list's [top]). *)
Definition ftouch (f : flpc) : list dev :=
  match f with
  | RSub u _ | RSet u _ _ | RFix u _ | PRef u | PInc u _ | PNext u => [ETouch u]
  | _ => []
  end.

Section Del.
Variable V : Type.
Variable B : nat.

(** One step: 178 (pop, delete), 179-183. [spur]: the weak compare-exchange fails although the values agree. *)
Definition dstep (m : qmem V) (spur : bool) (pc : dpc) (f : fl) : option (dpc * fl * list dev) :=
  match pc with
  | DPool (FRes (Some u)) => Some (DPool PLoad, f, [EDel u])
  | DPool (FRes None) => Some (DChain (Some (q_hd m)), f, [])
  | DPool p => match fstep spur p f with Some (p', f') => Some (DPool p', f', ftouch p) | None => None end
  | DChain (Some u) => Some (DNext u (q_bnext m u), f, [ETouch u])
  | DChain None => Some (DEnd, f, [])
  | DNext u n => Some (DChain n, f, [EDel u])
  | DEnd => None
  end.

(** A run of the destructor; it stops at [DEnd].  Model only. *)
Fixpoint drun (m : qmem V) (sp : list bool) (pc : dpc) (f : fl) : option (dpc * fl * list dev) :=
  match sp with
  | [] => Some (pc, f, [])
  | b :: sp => match dstep m b pc f with
               | Some (pc, f, t) => match drun m sp pc f with Some (pc, f, t') => Some (pc, f, t ++ t') | None => None end
               | None => None
               end
  end.

(** The destructor from its beginning. *)
Definition destroy (m : qmem V) (sp : list bool) : option (dpc * fl * list dev) := drun m sp (DPool PLoad) (q_fl m).

(** The blocks deleted, in order. *)
Definition dels (t : list dev) : list nat := flat_map (fun e => match e with EDel u => [u] | ETouch _ => [] end) t.

(** The values a block holds: 99-100; deleting the block destroys its [B]
    elements, of which those marked available hold a value (the others are
    default constructed or have been moved out, 228 / 262). *)
Definition held (m : qmem V) (u : nat) : list V := map (q_el m u) (filter (q_av m u) (seq 0 B)).

(** The values destroyed by the deletions of a run.  Model only. *)
Definition destroyed (m : qmem V) (t : list dev) : list V := flat_map (held m) (dels t).
End Del.
Arguments dstep {V}. Arguments drun {V}. Arguments destroy {V}. Arguments held {V}. Arguments destroyed {V}.
