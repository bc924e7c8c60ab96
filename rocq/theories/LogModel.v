(** Logger (util.h 179-209) writing to a file: opening, the lines, closing.

    Simplified: the time and the texts are given as formatted; a file is no
    terminal, so there are no colours (util.cpp 153-165); the file can always be
    opened (util.h 197 gives open(2) no mode, so that the permissions of a new
    file are whatever happens to be in that argument: not modelled), and its
    offsets never pass its end, since nothing cuts it; each call of write(2) is
    one step, as it is for threads that share a logger. *)
From Coq Require Import String List Arith NArith Bool.
From Coq.Init Require Import Byte.
From Verif Require Import Base StreamModel UtilModel.
Import ListNotations.

(** util.cpp 177-203: the four functions and their tags. *)
Inductive level := LInfo | LDebug | LWarn | LError.
Definition tag (l : level) : bytes := txt (match l with LInfo => "info" | LDebug => "debug" | LWarn => "warn" | LError => "error" end).

(** util.cpp 167-175, Logger::write: the line, up to the call of write(2); None if undefined. *)
Definition line (dt prefix : bytes) (l : level) (text : bytes) : option bytes :=
  match vstringprintf (dt ++ txt " [" ++ prefix ++ txt " " ++ tag l ++ txt "] "), vstringprintf text with
  | Ret h _, Ret b _ => Some (h ++ b ++ [x0a])
  | _, _ => None
  end.

(** The file (None: there is none) and, for each logger made, its prefix and the offset of its descriptor (None: closed). *)
Record lst := mkLst { l_file : option bytes; l_logs : list (bytes * option nat) }.

(** Model only: bytes d written at offset o of a file. *)
Definition overwrite (o : nat) (d f : bytes) : bytes := firstn o f ++ d ++ skipn (o + length d) f.
(** Model only: the content of a file, and a list with one element replaced. *)
Definition content (f : option bytes) : bytes := match f with Some x => x | None => [] end.
Fixpoint upd {X} (i : nat) (x : X) (l : list X) : list X :=
  match l, i with [], _ => [] | _ :: r, 0 => x :: r | y :: r, S i => y :: upd i x r end.

Inductive lev :=
| LOpen (prefix : bytes)                                  (* util.h 195-200 *)
| LLog (i : nat) (dt : bytes) (l : level) (text : bytes) (n : nat)  (* util.cpp 167-202; write(2) took n bytes, none if it failed *)
| LClose (i : nat).                                       (* util.h 202 *)

Definition lstep (e : lev) (s : lst) : option lst :=
  match e with
  | LOpen p => Some (mkLst (Some (content (l_file s))) (l_logs s ++ [(p, Some 0)]))    (* O_CREAT | O_WRONLY: not cut, offset 0 *)
  | LLog i dt l text n =>
      match nth_error (l_logs s) i with
      | Some (p, Some o) =>
          match line dt p l text with
          | Some b => if n <=? length b
                      then Some (mkLst (Some (overwrite o (firstn n b) (content (l_file s)))) (upd i (p, Some (o + n)) (l_logs s)))    (* util.cpp 174: the result is ignored *)
                      else None
          | None => None
          end
      | _ => None
      end
  | LClose i => match nth_error (l_logs s) i with
                | Some (p, Some _) => Some (mkLst (l_file s) (upd i (p, None) (l_logs s)))
                | _ => None
                end
  end.

(** A run.  Model only. *)
Fixpoint lrun (es : list lev) (s : lst) : option lst :=
  match es with [] => Some s | e :: r => match lstep e s with Some s' => lrun r s' | None => None end end.
