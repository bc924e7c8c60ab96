(** Model of salticidae::Config: options, configuration files, command line.
    Source: include/salticidae/util.h 253-430, src/util.cpp 225-335.
    Not modelled: OptValDouble (DoubleModel.v), option values of the
    user's own classes, print_help (HelpModel.v), the log lines.  getopt_long itself is not
    modelled: what it returns is an input of [parse]. *)
From Coq Require Import Arith NArith ZArith List Bool.
From Coq.Init Require Import Byte.
From Verif Require Import Base StreamModel UtilModel.
Import ListNotations.

(** util.h 255-259. *)
Inductive action := SwitchOn | SetVal | Append.

(** util.h 280-381: the values of the option classes.  The value of an
    OptValConf is its Config itself. *)
Inductive oval := VFlag (b : bool) | VStr (t : bytes) | VInt (z : Z) | VVec (l : list bytes) | VConf.

(** util.h 383-403, Opt: name, value, action, short option.  [optval] is a
    counted reference, so several options may share one value: o_val is the cell
    it refers to.  None for the short option -1.  The struct option built at
    util.cpp 232-235 is determined by these (val = 0x100 + position). *)
Record opt := mkOpt { o_name : bytes; o_val : nat; o_act : action; o_short : option byte }.

(** util.h 405-408.  [c_conf] maps names to positions in [c_opts] (in the code:
    pointers to the same objects); the first entry for a name counts, which is
    what unordered_map::insert, that leaves an existing entry alone, gives.
    [c_open] counts the FILEs opened by load and not closed. *)
Record cfg := mkCfg { c_opts : list opt; c_conf : list (bytes * nat); c_vals : nat -> oval; c_open : nat }.

(** What can be thrown: SalticidaeError with OPTVAL_INVALID (util.h 322),
    CONFIG_LINE_TOO_LONG (util.cpp 280), "undefined OptVal behavior" (util.h
    264-273), OPT_INVALID (util.cpp 329), OPTNAME_ALREADY_EXISTS (util.cpp 242);
    and std::out_of_range, which stoi throws and util.h 321 does not catch. *)
Inductive exn := EInvalid | ETooLong | EUndefined | EOptInvalid | EExists | EOutOfRange.

(** [Deep]: the recursion is deeper than the given bound.  [Ub]: a null pointer or
    an end iterator is used. *)
Inductive res (A : Type) := Ok (a : A) (s : cfg) | Throw (e : exn) (s : cfg) | Deep | Ub.
Arguments Ok {A} a s.
Arguments Throw {A} e s.
Arguments Deep {A}.
Arguments Ub {A}.

(** Model only: equality test. *)
Fixpoint bytes_eqb (a b : bytes) : bool :=
  match a, b with
  | [], [] => true
  | x :: a, y :: b => byte_eqb x y && bytes_eqb a b
  | _, _ => false
  end.

(** unordered_map::count and find on [conf]. *)
Definition lookup (n : bytes) (m : list (bytes * nat)) : option nat :=
  match find (fun x => bytes_eqb (fst x) n) m with Some (_, i) => Some i | None => None end.

(** Model only: the state with one field replaced. *)
Definition set_cell (c : nat) (v : oval) (s : cfg) : cfg :=
  mkCfg (c_opts s) (c_conf s) (fun d => if Nat.eqb d c then v else c_vals s d) (c_open s).
(** Model only: the state with one field replaced. *)
Definition set_open (n : nat) (s : cfg) : cfg := mkCfg (c_opts s) (c_conf s) (c_vals s) n.

(** ** std::stoi (base 10) *)

(** C's isdigit. *)
Definition is_digit (c : byte) : bool := let v := byte_val c in (48 <=? v)%N && (v <=? 57)%N.
Fixpoint digits (s : bytes) : bytes :=
  match s with
  | c :: r => if is_digit c then c :: digits r else []
  | [] => []
  end.
(** The value of a string of digits. *)
Fixpoint dec_value (acc : Z) (s : bytes) : Z :=
  match s with
  | c :: r => dec_value (10 * acc + (Z.of_N (byte_val c) - 48)) r
  | [] => acc
  end.
(** What std::stoi does: a value or one of its two exceptions. *)
Inductive stoi_res := SVal (z : Z) | SInvalid | SRange.
(** std::stoi of C++: spaces, a sign, digits; the rest is ignored (used in util.h 320). *)
Definition stoi (s : bytes) : stoi_res :=
  let s1 := skip_space s in
  let '(neg, s2) := match s1 with
                    | c :: r => if byte_eqb c x2d then (true, r) else if byte_eqb c x2b then (false, r) else (false, s1)
                    | [] => (false, [])
                    end in
  match digits s2 with
  | [] => SInvalid
  | ds => let v := if neg then (- dec_value 0 ds)%Z else dec_value 0 ds in
          if ((-2147483648 <=? v) && (v <=? 2147483647))%Z then SVal v else SRange
  end.

(** ** Registering options *)

(** util.cpp 238-250, add_opt.  (-1 as short option: None.) *)
Definition add_opt (name : bytes) (cell : nat) (act : action) (short : option byte) (s : cfg) : res unit :=
  match lookup name (c_conf s) with
  | Some _ => Throw EExists s
  | None =>
    let i := length (c_opts s) in
    Ok tt (mkCfg (c_opts s ++ [mkOpt name cell act short])
                 (c_conf s ++ (name, i) :: match short with Some c => [([c], i)] | None => [] end)
                 (c_vals s) (c_open s))
  end.

(** util.h 413-418, the constructors.  The user's values are in the cells given by
    [vals]; cell 0 is opt_val_conf. *)
Definition cfg0 (vals : nat -> oval) : cfg := mkCfg [] [] vals 0.
Definition name_conf : bytes := [x63; x6f; x6e; x66].
Definition cfg_new (vals : nat -> oval) : res unit :=
  add_opt name_conf 0 SetVal (Some x63) (cfg0 (fun c => if Nat.eqb c 0 then VConf else vals c)).

(** ** Setting options *)

(** util.cpp 252-261, update, with util.h 261-381, the switch_on, set_val and
    append of the classes.  The text is a C string, None for a null pointer, from
    which a std::string is made for set_val and append.  [ld]: Config::load, for
    util.h 373-378. *)
Definition update (ld : bytes -> cfg -> res bool) (o : opt) (arg : option bytes) (s : cfg) : res unit :=
  match o_act o with
  | SwitchOn => match c_vals s (o_val o) with VFlag _ => Ok tt (set_cell (o_val o) (VFlag true) s) | _ => Throw EUndefined s end
  | SetVal =>
    match arg with
    | None => Ub
    | Some a =>
      match c_vals s (o_val o) with
      | VStr _ => Ok tt (set_cell (o_val o) (VStr a) s)
      | VInt _ => match stoi a with SVal z => Ok tt (set_cell (o_val o) (VInt z) s) | SInvalid => Throw EInvalid s | SRange => Throw EOutOfRange s end
      | VConf => match ld a s with Ok _ s' => Ok tt s' | Throw e s' => Throw e s' | Deep => Deep | Ub => Ub end
      | _ => Throw EUndefined s
      end
    end
  | Append =>
    match arg with
    | None => Ub
    | Some a => match c_vals s (o_val o) with VVec l => Ok tt (set_cell (o_val o) (VVec (l ++ [a])) s) | _ => Throw EUndefined s end
    end
  end.

(** util.cpp 263-266, update by name; the assert is the [Ub] of an end iterator. *)
Definition update_name (ld : bytes -> cfg -> res bool) (n : bytes) (arg : option bytes) (s : cfg) : res unit :=
  match lookup n (c_conf s) with
  | Some i => match nth_error (c_opts s) i with Some o => update ld o arg s | None => Ub end
  | None => Ub
  end.

(** ** Configuration files *)

(** BUFF_SIZE - 1 (util.cpp 269). *)
Definition LIM : nat := N.to_nat 65535.

(** fgets(buff, n + 1, f): the text read and what is left. *)
Fixpoint fgets (n : nat) (d : bytes) : bytes * bytes :=
  match n, d with
  | O, _ => ([], d)
  | _, [] => ([], [])
  | S n', c :: r => if byte_eqb c x0a then ([c], r) else let '(a, b) := fgets n' r in (c :: a, b)
  end.
(** All that successive calls of fgets return, until it returns null. *)
Fixpoint chunks (fuel : nat) (d : bytes) : list bytes :=
  match fuel, d with
  | S f, _ :: _ => let '(a, b) := fgets LIM d in a :: chunks f b
  | _, _ => []
  end.

(** util.cpp 277-294, one round of the loop. *)
Definition load_line (ld : bytes -> cfg -> res bool) (buff : bytes) (s : cfg) : res unit :=
  let line := cstr buff in
  if Nat.eqb (length line) LIM then Throw ETooLong (set_open (c_open s - 1) s)
  else match find_sub [x3d] line with
       | None => Ok tt s
       | Some pos =>
         let name := trim (firstn pos line) default_space in
         let val := trim (skipn (pos + 1) line) default_space in
         match lookup name (c_conf s) with
         | None => Ok tt s
         | Some _ => update_name ld name (Some (cstr val)) s
         end
       end.
(** util.cpp 275-295, the loop. *)
Fixpoint load_lines (ld : bytes -> cfg -> res bool) (ls : list bytes) (s : cfg) : res unit :=
  match ls with
  | [] => Ok tt s
  | b :: r => match load_line ld b s with
              | Ok _ s' => load_lines ld r s'
              | Throw e s' => Throw e s'
              | Deep => Deep
              | Ub => Ub
              end
  end.

Section FS.
(** The file system while the configuration is read: contents of the files that
    can be opened. *)
Variable fs : bytes -> option bytes.

(** util.cpp 268-301, load; at most [fuel] nested calls. *)
Fixpoint load (fuel : nat) (fname : bytes) (s : cfg) : res bool :=
  match fuel with
  | O => Deep
  | S f =>
    match fs fname with
    | None => Ok false s
    | Some data =>
      match load_lines (load f) (chunks (length data) data) (set_open (S (c_open s)) s) with
      | Ok _ s' => Ok true (set_open (c_open s' - 1) s')
      | Throw e s' => Throw e s'
      | Deep => Deep
      | Ub => Ub
      end
    end
  end.

(** ** The command line *)

(** What getopt_long returns (util.cpp 325): 0x100 + i, a letter, or '?'; with
    optarg.  The end, -1, is the end of the list. *)
Inductive gev := GLong (i : nat) (arg : option bytes) | GShort (c : byte) (arg : option bytes) | GBad.

(** util.cpp 326-333, one round. *)
Definition parse_ev (fuel : nat) (e : gev) (s : cfg) : res unit :=
  match e with
  | GBad => Throw EOptInvalid s
  | GLong i arg => match nth_error (c_opts s) i with Some o => update (load fuel) o arg s | None => Ub end
  | GShort c arg => update_name (load fuel) [c] arg s
  end.
Fixpoint parse_evs (fuel : nat) (es : list gev) (s : cfg) : res unit :=
  match es with
  | [] => Ok tt s
  | e :: r => match parse_ev fuel e s with
              | Ok _ s' => parse_evs fuel r s'
              | Throw x s' => Throw x s'
              | Deep => Deep
              | Ub => Ub
              end
  end.
(** util.cpp 303-336, parse (without the number it returns). *)
Definition parse (fuel : nat) (conf_fname : bytes) (es : list gev) (s : cfg) : res unit :=
  match load fuel conf_fname s with
  | Ok _ s' => parse_evs fuel es s'
  | Throw x s' => Throw x s'
  | Deep => Deep
  | Ub => Ub
  end.
End FS.
