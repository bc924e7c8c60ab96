(** Times as floating-point numbers: the delays of timers (event.h 241-245,
    340-347), gen_rand_timeout and sec2tv (util.cpp 104-111), ElapsedTime
    (util.cpp 206-224).  double and float are the IEEE formats binary64 and
    binary32, as Flocq defines them, rounding to nearest, without excess
    precision. *)
From Coq Require Import ZArith Bool.
From Flocq Require Import Core BinarySingleNaN.
Open Scope Z_scope.

Definition dbl := binary_float 53 1024.
Definition flt := binary_float 24 128.
Definition P53 : Prec_gt_0 53 := eq_refl.
Definition P53e : Prec_lt_emax 53 1024 := eq_refl.
Definition P24 : Prec_gt_0 24 := eq_refl.
Definition P24e : Prec_lt_emax 24 128 := eq_refl.

(** Arithmetic on double, and the conversion of an integer to it. *)
Definition dmul (x y : dbl) : dbl := @Bmult 53 1024 P53 P53e mode_NE x y.
Definition dadd (x y : dbl) : dbl := @Bplus 53 1024 P53 P53e mode_NE x y.
Definition dsub (x y : dbl) : dbl := @Bminus 53 1024 P53 P53e mode_NE x y.
Definition ddiv (x y : dbl) : dbl := @Bdiv 53 1024 P53 P53e mode_NE x y.
Definition dofz (z : Z) : dbl := binary_normalize 53 1024 P53 P53e mode_NE z 0 false.
(** A decimal literal n / d is the nearest double. *)
Definition lit (n d : Z) : dbl := ddiv (dofz n) (dofz d).

(** The same for float. *)
Definition fsub (x y : flt) : flt := @Bminus 24 128 P24 P24e mode_NE x y.
Definition fdiv (x y : flt) : flt := @Bdiv 24 128 P24 P24e mode_NE x y.
Definition fofz (z : Z) : flt := binary_normalize 24 128 P24 P24e mode_NE z 0 false.

(** uint64_t(x): towards zero; undefined (None) if the result does not fit. *)
Definition to_u64 (x : dbl) : option Z :=
  if is_finite x then if (0 <=? Btrunc x) && (Btrunc x <? 2 ^ 64) then Some (Btrunc x) else None else None.

(** event.h 243, 343: the delay given to uv_timer_start, in milliseconds. *)
Definition timer_ms (t_sec : dbl) : option Z := to_u64 (dmul t_sec (dofz 1000)).

(** util.cpp 109-111; r is what rand() returned, RAND_MAX that of glibc. *)
Definition RAND_MAX : Z := 2147483647.
Definition gen_rand_timeout (base alpha : dbl) (r : Z) : dbl :=
  dadd base (dmul (dmul (ddiv (dofz r) (dofz RAND_MAX)) alpha) base).
(** util.h 72: the default of alpha. *)
Definition alpha0 : dbl := lit 1 2.

(** util.cpp 104-107: trunc, and the conversions to time_t and suseconds_t of
    64 bits; None where undefined. *)
Definition to_i64 (x : dbl) : option Z :=
  if is_finite x then if (- 2 ^ 63 <=? Btrunc x) && (Btrunc x <? 2 ^ 63) then Some (Btrunc x) else None else None.
Definition sec2tv (t : dbl) : option (Z * Z) :=
  match to_i64 t with
  | None => None
  | Some s => match to_i64 (dmul (dsub t (dofz s)) (dofz 1000000)) with None => None | Some us => Some (s, us) end
  end.

(** util.cpp 218-219: elapsed_sec, from what gettimeofday gave at start and at
    stop. *)
Definition tv_sec (s us : Z) : dbl := dadd (dofz s) (dmul (dofz us) (lit 1 1000000)).
Definition elapsed_sec (s0 us0 s1 us1 : Z) : dbl := dsub (tv_sec s1 us1) (tv_sec s0 us0).

(** util.cpp 216-217: cpu_elapsed_sec, from what clock() gave;
    CLOCKS_PER_SEC is a long and becomes a float. *)
Definition cpu_elapsed_sec (c0 c1 : Z) : flt := fsub (fdiv (fofz c1) (fofz 1000000)) (fdiv (fofz c0) (fofz 1000000)).
