(** Config::OptValDouble (util.h 328-346): options whose value is a double.

    std::stod is that of libstdc++ over glibc's strtod, in the C locale:
    correctly rounded to nearest, ERANGE for overflow and for a result that is
    too small for full precision and inexact.  Simplified: the value is a real
    number, so the two zeros are the same; hexadecimal numbers are read by a
    function that is a parameter. *)
From Coq Require Import NArith ZArith Reals List Bool.
From Coq.Init Require Import Byte.
From Flocq Require Import Core.
From Verif Require Import Base StreamModel UtilModel ConfModel.
Import ListNotations.

(** What std::stod does (util.h 340): a finite value, an infinity, not a number, or one of its exceptions. *)
Inductive dres := DVal (r : R) | DInf (neg : bool) | DNan | DInvalid | DRange.

(** The nearest double, and the same with exponents of any size (glibc decides by it whether a result is tiny). *)
Definition rnd (x : R) : R := round radix2 (FLT_exp (-1074) 53) ZnearestE x.
Definition rnd_unbounded (x : R) : R := round radix2 (FLX_exp 53) ZnearestE x.

(** strtod's result for the number x, with errno (ERANGE: std::out_of_range), as used in util.h 340. *)
Definition to_double (x : R) : dres :=
  if Rle_bool (bpow radix2 1024) (Rabs (rnd x)) then DRange
  else if Rlt_bool (Rabs (rnd_unbounded x)) (bpow radix2 (-1022)) && negb (Req_bool (rnd x) x) then DRange
  else DVal (rnd x).

(** strtod (util.h 340): the exponent; none if there is no digit in it. *)
Definition exponent (s : bytes) : Z :=
  match s with
  | c :: r =>
      if byte_eqb c x65 || byte_eqb c x45
      then match r with
           | d :: r' => if byte_eqb d x2d then (- dec_value 0 (digits r'))%Z else if byte_eqb d x2b then dec_value 0 (digits r') else dec_value 0 (digits r)
           | [] => 0%Z
           end
      else 0%Z
  | [] => 0%Z
  end.

(** Letters are compared without regard to case (strtod, util.h 340). *)
Definition lower (c : byte) : N := let v := byte_val c in if (65 <=? v)%N && (v <=? 90)%N then (v + 32)%N else v.
Definition starts (w : list N) (s : bytes) : bool := if list_eq_dec N.eq_dec (map lower (firstn (length w) s)) w then true else false.
Definition is_hex (c : byte) : bool := is_digit c || ((97 <=? lower c) && (lower c <=? 102))%N.
Definition hexadecimal (s : bytes) : bool :=
  starts [48; 120]%N s && match skipn 2 s with c :: r => is_hex c || (byte_eqb c x2e && match r with d :: _ => is_hex d | [] => false end) | [] => false end.

Section D.
Variable hexv : bool -> bytes -> dres.

(** std::stod (util.h 340): white space, a sign, then "inf", "nan", a hexadecimal or a decimal number; what follows is ignored. *)
Definition stod (s : bytes) : dres :=
  let s1 := skip_space s in
  let '(neg, s2) := match s1 with
                    | c :: r => if byte_eqb c x2d then (true, r) else if byte_eqb c x2b then (false, r) else (false, s1)
                    | [] => (false, [])
                    end in
  if starts [105; 110; 102]%N s2 then DInf neg
  else if starts [110; 97; 110]%N s2 then DNan
  else if hexadecimal s2 then hexv neg s2
  else
    let d1 := digits s2 in
    let r1 := skipn (length d1) s2 in
    let '(d2, r2) := match r1 with
                     | c :: r => if byte_eqb c x2e then (digits r, skipn (length (digits r)) r) else ([], r1)
                     | [] => ([], [])
                     end in
    match d1 ++ d2 with
    | [] => DInvalid
    | ds => let v := dec_value 0 ds in
            to_double (IZR (if neg then - v else v)%Z * powerRZ 10 (exponent r2 - Z.of_nat (length d2)))
    end.

(** The value of the option: OptValDouble::val (util.h 329). *)
Inductive dval := VReal (r : R) | VInf (neg : bool) | VNan.

(** OptValDouble::set_val (util.h 337-344): the value afterwards and the exception, if any. *)
Definition set_double (v : dval) (t : bytes) : dval * option exn :=
  match stod t with
  | DVal r => (VReal r, None)
  | DInf n => (VInf n, None)
  | DNan => (VNan, None)
  | DInvalid => (v, Some EInvalid)
  | DRange => (v, Some EOutOfRange)
  end.
End D.
