(* Model of sparta/sparta/utils/Rational.hpp for T = uint32_t (w = 32) and
   T = uint64_t (w = 64). [None] stands for the failed assert on a zero denominator
   or for an undefined division by zero. *)
Require Import NArith Bool.
Require Import Verif.MathUtilsModel.
Open Scope N_scope.

(* Rational.hpp:199-200, members n_ and d_. *)
Record rational := Rat { rn : N; rd : N }.

(* utils::gcd<T> / utils::lcm<T> selected by the width of T, Rational.hpp:97, :141. *)
Definition gcdW (w : N) : N -> N -> option N := if w =? 32 then gcd32 else gcd64.
Definition lcmW (w : N) : N -> N -> option N := if w =? 32 then lcm32 else lcm64.

(* Rational.hpp:91-104, simplify. *)
Definition simplify (w : N) (r : rational) : option rational :=
  if rd r =? 0 then Some r
  else if rn r =? 0 then Some (Rat (rn r) 1)
  else match gcdW w (rn r) (rd r) with
       | None => None
       | Some g => if 1 <? g then Some (Rat (rn r / g) (rd r / g)) else Some r
       end.

(* Rational.hpp:23-29, constructor. *)
Definition mk (w n d : N) : option rational :=
  if d =? 0 then None else simplify w (Rat n d).

(* Rational.hpp:106-109 (operator*; operator*= at 111-117 computes the same). *)
Definition rmul (w : N) (a b : rational) : option rational :=
  mk w (wrap w (rn a * rn b)) (wrap w (rd a * rd b)).

(* Rational.hpp:119-122 (operator/; operator/= at 124-136 computes the same but without the
   assert on the new denominator). *)
Definition rdiv (w : N) (a b : rational) : option rational :=
  mk w (wrap w (rn a * rd b)) (wrap w (rd a * rn b)).

(* Rational.hpp:138-146 (operator+; operator+= at 148-159 computes the same). *)
Definition radd (w : N) (a b : rational) : option rational :=
  if rd a =? rd b then mk w (wrap w (rn a + rn b)) (rd a)
  else match lcmW w (rd a) (rd b) with
       | None => None
       | Some m => mk w (wrap w (wrap w (rn a * m) / rd a + wrap w (rn b * m) / rd b)) m
       end.

(* Unsigned subtraction with wrap-around, as in "n_ - r.n_" of Rational.hpp:168. *)
Definition usub (w a b : N) : N := wrap w (a + (2 ^ w - wrap w b)).

(* Rational.hpp:161-170 (operator-, "computes absolute difference"). *)
Definition rsub (w : N) (a b : rational) : option rational :=
  if rd a =? rd b then mk w (abs_u w (usub w (rn a) (rn b))) (rd a)
  else match lcmW w (rd a) (rd b) with
       | None => None
       | Some m => mk w (abs_u w (usub w (wrap w (rn a * m) / rd a) (wrap w (rn b * m) / rd b))) m
       end.

(* Rational.hpp:186-189, inv. *)
Definition rinv (w : N) (a : rational) : option rational := mk w (rd a) (rn a).

(* Rational.hpp:191-196, operator==. *)
Definition req (w : N) (a b : rational) : option bool :=
  match simplify w b with
  | None => None
  | Some t => Some ((rn a =? rn t) && (rd a =? rd t))
  end.
