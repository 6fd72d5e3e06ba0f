(** Integers with bounds. bv = sparta/sparta/utils/BoundedValue.hpp. C++ integer types are written out: promotion, the
    usual arithmetic conversions, wrap-around of unsigned and undefined overflow of signed arithmetic. *)
From Coq Require Import ZArith Bool List.
From Verif Require Import LayoutModel StorageModel.
Import ListNotations.
Open Scope Z_scope.

(** An integer type: signed or not, and its width. The template parameters T, U, V, W (bv 31-36, 67). *)
Record ity := mkT { sg : bool; wd : Z }.
(** numeric_limits<T>::min and max (bv 69-70, 80). *)
Definition lo (t : ity) : Z := if sg t then - 2 ^ (wd t - 1) else 0.
Definition hi (t : ity) : Z := if sg t then 2 ^ (wd t - 1) - 1 else 2 ^ wd t - 1.
(** static_cast<T> of an integer (bv 73-75, 518): modulo the width, as gcc does for signed types too. *)
Definition cast (t : ity) (z : Z) : Z :=
  if sg t then (z + 2 ^ (wd t - 1)) mod 2 ^ wd t - 2 ^ (wd t - 1) else z mod 2 ^ wd t.
(** Integer promotion of the operands of +, - and unary - (bv 541, 560, 582-591, 603-612): types narrower than int
    become int. *)
Definition prom (t : ity) : ity := if wd t <? 32 then mkT true 32 else t.
(** The type in which value_ += value is computed (bv 585, 591, 606, 612): the usual arithmetic conversions. *)
Definition common (a b : ity) : ity :=
  let a := prom a in let b := prom b in
  if Bool.eqb (sg a) (sg b) then (if wd a <? wd b then b else a)
  else if sg a then (if wd b <? wd a then a else b) else (if wd a <? wd b then b else a).
(** The exact result z of an operation in type t (bv 582-591): signed overflow is undefined, unsigned wraps. *)
Definition arith (t : ity) (z : Z) : outcome Z :=
  if sg t then (if (lo t <=? z) && (z <=? hi t) then Done z else Undefined) else Done (z mod 2 ^ wd t).
(** static_cast<uintmax_t> (bv 583, 589, 604, 610). *)
Definition u64 (z : Z) : Z := z mod 2 ^ 64.

(** The members (bv 680-682). *)
Record bv := mkBv { val : Z; lower : Z; upper : Z }.

(** checkRange_ (bv 688-766) on a value of any integer type: the overloads compare signed with unsigned only after a
    test of the sign, so all comparisons are of the numbers themselves. *)
Definition in_bounds (b : bv) (x : Z) : bool := (lower b <=? x) && (x <=? upper b).

(** What the seven constructors for integers assert about the bounds asked for, v of type V and w of type W, and the value u of type U; they
    are told apart by signedness: bv 67-84 all alike; 103-125, 143-166, 184-208 T unsigned; 225-245, 262-289, 306-333 T signed.
    All comparisons are between numbers of one sign or after a test of the sign, hence exact. *)
Definition asked_ok (T U V W : ity) (u v w : Z) : bool :=
  if Bool.eqb (sg T) (sg U) && Bool.eqb (sg T) (sg V) && Bool.eqb (sg T) (sg W)
  then (v <? w) && (w <=? hi T)                                               (* bv 77-80 *)
  else if negb (sg T)
  then (if sg U then 0 <=? u else true)                                       (* bv 116, 197 *)
       && (0 <=? v) && (0 <=? w) && (w <=? hi T) && (v <? w)                  (* bv 117-121, 156-162, 198-204 *)
  else if sg V && sg W
  then (lo T <=? v) && (w <=? hi T) && (v <? w) && (u <=? hi T)               (* bv 238-241 *)
  else (if v <? 0 then lo T <=? v else true)                                  (* bv 275-278, 319-322 *)
       && (if 0 <? w then w <=? hi T else true)                               (* bv 279-282, 323-326 *)
       && (if (0 <? w) && (0 <? v) then v <? w else true).                    (* bv 283-285, 327-329 *)

(** The constructors (bv 67-333): the members are cast first, then the asserts, then checkRange_ of the uncast value against the
    members. *)
Definition construct (T U V W : ity) (u v w : Z) : outcome bv :=
  let b := mkBv (cast T u) (cast T v) (cast T w) in
  if asked_ok T U V W u v w then (if in_bounds b u then Done b else Asserted) else Asserted.

(** Conversion from BoundedValue<U> to BoundedValue<T> (bv 368-418) and assignment of one (bv 437-493). *)
Definition convert (T U : ity) (r : bv) : outcome bv :=
  let b := mkBv (cast T (val r)) (cast T (lower r)) (cast T (upper r)) in
  if Bool.eqb (sg T) (sg U) then (if (lo T <=? lower r) && (upper r <=? hi T) then Done b else Asserted)
  else if sg T then (if upper r <=? cast U (hi T) then Done b else Asserted)
  else if (0 <=? val r) && ((0 <=? lower r) && (lo T <=? cast T (lower r))) && ((0 <=? upper r) && (cast T (upper r) <=? hi T))
       then Done b else Asserted.

(** operator=(U value) (bv 513-520). *)
Definition assign (T : ity) (b : bv) (u : Z) : outcome bv :=
  if in_bounds b u then Done (mkBv (cast T u) (lower b) (upper b)) else Asserted.

(** operator++ and operator-- (bv 539-572): value_ + 1 is computed in the promoted type. The postfix forms change the
    value in the same way. *)
Definition inc (T : ity) (b : bv) : outcome bv :=
  if val b <? upper b
  then obind (arith (prom T) (val b + 1)) (fun x =>
       if in_bounds b x then Done (mkBv (cast T (val b + 1)) (lower b) (upper b)) else Asserted)
  else Asserted.
Definition dec (T : ity) (b : bv) : outcome bv :=
  if lower b <? val b
  then obind (arith (prom T) (val b - 1)) (fun x =>
       if in_bounds b x then Done (mkBv (cast T (val b - 1)) (lower b) (upper b)) else Asserted)
  else Asserted.

(** value_ += value and value_ -= value on the plain integers (bv 585, 591, 606, 612). *)
Definition store_add (T U : ity) (b : bv) (u : Z) : outcome bv :=
  let c := common T U in
  obind (arith c (cast c (val b) + cast c u)) (fun r => Done (mkBv (cast T r) (lower b) (upper b))).
Definition store_sub (T U : ity) (b : bv) (u : Z) : outcome bv :=
  let c := common T U in
  obind (arith c (cast c (val b) - cast c u)) (fun r => Done (mkBv (cast T r) (lower b) (upper b))).

(** operator+= (bv 578-593) and operator-= (bv 599-614) with a value of type U. *)
Definition plus (T U : ity) (b : bv) (u : Z) : outcome bv :=
  if 0 <=? u
  then obind (arith (prom T) (upper b - val b)) (fun rem => if u64 u <=? u64 rem then store_add T U b u else Asserted)
  else obind (arith (prom T) (val b - lower b)) (fun rem =>
       obind (arith (prom U) (- u)) (fun n => if u64 n <=? u64 rem then store_add T U b u else Asserted)).
Definition minus (T U : ity) (b : bv) (u : Z) : outcome bv :=
  if 0 <=? u
  then obind (arith (prom T) (val b - lower b)) (fun rem => if u64 u <=? u64 rem then store_sub T U b u else Asserted)
  else obind (arith (prom T) (upper b - val b)) (fun rem =>
       obind (arith (prom U) (- u)) (fun n => if u64 n <=? u64 rem then store_sub T U b u else Asserted)).

(** Writing through the reference that operator value_type& gives (bv 676-678), as the built-in *=, <<= or |= do on a BoundedValue: the new
    value is stored as it is. *)
Definition through_ref (T : ity) (b : bv) (x : Z) : bv := mkBv (cast T x) (lower b) (upper b).

(** Operations of a user, with operands of any integer type (bv 513-614). *)
Inductive op := Assign (U : ity) (u : Z) | Inc | Dec | Plus (U : ity) (u : Z) | Minus (U : ity) (u : Z).
Definition act (T : ity) (o : op) (b : bv) : outcome bv :=
  match o with
  | Assign U u => assign T b u
  | Inc => inc T b
  | Dec => dec T b
  | Plus U u => plus T U b u
  | Minus U u => minus T U b u
  end.
Fixpoint run (T : ity) (os : list op) (b : bv) : outcome bv :=
  match os with [] => Done b | o :: r => obind (act T o b) (run T r) end.
