(* Model of sparta/sparta/utils/MathUtils.hpp.
   Machine integers of width w are values of N below 2^w; every place where the
   C++ arithmetic can wrap is written out with [wrap w]. *)
Require Import NArith List Bool.
Import ListNotations.
Open Scope N_scope.

(* Unsigned wrap-around of width w: the implicit reduction of every uintW_t
   expression (no single source line; C++ unsigned arithmetic). *)
Definition wrap (w x : N) : N := x mod 2 ^ w.

(* Unary minus on an unsigned integer, as in "-x" of MathUtils.hpp:51 and :74. *)
Definition uneg (w x : N) : N := wrap w (2 ^ w - x).

(* MathUtils.hpp:41-46, table index32 of log2_lsb<uint32_t>. *)
Definition index32 : list N :=
  [ 0;  1; 28;  2; 29; 14; 24; 3;
   30; 22; 20; 15; 25; 17;  4; 8;
   31; 27; 13; 23; 21; 19; 16; 7;
   26; 12; 18;  6; 11;  5; 10; 9].

(* MathUtils.hpp:48. 0x077CB531 *)
Definition debruijn32 : N := 125613361.

(* MathUtils.hpp:35-51, log2_lsb<uint32_t>. Reading outside the table would be
   undefined behaviour; the shifted index is below 32, so the default of [nth]
   is never used. *)
Definition log2_lsb32 (x : N) : N :=
  nth (N.to_nat (N.shiftr (wrap 32 (N.land x (uneg 32 x) * debruijn32)) 27)) index32 0.

(* MathUtils.hpp:60-69, table index64 of log2_lsb<uint64_t>; the same numbers
   are the table "lut" of floor_log2<uint64_t>, MathUtils.hpp:134-142. *)
Definition index64 : list N :=
  [63;  0; 58;  1; 59; 47; 53;  2;
   60; 39; 48; 27; 54; 33; 42;  3;
   61; 51; 37; 40; 49; 18; 28; 20;
   55; 30; 34; 11; 43; 14; 22;  4;
   62; 57; 46; 52; 38; 26; 32; 41;
   50; 36; 17; 19; 29; 10; 13; 21;
   56; 45; 25; 31; 35; 16;  9; 12;
   44; 24; 15;  8; 23;  7;  6;  5].

(* MathUtils.hpp:71 and :150. 0x07EDD5E59A4E28C2 *)
Definition debruijn64 : N := 571347909858961602.

(* MathUtils.hpp:54-74, log2_lsb<uint64_t>. *)
Definition log2_lsb64 (x : N) : N :=
  nth (N.to_nat (N.shiftr (wrap 64 (N.land x (uneg 64 x) * debruijn64)) 58)) index64 0.

(* MathUtils.hpp:76-88, the generic iterative floor_log2; [fuel] is the number of
   value bits of the type, after which x has become 0. *)
Fixpoint floor_log2_iter (fuel : nat) (x y : N) : N :=
  match fuel with
  | O => y
  | S f => let x' := N.shiftr x 1 in
           if x' =? 0 then y else floor_log2_iter f x' (y + 1)
  end.

(* MathUtils.hpp:108-112, table lut of floor_log2<uint32_t>. *)
Definition lut32 : list N :=
  [ 0;  9;  1; 10; 13; 21;  2; 29;
   11; 14; 16; 18; 22; 25;  3; 30;
    8; 12; 20; 28; 15; 17; 24;  7;
   19; 27; 23;  6; 26;  5;  4; 31].

(* One line "x |= x >> s" of MathUtils.hpp:114-118 and :144-149. *)
Definition smear1 (x s : N) : N := N.lor x (N.shiftr x s).

(* MathUtils.hpp:97-120, floor_log2<uint32_t>. 0x07C4ACDD; the product is a 64-bit
   value (suffix ul) cut to 32 bits by the cast. *)
Definition floor_log2_32 (x : N) : N :=
  if x =? 0 then 0 else
  let x := smear1 x 1 in
  let x := smear1 x 2 in
  let x := smear1 x 4 in
  let x := smear1 x 8 in
  let x := smear1 x 16 in
  nth (N.to_nat (N.shiftr (wrap 32 (wrap 64 (x * 130329821))) 27)) lut32 0.

(* MathUtils.hpp:122-151, floor_log2<uint64_t>. *)
Definition floor_log2_64 (x : N) : N :=
  if x =? 0 then 0 else
  let x := smear1 x 1 in
  let x := smear1 x 2 in
  let x := smear1 x 4 in
  let x := smear1 x 8 in
  let x := smear1 x 16 in
  let x := smear1 x 32 in
  nth (N.to_nat (N.shiftr (wrap 64 ((x - N.shiftr x 1) * debruijn64)) 58)) index64 0.

(* MathUtils.hpp:153-162, ceil_log2. The shift count is at most 63. *)
Definition ceil_log2 (x : N) : N :=
  let y := floor_log2_64 x in
  if wrap 64 (N.shiftl 1 y) =? x then y else y + 1.

(* MathUtils.hpp:169-172, is_power_of_2; "x - 1" is evaluated only for x <> 0. *)
Definition is_power_of_2 (x : N) : bool :=
  negb (x =? 0) && (N.land x (x - 1) =? 0).

(* __builtin_clzll on a non-zero 64-bit argument, used at MathUtils.hpp:179
   (specification of the compiler builtin). *)
Definition clzll (x : N) : N := 63 - N.log2 x.

(* MathUtils.hpp:174-180, next_power_of_2. [None] is the undefined shift of a
   64-bit value by 64. *)
Definition next_power_of_2 (v : N) : option N :=
  if v <? 2 then Some 1
  else let s := 64 - clzll (v - 1) in
       if 64 <=? s then None else Some (wrap 64 (N.shiftl 1 s)).

(* MathUtils.hpp:198-220, the specialisations abs<uintW_t> for W = 8,16,32,64:
   sign_mask is all ones when the top bit is set. *)
Definition abs_u (w x : N) : N :=
  let sign_mask := if N.testbit x (w - 1) then N.ones w else 0 in
  N.lxor (wrap w (x + sign_mask)) sign_mask.

(* MathUtils.hpp:247-262 and :282-297, the do-while loop of gcd. [lsb] is
   log2_lsb of the width in question. [None] is "out of fuel". The subtraction
   v - u never wraps because of the preceding swap. *)
Fixpoint gcd_loop (lsb : N -> N) (fuel : nat) (u v : N) : option N :=
  match fuel with
  | O => None
  | S f =>
    let v := N.shiftr v (lsb v) in
    let (u, v) := if v <? u then (v, u) else (u, v) in
    let v := v - u in
    if v =? 0 then Some u else gcd_loop lsb f u v
  end.

(* MathUtils.hpp:232-265 (uint32_t) and :267-300 (uint64_t), gcd. *)
Definition gcd_w (w : N) (lsb : N -> N) (u v : N) : option N :=
  if (u =? 0) || (v =? 0) then Some (N.lor u v)
  else
    let shift := lsb (N.lor u v) in
    let u := N.shiftr u shift in
    let u := N.shiftr u (lsb u) in
    let v := N.shiftr v shift in
    match gcd_loop lsb (N.size_nat u + N.size_nat v) u v with
    | None => None
    | Some r => Some (wrap w (N.shiftl r shift))
    end.

(* MathUtils.hpp:232. *)
Definition gcd32 := gcd_w 32 log2_lsb32.
(* MathUtils.hpp:267. *)
Definition gcd64 := gcd_w 64 log2_lsb64.

(* MathUtils.hpp:307-318 (uint32_t) and :320-331 (uint64_t), lcm. [None] also
   stands for the undefined division by zero (u = v = 0). *)
Definition lcm_w (w : N) (gcd : N -> N -> option N) (u v : N) : option N :=
  if u =? 1 then Some v
  else if v =? 1 then Some u
  else match gcd u v with
       | None => None
       | Some g => if g =? 0 then None else Some (wrap w (u / g * v))
       end.

(* MathUtils.hpp:307. *)
Definition lcm32 := lcm_w 32 gcd32.
(* MathUtils.hpp:320. *)
Definition lcm64 := lcm_w 64 gcd64.

(* MathUtils.hpp:343-351, loop of safe_power for an unsigned type of width w;
   [k] is the number of remaining iterations. [None] is the thrown exception. *)
Fixpoint safe_power_loop (w n : N) (k : nat) (result : N) : option N :=
  match k with
  | O => Some result
  | S k' =>
    let old_result := result in
    let result := wrap w (result * n) in
    if result <? old_result then None
    else safe_power_loop w n k' result
  end.

(* MathUtils.hpp:334-353, safe_power for unsigned types. *)
Definition safe_power (w n e : N) : option N :=
  if e =? 0 then Some 1 else safe_power_loop w n (N.to_nat (e - 1)) n.
