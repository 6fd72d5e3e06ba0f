(* Model of the clock arithmetic of sparta/sparta/simulation/Clock.hpp and
   sparta/sparta/simulation/ClockManager.hpp. *)
Require Import NArith Bool List.
Require Import Verif.MathUtilsModel Verif.RationalModel.
Import ListNotations.
Open Scope N_scope.

(* Outcomes of a modelled C++ call: normal value, failed sparta_assert (an exception, Clock.hpp:401,
   :450), or undefined behaviour (division by a zero period). *)
Inductive res (A : Type) := Ok (a : A) | AssertFail | Undefined.
Arguments Ok {A} a.
Arguments AssertFail {A}.
Arguments Undefined {A}.

(* 64-bit tick arithmetic; Scheduler::Tick is uint64_t (sparta/sparta/kernel/Scheduler.hpp). *)
Definition W64 (x : N) : N := x mod 2 ^ 64.
(* uint64_t subtraction, e.g. Clock.hpp:410, :455. *)
Definition sub64 (a b : N) : N := W64 (a + (2 ^ 64 - W64 b)).

(* Clock.hpp:371-414, calculateClockCrossingDelay. The clocks are represented by their periods and the
   scheduler by its current tick; the null-pointer and same-scheduler asserts (374-383) are assumed to
   pass. *)
Definition crossing_delay (current src_delay src_period dst_delay dst_period : N) : res N :=
  if src_period =? 0 then Undefined else
  if negb (W64 (current / src_period * src_period) =? current) then AssertFail else
  let num := W64 (src_delay + dst_delay) in
  let raw_arrival := W64 (current + num) in
  if dst_period =? 0 then Undefined else
  let raw_posedge := W64 (raw_arrival / dst_period * dst_period) in
  if raw_arrival =? raw_posedge then Ok num else
  if negb (raw_posedge <? raw_arrival) then AssertFail else
  Ok (W64 (num + sub64 dst_period (sub64 raw_arrival raw_posedge))).

(* Clock.hpp:430-467, calculateReverseClockCrossingDelay (same simplifications). *)
Definition reverse_crossing_delay (arrival src_delay src_period dst_delay dst_period : N) : res N :=
  if dst_period =? 0 then Undefined else
  if negb (arrival =? W64 (arrival / dst_period * dst_period)) then AssertFail else
  let rel := W64 (src_delay + dst_delay) in
  let raw_sent := sub64 arrival rel in
  if src_period =? 0 then Undefined else
  let raw_posedge := W64 (raw_sent / src_period * src_period) in
  if raw_sent =? raw_posedge then Ok rel else
  if negb (raw_posedge <? raw_sent) then AssertFail else
  Ok (W64 (rel + sub64 raw_sent raw_posedge)).

(* Clock.hpp:159-162, getCycle(tick) (division by a zero period is undefined). *)
Definition get_cycle (period tick : N) : res N := if period =? 0 then Undefined else Ok (tick / period).
(* Clock.hpp:207-210, getTick(cycle). *)
Definition get_tick (period cycle : N) : N := W64 (cycle * period).
(* Clock.hpp:240-243, isPosedge at the given current tick. *)
Definition is_posedge (period tick : N) : res bool :=
  if period =? 0 then Undefined else Ok (tick mod period =? 0).

(* A clock tree as the user builds it: ClockManager.hpp:58-89 makeRoot / makeClock(name, parent, p_rat,
   c_rat). The root's own numbers are ignored. Names and the clock list order are not modelled: the list
   clist_ holds exactly the clocks of the tree. *)
Inductive ctree := CT (p c : N) (kids : list ctree).

(* The tree annotated with root_ratio_ (Clock.hpp:321). *)
Inductive rtree := RT (rr : rational) (kids : list rtree).

(* The tree annotated with period_ (Clock.hpp:322). *)
Inductive ptree := PT (per : N) (kids : list ptree).

(* Clock.cpp:70-76 setRatio then Clock.hpp:121-123: the root ratio of a child from p_rat, c_rat and the
   root ratio of its parent. [None] is a failed assert on a zero denominator. *)
Definition child_root_ratio (p c : N) (parent_rr : rational) : option rational :=
  match mk 32 p c with
  | None => None
  | Some parent_ratio =>
      match rinv 32 parent_ratio with
      | None => None
      | Some i => rmul 32 i parent_rr
      end
  end.

(* Clock.hpp:126-128, the loop over the children in calcNorm, carrying the running partial norm;
   [calc] is the recursive call on a child whose root ratio (Clock.hpp:121-123) is given. *)
Definition kids_norm (calc : rational -> N -> ctree -> option (rtree * N)) (rr : rational) :=
  fix go (ks : list ctree) (pn : N) : option (list rtree * N) :=
    match ks with
    | [] => Some ([], pn)
    | (CT p c _ as k) :: ks' =>
        match child_root_ratio p c rr with
        | None => None
        | Some krr =>
            match calc krr pn k with
            | None => None
            | Some (kt, kn) =>
                match lcm32 pn kn with
                | None => None
                | Some pn' =>
                    match go ks' pn' with
                    | None => None
                    | Some (kts, n) => Some (kt :: kts, n)
                    end
                end
            end
        end
    end.

(* Clock.hpp:119-130, calcNorm, for a clock whose (already computed) root ratio is [rr]. *)
Fixpoint calc_norm (rr : rational) (partial : N) (t : ctree) {struct t} : option (rtree * N) :=
  match t with
  | CT _ _ kids =>
      match lcm32 partial (rd rr) with
      | None => None
      | Some pn0 =>
          match kids_norm calc_norm rr kids pn0 with
          | None => None
          | Some (kts, n) => Some (RT rr kts, n)
          end
      end
  end.

(* Clock.hpp:138-143, setPeriod, with the conversion operator of Rational.hpp:45-49 that asserts an
   integral value. *)
Definition set_period (rr : rational) (norm : N) : option N :=
  match rmul 32 rr (Rat norm 1) with
  | None => None
  | Some r => if rd r =? 1 then Some (rn r) else None
  end.

(* ClockManager.hpp:116-118: set the period of each clock in a list of subtrees. *)
Definition kids_periods (setp : rtree -> option ptree) :=
  fix go (ks : list rtree) : option (list ptree) :=
    match ks with
    | [] => Some []
    | k :: ks' =>
        match setp k with
        | None => None
        | Some pk => match go ks' with None => None | Some pks => Some (pk :: pks) end
        end
    end.

(* ClockManager.hpp:116-118: set every clock's period. *)
Fixpoint set_periods (norm : N) (t : rtree) : option ptree :=
  match t with
  | RT rr kids =>
      match set_period rr norm with
      | None => None
      | Some per =>
          match kids_periods (set_periods norm) kids with
          | None => None
          | Some pks => Some (PT per pks)
          end
      end
  end.

(* ClockManager.hpp:103-127, normalize, without explicit frequencies (lines 107-110 not modelled).
   The root clock has root_ratio_ = 1 (Clock.hpp:321). *)
Definition normalize (t : ctree) : option (N * ptree) :=
  match calc_norm (Rat 1 1) 1 t with
  | None => None
  | Some (rt, norm) =>
      match set_periods norm rt with None => None | Some pt => Some (norm, pt) end
  end.
