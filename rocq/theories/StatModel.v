(** Models of sparta::CycleCounter, CycleHistogramStandalone and BasicHistogram.
    Source: /repo/sparta/sparta/statistics/CycleCounter.hpp (cc below), CycleHistogram.hpp (ch below),
    BasicHistogram.hpp (bh below).
    The clock is an argument: the value of elapsedCycles() at the call. Cycle numbers are assumed not
    to wrap at 64 bits; counts wrap. [None] is a failed assertion or an out-of-range access. *)
From Coq Require Import List NArith ZArith Bool.
From Verif Require Import MathUtilsModel.
Import ListNotations.
Open Scope N_scope.

(** Data members of CycleCounter (cc 311-318): count_, start_count_, mult_, counting_. *)
Record ccount := mkCC { cc_count : N; cc_start : N; cc_mult : N; cc_on : bool }.
(** Initial values (cc 311-318). *)
Definition cc0 : ccount := mkCC 0 0 1 false.
(** startCountingWithMultiplier (cc 187-192). *)
Definition cc_startm (c : ccount) (t m d : N) : option ccount :=
  if cc_on c then None else Some (mkCC (cc_count c) (t + d) m true).
(** startCounting (cc 169-174). *)
Definition cc_begin (c : ccount) (t d : N) : option ccount :=
  if cc_on c then None else Some (mkCC (cc_count c) (t + d) 1 true).
(** stopCounting (cc 207-212). *)
Definition cc_stop (c : ccount) (t d : N) : option ccount :=
  if negb (cc_on c) then None
  else if t + d <? cc_start c then None
  else Some (mkCC ((cc_count c + (t + d - cc_start c) * cc_mult c) mod 2 ^ 64) (cc_start c) (cc_mult c) false).
(** updateCountingMultiplier (cc 199-204). *)
Definition cc_update (c : ccount) (t m : N) : option ccount :=
  if cc_on c then match cc_stop c t 0 with Some c' => cc_startm c' t m 0 | None => None end
  else cc_startm c t m 0.
(** get (cc 239-248). *)
Definition cc_get (c : ccount) (t : N) : N :=
  if cc_on c && (cc_start c <? t) then (cc_count c + (t - cc_start c) * cc_mult c) mod 2 ^ 64 else cc_count c.

(** The calls. *)
Inductive ccop := CStart (d : N) | CStartM (m d : N) | CUpdate (m : N) | CStopC (d : N).
(** One call at time [t]. *)
Definition cc_step (c : ccount) (t : N) (o : ccop) : option ccount :=
  match o with
  | CStart d => cc_begin c t d
  | CStartM m d => cc_startm c t m d
  | CUpdate m => cc_update c t m
  | CStopC d => cc_stop c t d
  end.
(** Calls with their times. *)
Fixpoint cc_run (c : ccount) (l : list (N * ccop)) : option ccount :=
  match l with [] => Some c | (t, o) :: r => match cc_step c t o with Some c' => cc_run c' r | None => None end end.

(** Constructor parameters of CycleHistogramBase (ch 224-243): lower_val_, upper_val_,
    idx_shift_amount_, num_bins_, idle_value_. *)
Record hpar := mkHP { h_lo : N; h_up : N; h_shift : N; h_nbins : N; h_idle : N }.
(** Constructor of CycleHistogramBase (ch 224-243). The conversions of the number of bins to double and
    back are left out (exact below 2^53). *)
Definition h_make (lo up per idle : N) : option hpar :=
  if up <=? lo then None
  else if negb (is_power_of_2 per) then None
  else Some (mkHP lo up (floor_log2_64 per) ((up - lo) / per + 1) idle).
(** The counters: underflow_bin_, overflow_bin_, bin_[i]. *)
Inductive hbin := UF | OF | Bin (i : N).
(** Choice of the counter in startCounting_ and stopCounting_ (ch 281-290, 305-314); [None]: bin_.at throws. *)
Definition h_bin (p : hpar) (v : N) : option hbin :=
  if v <? h_lo p then Some UF
  else if h_up p <? v then Some OF
  else let i := N.shiftr (v - h_lo p) (h_shift p) in if i <? h_nbins p then Some (Bin i) else None.
(** State: counters, total_, last_value_ and max_value_. *)
Record hist := mkH { hs_bin : hbin -> ccount; hs_total : ccount; hs_last : N; hs_max : N }.
(** Identity of counters. *)
Definition bin_eqb (a b : hbin) : bool :=
  match a, b with UF, UF => true | OF, OF => true | Bin i, Bin j => i =? j | _, _ => false end.
(** Assignment to a counter. *)
Definition set_bin (f : hbin -> ccount) (b : hbin) (c : ccount) : hbin -> ccount := fun x => if bin_eqb x b then c else f x.
(** startCounting_ (ch 279-293). *)
Definition h_start (p : hpar) (s : hist) (t v d : N) : option hist :=
  match h_bin p v with
  | None => None
  | Some b => match cc_begin (hs_bin s b) t d with
              | None => None
              | Some c => Some (mkH (set_bin (hs_bin s) b c) (hs_total s) v (hs_max s))
              end
  end.
(** stopCounting_ (ch 303-315). *)
Definition h_stop (p : hpar) (s : hist) (t v d : N) : option hist :=
  match h_bin p v with
  | None => None
  | Some b => match cc_stop (hs_bin s b) t d with
              | None => None
              | Some c => Some (mkH (set_bin (hs_bin s) b c) (hs_total s) (hs_last s) (hs_max s))
              end
  end.
(** updateMaxValues_ (ch 321-326). *)
Definition h_upmax (s : hist) (v : N) : hist :=
  mkH (hs_bin s) (hs_total s) (hs_last s) (if hs_max s <? v then v else hs_max s).
(** setValue (ch 193-201). *)
Definition h_set (p : hpar) (s : hist) (t v : N) : option hist :=
  if hs_last s =? v then Some s
  else match h_stop p s t (hs_last s) 0 with
       | None => None
       | Some s1 => match h_start p s1 t v 0 with None => None | Some s2 => Some (h_upmax s2 v) end
       end.
(** addValue (ch 77-85). *)
Definition h_add (p : hpar) (s : hist) (t v : N) : option hist :=
  match h_stop p s t (hs_last s) 0 with
  | None => None
  | Some s1 =>
    match h_start p s1 t v 0 with
    | None => None
    | Some s2 =>
      match h_stop p s2 t v 1 with
      | None => None
      | Some s3 => match h_start p s3 t (h_idle p) 1 with None => None | Some s4 => Some (h_upmax s4 v) end
      end
    end
  end.
(** Constructor of CycleHistogramStandalone (ch 645-666) at time [t]. *)
Definition h_init (p : hpar) (t : N) : option hist :=
  match cc_begin cc0 t 0 with
  | None => None
  | Some tot => match h_start p (mkH (fun _ => cc0) tot 0 0) t (h_idle p) 0 with
                | None => None
                | Some s => Some (h_upmax s (h_idle p))
                end
  end.
(** The calls. *)
Inductive hop := HSet (v : N) | HAdd (v : N).
(** One call at time [t]. *)
Definition h_step (p : hpar) (s : hist) (t : N) (o : hop) : option hist :=
  match o with HSet v => h_set p s t v | HAdd v => h_add p s t v end.
(** Calls with their times. *)
Fixpoint h_run (p : hpar) (s : hist) (l : list (N * hop)) : option hist :=
  match l with [] => Some s | (t, o) :: r => match h_step p s t o with Some s' => h_run p s' r | None => None end end.
(** Reading a counter at time [t] (ch 145-161). *)
Definition h_get (s : hist) (b : hbin) (t : N) : N := cc_get (hs_bin s b) t.
(** All counters of the histogram (ch 145-161). *)
Definition h_bins (p : hpar) : list hbin := UF :: OF :: map (fun i => Bin (N.of_nat i)) (seq 0 (N.to_nat (h_nbins p))).

(** std::upper_bound (bh 106): index of the first element greater than [v]. *)
Fixpoint upper_bound (l : list Z) (v : Z) : nat :=
  match l with [] => 0%nat | b :: r => if (v <? b)%Z then 0%nat else S (upper_bound r v) end.
(** std::is_sorted (bh 58). *)
Fixpoint is_sorted (l : list Z) : bool :=
  match l with a :: ((b :: _) as r) => (a <=? b)%Z && is_sorted r | _ => true end.
(** ++ctrs_[i]; [None] if there is no such counter. *)
Fixpoint bump (l : list N) (i : nat) : option (list N) :=
  match l, i with
  | [], _ => None
  | c :: r, O => Some ((c + 1) mod 2 ^ 64 :: r)
  | c :: r, S j => option_map (cons c) (bump r j)
  end.
(** Constructor (bh 52-89). *)
Definition bh_make (bs : list Z) : option (list N) := if is_sorted bs then Some (map (fun _ => 0) bs) else None.
(** addValue (bh 103-118); [assert_uf] is ASSERT_ON_UNDERFLOW. *)
Definition bh_add (assert_uf : bool) (bs : list Z) (ctrs : list N) (v : Z) : option (list N) :=
  match upper_bound bs v with
  | O => if assert_uf then None else bump ctrs 0
  | S off => bump ctrs off
  end.
(** Several values. *)
Fixpoint bh_run (assert_uf : bool) (bs : list Z) (ctrs : list N) (vs : list Z) : option (list N) :=
  match vs with [] => Some ctrs | v :: r => match bh_add assert_uf bs ctrs v with Some c => bh_run assert_uf bs c r | None => None end end.
