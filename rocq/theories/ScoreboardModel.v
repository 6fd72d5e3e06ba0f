(** Model of sparta::Scoreboard and ScoreboardView. Sources: /repo/sparta/src/Scoreboard.cpp and /repo/sparta/sparta/resources/Scoreboard.hpp ("hpp").
    A RegisterBitMask is a number below 2^512. Views are numbered in the order of their creation, units as in unit_name_to_id_; finding the
    scoreboard in the tree, the parsing of the parameter strings and their validation are left out. A callback is an identity; it does not call
    back into the scoreboard. Time is a cycle count; an update in flight is delivered by a step of its own in its cycle, between any other steps
    of that cycle, and time does not move on while one is due. [None] is a failed assertion or a step that cannot happen. *)
From Coq Require Import List NArith ZArith Bool.
Import ListNotations.
Open Scope N_scope.

(** A callback waiting in a view, CallbackData (hpp 299-315); registered_time is not used by the code. *)
Record cb := mkCb { c_need : N; c_inst : N; c_id : N }.
(** ScoreboardView (hpp 193-324): unit_id_, local_ready_mask_, ready_callbacks_. *)
Record view := mkV { v_unit : N; v_mask : N; v_cbs : list cb }.
(** ScoreboardViewUpdate (hpp 168-180) with the cycle it is due in. *)
Record upd := mkU { u_due : N; u_view : nat; u_bits : N }.
(** One invocation of a callback: cycle, view, callback, the bits passed. *)
Record call := mkC { k_cycle : N; k_view : nat; k_cb : cb; k_bits : N }.
(** Scoreboard (hpp 41-183): global_reg_ready_mask_, forwarding_latencies_ by producer and consumer, the views,
    unit_id_to_scoreboard_views_, producer_to_consumer_scoreboard_views_, the scheduled scoreboard_view_updates_, the current cycle and what was called. *)
Record sb := mkB {
  b_mask : N; b_lat : list (list N); b_views : list view; b_units : list (list nat); b_cons : list (list (nat * N)); b_fly : list upd; b_now : N; b_log : list call }.

(** INVALID_LATENCY (hpp 48). *)
Definition no_latency : N := 2 ^ 32 - 1.
(** Conversion of an entry of the table, std::stol into uint32_t (134-136). *)
Definition latency_of (z : Z) : N := Z.to_N (z mod 2 ^ 32).
(** Constructor (95-148) with the initial mask (hpp 140). The rows have as many entries as there are rows (45-55). *)
Definition b_init (table : list (list Z)) : option sb :=
  if forallb (fun r => Nat.eqb (length r) (length table)) table
  then Some (mkB (2 ^ 32 - 1) (map (map latency_of) table) [] (map (fun _ => []) table) (map (fun _ => []) table) [] 0 [])
  else None.

(** isSet (193-195, hpp 242-245). *)
Definition is_set (mask bits : N) : bool := N.land mask bits =? bits.
(** The loop of receiveScoreboardUpdate_ (262-274): the callbacks that stay and those that are called. *)
Fixpoint ready_cbs (mask : N) (l : list cb) : list cb * list cb :=
  match l with
  | [] => ([], [])
  | c :: r => let (stay, go) := ready_cbs mask r in if is_set mask (c_need c) then (stay, c :: go) else (c :: stay, go)
  end.
(** Replacing an element of a vector. *)
Fixpoint put {B} (l : list B) (i : nat) (x : B) : list B :=
  match l, i with [], _ => [] | _ :: r, O => x :: r | y :: r, S j => y :: put r j x end.
(** receiveScoreboardUpdate_ (253-275) of view [i]. *)
Definition receive (b : sb) (i : nat) (bits : N) : option sb :=
  match nth_error (b_views b) i with
  | None => None
  | Some v =>
      if bits =? 0 then None
      else let m := N.lor (v_mask v) bits in
           let (stay, go) := ready_cbs m (v_cbs v) in
           Some (mkB (b_mask b) (b_lat b) (put (b_views b) i (mkV (v_unit v) m stay)) (b_units b) (b_cons b) (b_fly b) (b_now b)
                     (b_log b ++ map (fun c => mkC (b_now b) i c bits) go))
  end.
(** Several receives, in order. *)
Fixpoint receives (b : sb) (l : list nat) (bits : N) : option sb :=
  match l with [] => Some b | i :: r => match receive b i bits with Some b' => receives b' r bits | None => None end end.
(** global_reg_ready_mask_ |= bits. *)
Definition or_mask (b : sb) (bits : N) : sb := mkB (N.lor (b_mask b) bits) (b_lat b) (b_views b) (b_units b) (b_cons b) (b_fly b) (b_now b) (b_log b).
(** set without a producer (150-161). *)
Definition set_all (b : sb) (bits : N) : option sb := option_map (fun b' => or_mask b' bits) (receives b (concat (b_units b)) bits).
(** The loop of set with a producer (168-176). *)
Fixpoint forward (b : sb) (l : list (nat * N)) (bits : N) : option sb :=
  match l with
  | [] => Some b
  | (i, lat) :: r =>
      if lat =? 0 then match receive b i bits with Some b' => forward b' r bits | None => None end
      else forward (mkB (b_mask b) (b_lat b) (b_views b) (b_units b) (b_cons b) (b_fly b ++ [mkU (b_now b + lat) i bits]) (b_now b) (b_log b)) r bits
  end.
(** set with a producer (163-178). *)
Definition set_from (b : sb) (bits : N) (u : nat) : option sb :=
  match nth_error (b_cons b) u with
  | None => None
  | Some l => option_map (fun b' => or_mask b' bits) (forward b l bits)
  end.
(** clearBits (180-191) with clearBits_ of the views (362-365). *)
Definition clear_bits (b : sb) (bits : N) : sb :=
  mkB (N.ldiff (b_mask b) bits) (b_lat b)
      (fold_left (fun vs i => match nth_error vs i with Some v => put vs i (mkV (v_unit v) (N.ldiff (v_mask v) bits) (v_cbs v)) | None => vs end) (concat (b_units b)) (b_views b))
      (b_units b) (b_cons b) (b_fly b) (b_now b) (b_log b).
(** The loop of registerView over the producers (212-218). *)
Definition add_consumer (i u : nat) (rows : list (list N)) (cons : list (list (nat * N))) : list (list (nat * N)) :=
  map (fun rc => match nth_error (fst rc) u with
                 | Some lat => if lat =? no_latency then snd rc else snd rc ++ [(i, lat)]
                 | None => snd rc end) (combine rows cons).
(** Creation of a view: local_ready_mask_ (hpp 294), then registerView (197-220). *)
Definition new_view (b : sb) (u : nat) : option sb :=
  match nth_error (b_units b) u with
  | None => None
  | Some vs =>
      let i := length (b_views b) in
      let b1 := mkB (b_mask b) (b_lat b) (b_views b ++ [mkV (N.of_nat u) (2 ^ 32 - 1) []]) (put (b_units b) u (vs ++ [i])) (b_cons b) (b_fly b) (b_now b) (b_log b) in
      match receive b1 i (b_mask b1) with
      | None => None
      | Some b2 => Some (mkB (b_mask b2) (b_lat b2) (b_views b2) (b_units b2) (add_consumer i u (b_lat b2) (b_cons b2)) (b_fly b2) (b_now b2) (b_log b2))
      end
  end.
(** Replacing the callbacks of a view. *)
Definition with_cbs (b : sb) (i : nat) (f : list cb -> list cb) : option sb :=
  option_map (fun v => mkB (b_mask b) (b_lat b) (put (b_views b) i (mkV (v_unit v) (v_mask v) (f (v_cbs v)))) (b_units b) (b_cons b) (b_fly b) (b_now b) (b_log b))
             (nth_error (b_views b) i).
(** The first update that is due. *)
Fixpoint take_due (now : N) (l : list upd) : option (upd * list upd) :=
  match l with
  | [] => None
  | u :: r => if u_due u =? now then Some (u, r) else option_map (fun x => (fst x, u :: snd x)) (take_due now r)
  end.
(** The scheduler firing scoreboard_view_updates_ (deliverScoreboardUpdate_, 224-227). *)
Definition deliver (b : sb) : option sb :=
  match take_due (b_now b) (b_fly b) with
  | None => None
  | Some (u, r) => receive (mkB (b_mask b) (b_lat b) (b_views b) (b_units b) (b_cons b) r (b_now b) (b_log b)) (u_view u) (u_bits u)
  end.
(** The next cycle; every update due now has been delivered. *)
Definition tick (b : sb) : option sb :=
  match take_due (b_now b) (b_fly b) with
  | Some _ => None
  | None => Some (mkB (b_mask b) (b_lat b) (b_views b) (b_units b) (b_cons b) (b_fly b) (b_now b + 1) (b_log b))
  end.

(** The calls. *)
Inductive sop :=
| SSet (bits : N) | SSetFrom (bits : N) (u : nat) | SReady (i : nat) (bits : N) | SClear (bits : N) | SView (u : nat)
| SCallback (i : nat) (bits inst id : N) | SClearCb (i : nat) (inst : N) | SDeliver | STick.
(** set (150, 163), setReady (244-251), clearBits (180), the constructor of a view (233-241), registerReadyCallback (277-282), clearCallbacks (284-302). *)
Definition sstep (b : sb) (o : sop) : option sb :=
  match o with
  | SSet bits => set_all b bits
  | SSetFrom bits u => set_from b bits u
  | SReady i bits =>
      match nth_error (b_views b) i with
      | None => None
      | Some v => if bits =? 0 then Some b else set_from b bits (N.to_nat (v_unit v))
      end
  | SClear bits => Some (clear_bits b bits)
  | SView u => new_view b u
  | SCallback i bits inst id => with_cbs b i (fun l => l ++ [mkCb bits inst id])
  | SClearCb i inst => with_cbs b i (filter (fun c => negb (c_inst c =? inst)))
  | SDeliver => deliver b
  | STick => tick b
  end.
(** A sequence of calls. *)
Fixpoint srun (b : sb) (ops : list sop) : option sb :=
  match ops with [] => Some b | o :: r => match sstep b o with Some b' => srun b' r | None => None end end.

(** printBitSet (367-405): the ranges written, a range being its start and, if written, its end. [v]: the next bit, [fuel] the bits left,
    [start]: the start of the open range. *)
Fixpoint print_ranges (bits : N) (v : N) (fuel : nat) (start : option N) : list (N * option N) :=
  match fuel with
  | O => match start with Some s => [(s, None)] | None => [] end
  | S f =>
      if N.testbit bits v then print_ranges bits (v + 1) f (match start with Some s => Some s | None => Some v end)
      else match start with
           | Some s => (s, if s + 1 =? v then None else Some (v - 1)) :: print_ranges bits (v + 1) f None
           | None => print_ranges bits (v + 1) f None
           end
  end.
(** printBitSet of a RegisterBitMask (hpp 49: 512 bits). *)
Definition print_bits (bits : N) : list (N * option N) := print_ranges bits 0 512 None.
