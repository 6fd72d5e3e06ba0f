(** Model of sparta::DataOutPort and DataInPort. Sources: /repo/sparta/sparta/ports/DataPort.hpp (no prefix), Port.hpp ("port"),
    /repo/sparta/sparta/utils/DataContainer.hpp ("dc").
    The scheduler is reduced to what its own model shows: a payload is delivered at its tick, in the phase of its port, payloads of one port and tick
    in the order of their scheduling; deliveries to different ports of one phase in any order. What handlers do are further steps. The limit on
    payloads in flight (PayloadModel), pipeline collection and the watch dog are left out, ticks do not wrap around. [None]: a failed assertion, or a
    step that cannot happen. *)
From Coq Require Import List NArith Bool.
Import ListNotations.
Open Scope N_scope.

Section DP.
Context {A : Type}.

(** DataInPort: port_delay_ (551), the phase of user_payload_delivery_ (525) and the period of receiver_clock_ (531). *)
Record inport := mkIn { n_delay : N; n_phase : nat; n_period : N }.
(** The ports and, for every DataOutPort, its bound_in_ports_ (240), without repetitions (port 588-590). *)
Record dcfg := mkDC { d_in : list inport; d_bound : list (list nat) }.
(** A payload on the scheduler. *)
Record slot := mkSlot { sl_due : N; sl_port : nat; sl_dat : A }.
(** One call of the consumer's handler. *)
Record got := mkGot { g_tick : N; g_port : nat; g_dat : A }.
(** Current tick and phase, the payloads in order of scheduling, what the handlers were given, and data_ with data_valid_time_stamp_ (dc 115-118) of
    every port. *)
Record dst := mkD { d_now : N; d_phase : nat; d_pend : list slot; d_log : list got; d_data : list (option (A * N)) }.
(** After construction. *)
Definition d_init (c : dcfg) : dst := mkD 0 0 [] [] (map (fun _ => None) (d_in c)).

(** Replacing an element of a vector. *)
Fixpoint put {B} (l : list B) (i : nat) (x : B) : list B :=
  match l, i with [], _ => [] | _ :: r, O => x :: r | y :: r, S j => y :: put r j x end.
(** receivePortData_ (537-548) with setData_ (dc 107-110). *)
Definition receive (s : dst) (p : nat) (x : A) : dst :=
  mkD (d_now s) (d_phase s) (d_pend s) (d_log s ++ [mkGot (d_now s) p x]) (put (d_data s) p (Some (x, d_now s))).
(** total_delay (506): the sum as a uint32_t. *)
Definition total_delay (rel delay : N) : N := (rel + delay) mod 2 ^ 32.
(** send_ of the DataInPort (504-519) with checkSchedulerPhaseForZeroCycleDelivery_ (port 456-474). *)
Definition send_in (c : dcfg) (s : dst) (x : A) (rel : N) (p : nat) : option dst :=
  match nth_error (d_in c) p with
  | None => None
  | Some n =>
      let total := total_delay rel (n_delay n) in
      if (total =? 0) && Nat.ltb (n_phase n) (d_phase s) then None
      else if (total =? 0) && Nat.eqb (n_phase n) (d_phase s) then Some (receive s p x)
      else Some (mkD (d_now s) (d_phase s) (d_pend s ++ [mkSlot (d_now s + total * n_period n) p x]) (d_log s) (d_data s))
  end.
(** The loop of send (149-151). *)
Fixpoint send_all (c : dcfg) (s : dst) (x : A) (rel : N) (l : list nat) : option dst :=
  match l with [] => Some s | p :: r => match send_in c s x rel p with Some s' => send_all c s' x rel r | None => None end end.
(** send of the DataOutPort (145-152). *)
Definition d_send (c : dcfg) (s : dst) (o : nat) (x : A) (rel : N) : option dst :=
  match nth_error (d_bound c) o with
  | None | Some [] => None
  | Some l => send_all c s x rel l
  end.
(** cancelIf of the DataOutPort (212-218, 230-236) over cancelIf of its DataInPorts (425-427, 439-441), and cancel (193-200, 411-413) with the constant
    true; with the number returned, cancel_cnt. *)
Definition hit (ps : list nat) (f : A -> bool) (sl : slot) : bool := existsb (Nat.eqb (sl_port sl)) ps && f (sl_dat sl).
Definition d_cancel (c : dcfg) (s : dst) (o : nat) (f : A -> bool) : option (dst * nat) :=
  match nth_error (d_bound c) o with
  | None => None
  | Some l => Some (mkD (d_now s) (d_phase s) (filter (fun sl => negb (hit l f sl)) (d_pend s)) (d_log s) (d_data s), length (filter (hit l f) (d_pend s)))
  end.
(** isDriven of the DataOutPort (176-183) over isDriven of its DataInPorts (399-401). *)
Definition d_driven (c : dcfg) (s : dst) (o : nat) : bool :=
  match nth_error (d_bound c) o with
  | None => false
  | Some l => existsb (fun p => existsb (fun sl => Nat.eqb (sl_port sl) p) (d_pend s)) l
  end.

(** The first payload of port [p] due now. *)
Fixpoint take_slot (now : N) (p : nat) (l : list slot) : option (slot * list slot) :=
  match l with
  | [] => None
  | sl :: r => if (sl_due sl =? now) && Nat.eqb (sl_port sl) p then Some (sl, r) else option_map (fun x => (fst x, sl :: snd x)) (take_slot now p r)
  end.
(** Phase of the port of a payload. *)
Definition slot_phase (c : dcfg) (sl : slot) : nat := match nth_error (d_in c) (sl_port sl) with Some n => n_phase n | None => 0 end.

(** Calls of the ports and moves of the scheduler. *)
Inductive dop := DSend (o : nat) (x : A) (rel : N) | DCancel (o : nat) (f : A -> bool) | DFire (p : nat) | DPhase (q : nat) | DTime (t : N) | DPull (p : nat).
(** send (145), cancelIf (230), the scheduler firing a payload (receivePortData_ 537), moving on to a later phase or to a later tick when nothing is left before
    it, and pullData (dc 72-77) or clearData (dc 90-92). *)
Definition dstep (c : dcfg) (s : dst) (op : dop) : option dst :=
  match op with
  | DSend o x rel => d_send c s o x rel
  | DCancel o f => option_map fst (d_cancel c s o f)
  | DFire p =>
      match nth_error (d_in c) p with
      | None => None
      | Some n =>
          if Nat.eqb (n_phase n) (d_phase s) then
            match take_slot (d_now s) p (d_pend s) with
            | None => None
            | Some (sl, r) => Some (receive (mkD (d_now s) (d_phase s) r (d_log s) (d_data s)) p (sl_dat sl))
            end
          else None
      end
  | DPhase q =>
      if Nat.ltb (d_phase s) q && forallb (fun sl => negb (sl_due sl =? d_now s) || Nat.leb q (slot_phase c sl)) (d_pend s)
      then Some (mkD (d_now s) q (d_pend s) (d_log s) (d_data s)) else None
  | DTime t =>
      if (d_now s <? t) && forallb (fun sl => t <=? sl_due sl) (d_pend s) then Some (mkD t 0 (d_pend s) (d_log s) (d_data s)) else None
  | DPull p => Some (mkD (d_now s) (d_phase s) (d_pend s) (d_log s) (put (d_data s) p None))
  end.
(** An execution. *)
Fixpoint drun (c : dcfg) (s : dst) (ops : list dop) : option dst :=
  match ops with [] => Some s | o :: r => match dstep c s o with Some s' => drun c s' r | None => None end end.

(** dataReceived (dc 48-50), dataReceivedThisCycle (dc 59-62), peekData (dc 84-87; [None]: the assertion). *)
Definition received (s : dst) (p : nat) : bool := match nth_error (d_data s) p with Some (Some _) => true | _ => false end.
Definition received_now (s : dst) (p : nat) : bool := match nth_error (d_data s) p with Some (Some (_, t)) => t =? d_now s | _ => false end.
Definition peek (s : dst) (p : nat) : option A := match nth_error (d_data s) p with Some (Some (x, _)) => Some x | _ => None end.
End DP.
Arguments dst : clear implicits.
Arguments slot : clear implicits.
Arguments got : clear implicits.
Arguments dop : clear implicits.
