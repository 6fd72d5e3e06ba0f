(** Signals: sparta::SignalOutPort and SignalInPort.

    Sources (below /repo/sparta/sparta): ports/SignalPort.hpp ("sp"),
    ports/Port.hpp ("port"), events/PhasedUniqueEvent.hpp ("pue"),
    utils/DataContainer.hpp ("dc").

    Simplifications: the scheduler is reduced to what its own model shows
    (SchedModel): a unique event that is pending for a tick is not put there a
    second time, fires at that tick in its phase, events of one phase fire in
    any order. What handlers do are further steps. Ticks do not wrap around.
    The ports and their bindings are the records of DataPortModel. [None]: a
    failed assertion, or a step that cannot happen. *)
From Coq Require Import List NArith Bool Arith.
From Verif Require Import DataPortModel.
Import ListNotations.
Open Scope N_scope.

(** Current tick and phase; the ticks for which user_signal_delivery_ of a port
    is on the scheduler (sp 321); its last_tick_called_ (pue 135); the calls of
    the handlers, the last one first; data_valid_time_stamp_ (dc 115-118). *)
Record sst := mkS {
  s_now : N; s_phase : nat;
  s_pend : list (N * nat);
  s_last : nat -> option N;
  s_log : list (N * nat);
  s_stamp : nat -> option N }.

(** After construction. *)
Definition s_init : sst := mkS 0 0 [] (fun _ => None) [] (fun _ => None).

(** Assignment to one place of a function. *)
Definition fset {A} (f : nat -> A) (i : nat) (v : A) : nat -> A :=
  fun j => if Nat.eqb j i then v else f j.

(** Equality of pairs. *)
Definition same (a b : N * nat) : bool := (fst a =? fst b) && Nat.eqb (snd a) (snd b).

(** receiveSignal_ (sp 303-309) with setData_ (dc 107-110). *)
Definition receive_signal (s : sst) (p : nat) : sst :=
  mkS (s_now s) (s_phase s) (s_pend s) (s_last s) ((s_now s, p) :: s_log s)
      (fset (s_stamp s) p (Some (s_now s))).

(** scheduleRelativeTick of the event (pue 90-100): the assertion, then the
    scheduler. *)
Definition schedule (s : sst) (due : N) (p : nat) : option sst :=
  if (match s_last s p with Some t => t =? due | None => false end) then None
  else if existsb (same (due, p)) (s_pend s) then Some s
  else Some (mkS (s_now s) (s_phase s) ((due, p) :: s_pend s) (s_last s) (s_log s) (s_stamp s)).

(** send_ (sp 283-297) with checkSchedulerPhaseForZeroCycleDelivery_ (port
    456-474); total_delay is a uint32_t (sp 285). *)
Definition signal_in (c : dcfg) (s : sst) (rel : N) (p : nat) : option sst :=
  match nth_error (d_in c) p with
  | None => None
  | Some n =>
    let total := (rel + n_delay n) mod 2 ^ 32 in
    if (total =? 0) && Nat.ltb (n_phase n) (s_phase s) then None
    else if (total =? 0) && Nat.eqb (n_phase n) (s_phase s) then Some (receive_signal s p)
    else schedule s (s_now s + total * n_period n) p
  end.

(** The loop of send (sp 353-355). *)
Fixpoint signal_all (c : dcfg) (s : sst) (rel : N) (l : list nat) : option sst :=
  match l with
  | [] => Some s
  | p :: r => match signal_in c s rel p with Some s' => signal_all c s' rel r | None => None end
  end.

(** send (sp 349-356). *)
Definition signal (c : dcfg) (s : sst) (o : nat) (rel : N) : option sst :=
  match nth_error (d_bound c) o with
  | None | Some [] => None
  | Some l => signal_all c s rel l
  end.

(** Without one element. *)
Definition without (a : N * nat) (l : list (N * nat)) : list (N * nat) :=
  filter (fun b => negb (same a b)) l.

(** Phase of a port (sp 158-174). *)
Definition port_phase (c : dcfg) (p : nat) : nat :=
  match nth_error (d_in c) p with Some n => n_phase n | None => 0 end.

(** Calls and moves of the scheduler. *)
Inductive sop := Send (o : nat) (rel : N) | Fire (p : nat) | Phase (q : nat) | Time (t : N).

(** send; the event firing (pue 115-123); moving on to a later phase or tick
    when nothing is left before it. *)
Definition sstep (c : dcfg) (s : sst) (o : sop) : option sst :=
  match o with
  | Send o rel => signal c s o rel
  | Fire p =>
    if Nat.eqb (port_phase c p) (s_phase s) && existsb (same (s_now s, p)) (s_pend s)
    then Some (receive_signal
           (mkS (s_now s) (s_phase s) (without (s_now s, p) (s_pend s))
                (fset (s_last s) p (Some (s_now s))) (s_log s) (s_stamp s)) p)
    else None
  | Phase q =>
    if Nat.ltb (s_phase s) q &&
       forallb (fun a => negb (fst a =? s_now s) || Nat.leb q (port_phase c (snd a))) (s_pend s)
    then Some (mkS (s_now s) q (s_pend s) (s_last s) (s_log s) (s_stamp s)) else None
  | Time t =>
    if (s_now s <? t) && forallb (fun a => t <=? fst a) (s_pend s)
    then Some (mkS t 0 (s_pend s) (s_last s) (s_log s) (s_stamp s)) else None
  end.

(** A history, the latest step first. *)
Fixpoint srun (c : dcfg) (h : list sop) : option sst :=
  match h with
  | [] => Some s_init
  | o :: r => match srun c r with Some s => sstep c s o | None => None end
  end.

(** dataReceivedThisCycle (dc 59-62). *)
Definition signalled_now (s : sst) (p : nat) : bool :=
  match s_stamp s p with Some t => t =? s_now s | None => false end.
