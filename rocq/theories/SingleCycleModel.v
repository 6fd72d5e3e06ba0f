(** Model of sparta::SingleCycleUniqueEvent on top of the scheduler model.
    Source: /repo/sparta/sparta/events/PhasedSingleCycleUniqueEvent.hpp.
    The assertions inside #ifndef NDEBUG (136-143, 152-160) are left out. *)
From Coq Require Import List NArith Bool.
From Verif Require Import SchedModel.
Import ListNotations.
Open Scope N_scope.

(** Data members (200-212): next_scheduled_tick_, prev_scheduled_tick_ and is_init_tick_. [u_req] is not in
    the code and read by no decision: the ticks asked for by schedule calls that did not throw. *)
Record scu := mkU { u_next : N; u_prev : N; u_init : bool; u_req : list N }.
(** Initial values (200-212). *)
Definition scu0 : scu := mkU 0 0 true [].

(** schedule (120-163) of the event with scheduleable [n] and clock period [P] in ticks, so that
    getTick(1) is [P]; [one] is rel_cycle = 1; larger values fail the assertion at 121. *)
Definition single_schedule (c : cfg) (n : nat) (P : N) (cont : bool) (st : sched * scu) (one : bool) : sched * scu :=
  let (s, u) := st in
  let rel := if one then P else 0 in
  let abs := s_tick s + rel in
  if (u_next u <? abs) || u_init u then
    let (s', ok) := schedule_user c s n rel cont in
    (s', if ok then mkU abs (u_next u) false (abs :: u_req u) else u)
  else if (abs <? u_next u) && negb (u_prev u =? abs) then
    let (s', ok) := schedule_user c s n rel cont in
    (s', if ok then mkU (u_next u) abs (u_init u) (abs :: u_req u) else u)
  else (s, mkU (u_next u) (u_prev u) (u_init u) (abs :: u_req u)).

(** Executions: anything the scheduler model can do, and schedule calls on the event. cancel (93-95)
    is the scheduler call of the same name. *)
Inductive sact := SBase (a : action) | SReq (one : bool).
(** One step; calls happen between runs or in handlers. *)
Definition sstep (c : cfg) (n : nat) (P : N) (cont : bool) (st : sched * scu) (a : sact) : sched * scu :=
  match a with
  | SBase a => (step c (fst st) a, snd st)
  | SReq one => match s_ctl (fst st) with
                | Idle | Handler => single_schedule c n P cont st one
                | _ => st
                end
  end.
(** A whole execution. *)
Definition sexec (c : cfg) (n : nat) (P : N) (cont : bool) (l : list sact) : sched * scu :=
  fold_left (sstep c n P cont) l (init, scu0).
