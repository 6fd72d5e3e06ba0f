(** Cycle and time triggers: CycleTrigger and TimeTrigger of sparta/sparta/trigger/SingleTrigger.hpp ("sg"), TimeTrigger's constructor
    in sparta/src/Trigger.cpp ("tc"), and the part of the scheduler they use: sparta/events/Scheduleable.hpp ("se"), Scheduler.cpp ("sc"),
    Scheduler.hpp ("sh"), Clock.hpp ("ck").

    One trigger. A clock is its period in ticks, 0 for a null pointer. A failed sparta_assert is [Asserted], an exception [Refused].
    [Undefined] is a division by zero, or an event placed at a tick that is over, which breaks the scheduler's order of ticks. *)
From Coq Require Import List NArith Bool.
From Verif Require Import LayoutModel StorageModel.
Import ListNotations.
Open Scope N_scope.

(** What user code does with a trigger: prepAbsolute, prepRelative (clock, cycle or delay; sg 528-549), alignRelative (sg 556-560),
    setAbsolute, setRelative (sg 568-584), set (sg 496-507), deactivate (sg 482-485). *)
Inductive cop := PrepAbs (p t : N) | PrepRel (p d : N) | Align (b : bool) | SetAbs (p t : N) | SetRel (p d : N) | Set_ | Deact.
(** The members (sg 668-679) and has_fired_ (sg 231). [c_ps] is schedule_for_ps_ of a TimeTrigger (sg 856-857), which has no other settings. *)
Record ctr := mkC { c_set : bool; c_sched : bool; c_rel : bool; c_align : bool; c_abs : bool; c_fired : bool;
  c_clk : N; c_when : N; c_delay : N; c_ps : option N }.
(** The trigger and the scheduler: current tick, whether the trigger's firing group is over in this tick (sc 381), whether the
    scheduler is finalized, whether it has been run, the number of startup handlers waiting (sh 913-915), the ticks of the trigger's scheduled
    events, in the order of scheduling, and the ticks in which the callback was called, the latest first. *)
Record cst := mkCS { s_now : N; s_passed : bool; s_fin : bool; s_run : bool; s_start : nat; s_pend : list N; s_c : ctr; s_log : list N }.
(** A new CycleTrigger (sg 451-455). *)
Definition cycle0 : ctr := mkC false false false false false false 0 0 0 None.
(** The state at first. *)
Definition cst0 (c : ctr) : cst := mkCS 0 false false false 0 [] c [].
(** The trigger replaced. *)
Definition with_c (s : cst) (c : ctr) : cst := mkCS (s_now s) (s_passed s) (s_fin s) (s_run s) (s_start s) (s_pend s) c (s_log s).
(** trigger_set_ and scheduled_ replaced. *)
Definition flags (c : ctr) (a b : bool) : ctr := mkC a b (c_rel c) (c_align c) (c_abs c) (c_fired c) (c_clk c) (c_when c) (c_delay c) (c_ps c).

(** Clock::currentCycle (ck 169-172, 159-162). *)
Definition cycle (s : cst) (p : N) : N := s_now s / p.
(** scheduleRelativeTick (se 188-194), scheduleEvent (sc 353-422), calcIndexTime (sh 313-315): an event for the current tick is
    refused if the firing group is over. *)
Definition schedule_tick (s : cst) (rel : N) : outcome cst :=
  let at_ := w64 (s_now s + rel) in
  if (rel =? 0) && s_passed s then Refused
  else if at_ <? s_now s then Undefined
  else Done (mkCS (s_now s) (s_passed s) (s_fin s) (s_run s) (s_start s) (s_pend s ++ [at_]) (s_c s) (s_log s)).
(** Scheduleable::schedule(delay, clk) (se 201-206), Clock::getTick (ck 207-210). *)
Definition schedule_cycle (s : cst) (d p : N) : outcome cst := schedule_tick s (w64 (d * p)).
(** CycleTrigger::set_ (sg 613-643), TimeTrigger::set_ (sg 793-825), SingleTrigger::getScheduler (sg 187-193). The scheduler's frequency
    is always PS_PER_SECOND (sh 843-845), so a time trigger's picoseconds are ticks. *)
Definition set_now (s0 : cst) : outcome cst :=
  let s := with_c s0 (flags (s_c s0) true (c_sched (s_c s0))) in
  let c := s_c s in
  if c_clk c =? 0 then Asserted
  else if s_fin s then
    obind (match c_ps c with
           | Some ps => schedule_tick s (w64 ps)
           | None =>
               if c_rel c then
                 if c_align c then
                   if c_delay c =? 0 then Undefined else schedule_cycle s (c_delay c - cycle s (c_clk c) mod c_delay c) (c_clk c)
                 else schedule_cycle s (c_delay c) (c_clk c)
               else if c_abs c then schedule_cycle s (w64 (2 ^ 64 + c_when c - cycle s (c_clk c))) (c_clk c)
               else Asserted
           end)
      (fun s' => Done (with_c s' (flags (s_c s') (c_set (s_c s')) true)))
  else Done (mkCS (s_now s) (s_passed s) (s_fin s) (s_run s) (S (s_start s)) (s_pend s) c (s_log s)).
(** check_safe (sg 603-606). *)
Definition check_safe (s : cst) (f : ctr -> outcome cst) : outcome cst :=
  if c_set (s_c s) || c_sched (s_c s) then Asserted else f (s_c s).
(** What prepAbsolute and prepRelative assign (sg 531-533, 546-548). *)
Definition prep_abs (c : ctr) (p t : N) : ctr := mkC (c_set c) (c_sched c) (c_rel c) (c_align c) true (c_fired c) p t (c_delay c) (c_ps c).
(** See [prep_abs]. *)
Definition prep_rel (c : ctr) (p d : N) : ctr := mkC (c_set c) (c_sched c) true (c_align c) (c_abs c) (c_fired c) p (c_when c) d (c_ps c).
(** The operations (see [cop]). A TimeTrigger only has set (sg 750-756) and deactivate (sg 736-739);
    the others do nothing (sg 138-171). *)
Definition cexec (s : cst) (o : cop) : outcome cst :=
  let c := s_c s in
  match o with
  | Deact => Done (with_c s (flags c false (c_sched c)))
  | Set_ =>
      if c_set c then Asserted
      else match c_ps c with
           | Some _ => set_now s
           | None => if negb (c_rel c || c_abs c) then Asserted else if c_rel c && c_abs c then Asserted else set_now s
           end
  | _ =>
      match c_ps c with
      | Some _ => Done s
      | None =>
          check_safe s (fun c =>
            match o with
            | PrepAbs p t => Done (with_c s (prep_abs c p t))
            | PrepRel p d => Done (with_c s (prep_rel c p d))
            | Align b => Done (with_c s (mkC (c_set c) (c_sched c) (c_rel c) b (c_abs c) (c_fired c) (c_clk c) (c_when c) (c_delay c) (c_ps c)))
            | SetAbs p t => set_now (with_c s (prep_abs c p t))
            | SetRel p d => set_now (with_c s (prep_rel c p d))
            | _ => Refused
            end)
      end
  end.
(** The body of a callback. *)
Fixpoint cexecs (s : cst) (l : list cop) : outcome cst :=
  match l with [] => Done s | o :: r => obind (cexec s o) (fun s' => cexecs s' r) end.
(** invoke_ (sg 657-666, 840-849), with invokeCallback_ (sg 201-205) and what the callback does with its own trigger. *)
Definition invoke (s : cst) (body : list cop) : outcome cst :=
  obind (if c_set (s_c s)
         then obind (cexecs (mkCS (s_now s) (s_passed s) (s_fin s) (s_run s) (s_start s) (s_pend s) (flags (s_c s) false (c_sched (s_c s))) (s_now s :: s_log s)) body)
                (fun s1 => let c := s_c s1 in Done (with_c s1 (mkC (c_set c) (c_sched c) (c_rel c) (c_align c) (c_abs c) true (c_clk c) (c_when c) (c_delay c) (c_ps c))))
         else Done s)
    (fun s1 => Done (with_c s1 (flags (s_c s1) (c_set (s_c s1)) false))).
(** An event of this tick is taken from the scheduler. *)
Fixpoint take (t : N) (l : list N) : option (list N) :=
  match l with [] => None | x :: r => if x =? t then Some r else option_map (cons x) (take t r) end.
(** A new TimeTrigger of a clock (tc 92-105): set at once. *)
Definition time_new (s : cst) (p ps : N) : outcome cst := set_now (with_c s (mkC false false false false false false p 0 0 (Some ps))).

(** What happens: user code outside the callback; the scheduler is finalized; the first run begins; the next of the trigger's events
    of this tick is executed, the callback (if called) doing [body]; the trigger's group is over; the next tick. *)
Inductive cev := COp (o : cop) | CFinalize | CStart | CInvoke (body : list cop) | CPass | CNext.
(** The startup handlers of the trigger (postDAGFinalized_, sg 648-651, 831-834) run at the beginning of the first run (sc 462-470). *)
Fixpoint cstarts (s : cst) (n : nat) : outcome cst :=
  match n with O => Done s | S k => obind (set_now s) (fun s' => cstarts s' k) end.
(** See [cev]. *)
Definition cstep (s : cst) (e : cev) : outcome cst :=
  match e with
  | COp o => cexec s o
  | CFinalize => if s_fin s then Refused else Done (mkCS (s_now s) (s_passed s) true (s_run s) (s_start s) (s_pend s) (s_c s) (s_log s))
  | CStart => if s_fin s && negb (s_run s)
              then cstarts (mkCS (s_now s) (s_passed s) true true 0 (s_pend s) (s_c s) (s_log s)) (s_start s) else Refused
  | CInvoke body =>
      if s_run s && negb (s_passed s) then
        match take (s_now s) (s_pend s) with
        | None => Refused
        | Some r => invoke (mkCS (s_now s) (s_passed s) (s_fin s) (s_run s) (s_start s) r (s_c s) (s_log s)) body
        end
      else Refused
  | CPass => if s_run s && negb (s_passed s) then
               match take (s_now s) (s_pend s) with
               | None => Done (mkCS (s_now s) true (s_fin s) (s_run s) (s_start s) (s_pend s) (s_c s) (s_log s))
               | Some _ => Refused
               end
             else Refused
  | CNext => if s_passed s then Done (mkCS (s_now s + 1) false (s_fin s) (s_run s) (s_start s) (s_pend s) (s_c s) (s_log s)) else Refused
  end.
(** A history. *)
Fixpoint cruns (s : cst) (l : list cev) : outcome cst :=
  match l with [] => Done s | e :: r => obind (cstep s e) (fun s' => cruns s' r) end.
