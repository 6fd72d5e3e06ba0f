(** Counter triggers (sparta/sparta/trigger): SingleTrigger.hpp ("sg"), ManagedTrigger.hpp ("mt"), TriggerManager.hpp ("tm"),
    and sparta/src/Trigger.cpp ("tc").

    One clock and its ClockHandler: handlers of different clocks share nothing (tm 421). Calls from outside the handler are made after
    the clock's Trigger phase of a cycle, so a new handler's first tick is the next one. Names are left out. A failed sparta_assert ends
    the run ([Asserted]); using a destroyed object is [Undefined]. *)
From Coq Require Import List NArith Arith Bool.
From Verif Require Import LayoutModel StorageModel.
Import ListNotations.
Open Scope N_scope.

(** The trigger an operation is about: in a callback, the trigger that called it. *)
Inductive tgt := Self | Id (i : nat).
(** What user code does, outside or in a callback: CounterTrigger::set (tc 78-85), deactivate (tc 72-76), resetAbsolute (sg 328-332), the
    constructor (tc 28-44; counter, trigger point, what the callback does), the copy constructor (tc 46-53), assignment (tc 59-70),
    the destructor (tc 55-57, mt 57-59), and giving a counter a value. *)
Inductive op := OSet (t : tgt) | ODeact (t : tgt) | OReset (t : tgt) (p : N) | ONew (c : nat) (p : N) (cb : list op)
  | OCopy (t : tgt) | OAssign (t u : tgt) | OKill (t : tgt) | OCount (c : nat) (v : N).
(** CounterTrigger: SingleTrigger's callback_ and has_fired_ (sg 221-231), ManagedTrigger's active_ and whose registerSelf_ the
    register_handler_ calls (mt 110-111), counter_ and trigger_point_ (sg 420-430), and whether the object still exists. *)
Record trg := mkT { t_alive : bool; t_active : bool; t_fired : bool; t_reg : nat; t_ctr : nat; t_point : N; t_cb : list op }.
(** ClockHandler (tm 386-401): triggers_, to_remove_, to_add_, in_tick_. *)
Record hnd := mkH { h_trigs : list nat; h_rem : list nat; h_add : list nat; h_in : bool }.
(** Everything: the triggers ever made, the counters, whether the scheduler is finalized, the startup handlers waiting for the first
    run (Scheduler.hpp 913-915), the clock's entry in clocks_ (tm 421), whether the scheduler holds the event of a destroyed handler,
    and the number of ticks and the callbacks made so far, the latest first. *)
Record tst := mkTS { m_trigs : list trg; m_ctrs : list N; m_fin : bool; m_start : list nat; m_h : option hnd; m_stale : bool;
  m_tick : N; m_log : list (N * nat) }.
(** Before anything is created. *)
Definition tst0 : tst := mkTS [] [] false [] None false 0 [].

(** One component changed. *)
Definition with_trigs (s : tst) l := mkTS l (m_ctrs s) (m_fin s) (m_start s) (m_h s) (m_stale s) (m_tick s) (m_log s).
(** See with_trigs. *)
Definition with_h (s : tst) h := mkTS (m_trigs s) (m_ctrs s) (m_fin s) (m_start s) h (m_stale s) (m_tick s) (m_log s).
(** See with_trigs. *)
Definition with_start (s : tst) l := mkTS (m_trigs s) (m_ctrs s) (m_fin s) l (m_h s) (m_stale s) (m_tick s) (m_log s).
(** Assignment to a list element. *)
Fixpoint lset {A} (l : list A) (i : nat) (x : A) : list A :=
  match l, i with [], _ => [] | _ :: r, O => x :: r | y :: r, S j => y :: lset r j x end.
(** A counter takes a value; counters not mentioned before are 0. *)
Fixpoint cset (l : list N) (c : nat) (v : N) : list N :=
  match c, l with O, [] => [v] | O, _ :: r => v :: r | S d, [] => 0 :: cset [] d v | S d, y :: r => y :: cset r d v end.
(** The trigger with this number. *)
Definition tget (s : tst) (i : nat) : option trg := nth_error (m_trigs s) i.
(** A trigger is changed. *)
Definition tput (s : tst) (i : nat) (t : trg) : tst := with_trigs s (lset (m_trigs s) i t).
(** active_ is assigned. *)
Definition set_active (t : trg) (b : bool) : trg := mkT (t_alive t) b (t_fired t) (t_reg t) (t_ctr t) (t_point t) (t_cb t).

(** std::find (tm 234, 300, 328). *)
Definition mem (i : nat) (l : list nat) : bool := existsb (Nat.eqb i) l.
(** Erasing the first occurrence (tm 328-331). *)
Fixpoint erase (i : nat) (l : list nat) : list nat :=
  match l with [] => [] | x :: r => if Nat.eqb i x then r else x :: erase i r end.
(** ClockHandler::hasTrigger (tm 230-255). *)
Definition has_trigger (h : hnd) (i : nat) : bool :=
  if mem i (h_trigs h) then (if mem i (h_rem h) then mem i (h_add h) else true) else mem i (h_add h).
(** TriggerManager::addTrigger (tm 101-122), ClockHandler::addTrigger (tm 213-224), addTriggerDefferred_ (tm 281-287), addTriggerNow_
    (tm 294-306), and the handler's constructor (tm 185-194). *)
Definition add_trigger (s : tst) (i : nat) : outcome tst :=
  match m_h s with
  | None => Done (with_h s (Some (mkH [i] [] [] false)))
  | Some h =>
      if has_trigger h i then Asserted
      else if h_in h then Done (with_h s (Some (mkH (h_trigs h) (h_rem h) (h_add h ++ [i]) true)))
      else if mem i (h_trigs h) then Asserted
      else Done (with_h s (Some (mkH (h_trigs h ++ [i]) (h_rem h) (h_add h) false)))
  end.
(** TriggerManager::removeTrigger (tm 140-154), ClockHandler::removeTrigger (tm 263-273), removeTriggerDefferred_ (tm 311-317),
    removeTriggerNow_ (tm 323-332). The handler is destroyed once it has no triggers (tm 151-153); its event is scheduled for the next
    cycle (tm 193, 369) and is not cancelled: neither ~ClockHandler (tm 199-200) nor ~Scheduleable (events/Scheduleable.hpp 63) does. *)
Definition remove_trigger (s : tst) (i : nat) : tst :=
  match m_h s with
  | None => s
  | Some h =>
      let h' := if h_in h then mkH (h_trigs h) (h_rem h ++ [i]) (h_add h) true else mkH (erase i (h_trigs h)) (h_rem h) (h_add h) false in
      match h_trigs h' with
      | [] => mkTS (m_trigs s) (m_ctrs s) (m_fin s) (m_start s) None true (m_tick s) (m_log s)
      | _ :: _ => with_h s (Some h')
      end
  end.
(** ManagedTrigger::registerSelf_ (tc 107-117). *)
Definition register_self (s : tst) (i : nat) : outcome tst :=
  match tget s i with
  | None => Undefined
  | Some t =>
      if negb (t_alive t) then Undefined
      else if m_fin s then obind (add_trigger s i) (fun s' => Done (tput s' i (set_active t true)))
      else Done (with_start s (m_start s ++ [t_reg t]))
  end.
(** ManagedTrigger::deactivate_ (tc 124-128). *)
Definition deactivate_ (s : tst) (i : nat) : outcome tst :=
  match tget s i with
  | None => Undefined
  | Some t => if negb (t_alive t) then Undefined else Done (tput (remove_trigger s i) i (set_active t false))
  end.

(** The trigger meant; outside callbacks there is no [Self]. *)
Definition resolve (me : option nat) (t : tgt) : option nat := match t with Self => me | Id i => Some i end.
(** The trigger meant, which must exist. *)
Definition with_t (s : tst) (me : option nat) (t : tgt) (f : nat -> trg -> outcome tst) : outcome tst :=
  match resolve me t with
  | None => Undefined
  | Some i => match tget s i with Some x => if t_alive x then f i x else Undefined | None => Undefined end
  end.
(** The operations (see [op]). *)
Definition exec (me : option nat) (s : tst) (o : op) : outcome tst :=
  match o with
  | OSet t => with_t s me t (fun i x => if t_active x then Asserted else register_self s i)
  | ODeact t => with_t s me t (fun i _ => deactivate_ s i)
  | OReset t p => with_t s me t (fun i _ =>
      obind (deactivate_ s i) (fun s1 =>
      match tget s1 i with
      | Some x => register_self (tput s1 i (mkT (t_alive x) (t_active x) (t_fired x) (t_reg x) (t_ctr x) p (t_cb x))) i
      | None => Undefined
      end))
  | ONew c p cb =>
      let i := length (m_trigs s) in register_self (with_trigs s (m_trigs s ++ [mkT true false false i c p cb])) i
  | OCopy t => with_t s me t (fun _ x =>
      let i := length (m_trigs s) in
      let s1 := with_trigs s (m_trigs s ++ [mkT true (t_active x) false (t_reg x) (t_ctr x) (t_point x) (t_cb x)]) in
      if t_active x then register_self s1 i else Done s1)
  | OAssign t u => with_t s me t (fun i x => with_t s me u (fun j _ =>
      let s1 := remove_trigger (tput s i (set_active x false)) i in
      match tget s1 j with
      | None => Undefined
      | Some y =>
          let s2 := tput s1 i (mkT true (t_active y) (t_fired y) (t_reg y) (t_ctr y) (t_point y) (t_cb y)) in
          if t_active y then register_self s2 i else Done s2
      end))
  | OKill t => with_t s me t (fun i x =>
      Done (tput (remove_trigger s i) i (mkT false false (t_fired x) (t_reg x) (t_ctr x) (t_point x) (t_cb x))))
  | OCount c v => Done (mkTS (m_trigs s) (cset (m_ctrs s) c v) (m_fin s) (m_start s) (m_h s) (m_stale s) (m_tick s) (m_log s))
  end.
(** Several operations (the body of a callback). *)
Fixpoint execs (me : option nat) (s : tst) (l : list op) : outcome tst :=
  match l with [] => Done s | o :: r => obind (exec me s o) (fun s' => execs me s' r) end.

(** Whether the condition holds (sg 402-406). *)
Definition reached (s : tst) (t : trg) : bool := t_point t <=? nth (t_ctr t) (m_ctrs s) 0.
(** ManagedTrigger::check (mt 65-74), CounterTrigger::invokeTrigger_ (sg 413-415), SingleTrigger::invokeCallback_ (sg 201-205). *)
Definition check (s : tst) (i : nat) : outcome tst :=
  match tget s i with
  | None => Undefined
  | Some t =>
      if negb (t_alive t) then Undefined
      else if negb (t_active t) then Asserted
      else if reached s t then
        let s1 := remove_trigger (tput s i (set_active t false)) i in
        let s2 := mkTS (m_trigs s1) (m_ctrs s1) (m_fin s1) (m_start s1) (m_h s1) (m_stale s1) (m_tick s1) ((m_tick s1, i) :: m_log s1) in
        obind (execs (Some i) s2 (t_cb t)) (fun s3 =>
          match tget s3 i with
          | Some x => if t_alive x
                      then Done (tput s3 i (mkT true (t_active x) true (t_reg x) (t_ctr x) (t_point x) (t_cb x))) else Undefined
          | None => Undefined
          end)
      else Done s
  end.
(** The loop of clockTick_ (tm 364-366). triggers_ does not change while in_tick_ is set. *)
Fixpoint checks (s : tst) (l : list nat) : outcome tst :=
  match l with [] => Done s | i :: r => obind (check s i) (fun s' => checks s' r) end.
(** handleDeferredAdditions_ (tm 348-354). *)
Fixpoint adds (trigs : list nat) (l : list nat) : option (list nat) :=
  match l with [] => Some trigs | i :: r => if mem i trigs then None else adds (trigs ++ [i]) r end.
(** handleDeferredRemovals_ (tm 337-343) and handleDeferredAdditions_, at the end of the tick (tm 170-174). *)
Definition flush (s : tst) : outcome tst :=
  match m_h s with
  | None => Done s
  | Some h => match adds (fold_left (fun l i => erase i l) (h_rem h) (h_trigs h)) (h_add h) with
              | Some l => Done (with_h s (Some (mkH l [] [] false)))
              | None => Asserted
              end
  end.
(** A cycle of the clock: clockTick_ (tm 359-370), if there is a handler. The scheduler calls into a destroyed handler if it still
    holds its event. *)
Definition tick (s : tst) : outcome tst :=
  let s := mkTS (m_trigs s) (m_ctrs s) (m_fin s) (m_start s) (m_h s) (m_stale s) (m_tick s + 1) (m_log s) in
  if m_stale s then Undefined
  else match m_h s with
       | None => Done s
       | Some h => obind (checks (with_h s (Some (mkH (h_trigs h) (h_rem h) (h_add h) true))) (h_trigs h)) flush
       end.
(** The startup handlers, at the beginning of the first run (sparta/src/Scheduler.cpp 462-470). *)
Fixpoint starts (s : tst) (l : list nat) : outcome tst :=
  match l with [] => Done (with_start s []) | i :: r => obind (register_self s i) (fun s' => starts s' r) end.

(** What happens to the triggers: user code outside the callbacks, finalization of the scheduler, the first run, a cycle. *)
Inductive ev := EOp (o : op) | EFinalize | EStart | ETick.
(** Cycles only happen in a run, after the startup handlers. *)
Definition step (s : tst) (e : ev) : outcome tst :=
  match e with
  | EOp o => exec None s o
  | EFinalize => Done (mkTS (m_trigs s) (m_ctrs s) true (m_start s) (m_h s) (m_stale s) (m_tick s) (m_log s))
  | EStart => if m_fin s then starts s (m_start s) else Refused
  | ETick => match m_start s with [] => if m_fin s then tick s else Refused | _ :: _ => Refused end
  end.
(** A history. *)
Fixpoint runs (s : tst) (l : list ev) : outcome tst :=
  match l with [] => Done s | e :: r => obind (step s e) (fun s' => runs s' r) end.
