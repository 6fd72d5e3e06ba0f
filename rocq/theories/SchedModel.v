(** Model of sparta::Scheduler: tick quanta, scheduling, cancelling, queries and
    the run loop, as a labelled small-step machine.
    Source: /repo/sparta/sparta/kernel/Scheduler.hpp (hpp below),
            /repo/sparta/src/Scheduler.cpp (cpp below),
            /repo/sparta/sparta/events/Scheduleable.hpp,
            /repo/sparta/sparta/events/PhasedUniqueEvent.hpp,
            /repo/sparta/sparta/kernel/ObjectAllocator.hpp.
    Simplifications, common to the whole file:
    - ticks are unbounded (the 64-bit counter is assumed not to wrap);
    - the watch dog (hpp 297-308), clocks (cpp 185), debug output and run-time
      measurement are left out;
    - SystemC notification (cpp 413-419) is left out;
    - startup handlers (cpp 463-471) run before anything else in the first run and
      in the same state as between runs, so they are commands issued while idle;
    - a handler is an arbitrary sequence of scheduler calls, chosen step by step. *)
From Coq Require Import List NArith Arith Bool Lia.
Import ListNotations.
Open Scope N_scope.

(** Scheduleables by identity: the stop event built in the constructor
    (cpp 45) or a user event (Scheduleable.hpp 37-514). *)
Inductive ev := Stop | User (n : nat).

(** Pointer comparison of Scheduleables, e.g. hpp 276, cpp 696, 748. *)
Definition ev_eqb (a b : ev) : bool :=
  match a, b with
  | Stop, Stop => true
  | User x, User y => Nat.eqb x y
  | _, _ => false
  end.

(** Attributes fixed once the DAG is finalized: number of DAG groups
    (hpp 934, cpp 216), precedence group pgid_ (Scheduleable.hpp 483) and
    is_unique_event_ (Scheduleable.hpp 512). *)
Record cfg := mkCfg { c_groups : nat; c_gid : nat -> nat; c_uniq : nat -> bool }.

(** group_zero_ = dag_group_count_ + 2 (cpp 218-224). *)
Definition group_zero (c : cfg) : nat := (c_groups c + 2)%nat.
(** firing_group_count_ after the post-increment (cpp 218-224). *)
Definition group_count (c : cfg) : nat := (c_groups c + 3)%nat.
(** firing_group of scheduleEvent (cpp 376-377); the same mapping is used by
    isScheduled (cpp 683, 713) and cancelEvent (cpp 734-739, 764-769). *)
Definition firing_group (c : cfg) (dag_group : nat) : nat :=
  if Nat.eqb dag_group 0 then group_zero c else S dag_group.
(** getGroupID of an event (Scheduleable.hpp 319); stop_event_ is never linked
    into the DAG so its pgid_ is 0 (cpp 45, 514). *)
Definition ev_gid (c : cfg) (e : ev) : nat :=
  match e with Stop => 0%nat | User n => c_gid c n end.
(** Firing group of an event, as computed in cpp 376, 683, 713, 734, 764. *)
Definition ev_group (c : cfg) (e : ev) : nat := firing_group c (ev_gid c e).

(** One element of ScheduleableGroup::scheduleables_ (hpp 209-243). [None] is
    cancelled_event_ (cpp 46), which cancelEvent puts over a cancelled event.
    [sl_id] numbers accepted requests; it is not in the code and no decision
    reads it. *)
Record slot := mkSlot { sl_ev : option ev; sl_id : nat }.

(** TickQuantum (hpp 207-288). [q_first] is first_group_idx, [None] standing for
    the initial numeric_limits max. The next pointers become list order. *)
Record quantum := mkQ { q_tick : N; q_groups : list (list slot); q_first : option nat }.

(** What a user can observe, newest first in [s_log]. *)
Inductive obs :=
| OSched  (id : nat) (e : ev) (t : N) (g : nat)   (* request accepted as occurrence id *)
| OAbsorb (e : ev) (t : N)                         (* unique request already pending *)
| ORefuse (e : ev) (t : N)                         (* exception from the request *)
| OFire   (id : nat) (e : ev) (t : N) (g : nat)   (* handler called *)
| OCancel (e : ev)                                  (* cancelEvent(e) returned *)
| OCancelAt (e : ev) (t : N)                       (* cancelEvent(e, rel) returned *)
| OClear                                            (* clearEvents returned *)
| ORestart (t : N).                                (* restartAt(t) returned *)

(** Where execution stands: between calls of run, at [while(running_)] (cpp 529),
    inside the group loop (cpp 583-620), inside a handler (cpp 614), or stopped by
    an exception that left run (see the warning at hpp 614). *)
Inductive ctl := Idle | LoopHead | Scan | Handler | Crashed.

(** Data members of Scheduler: current_tick_quantum_ list (hpp 291),
    tick_quantum_allocator_ free list, of which only first_group_idx survives
    (hpp 294, ObjectAllocator.hpp 36-54), current_tick_ 950, elapsed_ticks_ 953,
    current_group_firing_ 984, current_event_firing_ 987, running_ 963,
    is_finished_ 974, first_tick_ 947, latest_continuing_event_ 1002,
    async_event_list_ 1112; last_tick_called_ of each PhasedUniqueEvent
    (PhasedUniqueEvent.hpp 135, [None] for Tick(-1)); plus the request counter
    and the log, which are not in the code. *)
Record sched := mkS {
  s_queue : list quantum;
  s_pool : list (option nat);
  s_tick : N;
  s_elapsed : N;
  s_grp : nat;
  s_idx : nat;
  s_running : bool;
  s_finished : bool;
  s_first : bool;
  s_latest : N;
  s_async : list (nat * N * bool);
  s_last : nat -> option N;
  s_next : nat;
  s_log : list obs;
  s_ctl : ctl
}.

(** State after construction and finalize() (hpp 931-1002, cpp 194-234). *)
Definition init : sched :=
  {| s_queue := []; s_pool := []; s_tick := 0; s_elapsed := 0; s_grp := 0; s_idx := 0;
     s_running := false; s_finished := true; s_first := true; s_latest := 0;
     s_async := []; s_last := fun _ => None; s_next := 0; s_log := []; s_ctl := Idle |}.

(** Field updates used below (assignments to the members cited at [sched]). *)
Definition set_queue (s : sched) q p :=
  mkS q p (s_tick s) (s_elapsed s) (s_grp s) (s_idx s) (s_running s) (s_finished s)
      (s_first s) (s_latest s) (s_async s) (s_last s) (s_next s) (s_log s) (s_ctl s).
(** Assignment of current_tick_ and elapsed_ticks_ (hpp 950, 953). *)
Definition set_time (s : sched) t el :=
  mkS (s_queue s) (s_pool s) t el (s_grp s) (s_idx s) (s_running s) (s_finished s)
      (s_first s) (s_latest s) (s_async s) (s_last s) (s_next s) (s_log s) (s_ctl s).
(** Assignment of current_group_firing_, current_event_firing_ and the control
    point (hpp 984, 987). *)
Definition set_pos (s : sched) g i c :=
  mkS (s_queue s) (s_pool s) (s_tick s) (s_elapsed s) g i (s_running s) (s_finished s)
      (s_first s) (s_latest s) (s_async s) (s_last s) (s_next s) (s_log s) c.
(** Assignment of running_ (hpp 424-426, 963). *)
Definition set_running (s : sched) b :=
  mkS (s_queue s) (s_pool s) (s_tick s) (s_elapsed s) (s_grp s) (s_idx s) b (s_finished s)
      (s_first s) (s_latest s) (s_async s) (s_last s) (s_next s) (s_log s) (s_ctl s).
(** Assignment of is_finished_ and latest_continuing_event_ (hpp 974, 1002). *)
Definition set_finish (s : sched) f l :=
  mkS (s_queue s) (s_pool s) (s_tick s) (s_elapsed s) (s_grp s) (s_idx s) (s_running s) f
      (s_first s) l (s_async s) (s_last s) (s_next s) (s_log s) (s_ctl s).
(** Assignment of first_tick_ (hpp 947). *)
Definition set_first (s : sched) b :=
  mkS (s_queue s) (s_pool s) (s_tick s) (s_elapsed s) (s_grp s) (s_idx s) (s_running s)
      (s_finished s) b (s_latest s) (s_async s) (s_last s) (s_next s) (s_log s) (s_ctl s).
(** Assignment of async_event_list_ (hpp 1112); its empty hint (hpp 1109) is
    always equal to "the list is empty" in a single thread and is left out. *)
Definition set_async (s : sched) a :=
  mkS (s_queue s) (s_pool s) (s_tick s) (s_elapsed s) (s_grp s) (s_idx s) (s_running s)
      (s_finished s) (s_first s) (s_latest s) a (s_last s) (s_next s) (s_log s) (s_ctl s).
(** Assignment of last_tick_called_ (PhasedUniqueEvent.hpp 120). *)
Definition set_last (s : sched) l :=
  mkS (s_queue s) (s_pool s) (s_tick s) (s_elapsed s) (s_grp s) (s_idx s) (s_running s)
      (s_finished s) (s_first s) (s_latest s) (s_async s) l (s_next s) (s_log s) (s_ctl s).
(** Recording an observation; not in the code. *)
Definition note (s : sched) o :=
  mkS (s_queue s) (s_pool s) (s_tick s) (s_elapsed s) (s_grp s) (s_idx s) (s_running s)
      (s_finished s) (s_first s) (s_latest s) (s_async s) (s_last s) (s_next s)
      (o :: s_log s) (s_ctl s).
(** Numbering an accepted request; not in the code. *)
Definition bump (s : sched) :=
  mkS (s_queue s) (s_pool s) (s_tick s) (s_elapsed s) (s_grp s) (s_idx s) (s_running s)
      (s_finished s) (s_first s) (s_latest s) (s_async s) (s_last s) (S (s_next s))
      (s_log s) (s_ctl s).

(** Replace element [i] of a list (vector assignment, e.g. hpp 218, cpp 750). *)
Fixpoint upd {A} (l : list A) (i : nat) (x : A) : list A :=
  match l, i with
  | [], _ => []
  | _ :: r, O => x :: r
  | y :: r, S j => y :: upd r j x
  end.

(** std::min on first_group_idx (hpp 267, 281). *)
Definition min_first (o : option nat) (g : nat) : option nat :=
  match o with None => Some g | Some f => Some (Nat.min f g) end.

(** Does a group contain the event? (search loops hpp 275-279, cpp 694-699,
    720-724) *)
Definition has_ev (grp : list slot) (e : ev) : bool :=
  existsb (fun sl => match sl_ev sl with Some x => ev_eqb x e | None => false end) grp.

(** TickQuantum::addEvent (hpp 263-268). The two asserts hold for every firing
    group the scheduler computes. *)
Definition q_add (q : quantum) (g : nat) (sl : slot) : quantum :=
  mkQ (q_tick q) (upd (q_groups q) g (nth g (q_groups q) [] ++ [sl]))
      (min_first (q_first q) g).

(** tick_quantum_allocator_.create (ObjectAllocator.hpp 36-48): a fresh quantum, or
    a freed one whose groups are empty but whose first_group_idx is kept. *)
Definition q_create (c : cfg) (pool : list (option nat)) (t : N) : quantum * list (option nat) :=
  match pool with
  | [] => (mkQ t (repeat [] (group_count c)) None, [])
  | f :: rest => (mkQ t (repeat [] (group_count c)) f, rest)
  end.

(** determineTickQuantum_ (cpp 294-350) followed by addEvent (cpp 400-402): walk the
    list to the quantum for [t], inserting one where missing, and add the slot. *)
Fixpoint q_insert (c : cfg) (qs : list quantum) (pool : list (option nat)) (t : N) (g : nat) (sl : slot)
  : list quantum * list (option nat) :=
  match qs with
  | [] => let (q, p) := q_create c pool t in ([q_add q g sl], p)
  | q :: rest =>
      if q_tick q =? t then (q_add q g sl :: rest, pool)
      else if t <? q_tick q then
        let (n, p) := q_create c pool t in (q_add n g sl :: q :: rest, p)
      else let (r, p) := q_insert c rest pool t g sl in (q :: r, p)
  end.

(** The quantum for [t] if there is one, as found by the walks in
    determineTickQuantum_ (cpp 303-330) and isScheduled (cpp 688-708). *)
Fixpoint q_find (qs : list quantum) (t : N) : option quantum :=
  match qs with
  | [] => None
  | q :: rest =>
      if q_tick q =? t then Some q
      else if t <? q_tick q then None
      else q_find rest t
  end.

(** scheduleEvent (cpp 353-422). [uniq] is add_if_not_scheduled. The result flag is
    false when an exception leaves the function. *)
Definition schedule_event (c : cfg) (s : sched) (e : ev) (rel : N) (dag_group : nat)
           (cont uniq : bool) : sched * bool :=
  let g := firing_group c dag_group in
  let t := s_tick s + rel in
  if ((rel =? 0) && Nat.ltb g (s_grp s))%bool then (note s (ORefuse e t), false)
  else if negb (Nat.ltb g (group_count c)) then (note s (ORefuse e t), false)
  else
    let present := match q_find (s_queue s) t with
                   | Some q => has_ev (nth g (q_groups q) []) e
                   | None => false
                   end in
    let s1 :=
      if (uniq && present)%bool then note s (OAbsorb e t)
      else
        let (qs, p) := q_insert c (s_queue s) (s_pool s) t g (mkSlot (Some e) (s_next s)) in
        bump (note (set_queue s qs p) (OSched (s_next s) e t g)) in
    ((if cont then set_finish s1 false (N.max (s_latest s1) t) else s1), true).

(** Scheduleable::scheduleRelativeTick (Scheduleable.hpp 188-194) and its override
    for unique events with the assertion on last_tick_called_
    (PhasedUniqueEvent.hpp 90-100). [cont] is the current continuing_ flag. *)
Definition schedule_user (c : cfg) (s : sched) (n : nat) (rel : N) (cont : bool) : sched * bool :=
  let t := s_tick s + rel in
  if (c_uniq c n && match s_last s n with Some l => l =? t | None => false end)%bool
  then (note s (ORefuse (User n) t), false)
  else schedule_event c s (User n) rel (c_gid c n) cont (c_uniq c n).

(** scheduleables[i] = cancelled_event_ for every matching element
    (cpp 745-757, 777-792). *)
Definition cancel_slots (e : ev) (grp : list slot) : list slot :=
  map (fun sl => match sl_ev sl with
                 | Some x => if ev_eqb x e then mkSlot None (sl_id sl) else sl
                 | None => sl end) grp.

(** One quantum of the cancelEvent loops (cpp 744-757). *)
Definition cancel_q (c : cfg) (e : ev) (q : quantum) : quantum :=
  let g := ev_group c e in
  mkQ (q_tick q) (upd (q_groups q) g (cancel_slots e (nth g (q_groups q) []))) (q_first q).

(** cancelEvent(scheduleable) (cpp 732-760). *)
Definition cancel_event (c : cfg) (s : sched) (e : ev) : sched :=
  note (set_queue s (map (cancel_q c e) (s_queue s)) (s_pool s)) (OCancel e).

(** cancelEvent(scheduleable, rel_time) (cpp 762-797). At most one quantum has the
    tick, so the early return is the map below. eventCancelled_ (cpp 780) concerns
    payload events and is left to their model. *)
Definition cancel_event_at (c : cfg) (s : sched) (e : ev) (rel : N) : sched :=
  let t := s_tick s + rel in
  note (set_queue s (map (fun q => if q_tick q =? t then cancel_q c e q else q) (s_queue s))
                  (s_pool s)) (OCancelAt e t).

(** isScheduled(scheduleable, rel_time) (cpp 681-709). *)
Definition is_scheduled_at (c : cfg) (s : sched) (e : ev) (rel : N) : bool :=
  match q_find (s_queue s) (s_tick s + rel) with
  | Some q => has_ev (nth (ev_group c e) (q_groups q) []) e
  | None => false
  end.

(** isScheduled(scheduleable) (cpp 711-730). *)
Definition is_scheduled (c : cfg) (s : sched) (e : ev) : bool :=
  existsb (fun q => has_ev (nth (ev_group c e) (q_groups q) []) e) (s_queue s).

(** scheduleAsyncEvent (cpp 424-430). The continuing flag is read when the list is
    drained (cpp 572); it is stored here because it does not change in between. *)
Definition schedule_async (s : sched) (n : nat) (rel : N) (cont : bool) : sched :=
  set_async s (s_async s ++ [(n, rel, cont)]).

(** cancelAsyncEvent (cpp 799-809). *)
Definition cancel_async (c : cfg) (s : sched) (n : nat) : sched :=
  cancel_event c (set_async s (filter (fun a => negb (Nat.eqb (fst (fst a)) n)) (s_async s))) (User n).

(** The drain of async_event_list_ at the start of a tick (cpp 565-578). [None]:
    scheduleEvent threw and the exception leaves run. *)
Fixpoint drain (c : cfg) (s : sched) (l : list (nat * N * bool)) : option sched :=
  match l with
  | [] => Some (set_async s [])
  | (n, rel, cont) :: rest =>
      let (s1, ok) := schedule_event c s (User n) rel (c_gid c n) cont false in
      if ok then drain c s1 rest else None
  end.

(** llabs of a difference of tick counts (cpp 500, 537, 661). *)
Definition absdiff (a b : N) : N := (a - b) + (b - a).

(** End of run (cpp 651-667). *)
Definition run_end (s : sched) : sched :=
  let s := set_pos s 0 (s_idx s) Idle in
  let s := set_time s (s_tick s + 1) (s_elapsed s + absdiff (s_tick s) (s_elapsed s)) in
  set_running s false.

(** run(num_ticks, exacting) up to the loop (cpp 432-525); [None] is INDEFINITE. *)
Definition run_begin (c : cfg) (s : sched) (num : option N) (exact : bool) : sched :=
  match num with
  | Some 0 => s
  | _ =>
    let s := set_first s false in
    let s := set_running s (match s_queue s with [] => false | _ => true end) in
    let enter (s : sched) := set_pos (set_finish s (negb (s_running s)) (s_latest s))
                                     (s_grp s) (s_idx s) LoopHead in
    match num with
    | None => enter s
    | Some n =>
      let far := match s_queue s with [] => true | q :: _ => s_tick s + n <? q_tick q end in
      if far then
        set_running
          (if exact then
             let t := s_tick s + n in
             set_time s t (s_elapsed s + absdiff t (s_elapsed s + 1))
           else s) false
      else enter (fst (schedule_event c s Stop (n - 1) 0 exact false))
    end
  end.

(** Start of one loop iteration (cpp 529-578). *)
Definition tick_begin (c : cfg) (s : sched) : sched :=
  if s_running s then
    match s_queue s with
    | [] => set_pos s (s_grp s) (s_idx s) Crashed
    | q :: _ =>
      let s := set_time s (q_tick q) (s_elapsed s + absdiff (q_tick q) (s_elapsed s)) in
      let s := set_pos s (match q_first q with Some f => f | None => group_count c end) 0 Scan in
      match drain c s (s_async s) with
      | Some s' => s'
      | None => set_pos s (s_grp s) (s_idx s) Crashed
      end
    end
  else run_end s.

(** End of one loop iteration (cpp 627-647). *)
Definition tick_end (s : sched) : sched :=
  match s_queue s with
  | [] => set_pos s (s_grp s) (s_idx s) Crashed
  | q :: rest =>
    let s := set_queue s rest (s_pool s ++ [q_first q]) in
    match rest with
    | [] => run_end (set_finish s true (s_latest s))
    | n :: _ =>
      if s_latest s <? q_tick n then run_end (set_finish s true (s_latest s))
      else set_pos (set_finish s false (s_latest s)) (s_grp s) (s_idx s) LoopHead
    end
  end.

(** The group and event loops (cpp 580-620), one event or one group at a time. *)
Definition scan (c : cfg) (s : sched) : sched :=
  match s_queue s with
  | [] => set_pos s (s_grp s) (s_idx s) Crashed
  | q :: rest =>
    if Nat.ltb (s_grp s) (group_count c) then
      let events := nth (s_grp s) (q_groups q) [] in
      match nth_error events (s_idx s) with
      | Some sl =>
          match sl_ev sl with
          | None => set_pos s (s_grp s) (S (s_idx s)) Scan
          | Some Stop =>
              set_pos (set_running (note s (OFire (sl_id sl) Stop (s_tick s) (s_grp s))) false)
                      (s_grp s) (S (s_idx s)) Scan
          | Some (User n) =>
              set_pos (set_last (note s (OFire (sl_id sl) (User n) (s_tick s) (s_grp s)))
                                (if c_uniq c n
                                 then fun m => if Nat.eqb m n then Some (s_tick s) else s_last s m
                                 else s_last s))
                      (s_grp s) (s_idx s) Handler
          end
      | None =>
          set_pos (set_queue s (mkQ (q_tick q) (upd (q_groups q) (s_grp s) []) (q_first q) :: rest)
                             (s_pool s))
                  (S (s_grp s)) 0 Scan
      end
    else tick_end s
  end.

(** clearEvents (cpp 236-270), called while not running. *)
Definition clear_events (s : sched) : sched :=
  note (set_finish (set_queue s [] (s_pool s ++ map q_first (s_queue s))) true 0) OClear.

(** restartAt (cpp 272-292), called while not running. *)
Definition restart_at (s : sched) (t : N) : sched :=
  let s1 := clear_events s in
  note (set_time s1 t (if (s_first s || (t =? 0))%bool then t else t + 1)) (ORestart t).

(** Calls available to handlers and between runs (hpp 424, 494, 514, 529-572).
    Queries do not change the state and are stated about separately. *)
Inductive cmd :=
| CSchedule (n : nat) (rel : N) (cont : bool)
| CCancel (n : nat)
| CCancelAt (n : nat) (rel : N)
| CStop
| CAsync (n : nat) (rel : N) (cont : bool)
| CCancelAsync (n : nat).

(** Effect of one call (functions cited above; stopRunning hpp 424-426). *)
Definition exec_cmd (c : cfg) (s : sched) (k : cmd) : sched :=
  match k with
  | CSchedule n rel cont => fst (schedule_user c s n rel cont)
  | CCancel n => cancel_event c s (User n)
  | CCancelAt n rel => cancel_event_at c s (User n) rel
  | CStop => set_running s false
  | CAsync n rel cont => schedule_async s n rel cont
  | CCancelAsync n => cancel_async c s n
  end.

(** One step of an execution: a call by the user or by the running handler, or one
    internal step of run. Handlers that throw end the execution. *)
Inductive action :=
| ACmd (k : cmd)
| ARun (num : option N) (exact : bool)
| AClear
| ARestart (t : N)
| AStep.

(** The machine (run cpp 432-679 cut at the points named in [ctl]); actions that are
    not possible at a control point do nothing. *)
Definition step (c : cfg) (s : sched) (a : action) : sched :=
  match a, s_ctl s with
  | ACmd k, Idle => exec_cmd c s k
  | ACmd k, Handler => exec_cmd c s k
  | ARun n ex, Idle => run_begin c s n ex
  | AClear, Idle => clear_events s
  | ARestart t, Idle => restart_at s t
  | AStep, LoopHead => tick_begin c s
  | AStep, Scan => scan c s
  | AStep, Handler => set_pos s (s_grp s) (S (s_idx s)) Scan
  | _, _ => s
  end.

(** A whole execution. *)
Definition exec (c : cfg) (s : sched) (l : list action) : sched := fold_left (step c) l s.
