(** Model of sparta::PhasedPayloadEvent and of the ScheduleableHandle it hands out.
    Source: /repo/sparta/sparta/events/PhasedPayloadEvent.hpp (pe below),
            /repo/sparta/sparta/events/Scheduleable.hpp (sc), /repo/sparta/src/Scheduler.cpp (cpp).
    - The scheduler is reduced to what its own model (SchedModel) provides: slots with a tick, fired at their
      tick unless cancelled. A slot stays in its group's vector until the whole group has been fired (cpp 583-620),
      so that a fired slot can still be found by cancelEvent at the current tick; these are [x_stale].
    - Payload types whose copy constructor and destructor do not call back into the event.
    - Precedence, labels, delay_ and the destructor (pe 224-228) are left out. *)
From Coq Require Import List ZArith NArith Arith Bool.
Import ListNotations.

Section PE.
Context {A : Type}.

(** PayloadDeliveringProxy (pe 51-147): scheduled_, cancelled_, scheduleable_handle_count_ (sc 490, without the
    32-bit wrap-around), whether loc_ differs from end(), and the object in payload_storage_ together with the
    number of its preparation. The number and [p_obj], the number of handle objects that refer to the proxy, are
    not in the code and read by no decision. *)
Record proxy := mkPx { p_sched : bool; p_canc : bool; p_hnd : Z; p_obj : nat; p_in : bool; p_pay : option (nat * A) }.
(** A proxy as constructed (pe 66-77, 145-146). *)
Definition px0 : proxy := mkPx false false 0 0 false None.

(** What a user can observe, newest first: payload prepared, scheduled, delivered, cancelled while scheduled. *)
Inductive pobs := OPrep (u : nat) (v : A) | OSch (u : nat) | OFire (u : nat) (v : A) | OCan (u : nat).

(** Data members (pe 624-634): the proxies by their index in allocated_proxies_, allocation_idx_, free_pl_ up to
    free_idx_ (last element first) and inflight_pl_; the scheduler's slots for this event, the proxy whose handler
    is running and the current tick; the preparation counter and the log are not in the code. *)
Record pst := mkP { x_px : nat -> proxy; x_alloc : nat; x_free : list nat; x_infl : list nat;
  x_pend : list (nat * N); x_stale : list nat; x_cur : option nat; x_now : N; x_next : nat; x_log : list pobs }.
(** State after construction (pe 207-221). *)
Definition p_init : pst := mkP (fun _ => px0) 0 [] [] [] [] None 0 0 [].

(** Assignment to one proxy. *)
Definition xset (f : nat -> proxy) (p : nat) (x : proxy) : nat -> proxy := fun q => if Nat.eqb q p then x else f q.
Definition set_px (s : pst) (p : nat) (x : proxy) : pst :=
  mkP (xset (x_px s) p x) (x_alloc s) (x_free s) (x_infl s) (x_pend s) (x_stale s) (x_cur s) (x_now s) (x_next s) (x_log s).
(** Changes of the scheduler's slots (cpp 400-402, 745-757, 777-792). *)
Definition set_slots (s : pst) pend stale : pst :=
  mkP (x_px s) (x_alloc s) (x_free s) (x_infl s) pend stale (x_cur s) (x_now s) (x_next s) (x_log s).
(** Recording an observation; not in the code. *)
Definition pnote (s : pst) (o : pobs) : pst :=
  mkP (x_px s) (x_alloc s) (x_free s) (x_infl s) (x_pend s) (x_stale s) (x_cur s) (x_now s) (x_next s) (o :: x_log s).
(** Start and end of a handler (pe 136). *)
Definition set_cur (s : pst) c : pst :=
  mkP (x_px s) (x_alloc s) (x_free s) (x_infl s) (x_pend s) (x_stale s) c (x_now s) (x_next s) (x_log s).

(** allocateProxy_ (pe 151-177) with setPayload_ (pe 105-108) and the handle made from its result (sc 567-571).
    max_size() of inflight_pl_ is 1100 (pe 625); [None]: the assertion of pe 168 fails. *)
Definition prepare (s : pst) (v : A) : option pst :=
  let put (s : pst) (p : nat) (n : nat) (fr : list nat) :=
    let x := x_px s p in
    mkP (xset (x_px s) p (mkPx (p_sched x) (p_canc x) (p_hnd x + 1) (S (p_obj x)) true (Some (x_next s, v))))
        n fr (x_infl s ++ [p]) (x_pend s) (x_stale s) (x_cur s) (x_now s) (S (x_next s)) (OPrep (x_next s) v :: x_log s) in
  match x_free s with
  | p :: r => if p_sched (x_px s p) then None else Some (put s p (x_alloc s) r)
  | [] => if Nat.ltb (S (x_alloc s)) 1100 then Some (put s (x_alloc s) (S (x_alloc s)) []) else None
  end.

(** reclaim_ (pe 89-94) with reclaimProxy_ (pe 184-192) and destroyPayload_ (pe 111-114). *)
Definition reclaim (s : pst) (p : nat) : pst :=
  let x := x_px s p in
  if (negb (p_sched x) && (p_hnd x =? 0)%Z)%bool then
    let s1 := if p_in x then
                mkP (xset (x_px s) p (mkPx (p_sched x) (p_canc x) (p_hnd x) (p_obj x) false None))
                    (x_alloc s) (p :: x_free s) (filter (fun q => negb (Nat.eqb q p)) (x_infl s))
                    (x_pend s) (x_stale s) (x_cur s) (x_now s) (x_next s) (x_log s)
              else s in
    let y := x_px s1 p in set_px s1 p (mkPx (p_sched y) false (p_hnd y) (p_obj y) (p_in y) (p_pay y))
  else s.

(** eventCancelled_ (pe 98-102). *)
Definition event_cancelled (s : pst) (p : nat) : pst :=
  let x := x_px s p in
  let s1 := if p_sched x then match p_pay x with Some (u, _) => pnote s (OCan u) | None => s end else s in
  reclaim (set_px s1 p (mkPx false true (p_hnd x) (p_obj x) (p_in x) (p_pay x))) p.

(** Scheduleable::cancel() (sc 327-330) with Scheduler::cancelEvent (cpp 732-760): all slots of the proxy. *)
Definition cancel_p (s : pst) (p : nat) : pst :=
  event_cancelled (set_slots s (filter (fun e => negb (Nat.eqb (fst e) p)) (x_pend s))
                             (filter (fun q => negb (Nat.eqb q p)) (x_stale s))) p.
(** Scheduleable::cancel(rel_cycle) (sc 339-346) with Scheduler::cancelEvent(.., rel_time) (cpp 762-797):
    eventCancelled_ once for each slot of the proxy at tick [t]. *)
Fixpoint times (n : nat) (f : pst -> pst) (s : pst) : pst := match n with O => s | S m => times m f (f s) end.
Definition cancel_at (t : N) (s : pst) (p : nat) : pst :=
  let here (e : nat * N) := (Nat.eqb (fst e) p && (snd e =? t)%N)%bool in
  let old (q : nat) := (Nat.eqb q p && (t =? x_now s)%N)%bool in
  times (length (filter here (x_pend s)) + length (filter old (x_stale s))) (fun s => event_cancelled s p)
    (set_slots s (filter (fun e => negb (here e)) (x_pend s)) (filter (fun q => negb (old q)) (x_stale s))).

(** cancel() (pe 315-327): over inflight_pl_; cancelling a proxy removes no other one. *)
Definition cancel_all (s : pst) : pst := fold_left cancel_p (x_infl s) s.
(** cancel(rel_cycle) (pe 336-347). *)
Definition cancel_all_at (t : N) (s : pst) : pst := fold_left (cancel_at t) (x_infl s) s.
(** Payload read by getPayload_ (pe 117-119) in the loops below. *)
Definition matches (f : A -> bool) (s : pst) (p : nat) : bool := match p_pay (x_px s p) with Some (_, v) => f v | None => false end.
(** cancelIf (pe 358-374, 451-465). *)
Definition cancel_if (f : A -> bool) (s : pst) : pst := fold_left cancel_p (filter (matches f s) (x_infl s)) s.
(** Its result, cancel_cnt. *)
Definition cancel_if_count (f : A -> bool) (s : pst) : nat := length (filter (matches f s) (x_infl s)).
(** Results of cancel() and cancel(rel_cycle) (pe 317, 337). *)
Definition cancel_all_count (s : pst) : nat := length (x_infl s).
Definition cancel_at_count (s : pst) : nat := length (x_infl s).
(** confirmIf (pe 405-413, 552-560). *)
Definition confirm_if (f : A -> bool) (s : pst) : bool := existsb (matches f s) (x_infl s).
(** getNumOutstandingEvents (pe 287-289), isScheduled() (pe 307-309). *)
Definition outstanding (s : pst) : nat := length (x_infl s).
Definition is_sched (s : pst) : bool := Nat.ltb 0 (outstanding s).
(** isScheduled(rel_cycle) (pe 296-303) with Scheduler::isScheduled (cpp 681-709). *)
Definition is_sched_at (s : pst) (t : N) : bool :=
  existsb (fun p => (existsb (fun e => Nat.eqb (fst e) p && (snd e =? t)%N) (x_pend s)
                     || ((t =? x_now s)%N && existsb (Nat.eqb p) (x_stale s)))%bool) (x_infl s).

(** scheduleRelativeTick (pe 55-63): the assertion, else a slot at tick [t] (cpp 400-402). *)
Definition sched_p (s : pst) (p : nat) (t : N) : pst :=
  let x := x_px s p in
  if (p_canc x || p_sched x)%bool then s
  else let s1 := set_slots (set_px s p (mkPx true (p_canc x) (p_hnd x) (p_obj x) (p_in x) (p_pay x))) (x_pend s ++ [(p, t)]) (x_stale s) in
       match p_pay x with Some (u, _) => pnote s1 (OSch u) | None => s1 end.

(** connect_ and disconnect_ (sc 533-544); [obj] is the change of the number of handle objects. *)
Definition connect (s : pst) (p : nat) : pst :=
  let x := x_px s p in set_px s p (mkPx (p_sched x) (p_canc x) (p_hnd x + 1) (p_obj x) (p_in x) (p_pay x)).
Definition disconnect (s : pst) (p : nat) : pst :=
  let x := x_px s p in
  let s1 := set_px s p (mkPx (p_sched x) (p_canc x) (p_hnd x - 1) (p_obj x) (p_in x) (p_pay x)) in
  if (p_hnd x - 1 =? 0)%Z then reclaim s1 p else s1.
Definition objs (s : pst) (p : nat) (n : nat) : pst :=
  let x := x_px s p in set_px s p (mkPx (p_sched x) (p_canc x) (p_hnd x) n (p_in x) (p_pay x)).

(** Scheduler::clearEvents (cpp 236-270) as far as this event is concerned; the slots are emptied group by group
    there, which nothing in between reads. *)
Definition p_clear (s : pst) : pst := fold_left cancel_p (map fst (x_pend s)) s.

(** Executions. PSched names an absolute tick; a request that the scheduler itself refuses changes nothing and is
    left out. PCancel is cancel() through a handle. PFire / PRet are the start and the end of deliverPayload_, with
    arbitrary calls of the handler in between. PEndGroup: the group has been fired and its vector cleared. PTime:
    the scheduler moves on. *)
Inductive pact :=
| PPrepare (v : A) | PCopy (p : nat) | PDrop (p : nat) | PMove (p : nat) | PSelf (p : nat)
| PSched (p : nat) (t : N) | PCancel (p : nat) | PCancelAll | PCancelAt (t : N) | PCancelIf (f : A -> bool)
| PFire (p : nat) | PRet | PEndGroup | PTime (t : N) | PClear.

(** Remove the first slot equal to (p, t). *)
Fixpoint take1 (p : nat) (t : N) (l : list (nat * N)) : list (nat * N) :=
  match l with
  | [] => []
  | e :: r => if (Nat.eqb (fst e) p && (snd e =? t)%N)%bool then r else e :: take1 p t r
  end.

(** One step; actions that are not possible do nothing; [None]: an assertion of the event itself fails (pe 106, 131,
    168). A handle copy increments the count (sc 554-559), a moved handle does not and keeps pointing to the proxy
    (sc 551), self-assignment disconnects first (sc 612-617). *)
Definition pstep (s : pst) (a : pact) : option pst :=
  match a with
  | PPrepare v => prepare s v
  | PCopy p => Some (if Nat.ltb 0 (p_obj (x_px s p)) then objs (connect s p) p (S (p_obj (x_px s p))) else s)
  | PDrop p => Some (if Nat.ltb 0 (p_obj (x_px s p)) then disconnect (objs s p (pred (p_obj (x_px s p)))) p else s)
  | PMove p => Some (if Nat.ltb 0 (p_obj (x_px s p)) then objs s p (S (p_obj (x_px s p))) else s)
  | PSelf p => Some (if Nat.ltb 0 (p_obj (x_px s p)) then connect (disconnect s p) p else s)
  | PSched p t => Some (if (Nat.ltb 0 (p_obj (x_px s p)) && (x_now s <=? t)%N)%bool then sched_p s p t else s)
  | PCancel p => Some (if Nat.ltb 0 (p_obj (x_px s p)) then cancel_p s p else s)
  | PCancelAll => Some (cancel_all s)
  | PCancelAt t => Some (cancel_all_at t s)
  | PCancelIf f => Some (cancel_if f s)
  | PFire p =>
      match x_cur s with
      | Some _ => Some s
      | None =>
        if existsb (fun e => Nat.eqb (fst e) p && (snd e =? x_now s)%N)%bool (x_pend s) then
          let s1 := set_slots s (take1 p (x_now s) (x_pend s)) (p :: x_stale s) in
          let x := x_px s p in
          if p_sched x then
            let s2 := set_cur (set_px s1 p (mkPx false (p_canc x) (p_hnd x) (p_obj x) (p_in x) (p_pay x))) (Some p) in
            Some (match p_pay x with Some (u, v) => pnote s2 (OFire u v) | None => s2 end)
          else None
        else Some s
      end
  | PRet => Some (match x_cur s with Some p => reclaim (set_cur s None) p | None => s end)
  | PEndGroup => Some (match x_cur s with None => set_slots s (x_pend s) [] | Some _ => s end)
  | PTime t => Some (match x_cur s with
                     | None => if ((x_now s <? t)%N && forallb (fun e => (t <=? snd e)%N) (x_pend s))%bool
                               then mkP (x_px s) (x_alloc s) (x_free s) (x_infl s) (x_pend s) [] None t (x_next s) (x_log s)
                               else s
                     | Some _ => s
                     end)
  | PClear => Some (match x_cur s with None => set_slots (p_clear s) (x_pend (p_clear s)) [] | Some _ => s end)
  end.
(** A whole execution. *)
Fixpoint prun (s : pst) (l : list pact) : option pst :=
  match l with [] => Some s | a :: r => match pstep s a with Some s' => prun s' r | None => None end end.
End PE.
Arguments pst : clear implicits.
Arguments pact : clear implicits.
Arguments pobs : clear implicits.
Arguments proxy : clear implicits.
