(** Model of sparta::Pipeline. Source: /repo/sparta/sparta/resources/Pipeline.hpp; the underlying sparta::Pipe is PipeModel.
    The handlers of a stage are one event: it is pending or not ([l_calls], in the order of scheduling). Handlers are
    registered before the first use. Payload events, precedence between stages (346-542), iterators and collection are left out.
    [None] is a failed assertion. Stage numbers from 2^31 on are not modelled, as in PipeModel. *)
From Coq Require Import List NArith Bool.
From Verif Require Import MathUtilsModel PipeModel.
Import ListNotations.
Open Scope N_scope.

(** std::numeric_limits<uint32_t>::max(), the value of stall_stage_id_ when there is no stall (1135). *)
Definition no_stage : N := 2 ^ 32 - 1.

Section PIPELINE.
Context {A : Type}.

(** Data members (1097-1135). *)
Record pline := mkL {
  l_pipe : pipe A;       (* pipe_ *)
  l_ev : N -> bool;      (* event_list_at_stage_[i].size() > 0 *)
  l_evv : N -> bool;     (* events_valid_at_stage_ *)
  l_adv : N -> bool;     (* advance_into_stage_ *)
  l_stall : N;           (* stall_cycles_ *)
  l_stage : N;           (* stall_stage_id_ *)
  l_own : bool;          (* perform_own_update_ *)
  l_sched : bool;        (* ev_pipeline_update_ is scheduled *)
  l_calls : list N       (* stages whose handlers are scheduled for this cycle *)
}.
(** Constructor (237-266) followed by the registrations (293-344) at the stages [ev]. *)
Definition l_init (n : N) (ev : N -> bool) : option pline :=
  option_map (fun p => mkL p ev ev (fun _ => true) 0 no_stage false false []) (p_init n).

(** Assignments to single members. *)
Definition set_pipe (l : pline) (p : pipe A) : pline := mkL p (l_ev l) (l_evv l) (l_adv l) (l_stall l) (l_stage l) (l_own l) (l_sched l) (l_calls l).
Definition set_stall (l : pline) (c s : N) : pline := mkL (l_pipe l) (l_ev l) (l_evv l) (l_adv l) c s (l_own l) (l_sched l) (l_calls l).
Definition set_flags (l : pline) (e a : N -> bool) : pline := mkL (l_pipe l) (l_ev l) e a (l_stall l) (l_stage l) (l_own l) (l_sched l) (l_calls l).
Definition set_sched (l : pline) (b : bool) : pline := mkL (l_pipe l) (l_ev l) (l_evv l) (l_adv l) (l_stall l) (l_stage l) (l_own l) b (l_calls l).
Definition set_calls (l : pline) (c : list N) : pline := mkL (l_pipe l) (l_ev l) (l_evv l) (l_adv l) (l_stall l) (l_stage l) (l_own l) (l_sched l) c.
(** Assignment to an element of a std::vector<bool>. *)
Definition updb (f : N -> bool) (i : N) (b : bool) : N -> bool := fun j => if j =? i then b else f j.

(** isStalledOrStalling (722-724). *)
Definition stalled (l : pline) : bool := (0 <? l_stall l) || (l_stage l <? no_stage).
(** isStalledOrStallingAtStage (732-734). *)
Definition stalled_at (l : pline) (s : N) : bool := stalled l && (s <=? l_stage l).
(** The body of the loops of deactivate_ (1064-1074), from [count] - 1 down to 0. *)
Fixpoint deact (p : pipe A) (ev : N -> bool) (count : nat) (crush supp : bool) (f : (N -> bool) * (N -> bool)) : option ((N -> bool) * (N -> bool)) :=
  match count with
  | O => Some f
  | S c => let s := N.of_nat c in
      match is_valid p s with
      | None => None
      | Some v => if crush && negb v then Some f
                  else deact p ev c crush supp ((if supp && ev s then updb (fst f) s false else fst f), updb (snd f) s false)
      end
  end.
(** The loop of restart_ (1080-1087), from stage [s], [count] rounds; [None]: the assertion at 1081. *)
Fixpoint rest (n : N) (ev : N -> bool) (s : N) (count : nat) (f : (N -> bool) * (N -> bool)) : option ((N -> bool) * (N -> bool)) :=
  match count with
  | O => Some f
  | S c => if s <? n then rest n ev (s + 1) c ((if ev s then updb (fst f) s true else fst f), updb (snd f) s true) else None
  end.
(** restart_ (1078-1088). *)
Definition restart (l : pline) (k : N) : option pline :=
  if k <? p_n (l_pipe l) then option_map (fun f => set_flags l (fst f) (snd f)) (rest (p_n (l_pipe l)) (l_ev l) 0 (S (N.to_nat k)) (l_evv l, l_adv l)) else None.
(** stall (699-714) with deactivate_ (1057-1075). *)
Definition stall (l : pline) (k c : N) (crush supp : bool) : option pline :=
  match is_valid (l_pipe l) k with
  | Some true =>
      if stalled l then None else if c =? 0 then Some l
      else option_map (fun f => set_flags (set_stall l c k) (fst f) (snd f)) (deact (l_pipe l) (l_ev l) (S (N.to_nat k)) crush supp (l_evv l, l_adv l))
  | _ => None
  end.
(** clearStall (754-762). *)
Definition clear_stall (l : pline) : option pline :=
  if stalled l then option_map (fun l' => set_stall l' 0 no_stage) (restart (set_stall l 0 (l_stage l)) (l_stage l)) else None.
(** cancelEventsAtStage_ (1025-1035); cancelling removes the pending call of this cycle. *)
Definition cancel_at (l : pline) (k : N) : option pline :=
  match is_valid (l_pipe l) k with
  | None => None
  | Some v => if v && l_evv l k then if l_ev l k then Some (set_calls l (filter (fun j => negb (j =? k)) (l_calls l))) else None else Some l
  end.
(** flushStage (771-783). *)
Definition flush_stage (l : pline) (k : N) : option pline :=
  match cancel_at l k with
  | None => None
  | Some l1 =>
      match (if k =? l_stage l1 then if stalled l1 then option_map (fun l' => set_stall l' 0 no_stage) (restart l1 (l_stage l1)) else None else Some l1) with
      | None => None
      | Some l2 => option_map (set_pipe l2) (flush (l_pipe l2) k)
      end
  end.
(** flushAllStages (805-809), from stage [s], [count] rounds. *)
Fixpoint flush_stages (l : pline) (s : N) (count : nat) : option pline :=
  match count with O => Some l | S c => match flush_stage l s with Some l' => flush_stages l' (s + 1) c | None => None end end.
(** Moving the content of a stage into the next one (994-995, 1009-1010). *)
Definition push1 (p : pipe A) (s : N) : option (pipe A) :=
  match read p s with
  | None => None
  | Some a => match write p (s + 1) a with Some p' => invalidate p' s | None => None end
  end.
(** First loop of drain_ (992-999): the stages behind the stalled one. *)
Fixpoint drain_a (p : pipe A) (s : nat) (start : N) : option (pipe A * nat) :=
  match s with
  | O => Some (p, O)
  | S s' =>
      if start <? N.of_nat s then
        match is_valid p (N.of_nat s') with
        | None => None
        | Some true => match push1 p (N.of_nat s') with Some p' => drain_a p' s' start | None => None end
        | Some false => drain_a p s' start
        end
      else Some (p, s)
  end.
(** Second loop of drain_ (1006-1014): closing bubbles. *)
Fixpoint drain_b (adv : N -> bool) (p : pipe A) (s : nat) : option (pipe A) :=
  match s with
  | O => Some p
  | S s' =>
      match is_valid p (N.of_nat s), is_valid p (N.of_nat s') with
      | Some v, Some v' =>
          if adv (N.of_nat s') && negb v && v' then match push1 p (N.of_nat s') with Some p' => drain_b adv p' s' | None => None end
          else drain_b adv p s'
      | _, _ => None
      end
  end.
(** drain_ (982-1018). *)
Definition drain (l : pline) (start : N) : option (pipe A) :=
  let last := (N.to_nat (p_n (l_pipe l)) - 1)%nat in
  match is_valid (l_pipe l) (N.of_nat last) with
  | None => None
  | Some v =>
      match (if (start <=? N.of_nat last) && v then invalidate (l_pipe l) (N.of_nat last) else Some (l_pipe l)) with
      | None => None
      | Some p1 =>
          match drain_a p1 last start with
          | None => None
          | Some (p2, s) => match drain_b (l_adv l) p2 s with None => None | Some p3 => shift_append p3 end
          end
      end
  end.
(** scheduleEventForEachStage_ (1038-1054), from stage [s], [count] rounds; a call already pending is not added again. *)
Fixpoint sched_each (l : pline) (s : N) (count : nat) : option pline :=
  match count with
  | O => Some l
  | S c =>
      match is_valid (l_pipe l) s with
      | None => None
      | Some v =>
          if v && l_evv l s then
            if l_ev l s then sched_each (if existsb (N.eqb s) (l_calls l) then l else set_calls l (l_calls l ++ [s])) (s + 1) c else None
          else sched_each l (s + 1) c
      end
  end.
(** internalUpdate_ (960-979). *)
Definition internal (l : pline) : option pline :=
  let n := N.to_nat (p_n (l_pipe l)) in
  let own l' := set_sched l' (l_sched l' || (any_valid (l_pipe l') && l_own l')) in
  if stalled l then
    match drain l (inc32 (l_stage l)) with
    | None => None
    | Some p =>
        match sched_each (set_pipe l p) 0 n with
        | None => None
        | Some l1 =>
            let l2 := set_stall l1 (dec32 (l_stall l1)) (l_stage l1) in
            if l_stall l2 =? 0 then option_map (fun l' => own (set_stall l' (l_stall l') no_stage)) (restart l2 (l_stage l2)) else Some (own l2)
        end
    end
  else
    match PipeModel.update (l_pipe l) with
    | None => None
    | Some p => option_map own (sched_each (set_pipe l p) 0 n)
    end.
(** Scheduling the update event after a change (944-946, 954-956, 685-687). *)
Definition touch (l : pline) (p : pipe A) : pline := set_sched (set_pipe l p) (l_sched l || l_own l).
(** The calls. [PFire] is the scheduler firing the update event, [PCalls] the scheduler running the pending handlers. *)
Inductive lop :=
| PAppend (a : A) | PWrite (s : N) (a : A) | PInvalidate (s : N) | PStall (k c : N) (crush supp : bool) | PClear | PFlush (k : N) | PFlushAll
| PFlushAppend | PActivate (s : N) | PDeactivate (s : N) | POwn | PUpdate | PFire | PCalls.
(** append (622, 940-947), writeStage (660, 950-957), invalidateStage (681-688), stall (699), clearStall (754), flushStage (771), flushAllStages (805),
    flushAppend (814-816), activateEventAtStage (589-597), deactivateEventAtStage (607-615), performOwnUpdates (893-902), update (914-919). *)
Definition lstep (l : pline) (o : lop) : option pline :=
  match o with
  | PAppend a => option_map (touch l) (append (l_pipe l) a)
  | PWrite s a => option_map (touch l) (write (l_pipe l) s a)
  | PInvalidate s => option_map (touch l) (invalidate (l_pipe l) s)
  | PStall k c crush supp => stall l k c crush supp
  | PClear => clear_stall l
  | PFlush k => flush_stage l k
  | PFlushAll => flush_stages l 0 (N.to_nat (p_n (l_pipe l)))
  | PFlushAppend => Some (set_pipe l (flush_append (l_pipe l)))
  | PActivate s => if (s <? p_n (l_pipe l)) && l_ev l s then Some (set_flags l (updb (l_evv l) s true) (l_adv l)) else None
  | PDeactivate s => if (s <? p_n (l_pipe l)) && l_ev l s then Some (set_flags l (updb (l_evv l) s false) (l_adv l)) else None
  | POwn => if l_own l then Some l
            else Some (mkL (l_pipe l) (l_ev l) (l_evv l) (l_adv l) (l_stall l) (l_stage l) true (l_sched l || any_valid (l_pipe l)) (l_calls l))
  | PUpdate => if l_own l then None else internal l
  | PFire => if l_sched l then internal (set_sched l false) else Some l
  | PCalls => Some (set_calls l [])
  end.
(** A sequence of calls. *)
Fixpoint lrun (l : pline) (ops : list lop) : option pline :=
  match ops with [] => Some l | o :: r => match lstep l o with Some l' => lrun l' r | None => None end end.
End PIPELINE.
Arguments pline : clear implicits.
Arguments lop : clear implicits.
