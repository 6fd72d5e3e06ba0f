(** Model of sparta::Pipe. Source: /repo/sparta/sparta/resources/Pipe.hpp.
    Stages are numbers; -1 is the append slot. uint32_t arithmetic wraps. Stage arguments of
    2^31 and above, which the code converts to negative numbers, are not modelled. The update
    event (a UniqueEvent) is a pending flag. Collection and iterators are left out. *)
From Coq Require Import List NArith ZArith Bool.
From Verif Require Import MathUtilsModel.
Import ListNotations.
Open Scope N_scope.

Section PIPE.
Context {A : Type}.

(** Data members (529-545); a slot is ValidValue<DataT> (49-52): [None] is not valid. *)
Record pipe := mkP {
  p_n : N;                  (* num_entries_ *)
  p_phys : N;               (* physical_size_ *)
  p_mask : N;               (* stage_mask_ *)
  p_nv : N;                 (* num_valid_ *)
  p_tail : N;               (* tail_ *)
  p_slots : N -> option A;  (* pipe_ *)
  p_own : bool;             (* perform_own_updates_ *)
  p_sched : bool            (* ev_update_ is scheduled *)
}.

(** initPipe_ (60-68) from the constructor (203-214); [None]: the assertion at 62. *)
Definition p_init (n : N) : option pipe :=
  if n =? 0 then None
  else let ph := (2 ^ ceil_log2 (n + 1)) mod 2 ^ 32 in
       Some (mkP n ph ((ph + 2 ^ 32 - 1) mod 2 ^ 32) 0 0 (fun _ => None) false false).

(** getPhysicalStage_ (54-58) for stage -1, the append slot. *)
Definition phys_append (p : pipe) : N := N.land ((p_tail p + (2 ^ 32 - 1)) mod 2 ^ 32) (p_mask p).
(** getPhysicalStage_ (54-58) for stage >= 0; [None]: the assertion at 56. *)
Definition phys_stage (p : pipe) (s : N) : option N :=
  if s <? p_n p then Some (N.land ((p_tail p + s) mod 2 ^ 32) (p_mask p)) else None.

(** Assignment to a slot. *)
Definition upd (f : N -> option A) (i : N) (x : option A) : N -> option A := fun j => if j =? i then x else f j.
(** isValid of a slot. *)
Definition ok (x : option A) : bool := match x with Some _ => true | None => false end.
(** ++ and -- on uint32_t. *)
Definition inc32 (x : N) : N := (x + 1) mod 2 ^ 32.
(** -- on uint32_t. *)
Definition dec32 (x : N) : N := (x + 2 ^ 32 - 1) mod 2 ^ 32.
(** if(perform_own_updates_) ev_update_.schedule(). *)
Definition resched (p : pipe) (slots : N -> option A) (nv : N) : pipe :=
  mkP (p_n p) (p_phys p) (p_mask p) nv (p_tail p) slots (p_own p) (p_sched p || p_own p).
(** Change of the slots and of the count without scheduling. *)
Definition quiet (p : pipe) (slots : N -> option A) (nv : N) : pipe :=
  mkP (p_n p) (p_phys p) (p_mask p) nv (p_tail p) slots (p_own p) (p_sched p).

(** isValid (428-432). *)
Definition is_valid (p : pipe) (s : N) : option bool := option_map (fun i => ok (p_slots p i)) (phys_stage p s).
(** read / access (448-463): [None] is a failed assertion. *)
Definition read (p : pipe) (s : N) : option A := match phys_stage p s with Some i => p_slots p i | None => None end.
(** isAppended (272-276), readAppendedData (473-479). *)
Definition appended (p : pipe) : option A := p_slots p (phys_append p).
(** numValid (245-247). *)
Definition num_valid (p : pipe) : N := p_nv p.
(** isAnyValid (435-438). *)
Definition any_valid (p : pipe) : bool := (0 <? p_nv p) || ok (appended p).

(** appendImpl_ (568-578). *)
Definition append (p : pipe) (a : A) : option pipe :=
  if ok (appended p) then None
  else Some (resched p (upd (p_slots p) (phys_append p) (Some a)) (p_nv p)).
(** writePSImpl_ (580-592). *)
Definition write (p : pipe) (s : N) (a : A) : option pipe :=
  match phys_stage p s with
  | None => None
  | Some i => let nv := if ok (p_slots p i) then dec32 (p_nv p) else p_nv p in
              Some (resched p (upd (p_slots p) i (Some a)) (inc32 nv))
  end.
(** invalidatePS (318-331). *)
Definition invalidate (p : pipe) (s : N) : option pipe :=
  match phys_stage p s with
  | None => None
  | Some i => if ok (p_slots p i) then Some (resched p (upd (p_slots p) i None) (dec32 (p_nv p))) else None
  end.
(** flushPS (348-356). *)
Definition flush (p : pipe) (s : N) : option pipe :=
  match phys_stage p s with
  | None => None
  | Some i => Some (quiet p (upd (p_slots p) i None) (if ok (p_slots p i) then dec32 (p_nv p) else p_nv p))
  end.
(** flushAppend (359-363). *)
Definition flush_append (p : pipe) : pipe := quiet p (upd (p_slots p) (phys_append p) None) (p_nv p).

(** Physical positions of stages -1, 0, ..., n-1, the range of the loops at 368, 384 and 407. *)
Definition positions (p : pipe) : list N :=
  phys_append p :: map (fun s => N.land ((p_tail p + N.of_nat s) mod 2 ^ 32) (p_mask p)) (seq 0 (N.to_nat (p_n p))).
(** flushAll (366-373). *)
Definition flush_all (p : pipe) : pipe :=
  quiet p (fold_left (fun f i => upd f i None) (positions p) (p_slots p)) 0.
(** One round of the loops of flushIf (385-393, 408-416). *)
Definition flush_if1 (pr : A -> bool) (st : (N -> option A) * N) (i : N) : (N -> option A) * N :=
  let (f, nv) := st in
  match f i with
  | Some a => if pr a then (upd f i None, dec32 nv) else st
  | None => st
  end.
(** flushIf (383-395 and 406-418). *)
Definition flush_if (p : pipe) (pr : A -> bool) : pipe :=
  let (f, nv) := fold_left (flush_if1 pr) (positions p) (p_slots p, p_nv p) in quiet p f nv.
(** clear (336-339). *)
Definition clear (p : pipe) : pipe := quiet p (fun _ => None) 0.
(** internalUpdate_ (547-566), with the pending flag [sched] left by the caller. *)
Definition internal_update (p : pipe) (sched : bool) : option pipe :=
  match phys_stage p (p_n p - 1) with
  | None => None
  | Some h =>
      let nv := if ok (p_slots p h) then dec32 (p_nv p) else p_nv p in
      let f := upd (p_slots p) h None in
      let t := phys_append p in
      let nv := if ok (f t) then inc32 nv else nv in
      Some (mkP (p_n p) (p_phys p) (p_mask p) nv t f (p_own p) (sched || ((0 <? nv) && p_own p)))
  end.
(** update (482-486). *)
Definition update (p : pipe) : option pipe := if p_own p then None else internal_update p (p_sched p).
(** The update event fires, if it is pending. *)
Definition fire (p : pipe) : option pipe := if p_sched p then internal_update p false else Some p.
(** shiftAppend (490-503). *)
Definition shift_append (p : pipe) : option pipe :=
  match appended p with
  | None => Some p
  | Some a =>
      match is_valid p 0 with
      | None => None
      | Some true => Some p
      | Some false => option_map (fun p' => quiet p' (upd (p_slots p') (phys_append p) None) (p_nv p')) (write p 0 a)
      end
  end.
(** performOwnUpdates (231-236). *)
Definition perform_own (p : pipe) : pipe :=
  mkP (p_n p) (p_phys p) (p_mask p) (p_nv p) (p_tail p) (p_slots p) true
      (p_sched p || (negb (p_own p) && any_valid p)).

(** The API. [OFire] is the scheduler firing the update event at the start of a cycle. *)
Inductive pop :=
| OAppend (a : A) | OWrite (s : N) (a : A) | OInvalidate (s : N) | OFlush (s : N) | OFlushAppend
| OFlushAll | OFlushIf (pr : A -> bool) | OClear | OUpdate | OShiftAppend | OOwn | OFire.
(** One call; [None]: a failed assertion. *)
Definition step (p : pipe) (o : pop) : option pipe :=
  match o with
  | OAppend a => append p a
  | OWrite s a => write p s a
  | OInvalidate s => invalidate p s
  | OFlush s => flush p s
  | OFlushAppend => Some (flush_append p)
  | OFlushAll => Some (flush_all p)
  | OFlushIf pr => Some (flush_if p pr)
  | OClear => Some (clear p)
  | OUpdate => update p
  | OShiftAppend => shift_append p
  | OOwn => Some (perform_own p)
  | OFire => fire p
  end.
(** A sequence of calls. *)
Fixpoint run (p : pipe) (ops : list pop) : option pipe :=
  match ops with [] => Some p | o :: r => match step p o with Some p' => run p' r | None => None end end.
End PIPE.
Arguments pipe : clear implicits.
Arguments pop : clear implicits.
