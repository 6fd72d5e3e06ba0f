(** Model of sparta::Queue. Source: /repo/sparta/sparta/resources/Queue.hpp.
    Indices are uint32_t (size_type) with explicit wrap-around, object ids are uint64_t.
    Statistics (utilization_), collection and the const/non-const iterator variants are left
    out. Raw memory of a slot is kept after destruction, as in the code. *)
From Coq Require Import List NArith Bool.
Import ListNotations.
Open Scope N_scope.

Section QUEUE.
Context {A : Type}.

(** A slot of queue_data_ (178-187, 469): never constructed, or constructed with an object id;
    [None] data means that the data has been destroyed. *)
Inductive slot := Raw | Slot (d : option A) (oid : N).

(** Data members (804-834). *)
Record queue := mkQ {
  q_entries : N;        (* num_entries_ 804 *)
  q_write : N;          (* current_write_idx_ 805 *)
  q_head : N;           (* current_head_idx_ 806 *)
  q_valid : N;          (* total_valid_ 807 *)
  q_vsize : N;          (* vector_size_ 808 *)
  q_oid : N;            (* obj_id_ 813 *)
  q_slots : N -> slot   (* queue_data_ 834 *)
}.

(** uint32_t and uint64_t wrap-around. *)
Definition w32 (x : N) : N := x mod 2 ^ 32.
Definition w64 (x : N) : N := x mod 2 ^ 64.

(** nextPowerOfTwo_ (147-151): 1 << (64 - clzll(val - 1)), returned as uint32_t. For val >= 2,
    64 - clzll(v) is the number of significant bits of v. *)
Definition next_pow2 (val : N) : N :=
  if val <? 2 then 1 else w32 (N.shiftl 1 (N.size (val - 1))).

(** Constructor (440-470); num_entries*2 is uint32_t arithmetic. *)
Definition q_init (n : N) : queue :=
  mkQ n 0 0 0 (next_pow2 (w32 (n * 2))) 0 (fun _ => Raw).

(** rollPhysicalIndex_ (154-156). *)
Definition roll (q : queue) (i : N) : N := N.land (w32 (q_vsize q + 2 ^ 32 - 1)) i.
(** getPhysicalIndex_ (159-161). *)
Definition phys (q : queue) (i : N) : N := roll q (w32 (i + q_head q)).
(** incrementIndexValue_ (166-168). *)
Definition incr (q : queue) (i : N) : N := roll q (w32 (i + 1)).
(** decrementIndexValue_ (173-175). *)
Definition decr (q : queue) (i : N) : N := roll q (w32 (i + 2 ^ 32 - 1)).
(** invalid_index_ (809). *)
Definition invalid (q : queue) : N := w32 (q_vsize q + 1).
(** physicalToLogical_ (202-206). *)
Definition logical (q : queue) (p : N) : N :=
  if p =? invalid q then invalid q else roll q (w32 (p + 2 ^ 32 - q_head q)).
(** isValidPhysical_ (209-213). *)
Definition valid_phys (q : queue) (p : N) : bool := logical q p <? q_valid q.

(** Assignment to one slot. *)
Definition upd (s : N -> slot) (i : N) (x : slot) : N -> slot := fun j => if j =? i then x else s j.
(** Destructor call on the data of a slot (585, 641, 662). *)
Definition destroy (s : slot) : slot := match s with Raw => Raw | Slot _ o => Slot None o end.
(** Reading the data of a slot; [None] is a read of memory that holds no object. *)
Definition data_of (s : slot) : option A := match s with Slot (Some a) _ => Some a | _ => None end.
(** Reading obj_id of a slot; [None] is a read of uninitialised memory. *)
Definition oid_of (s : slot) : option N := match s with Slot _ o => Some o | Raw => None end.

(** isValid (494-496), read / access (503-518): [None] is the failed assertion or an invalid read. *)
Definition q_read (q : queue) (i : N) : option A :=
  if i <? q_valid q then data_of (q_slots q (phys q i)) else None.
(** front (524-527). *)
Definition q_front (q : queue) : option A :=
  if q_valid q =? 0 then None else data_of (q_slots q (q_head q)).
(** back (533-538). *)
Definition q_back (q : queue) : option A :=
  if q_valid q =? 0 then None else data_of (q_slots q (decr q (q_write q))).
(** size (552-554), numFree (561-563), empty (571-573). *)
Definition q_size (q : queue) : N := q_valid q.
(** numFree (561-563). *)
Definition q_free (q : queue) : N := w32 (q_entries q + 2 ^ 32 - q_valid q).
(** empty (571-573). *)
Definition q_empty (q : queue) : bool := q_valid q =? 0.

(** The loop of clear (582-587); [None]: it has not ended after [fuel] steps. *)
Fixpoint clear_loop (fuel : nat) (q : queue) (idx : N) (s : N -> slot) : option (N -> slot) :=
  if idx =? q_write q then Some s
  else match fuel with
       | O => None
       | S f => clear_loop f q (incr q idx) (upd s idx (destroy (s idx)))
       end.
(** clear (580-592). *)
Definition q_clear (q : queue) : option queue :=
  match clear_loop (S (N.to_nat (q_vsize q))) q (q_head q) (q_slots q) with
  | None => None
  | Some s => Some (mkQ (q_entries q) 0 0 0 (q_vsize q) (q_oid q) s)
  end.

(** QueueIterator (226-398): physical_index_ and obj_id_; attached to the queue it came from. *)
Record iter := mkIt { it_phys : N; it_oid : N }.
(** Constructor (240-244): obj_id is a uint32_t parameter. *)
Definition new_iter (p o : N) : iter := mkIt p (w32 o).

(** pushImpl_ (700-720); [None]: failed assertion. *)
Definition q_push (q : queue) (a : A) : option (queue * iter) :=
  if q_valid q =? q_entries q then None
  else if q_vsize q <? q_write q then None
  else
    let o := w64 (q_oid q + 1) in
    Some (mkQ (q_entries q) (incr q (q_write q)) (q_head q) (w32 (q_valid q + 1)) (q_vsize q) o
              (upd (q_slots q) (q_write q) (Slot (Some a) o)),
          new_iter (q_write q) o).

(** pop (636-648) with processInvalidation_ (797-802). *)
Definition q_pop (q : queue) : option queue :=
  if q_valid q =? 0 then None
  else Some (mkQ (q_entries q) (q_write q) (incr q (q_head q)) (q_valid q - 1) (q_vsize q) (q_oid q)
                 (upd (q_slots q) (q_head q) (destroy (q_slots q (q_head q))))).

(** pop_back (654-666). *)
Definition q_pop_back (q : queue) : option queue :=
  if q_valid q =? 0 then None
  else let w := decr q (q_write q) in
       Some (mkQ (q_entries q) w (q_head q) (q_valid q - 1) (q_vsize q) (q_oid q)
                 (upd (q_slots q) w (destroy (q_slots q w)))).

(** determineIteratorValidity_ (722-738), through isValid (283-286). The comparison with the id
    of a raw slot cannot be reached: only slots of queued elements are compared. *)
Definition it_valid (q : queue) (it : iter) : bool :=
  if it_phys it =? invalid q then false
  else if q_empty q then false
  else if valid_phys q (it_phys it) then
    match oid_of (q_slots q (it_phys it)) with Some o => o =? it_oid it | None => false end
  else false.
(** operator* (354-358): [None] is the failed assertion. *)
Definition it_deref (q : queue) (it : iter) : option A :=
  if it_valid q it then data_of (q_slots q (it_phys it)) else None.
(** getIndex (377-381). *)
Definition it_index (q : queue) (it : iter) : N := logical q (it_phys it).

(** end (681): the id argument is invalid_index_. *)
Definition q_end (q : queue) : iter := new_iter (invalid q) (invalid q).
(** begin (670-677); [None]: reads uninitialised memory. *)
Definition q_begin (q : queue) : option iter :=
  if q_empty q then Some (q_end q)
  else match oid_of (q_slots q (q_head q)) with
       | Some o => Some (new_iter (q_head q) o)
       | None => None
       end.
(** operator== (310-315). *)
Definition it_eqb (a b : iter) : bool := (it_phys a =? it_phys b) && (it_oid a =? it_oid b).
(** operator++ (323-328) with incrementIterator_ (761-787); obj_id_ is assigned without
    truncation. *)
Definition it_incr (q : queue) (it : iter) : option iter :=
  if it_phys it =? invalid q then None
  else let p := incr q (it_phys it) in
       if valid_phys q p then
         match oid_of (q_slots q p) with Some o => Some (mkIt p o) | None => None end
       else Some (mkIt (invalid q) (invalid q)).
(** operator-- (339-344) with decrementIterator_ (740-759). *)
Definition it_decr (q : queue) (it : iter) : option iter :=
  if it_phys it =? q_head q then None
  else
    let p := if it_phys it =? invalid q then decr q (q_write q) else decr q (it_phys it) in
    match oid_of (q_slots q p) with Some o => Some (mkIt p o) | None => None end.

(** The modifying calls of the API. *)
Inductive qop := Push (a : A) | Pop | PopBack | Clear.
(** One call; [None]: an assertion fails. *)
Definition q_step (q : queue) (o : qop) : option queue :=
  match o with
  | Push a => option_map fst (q_push q a)
  | Pop => q_pop q
  | PopBack => q_pop_back q
  | Clear => q_clear q
  end.
(** A sequence of calls. *)
Fixpoint q_run (q : queue) (ops : list qop) : option queue :=
  match ops with
  | [] => Some q
  | o :: r => match q_step q o with Some q' => q_run q' r | None => None end
  end.

End QUEUE.
Arguments slot : clear implicits.
Arguments queue : clear implicits.
Arguments qop : clear implicits.
