(** The in-memory checkpointer: sparta/sparta/serialization/checkpoint/FastCheckpointer.hpp ("fc"), DeltaCheckpoint.hpp
    ("dc"), Checkpoint.hpp ("cp") and Checkpointer.hpp ("cr"). Squashing branches (fc 553-759) is in SquashModel; the printing
    functions are left out. The tree is finalized and the scheduler, if any, is not running. *)
From Coq Require Import List NArith Arith Bool Lia.
From Verif Require Import LayoutModel ArchDataModel StorageModel.
Import ListNotations.
Open Scope N_scope.

(** A checkpoint (cp 17-195, dc 43-633). Pointers are keys of the checkpointer's map, which are the identifiers given at
    creation. [n_dead] is isFlaggedDeleted (dc 444-446): the identifier reads as UNIDENTIFIED_CHECKPOINT and deleted_id_ is the
    key. The read position inside [n_data] is not kept, prepareForLoad sets it anew before every use. *)
Record node := mkNode { n_tick : N; n_dead : bool; n_prev : option N; n_nexts : list N; n_snap : bool; n_data : vstore }.
(** The checkpointer (fc 1035-1066, cr 757-780): the map ordered by key, head_, current_, the next identifier, the three
    uint32_t counters, the snapshot threshold and the number of checkpoints created. *)
Record ckpt := mkCk { k_nodes : list (N * node); k_head : option N; k_cur : option N; k_next : N;
  k_alive : N; k_snaps : N; k_deadn : N; k_thresh : N; k_total : N }.
(** The checkpointer's surroundings: the ArchDatas below the root (cr, getArchDatas) and the scheduler's current tick if
    there is a scheduler. *)
Record world := mkW { w_dats : list adata; w_sched : option N; w_ck : ckpt }.

(** UNIDENTIFIED_CHECKPOINT (CheckpointBase.hpp 51). *)
Definition no_id : N := 18446744073709551615.
(** The constructor (fc 92-99); DEFAULT_SNAPSHOT_THRESH is 20 (fc 20). *)
Definition ck_new : ckpt := mkCk [] None None 0 0 0 0 20 0.

(** findCheckpoint_ (fc 890-896). *)
Fixpoint get (x : N) (l : list (N * node)) : option node :=
  match l with [] => None | (i, n) :: r => if i =? x then Some n else get x r end.
(** Changing a checkpoint in place, as cp 89-91, 124, 146 and dc 433-434 do. *)
Fixpoint upd (x : N) (f : node -> node) (l : list (N * node)) : list (N * node) :=
  match l with [] => [] | (i, n) :: r => if i =? x then (i, f n) :: r else (i, n) :: upd x f r end.
(** chkpts_.erase of an element, without the destructor (fc 833-835). *)
Fixpoint del (x : N) (l : list (N * node)) : list (N * node) :=
  match l with [] => [] | (i, n) :: r => if i =? x then r else (i, n) :: del x r end.
(** Dereferencing a checkpoint pointer (cp 79): one that is no longer in the map is dangling. *)
Definition deref (x : N) (l : list (N * node)) : outcome node :=
  match get x l with Some n => Done n | None => Undefined end.

(** setPrev (cp 89-91). *)
Definition set_prev (p : option N) (n : node) : node := mkNode (n_tick n) (n_dead n) p (n_nexts n) (n_snap n) (n_data n).
(** The assignments to nexts_ in addNext and removeNext (cp 124, 146). *)
Definition set_nexts (l : list N) (n : node) : node := mkNode (n_tick n) (n_dead n) (n_prev n) l (n_snap n) (n_data n).
(** flagDeleted (dc 430-435). *)
Definition set_dead (n : node) : node := mkNode (n_tick n) true (n_prev n) (n_nexts n) (n_snap n) (n_data n).

(** Comparing a pointer that may be null (fc 785, 791, 805, 814; cp 114, 139). *)
Definition is (o : option N) (x : N) : bool := match o with Some y => y =? x | None => false end.
(** std::find in nexts_ (cp 121, 142). *)
Fixpoint mem (x : N) (l : list N) : bool := match l with [] => false | y :: r => (y =? x) || mem x r end.
(** nexts_.erase of the first match (cp 142-146). *)
Fixpoint remove1 (x : N) (l : list N) : list N := match l with [] => [] | y :: r => if y =? x then r else y :: remove1 x r end.

(** addNext (cp 110-125). *)
Definition add_next (p c : N) (l : list (N * node)) : outcome (list (N * node)) :=
  obind (deref p l) (fun pn => obind (deref c l) (fun cn =>
    if negb (is (n_prev cn) p) then Refused
    else if n_tick cn <? n_tick pn then Refused
    else if mem c (n_nexts pn) then Refused
    else Done (upd p (set_nexts (n_nexts pn ++ [c])) l))).
(** removeNext (cp 135-147). *)
Definition remove_next (p c : N) (l : list (N * node)) : outcome (list (N * node)) :=
  obind (deref p l) (fun pn => obind (deref c l) (fun cn =>
    if negb (is (n_prev cn) p) then Refused
    else if negb (mem c (n_nexts pn)) then Refused
    else Done (upd p (set_nexts (remove1 c (n_nexts pn))) l))).
(** The loop of ~Checkpoint (cp 64-69). *)
Fixpoint relink (p : option N) (ds : list N) (l : list (N * node)) : outcome (list (N * node)) :=
  match ds with
  | [] => Done l
  | d :: r => obind (deref d l) (fun _ =>
      let l1 := upd d (set_prev p) l in
      match p with
      | Some q => obind (add_next q d l1) (fun l2 => relink p r l2)
      | None => relink p r l1
      end)
  end.
(** Erasing a checkpoint from the map runs ~Checkpoint (cp 58-70). An exception there would end the program. *)
Definition erase (x : N) (l : list (N * node)) : outcome (list (N * node)) :=
  obind (deref x l) (fun n =>
    match (match n_prev n with Some p => remove_next p x l | None => Done l end) with
    | Done l1 => match relink (n_prev n) (n_nexts n) l1 with Done l2 => Done (del x l2) | _ => Undefined end
    | _ => Undefined
    end).

(** The loop of canDelete (dc 410-415). *)
Fixpoint all_deletable (cd : N -> outcome bool) (l : list (N * node)) (ds : list N) : outcome bool :=
  match ds with
  | [] => Done true
  | d :: r => obind (cd d) (fun b => obind (deref d l) (fun dn =>
      if negb b && negb (n_snap dn) then Done false else all_deletable cd l r))
  end.
(** canDelete (dc 406-417); [fuel] bounds the depth of the recursion. *)
Fixpoint can_delete (fuel : nat) (l : list (N * node)) (x : N) : outcome bool :=
  match fuel with
  | O => TooDeep
  | S f => obind (deref x l) (fun n => if n_dead n then all_deletable (can_delete f l) l (n_nexts n) else Done false)
  end.
(** The loop of recursForwardFindAlive_ (fc 854-877): a snapshot among the followers ends the search. *)
Fixpoint any_alive (rf : N -> outcome bool) (cur : option N) (l : list (N * node)) (ds : list N) : outcome bool :=
  match ds with
  | [] => Done false
  | d :: r => obind (deref d l) (fun dn =>
      if n_snap dn then Done false
      else if is cur d then Done true
      else if negb (n_dead dn) then Done true
      else obind (rf d) (fun b => if b then Done true else any_alive rf cur l r))
  end.
(** recursForwardFindAlive_ (fc 851-881). *)
Fixpoint find_alive (fuel : nat) (cur : option N) (l : list (N * node)) (x : N) : outcome bool :=
  match fuel with
  | O => TooDeep
  | S f => obind (deref x l) (fun n => any_alive (find_alive f cur l) cur l (n_nexts n))
  end.

(** Subtracting one from a uint32_t (fc 235, 237, 830). *)
Definition dec (x : N) : N := (x + 4294967295) mod 4294967296.
(** Adding one to a uint32_t (fc 233, 955, 1013; dc 496). *)
Definition inc (x : N) : N := (x + 1) mod 4294967296.
(** The checkpointer with other checkpoints and another number of dead ones (fc 830-835). *)
Definition with_nodes (k : ckpt) (l : list (N * node)) (deadn : N) : ckpt :=
  mkCk l (k_head k) (k_cur k) (k_next k) (k_alive k) (k_snaps k) deadn (k_thresh k) (k_total k).
(** Enough depth for any walk over the checkpoints there are; the code's recursions and loops (dc 323, 406, 491; fc 805, 851) have no bound. *)
Definition depth (k : ckpt) : nat := S (length (k_nodes k)).

(** The loop of cleanupChain_ (fc 805-839). *)
Fixpoint cleanup_loop (fuel : nat) (k : ckpt) (d : option N) : outcome ckpt :=
  match fuel with
  | O => TooDeep
  | S f =>
      match d with
      | None => Done k
      | Some x =>
          if is (k_head k) x then Done k
          else obind (deref x (k_nodes k)) (fun n =>
                 if negb (n_dead n) then Done k
                 else if is (k_cur k) x then Done k
                 else obind (can_delete (depth k) (k_nodes k) x) (fun b =>
                        obind (if b then obind (erase x (k_nodes k)) (fun l => Done (with_nodes k l (dec (k_deadn k)))) else Done k)
                          (fun k' => cleanup_loop f k' (n_prev n))))
      end
  end.
(** cleanupChain_ (fc 773-840). *)
Definition cleanup (k : ckpt) (x : N) : outcome ckpt :=
  if is (k_head k) x then Done k
  else obind (if is (k_cur k) x then Done true else find_alive (depth k) (k_cur k) (k_nodes k) x) (fun needed =>
         obind (deref x (k_nodes k)) (fun n =>
           if needed
           then if n_snap n then cleanup_loop (S (depth k)) k (n_prev n) else Done k
           else cleanup_loop (S (depth k)) k (Some x))).

(** deleteCheckpoint (fc 220-244). *)
Definition ck_delete (k : ckpt) (id : N) : outcome ckpt :=
  match get id (k_nodes k) with
  | None => Refused
  | Some n =>
      cleanup (if n_dead n then k
               else mkCk (upd id set_dead (k_nodes k)) (k_head k) (k_cur k) (k_next k) (dec (k_alive k))
                      (if n_snap n then dec (k_snaps k) else k_snaps k) (inc (k_deadn k)) (k_thresh k) (k_total k)) id
  end.

(** getRestoreChain (dc 319-331), first element to be restored first. *)
Fixpoint restore_chain (fuel : nat) (l : list (N * node)) (x : N) : outcome (list N) :=
  match fuel with
  | O => TooDeep
  | S f => obind (deref x l) (fun n =>
      if n_snap n then Done [x]
      else match n_prev n with
           | None => Undefined
           | Some p => obind (restore_chain f l p) (fun c => Done (c ++ [x]))
           end)
  end.
(** loadState (dc 562-577). *)
Definition load_state (sh : overshift) (n : node) (dats : list adata) : outcome (list adata) :=
  let s := v_prepare (n_data n) in
  if v_good s
  then obind (restore_dats vector_storage sh (S (length (v_data s))) (n_snap n) s dats) (fun '(d, _) => Done d)
  else Asserted.
(** The loop of load (dc 391-395). *)
Fixpoint load_chain (sh : overshift) (l : list (N * node)) (c : list N) (dats : list adata) : outcome (list adata) :=
  match c with
  | [] => Done dats
  | x :: r => obind (deref x l) (fun n => obind (load_state sh n dats) (fun d => load_chain sh l r d))
  end.
(** The checkpointer with another current checkpoint (setCurrent_, cr 693-697). *)
Definition with_cur (k : ckpt) (c : option N) : ckpt :=
  mkCk (k_nodes k) (k_head k) c (k_next k) (k_alive k) (k_snaps k) (k_deadn k) (k_thresh k) (k_total k).
(** loadCheckpoint (fc 259-284). Scheduler::restartAt (Scheduler.cpp 272-292) sets the tick. The previously current
    checkpoint is never null once there is a checkpoint. *)
Definition ck_load (sh : overshift) (w : world) (id : N) : outcome world :=
  let k := w_ck w in
  match get id (k_nodes k) with
  | None => Refused
  | Some n =>
      obind (restore_chain (depth k) (k_nodes k) id) (fun c => obind (load_chain sh (k_nodes k) c (w_dats w)) (fun d =>
        match k_cur k with
        | None => Undefined
        | Some rmv => obind (cleanup (with_cur k (Some id)) rmv) (fun k' =>
            Done (mkW d (match w_sched w with Some _ => Some (n_tick n) | None => None end) k'))
        end))
  end.

(** The tick new checkpoints get (fc 934-937, 973-978). *)
Definition now (w : world) : N := match w_sched w with Some t => t | None => 0 end.
(** createHead (cr 182-217) and createHead_ (fc 933-958). *)
Definition ck_head (w : world) : outcome world :=
  let k := w_ck w in
  match k_head k with
  | Some _ => Refused
  | None =>
      obind (save_dats vector_storage true v_new (w_dats w)) (fun '(d, s) =>
        Done (mkW d (w_sched w)
          (mkCk (k_nodes k ++ [(k_next k, mkNode (now w) false None [] true s)]) (Some (k_next k)) (Some (k_next k)) (k_next k + 1)
             (inc (k_alive k)) (inc (k_snaps k)) (k_deadn k) (k_thresh k) (k_total k + 1))))
  end.
(** getDistanceToPrevSnapshot (dc 488-529); a uint32_t. Not finding a snapshot ends the program. *)
Fixpoint distance (fuel : nat) (l : list (N * node)) (x : N) : outcome N :=
  match fuel with
  | O => TooDeep
  | S f => obind (deref x l) (fun n =>
      if n_snap n then Done 0
      else match n_prev n with None => Undefined | Some p => obind (distance f l p) (fun d => Done (inc d)) end)
  end.
(** createCheckpoint_ (fc 960-1025) and the DeltaCheckpoint constructor (dc 91-115). *)
Definition ck_create_ (w : world) (force : bool) : outcome world :=
  let k := w_ck w in
  if k_next k =? no_id then Refused
  else match k_head k with
  | None => Asserted
  | Some h =>
    obind (deref h (k_nodes k)) (fun hn =>
      if match w_sched w with Some t => t <? n_tick hn | None => false end then Refused
      else obind (match k_cur k with
                  | None => Done (h, false)
                  | Some c => obind (deref c (k_nodes k)) (fun cn =>
                      if match w_sched w with Some t => t <? n_tick cn | None => false end then Refused
                      else obind (distance (depth k) (k_nodes k) c) (fun d => Done (c, k_thresh k <=? d)))
                  end) (fun '(prev, far) =>
        let snap := force || far in let id := k_next k in
        obind (add_next prev id (k_nodes k ++ [(id, mkNode (now w) false (Some prev) [] snap v_new)])) (fun l =>
          obind (save_dats vector_storage snap v_new (w_dats w)) (fun '(d, s) =>
            let l' := upd id (fun n => mkNode (n_tick n) (n_dead n) (n_prev n) (n_nexts n) (n_snap n) s) l in
            let k' := mkCk l' (k_head k) (Some id) (k_next k + 1) (inc (k_alive k)) (if snap then inc (k_snaps k) else k_snaps k)
                        (k_deadn k) (k_thresh k) (k_total k + 1) in
            obind (if snap then cleanup k' id else Done k') (fun k2 => Done (mkW d (w_sched w) k2))))))
  end.
(** createCheckpoint (cr 246-254). A refusal just after making the head would lose the head here; the head has the current
    tick and identifier 0, so none of the refusals applies then. *)
Definition ck_create (w : world) (force : bool) : outcome world :=
  match k_head (w_ck w) with
  | None => obind (ck_head w) (fun w' => ck_create_ w' force)
  | Some _ => ck_create_ w force
  end.
(** forgetCurrent (cr 309-313). *)
Definition ck_forget (k : ckpt) : ckpt := match k_head k with Some h => with_cur k (Some h) | None => k end.

(** The identifier a checkpoint shows (getID after dc 434, 444-446). *)
Definition shown (p : N * node) : N := if n_dead (snd p) then no_id else fst p.
(** getCheckpoints (fc 314-324). *)
Definition get_checkpoints (k : ckpt) : list N := map shown (filter (fun p => negb (n_dead (snd p))) (k_nodes k)).
(** getCheckpointsAt (fc 294-304). *)
Definition get_checkpoints_at (k : ckpt) (t : N) : list N :=
  map shown (filter (fun p => (n_tick (snd p) =? t) && negb (n_dead (snd p))) (k_nodes k)).
(** hasCheckpoint (fc 442-444). *)
Definition has_checkpoint (k : ckpt) (id : N) : bool := match get id (k_nodes k) with Some _ => true | None => false end.
(** getNumCheckpoints (fc 329-331). *)
Definition num_checkpoints (k : ckpt) : N := k_alive k.
(** getNumSnapshots (fc 336-338). *)
Definition num_snapshots (k : ckpt) : N := k_snaps k.
(** getNumDeltas (fc 343-345), a uint32_t subtraction. *)
Definition num_deltas (k : ckpt) : N := (k_alive k + 4294967296 - k_snaps k) mod 4294967296.
(** getNumDeadCheckpoints (fc 351-353). *)
Definition num_dead (k : ckpt) : N := k_deadn k.
(** getID of the checkpoint behind a pointer (cr 397, 426). *)
Definition id_of (k : ckpt) (x : N) : N := match get x (k_nodes k) with Some n => shown (x, n) | None => no_id end.
(** getCurrentID (cr 424-430). *)
Definition current_id (k : ckpt) : N := match k_cur k with Some c => id_of k c | None => no_id end.
(** getCurrentTick (cr 444-450). *)
Definition current_tick (k : ckpt) : N :=
  match k_cur k with Some c => match get c (k_nodes k) with Some n => n_tick n | None => 0 end | None => 0 end.
(** getHeadID (cr 393-398). *)
Definition head_id (k : ckpt) : N := match k_head k with Some h => id_of k h | None => no_id end.
(** The walk along getPrev in getCheckpointChain (fc 379-382). *)
Fixpoint prev_chain (fuel : nat) (l : list (N * node)) (d : option N) : outcome (list (N * node)) :=
  match fuel with
  | O => TooDeep
  | S f => match d with
           | None => Done []
           | Some x => obind (deref x l) (fun n => obind (prev_chain f l (n_prev n)) (fun c => Done ((x, n) :: c)))
           end
  end.
(** getCheckpointChain (fc 370-384). *)
Definition checkpoint_chain (k : ckpt) (id : N) : outcome (list N) :=
  match k_head k with
  | None => Done []
  | Some _ => match get id (k_nodes k) with
              | None => Refused
              | Some _ => obind (prev_chain (S (depth k)) (k_nodes k) (Some id)) (fun c => Done (map shown c))
              end
  end.
(** findLatestCheckpointAtOrBefore (fc 403-419); the result as key. *)
Definition find_latest (k : ckpt) (tick from : N) : outcome (option N) :=
  match get from (k_nodes k) with
  | None => Refused
  | Some _ => obind (prev_chain (S (depth k)) (k_nodes k) (Some from)) (fun c =>
      Done (option_map fst (find (fun p => n_tick (snd p) <=? tick) c)))
  end.

(** What a client does: write to an ArchData, clean one (ArchData::reset), run the simulation for some ticks (which do not
    wrap here), and the checkpointer's operations; [CThresh] is setSnapshotThreshold (fc 164-166). *)
Inductive cop := CWrite (i : nat) (addr : N) (buf : list N) | CReset (i : nat) | CTick (n : N)
  | CHead | CCreate (force : bool) | CLoad (id : N) | CDelete (id : N) | CForget | CThresh (n : N).
(** Replacing the i-th ArchData of getArchDatas (cr 769). *)
Fixpoint set_nth {A} (i : nat) (x : A) (l : list A) : list A :=
  match i, l with O, _ :: r => x :: r | S j, y :: r => y :: set_nth j x r | _, [] => [] end.
(** One call (fc 220, 259, 960; cr 182, 246, 309). [Refused] is an exception that leaves everything as it was; an ArchData that does not exist is not written. *)
Definition cstep (sh : overshift) (w : world) (o : cop) : outcome world :=
  match o with
  | CWrite i addr buf =>
      match nth_error (w_dats w) i with
      | None => Refused
      | Some a => match mem_write sh a addr buf with
                  | (_, Undefined) => Undefined
                  | (a', _) => Done (mkW (set_nth i a' (w_dats w)) (w_sched w) (w_ck w))
                  end
      end
  | CReset i =>
      match nth_error (w_dats w) i with
      | None => Refused
      | Some a => match mem_clean sh a with
                  | (_, Undefined) => Undefined
                  | (a', _) => Done (mkW (set_nth i a' (w_dats w)) (w_sched w) (w_ck w))
                  end
      end
  | CTick n => Done (mkW (w_dats w) (option_map (fun t => t + n) (w_sched w)) (w_ck w))
  | CHead => ck_head w
  | CCreate force => ck_create w force
  | CLoad id => ck_load sh w id
  | CDelete id => obind (ck_delete (w_ck w) id) (fun k => Done (mkW (w_dats w) (w_sched w) k))
  | CForget => Done (mkW (w_dats w) (w_sched w) (ck_forget (w_ck w)))
  | CThresh n => let k := w_ck w in
      Done (mkW (w_dats w) (w_sched w) (mkCk (k_nodes k) (k_head k) (k_cur k) (k_next k) (k_alive k) (k_snaps k) (k_deadn k) n (k_total k)))
  end.
(** A history of calls on a FastCheckpointer (fc 66-1067); it ends where the program would. *)
Fixpoint crun (sh : overshift) (w : world) (ops : list cop) : option world :=
  match ops with
  | [] => Some w
  | o :: r => match cstep sh w o with Done w' => crun sh w' r | Refused => crun sh w r | _ => None end
  end.
