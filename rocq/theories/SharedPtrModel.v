(** sparta/sparta/utils/SpartaSharedPointer.hpp ("sp") and SpartaSharedPointerAllocator.hpp ("al"):
    SpartaSharedPointer, SpartaWeakPointer and the allocator.

    Simplifications: one managed type (up-casts share the control block and change nothing else); the int32_t counts do
    not overflow; the destructor of a managed object does nothing but destroy the pointers that are members of the
    object; addresses of deleted control blocks are not reused; constructors of managed objects do not throw; the
    watermark only prints a warning and is left out; the counts are plain integers because the class is not thread
    safe. *)
From Coq Require Import List ZArith Arith Bool.
Import ListNotations.

(** SpartaSharedPointer (sp 79) and SpartaWeakPointer (sp 407). *)
Inductive kind := Strong | Weak.
Definition kind_eqb (a b : kind) : bool := match a, b with Strong, Strong | Weak, Weak => true | _, _ => false end.

(** A pointer variable: its kind, ref_count_ / wp_ref_cnt_ (sp 390, 520) as a block number, and two fields that only
    describe the situation: [x_stale], a member function has given up the reference and has not stored the new value
    yet; [x_own], the block whose object has the variable as a member ([None]: a local variable). *)
Record var := mkV { x_kind : kind; x_ref : option nat; x_stale : bool; x_own : option nat }.
(** RefCount (sp 92-110) with its object: mem_block is null or not, count, wp_count, p is not null; [b_obj], the object
    is constructed; [b_rel], the block has been deleted or is in the free list; [b_uid] numbers the objects; the
    pointers that are members of the object. *)
Record blk := mkB { b_heap : bool; b_cnt : Z; b_wp : Z; b_p : bool; b_obj : bool; b_rel : bool; b_uid : nat; b_mem : list nat }.

(** What a new or assigned pointer is made from (sp 122-190, 195-221, 279-282, 391-396, 417-477, 515-517, al 520-531). *)
Inductive src := FNull | FHeap | FArena | FCopy (w : nat) | FMove (w : nat) | FWeak (w : nat) | FLock (w : nat).
(** What is left to do in the running member functions, innermost first.
    TDes: destructor of a pointer; TRel, TFin, TChk: releaseRefCount_ (sp 311-369) at its start, behind the destruction
    of the object (line 349), and at line 352; TKill: end of a destructor; TSet: the assignment behind unlink_. *)
Inductive task := TDes (v : nat) | TRel (k : kind) (v b : nat) | TFin (v b : nat) | TChk (v b : nat) | TKill (v : nat) | TSet (v : nat) (f : src).
(** Observations: object [u] constructed in block [b], destroyed, control block of [u] released. *)
Inductive sobs := ONew (u b : nat) | ODes (u : nat) | ORel (u : nat).

(** The whole state: variables, number of variables so far, blocks, number of blocks so far, the blocks of the
    allocator's memory_blocks_ (al 437), its free_blocks_ (al 438), its capacity, what is left to do, the log, the
    number of objects so far. *)
Record st := mkS { s_vars : nat -> option var; s_vn : nat; s_blk : nat -> blk; s_bn : nat; s_arena : list nat; s_free : list nat;
  s_cap : nat; s_stack : list task; s_log : list sobs; s_un : nat }.

(** Nothing exists; an allocator of [cap] blocks (al 181-194). *)
Definition sp_init (cap : nat) : st := mkS (fun _ => None) 0 (fun _ => mkB true 0 0 false false true 0 []) 0 [] [] cap [] [] 0.

(** Stores at one index. *)
Definition vset (f : nat -> option var) (v : nat) (x : option var) : nat -> option var := fun w => if Nat.eqb w v then x else f w.
Definition bset (f : nat -> blk) (b : nat) (x : blk) : nat -> blk := fun c => if Nat.eqb c b then x else f c.
(** Record updates. *)
Definition set_var (s : st) (v : nat) (x : option var) : st :=
  mkS (vset (s_vars s) v x) (s_vn s) (s_blk s) (s_bn s) (s_arena s) (s_free s) (s_cap s) (s_stack s) (s_log s) (s_un s).
Definition set_blk (s : st) (b : nat) (x : blk) : st :=
  mkS (s_vars s) (s_vn s) (bset (s_blk s) b x) (s_bn s) (s_arena s) (s_free s) (s_cap s) (s_stack s) (s_log s) (s_un s).
Definition set_stack (s : st) (l : list task) : st :=
  mkS (s_vars s) (s_vn s) (s_blk s) (s_bn s) (s_arena s) (s_free s) (s_cap s) l (s_log s) (s_un s).
Definition push (s : st) (l : list task) : st := set_stack s (l ++ s_stack s).
Definition note (s : st) (o : sobs) : st :=
  mkS (s_vars s) (s_vn s) (s_blk s) (s_bn s) (s_arena s) (s_free s) (s_cap s) (s_stack s) (o :: s_log s) (s_un s).
Definition set_free (s : st) (l : list nat) : st :=
  mkS (s_vars s) (s_vn s) (s_blk s) (s_bn s) (s_arena s) l (s_cap s) (s_stack s) (s_log s) (s_un s).
Definition with_cnt (x : blk) (c : Z) : blk := mkB (b_heap x) c (b_wp x) (b_p x) (b_obj x) (b_rel x) (b_uid x) (b_mem x).
Definition with_wp (x : blk) (c : Z) : blk := mkB (b_heap x) (b_cnt x) c (b_p x) (b_obj x) (b_rel x) (b_uid x) (b_mem x).
Definition with_mem (x : blk) (l : list nat) : blk := mkB (b_heap x) (b_cnt x) (b_wp x) (b_p x) (b_obj x) (b_rel x) (b_uid x) l.

(** The control block is deleted memory: every access is undefined. The blocks of the allocator stay in place. *)
Definition gone (s : st) (b : nat) : bool := b_heap (s_blk s b) && b_rel (s_blk s b).

(** Add [d] to count or wp_count. *)
Definition bump (s : st) (k : kind) (b : nat) (d : Z) : st :=
  let x := s_blk s b in
  set_blk s b (match k with Strong => with_cnt x (b_cnt x + d) | Weak => with_wp x (b_wp x + d) end).

(** unlink_ (sp 372-379) and the first half of the weak destructor and assignments (sp 427-431, 459-462, 478-481);
    [k] is what the caller does afterwards. [None]: undefined behaviour, here because the variable is gone, or is being
    destroyed inside one of its own member functions, which goes on to use it afterwards, or because the block is
    deleted. *)
Definition unlink (s : st) (v : nat) (k : task) : option st :=
  match s_vars s v with
  | None => None
  | Some x =>
      if x_stale x then None
      else let s1 := push (set_var s v (Some (mkV (x_kind x) (x_ref x) true (x_own x)))) [k] in
           match x_ref x with
           | None => Some s1
           | Some b => if gone s b then None else Some (push (bump s1 (x_kind x) b (-1)) [TRel (x_kind x) v b])
           end
  end.

(** A fresh control block on the heap (sp 122-124), or memory_blocks_.allocate (al 425) whose MemBlock constructor builds
    object and RefCount (al 289-297). *)
Definition new_blk (s : st) (heap : bool) : st * nat :=
  (mkS (s_vars s) (s_vn s) (bset (s_blk s) (s_bn s) (mkB heap 1 0 true true false (s_un s) [])) (S (s_bn s))
       (if heap then s_arena s else s_arena s ++ [s_bn s]) (s_free s) (s_cap s) (s_stack s) (ONew (s_un s) (s_bn s) :: s_log s) (S (s_un s)), s_bn s).
(** allocate_ (al 389-427): the block freed last is used again, with count set to 1 and wp_count left alone; otherwise
    a new block. Outer [None]: the assertion at al 398; inner [None]: the exception at al 420 or the assertion at al
    325, capacity exhausted. *)
Definition allocate (s : st) : option (option (st * nat)) :=
  match s_free s with
  | b :: r =>
      let x := s_blk s b in
      if b_p x then
        Some (Some (mkS (s_vars s) (s_vn s) (bset (s_blk s) b (mkB (b_heap x) 1 (b_wp x) true true false (s_un s) [])) (s_bn s) (s_arena s) r
                        (s_cap s) (s_stack s) (ONew (s_un s) b :: s_log s) (S (s_un s)), b))
      else None
  | [] => if Nat.leb (s_cap s) (length (s_arena s)) then Some None else Some (Some (new_blk s false))
  end.

(** The kind and the block a pointer made from [f] gets, with the counts and a moved-from operand updated. [None]:
    undefined behaviour (operand gone or block deleted) or the assertion of allocate_. Inner [None]: an exception.
    FLock: lock (sp 515-517), which increments count in every case. *)
Definition take (s : st) (f : src) : option (option (st * kind * option nat)) :=
  let from w (g : var -> st -> option (option (st * kind * option nat))) :=
    match s_vars s w with
    | None => None
    | Some x => match x_ref x with Some b => if gone s b then None else g x s | None => g x s end
    end in
  let share k w := from w (fun x s => Some (Some (match x_ref x with Some b => bump s k b 1 | None => s end, k, x_ref x))) in
  match f with
  | FNull => Some (Some (s, Strong, None))
  | FHeap => let (s1, b) := new_blk s true in Some (Some (s1, Strong, Some b))
  | FArena => match allocate s with None => None | Some None => Some None | Some (Some (s1, b)) => Some (Some (s1, Strong, Some b)) end
  | FCopy w => from w (fun x s => Some (Some (match x_ref x with Some b => bump s (x_kind x) b 1 | None => s end, x_kind x, x_ref x)))
  | FMove w => match s_vars s w with
               | None => None
               | Some x => Some (Some (set_var s w (Some (mkV (x_kind x) None (x_stale x) (x_own x))), x_kind x, x_ref x))
               end
  | FWeak w => share Weak w
  | FLock w => share Strong w
  end.

(** Run the next piece. *)
Definition step (s : st) : option st :=
  match s_stack s with
  | [] => Some s
  | TDes v :: r => unlink (set_stack s r) v (TKill v)
  | TRel _ v b :: r =>
      let s0 := set_stack s r in
      let x := s_blk s b in
      if gone s b then None
      else if (b_cnt x =? 0)%Z then
        let s1 := set_blk s0 b (mkB (b_heap x) (-1) (b_wp x + 1) (b_p x) false (b_rel x) (b_uid x) []) in
        let s2 := if b_heap x && negb (b_p x) then s1 else note s1 (ODes (b_uid x)) in
        Some (push s2 (map TDes (b_mem x) ++ [TFin v b]))
      else Some (push s0 [TChk v b])
  | TFin v b :: r =>
      let x := s_blk s b in
      if gone s b then None
      else Some (push (set_blk (set_stack s r) b (mkB (b_heap x) (b_cnt x) (b_wp x - 1) (b_p x && negb (b_heap x)) (b_obj x) (b_rel x) (b_uid x) (b_mem x))) [TChk v b])
  | TChk v b :: r =>
      let x := s_blk s b in
      let s0 := set_stack s r in
      if gone s b then None
      else if ((b_cnt x <=? 0) && (b_wp x =? 0))%Z then
        match s_vars s v with
        | None => None
        | Some y =>
            let s1 := set_blk s0 b (mkB (b_heap x) (b_cnt x) (b_wp x) (b_p x) (b_obj x) true (b_uid x) (b_mem x)) in
            let s2 := set_var (note s1 (ORel (b_uid x))) v (Some (mkV (x_kind y) None (x_stale y) (x_own y))) in
            if b_heap x then Some s2
            else if Nat.ltb (length (s_free s)) (s_cap s) then Some (set_free s2 (b :: s_free s)) else None
        end
      else Some s0
  | TKill v :: r => match s_vars s v with None => None | Some _ => Some (set_var (set_stack s r) v None) end
  | TSet v f :: r =>
      match s_vars s v with
      | None => None
      | Some _ =>
          match take (set_stack s r) f with
          | None => None
          | Some None => Some s
          | Some (Some (s1, _, rf)) =>
              match s_vars s1 v with
              | None => None
              | Some y => Some (set_var s1 v (Some (mkV (x_kind y) (match f with FMove w => if Nat.eqb w v then None else rf | _ => rf end) false (x_own y))))
              end
          end
      end
  end.

(** Calls of the API. New k f o: a new pointer of kind [k] from [f]; [o = Some u]: as a member of the object that the
    strong pointer [u] points to. *)
Inductive sop :=
| New (k : kind) (f : src) (o : option nat) | Destroy (v : nat) | Reset (v : nat) | ResetNew (v : nat)
| Assign (v w : nat) | MoveAssign (v w : nat).
(** The kind of a variable. *)
Definition has_kind (s : st) (k : kind) (v : nat) : bool := match s_vars s v with Some x => kind_eqb (x_kind x) k | None => false end.
(** A constructor that exists: the operand has the right kind. *)
Definition fits (s : st) (k : kind) (f : src) : bool :=
  match f with
  | FNull => true
  | FHeap | FArena => kind_eqb k Strong
  | FCopy w | FMove w => has_kind s k w
  | FWeak w => kind_eqb k Weak && has_kind s Strong w
  | FLock w => kind_eqb k Strong && has_kind s Weak w
  end.
(** The block of the object a strong pointer gives access to. *)
Definition target (s : st) (u : nat) : option nat :=
  match s_vars s u with
  | Some x => match x_kind x, x_ref x with Strong, Some b => if b_obj (s_blk s b) then Some b else None | _, _ => None end
  | None => None
  end.
(** Start a call; nothing happens when it cannot be written, or when it throws (self-assignment of a strong pointer,
    sp 197 and 216, or allocator exhausted). [None]: undefined behaviour. *)
Definition call (s : st) (o : sop) : option st :=
  match s_stack s with
  | _ :: _ => Some s
  | [] =>
    match o with
    | New k f own =>
        match own, (match own with Some u => target s u | None => None end) with
        | Some _, None => Some s
        | _, ob =>
          if fits s k f then
            match take s f with
            | None => None
            | Some None => Some s
            | Some (Some (s1, _, rf)) =>
                let v := s_vn s1 in
                let s2 := mkS (vset (s_vars s1) v (Some (mkV k rf false ob))) (S v) (s_blk s1) (s_bn s1) (s_arena s1) (s_free s1) (s_cap s1)
                              (s_stack s1) (s_log s1) (s_un s1) in
                Some (match ob with Some b => set_blk s2 b (with_mem (s_blk s2 b) (v :: b_mem (s_blk s2 b))) | None => s2 end)
            end
          else Some s
        end
    | Destroy v => match s_vars s v with
                   | Some x => match x_own x with None => unlink s v (TKill v) | Some _ => Some s end
                   | None => Some s
                   end
    | Reset v => if has_kind s Strong v then unlink s v (TSet v FNull) else Some s
    | ResetNew v => if has_kind s Strong v then unlink s v (TSet v FHeap) else Some s
    | Assign v w =>
        if has_kind s Strong v && has_kind s Strong w then if Nat.eqb v w then Some s else unlink s v (TSet v (FCopy w))
        else if has_kind s Weak v && has_kind s Weak w then unlink s v (TSet v (FCopy w)) else Some s
    | MoveAssign v w =>
        if has_kind s Strong v && has_kind s Strong w then if Nat.eqb v w then Some s else unlink s v (TSet v (FMove w))
        else if has_kind s Weak v && has_kind s Weak w then unlink s v (TSet v (FMove w)) else Some s
    end
  end.

(** Executions: calls and pieces of work. *)
Inductive act := Call (o : sop) | Step.
Definition do1 (s : st) (a : act) : option st := match a with Call o => call s o | Step => step s end.
Fixpoint run (s : st) (l : list act) : option st :=
  match l with [] => Some s | a :: r => match do1 s a with Some s' => run s' r | None => None end end.

(** use_count and get of a strong pointer (sp 270-292), expired of a weak one (sp 502-508). *)
Definition use_count (s : st) (v : nat) : Z :=
  match s_vars s v with
  | Some x => match x_ref x with Some b => if b_p (s_blk s b) then b_cnt (s_blk s b) else 0%Z | None => 0%Z end
  | None => 0%Z
  end.
Definition get (s : st) (v : nat) : option nat :=
  match s_vars s v with
  | Some x => match x_ref x with Some b => if b_p (s_blk s b) then Some (b_uid (s_blk s b)) else None | None => None end
  | None => None
  end.
Definition expired (s : st) (v : nat) : bool :=
  match s_vars s v with
  | Some x => match x_ref x with Some b => (b_cnt (s_blk s b) <=? 0)%Z | None => true end
  | None => true
  end.
(** hasOutstandingObjects (al 227-229). *)
Definition outstanding_objects (s : st) : bool := negb (Nat.eqb (length (s_arena s)) (length (s_free s))).
