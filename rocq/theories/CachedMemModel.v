(** sparta::memory::CachedMemory (sparta/sparta/memory/CachedMemory.hpp, cited as "cm") with the access checks of
    BlockingMemoryIF (sparta/sparta/memory/BlockingMemoryIF.hpp, "bm") and DebugMemoryIF (DebugMemoryIF.hpp, "dm").
    cached_memory_ is the MemoryObject of ArchDataModel with fill 0. *)
From Coq Require Import List NArith Arith Bool Lia.
From Verif Require Import LayoutModel ArchDataModel.
Import ListNotations.
Open Scope N_scope.

(** The downstream memory: any BlockingMemoryIF that stores bytes, with blocks of 2^d_k bytes and one access window
    [0, d_size) (dm 165-227). Supplements are ignored, as StoreData does (cm 73-74). *)
Record dmem := mkDown { d_k : N; d_size : N; d_byte : N -> N }.

(** isInAccessWindows (dm 363-367) for a window that starts at 0: the sum wraps. *)
Definition in_window (size_of addr size : N) : bool := w64 (addr + size) <=? size_of.
(** doesAccessSpan (dm 394-396) for blocks of 2^k bytes; block_mask_ clears the low k bits (dm 189). *)
Definition spans (k addr size : N) : bool :=
  negb (N.shiftr addr k =? N.shiftr (w64 (addr + size + (2 ^ 64 - 1))) k).

(** Bytes from [addr] on. *)
Definition take (f : N -> N) (addr size : N) : list N := map (fun i => f (addr + N.of_nat i)) (seq 0 (N.to_nat size)).
(** Storing bytes from [addr] on. *)
Definition put (f : N -> N) (addr : N) (buf : list N) : N -> N :=
  fun b => if (addr <=? b) && (b <? addr + N.of_nat (length buf)) then nth (N.to_nat (b - addr)) buf 0 else f b.

(** peek (dm 461-468) with tryPeek (dm 432-455), which splits the access at block borders; the memory serves every block.
    [None]: throws. *)
Definition down_peek (d : dmem) (addr size : N) : option (list N) :=
  if in_window (d_size d) addr size then Some (take (d_byte d) addr size) else None.
(** poke (dm 531-538) with tryPoke (dm 502-525). *)
Definition down_poke (d : dmem) (addr : N) (buf : list N) : option dmem :=
  if in_window (d_size d) addr (N.of_nat (length buf)) then Some (mkDown (d_k d) (d_size d) (put (d_byte d) addr buf)) else None.
(** BlockingMemoryIF::tryWrite (bm 186-200), result dropped as by the caller (cm 414-416). *)
Definition down_try_write (d : dmem) (addr : N) (buf : list N) : dmem :=
  if spans (d_k d) addr (N.of_nat (length buf)) then d
  else if in_window (d_size d) addr (N.of_nat (length buf)) then mkDown (d_k d) (d_size d) (put (d_byte d) addr buf) else d.

(** StoreData (cm 48-107). *)
Record swr := mkW { w_id : N; w_addr : N; w_data : list N; w_prev : list N }.

(** CachedMemory (cm 257-260, 274-275). The map of outstanding writes is the list in order of their ids, oldest first: ids
    are handed out in increasing order. Ids are not wrapped: that takes 2^56 writes. *)
Record cmem := mkCM { c_mem : adata; c_out : list swr; c_uid : N; c_wm : N; c_down : dmem }.

(** Full-width shifts do not occur with the one-byte fill pattern used here. *)
Definition nosh : overshift := fun _ => None.

(** Constructor (cm 280-294): the access window must be block aligned (dm 206-213), as MemoryObject asks too. *)
Definition cm_make (write_id k total wm : N) (d : dmem) : outcome cmem :=
  match mem_make k total 0 1 true with
  | Done a => Done (mkCM a [] (w64 (N.shiftl write_id 56)) wm d)
  | Refused => Refused | Asserted => Asserted | Undefined => Undefined | TooDeep => TooDeep
  end.

(** tryGetLine (ArchData.hpp 714-728). *)
Definition cached (c : cmem) (addr : N) : option line := find_line (N.shiftr addr (a_lsb (c_mem c))) (a_lines (c_mem c)).

(** tryRead_ (cm 301-311) and tryPeek_ (cm 352-362), which are alike. *)
Definition read_in (c : cmem) (addr size : N) : outcome (list N) :=
  if negb (addr <? a_size (c_mem c)) then Asserted
  else match cached c addr with
       | None => match down_peek (c_down c) addr size with Some l => Done l | None => Refused end
       | Some _ => mem_read nosh (c_mem c) addr size
       end.

(** read (bm 119-163): throws if the access spans blocks or leaves the window. *)
Definition cm_read (c : cmem) (addr size : N) : outcome (list N) :=
  if spans (a_lsb (c_mem c)) addr size then Refused
  else if in_window (a_size (c_mem c)) addr size then read_in c addr size else Refused.

(** tryPeek (dm 432-455): block by block; [fuel] bounds the number of blocks, [size] + 1 is enough. *)
Fixpoint peek_loop (fuel : nat) (c : cmem) (a end_ : N) : outcome (list N) :=
  match fuel with
  | O => TooDeep
  | S f =>
      let block_end := N.shiftl (N.shiftr (w64 (a + a_L (c_mem c))) (a_lsb (c_mem c))) (a_lsb (c_mem c)) in
      if end_ <=? block_end then read_in c a (w64 (end_ + 2 ^ 64 - a))
      else match read_in c a (block_end - a) with
           | Done l => match peek_loop f c block_end end_ with
                       | Done l' => Done (l ++ l')
                       | Refused => Refused | Asserted => Asserted | Undefined => Undefined | TooDeep => TooDeep
                       end
           | Refused => Refused | Asserted => Asserted | Undefined => Undefined | TooDeep => TooDeep
           end
  end.
(** peek (dm 461-468). *)
Definition cm_peek (c : cmem) (addr size : N) : outcome (list N) :=
  if in_window (a_size (c_mem c)) addr size then peek_loop (S (N.to_nat size)) c addr (w64 (addr + size)) else Refused.

(** The same cache with another memory. *)
Definition with_mem (c : cmem) (a : adata) : cmem := mkCM a (c_out c) (c_uid c) (c_wm c) (c_down c).
(** Overwriting the raw bytes of a line (getRawDataPtr(0) as target, cm 327-328). *)
Definition raw_fill (a : adata) (idx : N) (l : list N) : adata :=
  match find_line idx (a_lines a) with
  | Some x => with_lines a (set_line idx (mkLine l (l_dirty x)) (a_lines a))
  | None => a
  end.

(** Loading a block that is not cached (cm 323-329). *)
Definition load_block (c : cmem) (addr : N) : cmem * outcome unit :=
  match cached c addr with
  | Some _ => (c, Done tt)
  | None =>
      let al := N.shiftl (N.shiftr addr (a_lsb (c_mem c))) (a_lsb (c_mem c)) in
      match get_line nosh (c_mem c) al with
      | Done (a', _) =>
          match down_peek (c_down c) al (a_L a') with
          | Some l => (with_mem c (raw_fill a' (N.shiftr al (a_lsb a')) l), Done tt)
          | None => (with_mem c a', Refused)
          end
      | Refused => (c, Refused) | Asserted => (c, Asserted) | Undefined => (c, Undefined) | TooDeep => (c, TooDeep)
      end
  end.

(** tryWrite_ (cm 316-347): the cache after the call and how it ended. *)
Definition write_in (c : cmem) (addr : N) (buf : list N) : cmem * outcome unit :=
  if N.of_nat (length (c_out c)) =? c_wm c then (c, Asserted)
  else if negb (addr <? a_size (c_mem c)) then (c, Asserted)
  else match load_block c addr with
       | (c1, Done _) =>
           let id := c_uid c1 + 1 in
           match mem_read nosh (c_mem c1) addr (N.of_nat (length buf)) with
           | Done prev =>
               match mem_write nosh (c_mem c1) addr buf with
               | (a2, Done _) => (mkCM a2 (c_out c1 ++ [mkW id addr buf prev]) id (c_wm c1) (c_down c1), Done tt)
               | (a2, e) => (mkCM a2 (c_out c1) id (c_wm c1) (c_down c1), e)
               end
           | Refused => (c1, Refused) | Asserted => (c1, Asserted) | Undefined => (c1, Undefined) | TooDeep => (c1, TooDeep)
           end
       | (c1, e) => (c1, e)
       end.
(** write (bm 186-231). *)
Definition cm_write (c : cmem) (addr : N) (buf : list N) : cmem * outcome unit :=
  if spans (a_lsb (c_mem c)) addr (N.of_nat (length buf)) then (c, Refused)
  else if in_window (a_size (c_mem c)) addr (N.of_nat (length buf)) then write_in c addr buf else (c, Refused).

(** tryPoke_ (cm 366-377): for a block that is not cached the fresh, zero-filled line is poked downstream (cm 372). *)
Definition poke_in (c : cmem) (addr : N) (buf : list N) : cmem * outcome unit :=
  if negb (addr <? a_size (c_mem c)) then (c, Asserted)
  else
    let r := match cached c addr with
             | Some _ => (c, Done tt)
             | None =>
                 let al := N.shiftl (N.shiftr addr (a_lsb (c_mem c))) (a_lsb (c_mem c)) in
                 match get_line nosh (c_mem c) al with
                 | Done (a', x) =>
                     match down_poke (c_down c) al (l_data x) with
                     | Some d' => (mkCM a' (c_out c) (c_uid c) (c_wm c) d', Done tt)
                     | None => (with_mem c a', Refused)
                     end
                 | Refused => (c, Refused) | Asserted => (c, Asserted) | Undefined => (c, Undefined) | TooDeep => (c, TooDeep)
                 end
             end in
    match r with
    | (c1, Done _) =>
        match mem_write nosh (c_mem c1) addr buf with
        | (a2, Done _) =>
            match down_poke (c_down c1) addr buf with
            | Some d' => (mkCM a2 (c_out c1) (c_uid c1) (c_wm c1) d', Done tt)
            | None => (with_mem c1 a2, Refused)
            end
        | (a2, e) => (with_mem c1 a2, e)
        end
    | (c1, e) => (c1, e)
    end.
(** poke (dm 531-538) with tryPoke's loop over blocks (dm 502-525). *)
Fixpoint poke_loop (fuel : nat) (c : cmem) (a end_ : N) (buf : list N) : cmem * outcome unit :=
  match fuel with
  | O => (c, TooDeep)
  | S f =>
      let block_end := N.shiftl (N.shiftr (w64 (a + a_L (c_mem c))) (a_lsb (c_mem c))) (a_lsb (c_mem c)) in
      if end_ <=? block_end then poke_in c a buf
      else match poke_in c a (firstn (N.to_nat (block_end - a)) buf) with
           | (c', Done _) => poke_loop f c' block_end end_ (skipn (N.to_nat (block_end - a)) buf)
           | (c', e) => (c', e)
           end
  end.
(** poke. *)
Definition cm_poke (c : cmem) (addr : N) (buf : list N) : cmem * outcome unit :=
  if in_window (a_size (c_mem c)) addr (N.of_nat (length buf))
  then poke_loop (S (length buf)) c addr (w64 (addr + N.of_nat (length buf))) buf else (c, Refused).

(** Whether a write covers a byte (cm 385, 477). *)
Definition covers (w : swr) (b : N) : bool := (w_addr w <=? b) && (b <? w64 (w_addr w + N.of_nat (length (w_data w)))).
(** getOutstandingWritesForAddr (cm 381-391). *)
Definition writes_for (c : cmem) (b : N) : list swr := filter (fun w => covers w b) (c_out c).

(** commitWrite (cm 394-418). *)
Definition cm_commit (c : cmem) (id : N) : cmem * outcome unit :=
  match c_out c with
  | [] => (c, Asserted)
  | w :: r => if negb (w_id w =? id) then (c, Refused)
              else (mkCM (c_mem c) r (c_uid c) (c_wm c) (down_try_write (c_down c) (w_addr w) (w_data w)), Done tt)
  end.

(** The loop of dropWrite (cm 440-457) over the outstanding writes, youngest first: what remains, youngest first. *)
Fixpoint drop_loop (id : N) (rout : list swr) (a : adata) : list swr * adata * outcome unit :=
  match rout with
  | [] => ([], a, Done tt)
  | w :: r => match mem_write nosh a (w_addr w) (w_prev w) with
              | (a', Done _) => if w_id w =? id then (r, a', Done tt) else drop_loop id r a'
              | (a', e) => (rout, a', e)
              end
  end.
(** dropWrite (cm 421-458). *)
Definition cm_drop (c : cmem) (id : N) : cmem * outcome unit :=
  match c_out c with
  | [] => (c, Asserted)
  | _ => if negb (existsb (fun w => w_id w =? id) (c_out c)) then (c, Refused)
         else match drop_loop id (rev (c_out c)) (c_mem c) with
              | (r, a', e) => (mkCM a' (rev r) (c_uid c) (c_wm c) (c_down c), e)
              end
  end.

(** Replacing a byte. *)
Definition set_byte (l : list N) (i : nat) (v : N) : list N := firstn i l ++ v :: skipn (S i) l.
(** The inner loop of mergeWrite (cm 473-486): the oldest write that covers the byte has its previous value changed. *)
Fixpoint merge_hit (b v : N) (out : list swr) : option (list swr) :=
  match out with
  | [] => None
  | w :: r => if covers w b
              then Some (mkW (w_id w) (w_addr w) (w_data w) (set_byte (w_prev w) (N.to_nat (b - w_addr w)) v) :: r)
              else match merge_hit b v r with Some r' => Some (w :: r') | None => None end
  end.
(** The outer loop (cm 469-491). *)
Fixpoint merge_loop (b : N) (buf : list N) (c : cmem) : cmem * outcome unit :=
  match buf with
  | [] => (c, Done tt)
  | v :: r =>
      match merge_hit (w64 b) v (c_out c) with
      | Some o => merge_loop (b + 1) r (mkCM (c_mem c) o (c_uid c) (c_wm c) (c_down c))
      | None => match mem_write nosh (c_mem c) (w64 b) [v] with
                | (a', Done _) => merge_loop (b + 1) r (with_mem c a')
                | (a', e) => (with_mem c a', e)
                end
      end
  end.
(** mergeWrite (cm 461-495). *)
Definition cm_merge (c : cmem) (addr : N) (buf : list N) : cmem * outcome unit :=
  match c_out c with
  | [] => match mem_write nosh (c_mem c) addr buf with (a', e) => (with_mem c a', e) end
  | _ => merge_loop addr buf c
  end.

(** What a client and the rest of the system do with a cache. COther is another agent's write to system memory that is
    merged into this cache, the use described at cm 141-142 and cm 226-234 (CachedMemory_test.cpp 58-72 does the same). *)
Inductive cop :=
| CWrite (addr : N) (buf : list N) | CPoke (addr : N) (buf : list N) | CCommit (id : N) | CDrop (id : N)
| COther (addr : N) (buf : list N).
(** One of these calls. *)
Definition cstep (c : cmem) (o : cop) : cmem * outcome unit :=
  match o with
  | CWrite addr buf => cm_write c addr buf
  | CPoke addr buf => cm_poke c addr buf
  | CCommit id => cm_commit c id
  | CDrop id => cm_drop c id
  | COther addr buf =>
      match cm_merge c addr buf with
      | (c', Done _) => (mkCM (c_mem c') (c_out c') (c_uid c') (c_wm c') (down_try_write (c_down c') addr buf), Done tt)
      | r => r
      end
  end.
(** A history of calls; failed assertions and exceptions leave the cache usable, undefined behaviour ends the run. *)
Fixpoint crun (c : cmem) (ops : list cop) : option cmem :=
  match ops with
  | [] => Some c
  | o :: r => match cstep c o with (_, Undefined) => None | (c', _) => crun c' r end
  end.
