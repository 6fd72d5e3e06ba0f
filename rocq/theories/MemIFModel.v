(** Memory interfaces: sparta/sparta/memory/DebugMemoryIF.hpp ("db"), BlockingMemoryIF.hpp ("bm"), BlockingMemoryIFNode.hpp
    ("bn"), DMIBlockingMemoryIF.hpp ("dm") and the BlockingMemoryObjectIFNode of MemoryObject.hpp ("mo"), over the memory
    object of ArchDataModel. Addresses and sizes are uint64_t (AddressTypes.hpp); a buffer that is written is a list of
    bytes, its size the length. Translation interfaces, descriptions and supplements are left out. *)
From Coq Require Import List NArith Arith Bool Lia.
From Verif Require Import MathUtilsModel LayoutModel ArchDataModel StorageModel.
Import ListNotations.
Open Scope N_scope.

(** a - b on uint64_t. *)
Definition sub_w (a b : N) : N := w64 (a + (2 ^ 64 - w64 b)).

(** isInAccessWindows (db 363-367) for the one window [lo, hi). *)
Definition in_window (lo hi addr size : N) : bool := (lo <=? addr) && (w64 (addr + size) <=? hi).
(** x & block_mask_ with the mask of db 188-189 for blocks of 2^k bytes. *)
Definition block_of (k x : N) : N := N.land x (2 ^ 64 - 2 ^ k).
(** doesAccessSpan (db 394-396). *)
Definition spans (k addr size : N) : bool := negb (block_of k addr =? block_of k (sub_w (w64 (addr + size)) 1)).

(** How often the loops of tryPeek and tryPoke may go round before the model gives up: once per block of the window, and
    once more. *)
Definition rounds (k lo hi : N) : nat := S (N.to_nat ((hi - lo) / 2 ^ k)).
(** The loop of tryPeek (db 442-454) over tryPeek_ [f], from address [a] up to [e], [out] being copied so far. *)
Fixpoint peek_loop (fuel : nat) (k : N) (f : N -> N -> outcome (option (list N))) (a e : N) (out : list N)
  : outcome (option (list N)) :=
  match fuel with
  | O => TooDeep
  | S n => let b := block_of k (w64 (a + 2 ^ k)) in
           if e <=? b
           then obind (f a (sub_w e a)) (fun r => match r with Some l => Done (Some (out ++ l)) | None => Done None end)
           else obind (f a (sub_w b a)) (fun r => match r with Some l => peek_loop n k f b e (out ++ l) | None => Done None end)
  end.
(** tryPeek (db 432-455) on an interface with blocks of 2^k bytes and the window [lo, hi): the bytes, or [None] for false. *)
Definition try_peek (k lo hi : N) (f : N -> N -> outcome (option (list N))) (addr size : N) : outcome (option (list N)) :=
  if negb (in_window lo hi addr size) then Done None
  else peek_loop (rounds k lo hi) k f addr (w64 (addr + size)) [].

(** The loop of tryPoke (db 512-524) over tryPoke_ [f], which also yields the state it leaves behind; [buf] is what
    remains to be written. Reading past the end of the buffer is undefined. *)
Fixpoint poke_loop {S} (fuel : nat) (k : N) (f : S -> N -> list N -> S * outcome bool) (s : S) (a e : N) (buf : list N)
  : S * outcome bool :=
  match fuel with
  | O => (s, TooDeep)
  | Datatypes.S n =>
      let b := block_of k (w64 (a + 2 ^ k)) in
      if e <=? b
      then if N.of_nat (length buf) <? sub_w e a then (s, Undefined)
           else f s a (firstn (N.to_nat (sub_w e a)) buf)
      else if N.of_nat (length buf) <? sub_w b a then (s, Undefined)
           else match f s a (firstn (N.to_nat (sub_w b a)) buf) with
                | (s', Done true) => poke_loop n k f s' b e (skipn (N.to_nat (sub_w b a)) buf)
                | (s', o) => (s', o)
                end
  end.
(** tryPoke (db 502-525). *)
Definition try_poke {S} (k lo hi : N) (f : S -> N -> list N -> S * outcome bool) (s : S) (addr : N) (buf : list N)
  : S * outcome bool :=
  if negb (in_window lo hi addr (N.of_nat (length buf))) then (s, Done false)
  else poke_loop (rounds k lo hi) k f s addr (w64 (addr + N.of_nat (length buf))) buf.

(** DMIBlockingMemoryIF (dm 50-179): the start of its block, whether it is valid, and the pointer to the bytes of a line,
    given by the line's index and the generation of lines it was taken from (see [n_gen]). *)
Record dmi := mkDmi { d_start : N; d_valid : bool; d_idx : N; d_gen : nat }.

(** A notification (bn 53-96, 104-156): of a read with the bytes read, or after a write with the bytes before and the
    bytes written. *)
Inductive noti := NRead (addr : N) (data : list N) | NWrite (addr : N) (prior tried : list N).

(** BlockingMemoryObjectIFNode (mo 249-404): the memory object; how often its lines have been deleted so far, which tells
    a pointer to a live line from one to a deleted line; the map dmi_ifs_ (mo 402); the counters (bn 206-209); whether the
    notification sources are observed (bn 336, 419); what has been notified. *)
Record node := mkNode { n_mem : adata; n_gen : nat; n_dmi : list (N * dmi); n_reads : N; n_writes : N;
                        n_robs : bool; n_wobs : bool; n_noti : list noti }.
(** The node with another memory. *)
Definition with_mem (s : node) (a : adata) : node :=
  mkNode a (n_gen s) (n_dmi s) (n_reads s) (n_writes s) (n_robs s) (n_wobs s) (n_noti s).
(** The node with other DMIs. *)
Definition with_dmi (s : node) (l : list (N * dmi)) : node :=
  mkNode (n_mem s) (n_gen s) l (n_reads s) (n_writes s) (n_robs s) (n_wobs s) (n_noti s).
(** The node after a notification. *)
Definition notify (s : node) (x : noti) : node :=
  mkNode (n_mem s) (n_gen s) (n_dmi s) (n_reads s) (n_writes s) (n_robs s) (n_wobs s) (n_noti s ++ [x]).
(** ++*ctr_reads_ (bn 327). *)
Definition count_read (s : node) : node :=
  mkNode (n_mem s) (n_gen s) (n_dmi s) (n_reads s + 1) (n_writes s) (n_robs s) (n_wobs s) (n_noti s).
(** ++*ctr_writes_ (bn 410). *)
Definition count_write (s : node) : node :=
  mkNode (n_mem s) (n_gen s) (n_dmi s) (n_reads s) (n_writes s + 1) (n_robs s) (n_wobs s) (n_noti s).

(** The block size of the interface is the memory object's (mo 268). *)
Definition n_k (s : node) : N := a_lsb (n_mem s).
(** Its window is [0, size) (mo 269). *)
Definition n_end (s : node) : N := a_size (n_mem s).

(** Constructing the memory object (mo 76-99) and an interface to it (mo 260-272), with observers registered or not. The
    checks of db 103-107 and db 176-213 hold for what the memory object's constructor accepts. *)
Definition node_make (k total fill : N) (fsz : nat) (free robs wobs : bool) : outcome node :=
  obind (mem_make k total fill fsz free) (fun a => Done (mkNode a 0 [] 0 0 robs wobs [])).

(** tryRead_ and tryPeek_ of the node (mo 357-362, 377-386). *)
Definition obj_read (sh : overshift) (s : node) (addr size : N) : outcome (option (list N)) :=
  obind (mem_read sh (n_mem s) addr size) (fun l => Done (Some l)).
(** tryWrite_ and tryPoke_ of the node (mo 365-370, 391-400). *)
Definition obj_write (sh : overshift) (s : node) (addr : N) (buf : list N) : node * outcome bool :=
  let r := mem_write sh (n_mem s) addr buf in (with_mem s (fst r), obind (snd r) (fun _ => Done true)).

(** tryPeek of the node. *)
Definition node_peek (sh : overshift) (s : node) (addr size : N) : outcome (option (list N)) :=
  try_peek (n_k s) 0 (n_end s) (obj_read sh s) addr size.
(** tryPoke of the node. *)
Definition node_poke (sh : overshift) (s : node) (addr : N) (buf : list N) : node * outcome bool :=
  try_poke (n_k s) 0 (n_end s) (obj_write sh) s addr buf.
(** tryRead (bn 322-352). *)
Definition node_read (sh : overshift) (s : node) (addr size : N) : node * outcome (option (list N)) :=
  let s := count_read s in
  if spans (n_k s) addr size then (s, Done None)
  else if negb (in_window 0 (n_end s) addr size) then (s, Done None)
  else match obj_read sh s addr size with
       | Done (Some l) => (if n_robs s then notify s (NRead addr l) else s, Done (Some l))
       | o => (s, o)
       end.
(** tryWrite (bn 405-447). *)
Definition node_write (sh : overshift) (s : node) (addr : N) (buf : list N) : node * outcome bool :=
  let s := count_write s in
  let size := N.of_nat (length buf) in
  if spans (n_k s) addr size then (s, Done false)
  else if negb (in_window 0 (n_end s) addr size) then (s, Done false)
  else if negb (n_wobs s) then obj_write sh s addr buf
  else match node_peek sh s addr size with
       | Done None => (s, Done false)
       | Done (Some prior) =>
           match obj_write sh s addr buf with
           | (s', Done true) => (notify s' (NWrite addr prior buf), Done true)
           | (s', o) => (s', o)
           end
       | Refused => (s, Refused) | Asserted => (s, Asserted) | Undefined => (s, Undefined) | TooDeep => (s, TooDeep)
       end.

(** dmi_ifs_.find (mo 330). A client holds a DMI by its key: the map never drops or replaces one. *)
Fixpoint find_dmi (key : N) (l : list (N * dmi)) : option dmi :=
  match l with [] => None | (i, x) :: r => if i =? key then Some x else find_dmi key r end.
(** getDMI (mo 323-341) with the DMI's constructor (dm 68-74, db 103): the DMI's key, or [None] for nullptr. *)
Definition get_dmi (sh : overshift) (s : node) (addr size : N) : node * outcome (option N) :=
  if spans (n_k s) addr size then (s, Done None)
  else let key := block_of (n_k s) addr in
       match find_dmi key (n_dmi s) with
       | Some _ => (s, Done (Some key))
       | None =>
           match get_line sh (n_mem s) key with
           | Done (a', _) =>
               let idx := N.shiftr key (n_k s) in
               let start := N.shiftl idx (n_k s) in
               if w64 (start + a_L a') <=? start then (with_mem s a', Refused)
               else (with_dmi (with_mem s a') (n_dmi s ++ [(key, mkDmi start true idx (n_gen s))]), Done (Some key))
           | Refused => (s, Refused) | Asserted => (s, Asserted) | Undefined => (s, Undefined) | TooDeep => (s, TooDeep)
           end
       end.
(** invalidateAllDMI (mo 349-353). *)
Definition inval (s : node) : node :=
  with_dmi s (map (fun p => (fst p, mkDmi (d_start (snd p)) false (d_idx (snd p)) (d_gen (snd p)))) (n_dmi s)).

(** tryRead_ and tryPeek_ of a DMI (dm 138-146, 162-166): copying from the host address of dm 131-134. Copying outside the
    line, or from a line that has been deleted, is undefined. *)
Definition raw_read (s : node) (d : dmi) (addr size : N) : outcome (option (list N)) :=
  let off := sub_w addr (d_start d) in
  if negb (Nat.eqb (d_gen d) (n_gen s)) then Undefined
  else match find_line (d_idx d) (a_lines (n_mem s)) with
       | None => Undefined
       | Some x => if a_L (n_mem s) <? off + size then Undefined
                   else Done (Some (firstn (N.to_nat size) (skipn (N.to_nat off) (l_data x))))
       end.
(** tryWrite_ and tryPoke_ of a DMI (dm 150-158, 170-174). The line's dirty flag is not touched. *)
Definition raw_write (d : dmi) (s : node) (addr : N) (buf : list N) : node * outcome bool :=
  let off := sub_w addr (d_start d) in
  if negb (Nat.eqb (d_gen d) (n_gen s)) then (s, Undefined)
  else match find_line (d_idx d) (a_lines (n_mem s)) with
       | None => (s, Undefined)
       | Some x =>
           if a_L (n_mem s) <? off + N.of_nat (length buf) then (s, Undefined)
           else (with_mem s (with_lines (n_mem s)
                   (set_line (d_idx d) (mkLine (firstn (N.to_nat off) (l_data x) ++ buf ++
                                                skipn (N.to_nat off + length buf) (l_data x)) (l_dirty x))
                      (a_lines (n_mem s)))), Done true)
       end.
(** tryRead of a DMI (dm 99-107 and bm 119-133). *)
Definition dmi_read (s : node) (d : dmi) (addr size : N) : outcome (option (list N)) :=
  if negb (d_valid d) then Done None
  else if spans (n_k s) addr size then Done None
  else if negb (in_window (d_start d) (d_start d + a_L (n_mem s)) addr size) then Done None
  else raw_read s d addr size.
(** tryWrite of a DMI (dm 113-121 and bm 186-200). *)
Definition dmi_write (s : node) (d : dmi) (addr : N) (buf : list N) : node * outcome bool :=
  let size := N.of_nat (length buf) in
  if negb (d_valid d) then (s, Done false)
  else if spans (n_k s) addr size then (s, Done false)
  else if negb (in_window (d_start d) (d_start d + a_L (n_mem s)) addr size) then (s, Done false)
  else raw_write d s addr buf.
(** tryPeek of a DMI: inherited, without a look at the valid flag. *)
Definition dmi_peek (s : node) (d : dmi) (addr size : N) : outcome (option (list N)) :=
  try_peek (n_k s) (d_start d) (d_start d + a_L (n_mem s)) (raw_read s d) addr size.
(** tryPoke of a DMI: inherited, without a look at the valid flag. *)
Definition dmi_poke (s : node) (d : dmi) (addr : N) (buf : list N) : node * outcome bool :=
  try_poke (n_k s) (d_start d) (d_start d + a_L (n_mem s)) (raw_write d) s addr buf.

(** ArchData::clean or reset of the memory object behind the interface (ad 756-792): with can_free_lines the lines are
    deleted. *)
Definition node_clean (sh : overshift) (s : node) : node * outcome unit :=
  let r := mem_clean sh (n_mem s) in
  let g := if a_free (n_mem s) then S (n_gen s) else n_gen s in
  (mkNode (fst r) g (n_dmi s) (n_reads s) (n_writes s) (n_robs s) (n_wobs s) (n_noti s), snd r).

(** What a client can call. A DMI is named by the key it was returned under. *)
Inductive iop :=
| IRead (addr size : N) | IWrite (addr : N) (buf : list N) | IPeek (addr size : N) | IPoke (addr : N) (buf : list N)
| IGet (addr size : N) | IInval | IClean
| DRead (key addr size : N) | DWrite (key addr : N) (buf : list N) | DPeek (key addr size : N) | DPoke (key addr : N) (buf : list N).
(** What it gets: bytes or false; true or false; a DMI or nullptr; nothing. *)
Inductive ires := RBytes (o : option (list N)) | RBool (b : bool) | RDmi (o : option N) | RUnit.

(** Pairing a state with the result of a call, whatever its type. *)
Definition out {A} (s : node) (o : outcome A) (f : A -> ires) : node * outcome ires := (s, obind o (fun a => Done (f a))).
(** One call. Using a DMI that was never handed out is undefined. *)
Definition istep (sh : overshift) (s : node) (o : iop) : node * outcome ires :=
  match o with
  | IRead addr size => let r := node_read sh s addr size in out (fst r) (snd r) RBytes
  | IWrite addr buf => let r := node_write sh s addr buf in out (fst r) (snd r) RBool
  | IPeek addr size => out s (node_peek sh s addr size) RBytes
  | IPoke addr buf => let r := node_poke sh s addr buf in out (fst r) (snd r) RBool
  | IGet addr size => let r := get_dmi sh s addr size in out (fst r) (snd r) RDmi
  | IInval => (inval s, Done RUnit)
  | IClean => let r := node_clean sh s in out (fst r) (snd r) (fun _ => RUnit)
  | DRead key addr size =>
      match find_dmi key (n_dmi s) with Some d => out s (dmi_read s d addr size) RBytes | None => (s, Undefined) end
  | DWrite key addr buf =>
      match find_dmi key (n_dmi s) with Some d => let r := dmi_write s d addr buf in out (fst r) (snd r) RBool | None => (s, Undefined) end
  | DPeek key addr size =>
      match find_dmi key (n_dmi s) with Some d => out s (dmi_peek s d addr size) RBytes | None => (s, Undefined) end
  | DPoke key addr buf =>
      match find_dmi key (n_dmi s) with Some d => let r := dmi_poke s d addr buf in out (fst r) (snd r) RBool | None => (s, Undefined) end
  end.
(** A history of calls and what they return: an exception is caught by the client and noted, undefined behaviour ends the
    run. *)
Fixpoint irun (sh : overshift) (s : node) (ops : list iop) : option (node * list (outcome ires)) :=
  match ops with
  | [] => Some (s, [])
  | o :: r => match istep sh s o with
              | (_, Undefined) => None
              | (s', x) => match irun sh s' r with Some (s'', l) => Some (s'', x :: l) | None => None end
              end
  end.

(** The throwing calls: read (bn 372-382), write (bn 468-478), peek (db 461-468) and poke (db 531-538) make the same
    attempt and raise an exception if it returns false; an empty access that is refused trips the assertion of db 378. *)
Definition or_throw {A} (empty : bool) (o : outcome (option A)) : outcome A :=
  obind o (fun r => match r with Some l => Done l | None => if empty then Asserted else Refused end).
(** read. *)
Definition node_read_x (sh : overshift) (s : node) (addr size : N) : node * outcome (list N) :=
  let r := node_read sh s addr size in (fst r, or_throw (size =? 0) (snd r)).
(** write. *)
Definition node_write_x (sh : overshift) (s : node) (addr : N) (buf : list N) : node * outcome unit :=
  let r := node_write sh s addr buf in
  (fst r, or_throw (Nat.eqb (length buf) 0) (obind (snd r) (fun b : bool => Done (if b then Some tt else None)))).
(** peek. *)
Definition node_peek_x (sh : overshift) (s : node) (addr size : N) : outcome (list N) :=
  or_throw false (node_peek sh s addr size).
(** poke. *)
Definition node_poke_x (sh : overshift) (s : node) (addr : N) (buf : list N) : node * outcome unit :=
  let r := node_poke sh s addr buf in
  (fst r, or_throw false (obind (snd r) (fun b : bool => Done (if b then Some tt else None)))).
