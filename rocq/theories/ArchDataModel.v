(** Lines, reads and writes of sparta::ArchData (sparta/sparta/functional/ArchData.hpp, cited as "ad") and
    sparta::memory::MemoryObject (sparta/sparta/memory/MemoryObject.hpp, "mo"). Host byte order is little endian
    (sparta/sparta/utils/ByteOrder.hpp 20-26). *)
From Coq Require Import List NArith Arith Bool Lia.
From Verif Require Import MathUtilsModel LayoutModel.
Import ListNotations.
Open Scope N_scope.

(** The bytes of a value of [n] bytes as memory holds them, lowest first (memcpy of an integer on the host, ad 1256). *)
Fixpoint le_bytes (n : nat) (v : N) : list N :=
  match n with O => [] | S n' => v mod 256 :: le_bytes n' (v / 256) end.

(** What "fill << (8 * sizeof(FillT))" gives for a FillT as wide as the arithmetic, i.e. four and eight byte patterns
    (ad 1249): shifting by the full width is undefined in C++. [None] stands for that; a machine that masks the shift
    count, or a compiler that folds it to zero, is [Some] value. *)
Definition overshift := N -> option N.

(** shifted_fill (ad 1249) for a pattern of [fsz] bytes, rotated by [off] bytes. The two-byte pattern is shifted as an
    int, where a shift by 16 is defined. *)
Definition shifted_fill (sh : overshift) (fsz : nat) (fill : N) (off : nat) : option N :=
  let w := 2 ^ (8 * N.of_nat fsz) in
  let left := if Nat.eqb off 0
              then if Nat.leb fsz 2 then Some 0 else sh fill
              else Some (N.shiftl fill (8 * N.of_nat (fsz - off))) in
  match left with
  | Some l => Some (N.lor (N.shiftr fill (8 * N.of_nat off)) l mod w)
  | None => None
  end.

(** The copying part of fillWith_ (ad 1251-1292) for the remaining [rem] bytes: whole patterns while more than one pattern
    remains, then what is left. [fuel] bounds the number of rounds; [rem] is enough. *)
Fixpoint fill_loop (fuel : nat) (pat : list N) (rem : nat) : list N :=
  if Nat.leb rem (length pat) then firstn rem pat
  else match fuel with O => [] | S f => pat ++ fill_loop f pat (rem - length pat) end.

(** fillValue (ad 127-146) and fillWith_ (ad 1240-1293). The size parameter is a uint32_t; the assertion that the offset
    is below the pattern size (ad 1245). *)
Definition fill_value (sh : overshift) (size : N) (fill : N) (fsz : nat) (off : nat) : outcome (list N) :=
  let n := N.to_nat (size mod 2 ^ 32) in
  match fsz with
  | 1%nat => Done (repeat (fill mod 256) n)
  | 2%nat | 4%nat | 8%nat =>
      if Nat.leb fsz off then Asserted
      else match shifted_fill sh fsz (fill mod 2 ^ (8 * N.of_nat fsz)) off with
           | Some v => Done (fill_loop n (le_bytes fsz v) n)
           | None => Undefined
           end
  | _ => Refused
  end.

(** Line (ad 157-412): bytes and dirty flag. Its index is the key in the map, its offset index times line size (ad 826). *)
Record line := mkLine { l_data : list N; l_dirty : bool }.

(** ArchData after layout. Lines are 2^a_lsb bytes; the map is a list of index and line in order of allocation: TieredMap
    (C32) keeps pairs in insertion order and finds them by key. *)
Record adata := mkAD { a_lsb : N; a_size : N; a_fill : N; a_fsz : nat; a_free : bool; a_lines : list (N * line) }.

(** Line size. *)
Definition a_L (a : adata) : N := 2 ^ a_lsb a.

(** ArchData constructor's checks of the fill pattern (ad 482-487) and line size (LayoutModel.line_mask), then layoutRange
    (ad 652-665); the checks of the MemoryObject constructor (mo 81-98). can_free_lines is always true for a MemoryObject,
    false is allowed for ArchData (ad 469). *)
Definition mem_make (k : N) (total fill : N) (fsz : nat) (free : bool) : outcome adata :=
  if negb (Nat.eqb fsz 1 || Nat.eqb fsz 2 || Nat.eqb fsz 4 || Nat.eqb fsz 8) then Asserted
  else if negb (Nat.eqb fsz 8 || (N.shiftr fill (8 * N.of_nat fsz) =? 0)) then Asserted
  else match line_mask (2 ^ k) with
       | Done _ => if (total =? 0) || negb (total mod 2 ^ k =? 0) then Refused
                   else Done (mkAD k total fill fsz free [])
       | Refused => Refused | Asserted => Asserted | Undefined => Undefined | TooDeep => TooDeep
       end.

(** line_map_.find (ad 690, 721). *)
Fixpoint find_line (idx : N) (l : list (N * line)) : option line :=
  match l with [] => None | (i, x) :: r => if i =? idx then Some x else find_line idx r end.
(** Replacing a line's contents in place. *)
Fixpoint set_line (idx : N) (x : line) (l : list (N * line)) : list (N * line) :=
  match l with [] => [] | (i, y) :: r => if i =? idx then (i, x) :: r else (i, y) :: set_line idx x r end.
(** The ArchData with other lines. *)
Definition with_lines (a : adata) (l : list (N * line)) : adata :=
  mkAD (a_lsb a) (a_size a) (a_fill a) (a_fsz a) (a_free a) l.

(** A line filled with the initial pattern (ad 235-239). *)
Definition fill_line (sh : overshift) (a : adata) : outcome (list N) :=
  fill_value sh (a_L a) (a_fill a) (a_fsz a) 0.

(** allocateLine_ (ad 1451-1497) for a line size above 0; a new line is dirty (ad 193). *)
Definition allocate (sh : overshift) (a : adata) (idx : N) : outcome adata :=
  if a_size a <? w64 (idx * a_L a) then Refused
  else match fill_line sh a with
       | Done d => Done (with_lines a (a_lines a ++ [(idx, mkLine d true)]))
       | Refused => Refused | Asserted => Asserted | Undefined => Undefined | TooDeep => TooDeep
       end.

(** getLine (ad 680-702): the ArchData, with the line allocated if needed, and the line. *)
Definition get_line (sh : overshift) (a : adata) (addr : N) : outcome (adata * line) :=
  if negb (addr <? a_size a) then Asserted
  else let idx := N.shiftr addr (a_lsb a) in
       match find_line idx (a_lines a) with
       | Some x => Done (a, x)
       | None => match allocate sh a idx with
                 | Done a' => match find_line idx (a_lines a') with Some x => Done (a', x) | None => Asserted end
                 | Refused => Refused | Asserted => Asserted | Undefined => Undefined | TooDeep => TooDeep
                 end
       end.

(** Line::read of bytes (ad 335-341): the assertion's sum wraps; copying past the line's end is undefined. *)
Definition line_read (L : N) (x : line) (off size : N) : outcome (list N) :=
  if L <? w64 (off + size) then Asserted
  else if L <? off + size then Undefined
  else Done (firstn (N.to_nat size) (skipn (N.to_nat off) (l_data x))).
(** Line::write of bytes (ad 375-382). *)
Definition line_write (L : N) (x : line) (off : N) (buf : list N) : outcome line :=
  let size := N.of_nat (length buf) in
  if L <? w64 (off + size) then Asserted
  else if L <? off + size then Undefined
  else Done (mkLine (firstn (N.to_nat off) (l_data x) ++ buf ++ skipn (N.to_nat off + length buf) (l_data x)) true).

(** checkCanAccess (ad 866-871). *)
Definition can_access (a : adata) (addr size : N) : outcome unit :=
  if negb (in_line_ok (a_L a) (2 ^ 64 - a_L a) addr size) then Refused
  else if a_size a <? w64 (addr + size) then Asserted else Done tt.

(** MemoryObject::read (mo 132-148). *)
Definition mem_read (sh : overshift) (a : adata) (addr size : N) : outcome (list N) :=
  if negb (addr <? a_size a) then Asserted
  else match find_line (N.shiftr addr (a_lsb a)) (a_lines a) with
       | None => match can_access a addr size with
                 | Done _ => fill_value sh size (a_fill a) (a_fsz a)
                               (Nat.modulo (N.to_nat (addr mod a_L a)) (a_fsz a))
                 | Refused => Refused | Asserted => Asserted | Undefined => Undefined | TooDeep => TooDeep
                 end
       | Some x => line_read (a_L a) x (addr - N.shiftl (N.shiftr addr (a_lsb a)) (a_lsb a)) size
       end.

(** MemoryObject::write (mo 157-165): the state after the call, also when the line refuses the access, and how it ended. *)
Definition mem_write (sh : overshift) (a : adata) (addr : N) (buf : list N) : adata * outcome unit :=
  match get_line sh a addr with
  | Done (a', x) =>
      match line_write (a_L a) x (addr - N.shiftl (N.shiftr addr (a_lsb a)) (a_lsb a)) buf with
      | Done x' => (with_lines a' (set_line (N.shiftr addr (a_lsb a)) x' (a_lines a')), Done tt)
      | Refused => (a', Refused) | Asserted => (a', Asserted) | Undefined => (a', Undefined) | TooDeep => (a', TooDeep)
      end
  | Refused => (a, Refused) | Asserted => (a, Asserted) | Undefined => (a, Undefined) | TooDeep => (a, TooDeep)
  end.

(** clean (ad 756-776), which is all that reset (ad 785-792) does without segments: lines are deleted, or refilled in
    place without touching the dirty flag. *)
Definition mem_clean (sh : overshift) (a : adata) : adata * outcome unit :=
  if a_free a then (with_lines a [], Done tt)
  else match a_lines a with
       | [] => (a, Done tt)
       | _ => match fill_line sh a with
              | Done d => (with_lines a (map (fun p => (fst p, mkLine d (l_dirty (snd p)))) (a_lines a)), Done tt)
              | Refused => (a, Refused) | Asserted => (a, Asserted) | Undefined => (a, Undefined) | TooDeep => (a, TooDeep)
              end
       end.

(** The loop of updateFrom (ad 947-965) over the other's lines; Line::updateFrom (ad 213-218) asserts equal sizes. *)
Fixpoint update_lines (sh : overshift) (a : adata) (l : list (N * line)) : outcome adata :=
  match l with
  | [] => Done a
  | (i, x) :: r =>
      match find_line i (a_lines a) with
      | Some y => if Nat.eqb (length (l_data y)) (length (l_data x))
                  then update_lines sh (with_lines a (set_line i (mkLine (l_data x) true) (a_lines a))) r
                  else Asserted
      | None => match allocate sh a i with
                | Done a' => if Nat.eqb (N.to_nat (a_L a)) (length (l_data x))
                             then update_lines sh (with_lines a' (set_line i (mkLine (l_data x) true) (a_lines a'))) r
                             else Asserted
                | Refused => Refused | Asserted => Asserted | Undefined => Undefined | TooDeep => TooDeep
                end
      end
  end.
(** updateFrom (ad 947-965). *)
Definition update_from (sh : overshift) (a other : adata) : outcome adata := update_lines sh a (a_lines other).

(** A client's calls on a memory object. *)
Inductive mop := MWrite (addr : N) (buf : list N) | MRead (addr size : N) | MClean.
(** A history of calls: an assertion or exception leaves the object usable, undefined behaviour ends the run. *)
Fixpoint mrun (sh : overshift) (a : adata) (ops : list mop) : option adata :=
  match ops with
  | [] => Some a
  | MWrite addr buf :: r => match mem_write sh a addr buf with (_, Undefined) => None | (a', _) => mrun sh a' r end
  | MRead addr size :: r => match mem_read sh a addr size with Undefined => None | _ => mrun sh a r end
  | MClean :: r => match mem_clean sh a with (_, Undefined) => None | (a', _) => mrun sh a' r end
  end.
