(** Checkpoint data storage: sparta/sparta/serialization/checkpoint/VectorStorage.hpp ("vs") and StringStreamStorage.hpp
    ("ss"), and the functions of ArchData.hpp ("ad") that write lines to a storage and read them back. What an object
    looks like after an exception is not modelled. *)
From Coq Require Import List NArith Arith Bool Lia.
From Verif Require Import LayoutModel ArchDataModel DataViewModel.
Import ListNotations.
Open Scope N_scope.

(** C++ sequencing: whatever ends one step badly ends the whole function. *)
Definition obind {A B} (o : outcome A) (f : A -> outcome B) : outcome B :=
  match o with Done a => f a | Refused => Refused | Asserted => Asserted | Undefined => Undefined | TooDeep => TooDeep end.

(** ArchData::INVALID_LINE_IDX (ad 112): the largest 64-bit value. *)
Definition bad_idx : N := 18446744073709551615.

(** The members a storage class has to offer (the StorageT of ad 980-1052): construction, prepareForLoad, beginLine,
    writeLineBytes, endArchData, good, getNextRestoreLine, copyLineBytes. *)
Record storage (T : Type) := mkStorage {
  st_new : T; st_prepare : T -> T; st_begin : T -> N -> outcome T; st_write : T -> list N -> outcome T;
  st_end : T -> outcome T; st_good : T -> bool; st_next : T -> outcome (N * T); st_copy : T -> N -> outcome (list N * T) }.
Arguments mkStorage {T}. Arguments st_new {T}. Arguments st_prepare {T}. Arguments st_begin {T}. Arguments st_write {T}.
Arguments st_end {T}. Arguments st_good {T}. Arguments st_next {T}. Arguments st_copy {T}.

(** VectorStorage::Segment (vs 16-103): index and bytes; bytes_ is the length truncated to 32 bits. The null segment that
    ends an ArchData (vs 42-45) has the invalid index and no bytes. *)
Record vseg := mkSeg { g_idx : N; g_data : list N }.
(** VectorStorage (vs 14-129). The iterator is a position in the vector; [None] before prepareForLoad and after an
    insertion, when it is unset or invalid. *)
Record vstore := mkVS { v_data : list vseg; v_next : N; v_rd : N; v_cur : option nat }.
(** Constructor (vs 118-133). *)
Definition v_new : vstore := mkVS [] bad_idx 0 None.
(** prepareForLoad (vs 159-162). *)
Definition v_prepare (s : vstore) : vstore := mkVS (v_data s) (v_next s) 0 (Some 0%nat).
(** beginLine (vs 164-168). *)
Definition v_begin (s : vstore) (idx : N) : outcome vstore :=
  if idx =? bad_idx then Asserted else Done (mkVS (v_data s) idx (v_rd s) (v_cur s)).
(** writeLineBytes (vs 170-177). *)
Definition v_write (s : vstore) (buf : list N) : outcome vstore :=
  if negb (Nat.eqb (length (v_data s)) 0) && (g_idx (last (v_data s) (mkSeg 0 [])) =? v_next s) then Asserted
  else if v_next s =? bad_idx then Asserted
  else Done (mkVS (v_data s ++ [mkSeg (v_next s) buf]) (v_next s) (v_rd s) None).
(** endArchData (vs 182-184). *)
Definition v_end (s : vstore) : outcome vstore :=
  Done (mkVS (v_data s ++ [mkSeg bad_idx []]) (v_next s) (v_rd s) None).
(** good (vs 190-192). *)
Definition v_good (s : vstore) : bool := v_rd s <=? N.of_nat (length (v_data s)).
(** getNextRestoreLine (vs 198-214); next_restore_idx_ is a uint32_t (vs 123). *)
Definition v_next_line (s : vstore) : outcome (N * vstore) :=
  let n := N.of_nat (length (v_data s)) in
  let rd' := (v_rd s + 1) mod 2 ^ 32 in
  if v_rd s =? n then Done (bad_idx, mkVS (v_data s) (v_next s) rd' (v_cur s))
  else if n <? v_rd s then Refused
  else match v_cur s with
       | None => Undefined
       | Some c => let c' := if v_rd s =? 0 then c else S c in
                   match nth_error (v_data s) c' with
                   | Some g => Done (g_idx g, mkVS (v_data s) (v_next s) rd' (Some c'))
                   | None => Undefined
                   end
       end.
(** copyLineBytes (vs 219-225) and Segment::copyTo (vs 79-86); sizes are uint32_t. *)
Definition v_copy (s : vstore) (size : N) : outcome (list N * vstore) :=
  match v_cur s with
  | None => Undefined
  | Some c => match nth_error (v_data s) c with
              | None => Asserted
              | Some g => let bytes := N.of_nat (length (g_data g)) mod 2 ^ 32 in
                          if g_idx g =? bad_idx then Asserted
                          else if size mod 2 ^ 32 =? bytes then Done (firstn (N.to_nat bytes) (g_data g), s) else Asserted
              end
  end.
(** VectorStorage as a storage class (vs 14-226). *)
Definition vector_storage : storage vstore :=
  mkStorage v_new v_prepare v_begin v_write v_end v_good v_next_line v_copy.

(** StringStreamStorage (ss 16-122): the bytes of the stringstream and the get position. Reading past the end throws
    because eofbit and failbit are in the exception mask (ss 22-23), so a stream that can still be used is good. *)
Record sstore := mkSS { s_buf : list N; s_pos : nat }.
(** Constructor (ss 21-24). *)
Definition s_new : sstore := mkSS [] 0.
(** prepareForLoad (ss 62-64). *)
Definition s_prepare (s : sstore) : sstore := mkSS (s_buf s) 0.
(** Appending bytes (ostream write and operator<< for a char). *)
Definition s_put (s : sstore) (l : list N) : outcome sstore := Done (mkSS (s_buf s ++ l) (s_pos s)).
(** beginLine (ss 66-71): 'L' and the index in little endian. *)
Definition s_begin (s : sstore) (idx : N) : outcome sstore := s_put s (76 :: le_bytes 8 idx).
(** writeLineBytes (ss 73-75). *)
Definition s_write (s : sstore) (buf : list N) : outcome sstore := s_put s buf.
(** endArchData (ss 80-85): 'E'. *)
Definition s_end (s : sstore) : outcome sstore := s_put s [69].
(** good (ss 91-93). *)
Definition s_good (s : sstore) : bool := true.
(** istream::read of [n] bytes. *)
Definition s_take (s : sstore) (n : nat) : outcome (list N * sstore) :=
  if Nat.leb (s_pos s + n) (length (s_buf s))
  then Done (firstn n (skipn (s_pos s) (s_buf s)), mkSS (s_buf s) (s_pos s + n)) else Refused.
(** std::isspace in the default locale. *)
Definition is_space (b : N) : bool := (b =? 32) || ((9 <=? b) && (b <=? 13)).
(** The leading white space that operator>> for a char skips. *)
Fixpoint spaces (l : list N) : nat := match l with b :: r => if is_space b then S (spaces r) else O | [] => O end.
(** getNextRestoreLine (ss 99-114). *)
Definition s_next_line (s : sstore) : outcome (N * sstore) :=
  let s0 := mkSS (s_buf s) (s_pos s + spaces (skipn (s_pos s) (s_buf s))) in
  obind (s_take s0 1) (fun '(c, s1) =>
    if nth 0 c 0 =? 76 then obind (s_take s1 8) (fun '(l, s2) => Done (le_val l, s2))
    else if nth 0 c 0 =? 69 then Done (bad_idx, s1)
    else Refused).
(** copyLineBytes (ss 119-121); the size is a uint32_t. *)
Definition s_copy (s : sstore) (size : N) : outcome (list N * sstore) := s_take s (N.to_nat (size mod 2 ^ 32)).
(** StringStreamStorage as a storage class (ss 16-122). *)
Definition stream_storage : storage sstore :=
  mkStorage s_new s_prepare s_begin s_write s_end s_good s_next_line s_copy.

(** The loops of ArchData::save (ad 985-994, dirty lines only) and saveAll (ad 1006-1014), with Line::save (ad 264-267). *)
Fixpoint save_lines {T} (st : storage T) (all : bool) (s : T) (l : list (N * line)) : outcome (list (N * line) * T) :=
  match l with
  | [] => Done ([], s)
  | (i, x) :: r =>
      if all || l_dirty x
      then obind (st_begin st s i) (fun s1 => obind (st_write st s1 (l_data x)) (fun s2 =>
             obind (save_lines st all s2 r) (fun '(r', s3) => Done ((i, mkLine (l_data x) false) :: r', s3))))
      else obind (save_lines st all s r) (fun '(r', s3) => Done ((i, x) :: r', s3))
  end.
(** save (ad 979-996) and saveAll (ad 1001-1016). *)
Definition ad_save {T} (st : storage T) (all : bool) (s : T) (a : adata) : outcome (adata * T) :=
  if st_good st s
  then obind (save_lines st all s (a_lines a)) (fun '(l, s1) => obind (st_end st s1) (fun s2 => Done (with_lines a l, s2)))
  else Asserted.

(** The loop of restore (ad 1028-1035) with Line::restore (ad 249-252). [fuel] bounds the number of lines. *)
Fixpoint restore_loop {T} (st : storage T) (sh : overshift) (fuel : nat) (s : T) (a : adata) : outcome (adata * T) :=
  match fuel with
  | O => TooDeep
  | S f => obind (st_next st s) (fun '(idx, s1) =>
      if idx =? bad_idx then Done (a, s1)
      else let addr := w64 (idx * a_L a) in
           obind (get_line sh a addr) (fun '(a1, x) => obind (st_copy st s1 (a_L a)) (fun '(d, s2) =>
             restore_loop st sh f s2
               (with_lines a1 (set_line (N.shiftr addr (a_lsb a)) (mkLine d false) (a_lines a1))))))
  end.
(** restore (ad 1023-1036). *)
Definition ad_restore {T} (st : storage T) (sh : overshift) (fuel : nat) (s : T) (a : adata) : outcome (adata * T) :=
  if st_good st s then restore_loop st sh fuel s a else Asserted.
(** restoreAll (ad 1046-1051). *)
Definition ad_restore_all {T} (st : storage T) (sh : overshift) (fuel : nat) (s : T) (a : adata) : outcome (adata * T) :=
  match mem_clean sh a with
  | (a', Done _) => ad_restore st sh fuel s a'
  | (_, Refused) => Refused | (_, Asserted) => Asserted | (_, Undefined) => Undefined | (_, TooDeep) => TooDeep
  end.

(** DeltaCheckpoint::storeSnapshot_ and storeDelta_ (DeltaCheckpoint.hpp 591-615): every ArchData in turn. *)
Fixpoint save_dats {T} (st : storage T) (all : bool) (s : T) (l : list adata) : outcome (list adata * T) :=
  match l with
  | [] => Done ([], s)
  | a :: r => obind (ad_save st all s a) (fun '(a', s1) => obind (save_dats st all s1 r) (fun '(r', s2) => Done (a' :: r', s2)))
  end.
(** The loops of DeltaCheckpoint::loadState (DeltaCheckpoint.hpp 562-578). *)
Fixpoint restore_dats {T} (st : storage T) (sh : overshift) (fuel : nat) (all : bool) (s : T) (l : list adata)
  : outcome (list adata * T) :=
  match l with
  | [] => Done ([], s)
  | a :: r => obind (if all then ad_restore_all st sh fuel s a else ad_restore st sh fuel s a) (fun '(a', s1) =>
                obind (restore_dats st sh fuel all s1 r) (fun '(r', s2) => Done (a' :: r', s2)))
  end.
