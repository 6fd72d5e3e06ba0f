(** sparta::DataView (sparta/sparta/functional/DataView.hpp, cited as "dv"), the typed accesses of ArchData::Line
    (sparta/sparta/functional/ArchData.hpp, "ad") and byte orders (sparta/sparta/utils/ByteOrder.hpp, "bo"). *)
From Coq Require Import List NArith Arith Bool Lia.
From Verif Require Import MathUtilsModel LayoutModel ArchDataModel.
Import ListNotations.
Open Scope N_scope.

(** ByteOrder (bo 72-76). *)
Inductive border := LE | BE.

(** The value of bytes in host (little endian) order: reading through a T pointer (ad 325). *)
Fixpoint le_val (l : list N) : N := match l with [] => 0 | b :: r => b + 256 * le_val r end.

(** byte_swap (bo 80-131) of a value of [n] bytes: identity for one byte, two shifts for two bytes (computed in int and
    cut to 16 bits), the compiler's bswap otherwise. Signed types have the same bits. *)
Definition byte_swap (n : nat) (v : N) : N :=
  match n with
  | 1%nat => v
  | 2%nat => N.lor (N.shiftl v 8) (N.shiftr v 8) mod 2 ^ 16
  | _ => le_val (rev (le_bytes n v))
  end.
(** reorder (bo 134-152). *)
Definition reorder (o : border) (n : nat) (v : N) : N := match o with LE => v | BE => byte_swap n v end.

(** Line::read<T, BO> (ad 315-327) with sizeof(T) = sz. *)
Definition line_readT (sz : nat) (o : border) (L : N) (x : line) (off idx : N) : outcome N :=
  let loc := w64 (off + w64 (idx * N.of_nat sz)) in
  if L <? w64 (loc + N.of_nat sz) then Asserted
  else if L <? loc + N.of_nat sz then Undefined
  else Done (reorder o sz (le_val (firstn sz (skipn (N.to_nat loc) (l_data x))))).
(** Line::write<T, BO> (ad 353-366). *)
Definition line_writeT (sz : nat) (o : border) (L : N) (x : line) (off v idx : N) : outcome line :=
  let loc := w64 (off + w64 (idx * N.of_nat sz)) in
  if L <? w64 (loc + N.of_nat sz) then Asserted
  else if L <? loc + N.of_nat sz then Undefined
  else Done (mkLine (firstn (N.to_nat loc) (l_data x) ++ le_bytes sz (reorder o sz v) ++
                     skipn (N.to_nat loc + sz) (l_data x)) true).

(** A placed view (dv 408-412): line (by index; a line is never moved), offset in the line, size. *)
Record view := mkView { v_line : N; v_off : N; v_size : N }.
(** place_ at an offset of the ArchData (dv 410-411): getLine and offset - line offset. *)
Definition view_at (a : adata) (p size : N) : view :=
  mkView (N.shiftr p (a_lsb a)) (p - N.shiftl (N.shiftr p (a_lsb a)) (a_lsb a)) size.

(** read / readUnsafe (dv 150-166). A line that is gone would be a dangling pointer. *)
Definition dv_read (sz : nat) (o : border) (a : adata) (v : view) (idx : N) : outcome N :=
  if negb (idx <? v_size v / N.of_nat sz) then Asserted
  else match find_line (v_line v) (a_lines a) with
       | Some x => line_readT sz o (a_L a) x (v_off v) idx
       | None => Undefined
       end.
(** Storing a changed line. *)
Definition put_line (a : adata) (i : N) (r : outcome line) : outcome adata :=
  match r with
  | Done x => Done (with_lines a (set_line i x (a_lines a)))
  | Refused => Refused | Asserted => Asserted | Undefined => Undefined | TooDeep => TooDeep
  end.
(** write / writeUnsafe (dv 245-264). *)
Definition dv_write (sz : nat) (o : border) (a : adata) (v : view) (val idx : N) : outcome adata :=
  if negb (idx <? v_size v / N.of_nat sz) then Asserted
  else match find_line (v_line v) (a_lines a) with
       | Some x => put_line a (v_line v) (line_writeT sz o (a_L a) x (v_off v) val idx)
       | None => Undefined
       end.

(** readPadded / readPaddedUnsafe (dv 180-214) for a T of sz bytes: the index is passed on unscaled to a read of a type
    chosen by what remains of the view; the result is cut to T. *)
Definition dv_read_padded (sz : nat) (o : border) (a : adata) (v : view) (idx : N) : outcome N :=
  if v_size v <? N.of_nat sz * idx then Asserted
  else match find_line (v_line v) (a_lines a) with
       | None => Undefined
       | Some x =>
         let mx := v_size v - N.of_nat sz * idx in
         let cut r := match r with Done w => Done (w mod 2 ^ (8 * N.of_nat sz)) | e => e end in
         if negb (pow2_or_0 mx) then Asserted
         else if 8 <=? mx then cut (line_readT 8 o (a_L a) x (v_off v) idx)
         else if mx =? 4 then cut (line_readT 4 o (a_L a) x (v_off v) idx)
         else if mx =? 2 then cut (line_readT 2 o (a_L a) x (v_off v) idx)
         else if mx =? 1 then cut (line_readT 1 o (a_L a) x (v_off v) idx)
         else if mx =? 0 then Done 0 else Asserted
       end.
(** writeTruncated / writeTruncatedUnsafe (dv 283-316). *)
Definition dv_write_truncated (sz : nat) (o : border) (a : adata) (v : view) (val idx : N) : outcome adata :=
  if v_size v <? N.of_nat sz * idx then Asserted
  else match find_line (v_line v) (a_lines a) with
       | None => Undefined
       | Some x =>
         let mx := v_size v - N.of_nat sz * idx in
         let wr n := put_line a (v_line v) (line_writeT n o (a_L a) x (v_off v) (val mod 2 ^ (8 * N.of_nat n)) idx) in
         if negb (pow2_or_0 mx) then Asserted
         else if 8 <=? mx then wr 8%nat
         else if mx =? 4 then wr 4%nat
         else if mx =? 2 then wr 2%nat
         else if mx =? 1 then wr 1%nat
         else if mx =? 0 then Done a else Asserted
       end.

(** operator= (dv 327-342) between placed views of one ArchData: a memcpy, undefined if the two ranges overlap. *)
Definition dv_assign (a : adata) (v w : view) : outcome adata :=
  if negb (v_size v =? v_size w) then Refused
  else match find_line (v_line v) (a_lines a), find_line (v_line w) (a_lines a) with
       | Some x, Some y =>
           let src := firstn (N.to_nat (v_size w)) (skipn (N.to_nat (v_off w)) (l_data y)) in
           if (v_line v =? v_line w) && (v_off v <? v_off w + v_size w) && (v_off w <? v_off v + v_size v)
           then Undefined
           else put_line a (v_line v) (line_write (a_L a) x (v_off v) src)
       | _, _ => Undefined
       end.

(** writeInitial_ (dv 418-431): byte by byte. *)
Fixpoint dv_init (a : adata) (v : view) (buf : list N) (i : N) : outcome adata :=
  match buf with
  | [] => Done a
  | b :: r => match dv_write 1 LE a v b i with Done a' => dv_init a' v r (i + 1) | e => e end
  end.
