(** sparta::utils::BitArray (sparta/sparta/utils/BitArray.hpp, cited as "ba"). *)
From Coq Require Import List NArith ZArith Arith Bool Lia.
Import ListNotations.
Open Scope N_scope.

(** The bytes data_[0 .. data_size_) (ba 327-336), least significant first. *)
Definition bytes := list N.
(** Conversion to data_type = uint8_t (ba 47). *)
Definition to_u8 (x : N) : N := x mod 256.
(** BitArray(data, data_size, array_size) (ba 60-68, roundUpTo_ 233-236 with a 1-byte word, initializeStorage_
    215-231): zeroed storage, then a copy of the smaller of the two sizes. *)
Definition ba_make (data : bytes) (array_size : nat) : bytes :=
  let n := if (array_size =? 0)%nat then length data else array_size in
  firstn n data ++ repeat 0 (n - length data).
(** getValue<T>() (ba 105-110), [s] = sizeof(T): the first bytes as an unsigned integer. *)
Fixpoint le_value (l : bytes) : N := match l with [] => 0 | a :: r => a + 256 * le_value r end.
(** getValue<T>() (ba 105-110). *)
Definition ba_get (s : nat) (l : bytes) : N := le_value (firstn s l).
(** fill(value) (ba 122-128), [s] = sizeof(T), [v] the value (an arithmetic shift for signed T). *)
Definition ba_fill (s : nat) (v : Z) (l : bytes) : bytes :=
  map (fun i => Z.to_N (Z.land (Z.shiftr v (8 * Z.of_nat (i mod s))) 255)) (seq 0 (length l)).
(** operator== (ba 130-134). *)
Fixpoint bytes_eqb (a b : bytes) : bool :=
  match a, b with [], [] => true | x :: a', y :: b' => (x =? y) && bytes_eqb a' b' | _, _ => false end.
(** slide (ba 19-35), reading and writing the same range: each element is computed from itself and its successor,
    which is not yet overwritten; the last from itself and [init]. *)
Fixpoint slide (f : N -> N -> N) (init : N) (l : bytes) : bytes :=
  match l with
  | [] => []
  | x :: r => f x (match r with [] => init | y :: _ => y end) :: slide f init r
  end.
(** shiftLeftWords_ (ba 246-253): std::rotate with last - amount as the new first, then std::fill; undefined
    ([None]) if the middle lies before the first element. *)
Definition shl_words (l : bytes) (k : nat) : option bytes :=
  if (length l <? k)%nat then None
  else let r := skipn (length l - k) l ++ firstn (length l - k) l in Some (repeat 0 k ++ skipn k r).
(** shiftLeftBits_ (ba 255-266): slide over the reversed range. *)
Definition shl_bits (l : bytes) (b : N) : bytes :=
  rev (slide (fun low high => to_u8 (N.lor (N.shiftl low b) (N.shiftr high (8 - b)))) 0 (rev l)).
(** shiftLeft_ (ba 238-244), operator<< and <<= (ba 141-152). *)
Definition ba_shl (l : bytes) (k : N) : option bytes :=
  option_map (fun r => shl_bits r (k mod 8)) (shl_words l (N.to_nat (k / 8))).
(** shiftRightWords_ (ba 276-283). *)
Definition shr_words (l : bytes) (k : nat) : option bytes :=
  if (length l <? k)%nat then None
  else let r := skipn k l ++ firstn k l in Some (firstn (length l - k) r ++ repeat 0 k).
(** shiftRightBits_ (ba 285-295). *)
Definition shr_bits (l : bytes) (b : N) : bytes :=
  slide (fun low high => to_u8 (N.lor (N.shiftr low b) (N.shiftl high (8 - b)))) 0 l.
(** shiftRight_ (ba 268-274), operator>> and >>= (ba 154-165). *)
Definition ba_shr (l : bytes) (k : N) : option bytes :=
  option_map (fun r => shr_bits r (k mod 8)) (shr_words l (N.to_nat (k / 8))).
(** and_ (ba 297-305), or_ (ba 307-315): the first min(sizes) bytes of the left operand are combined. *)
Fixpoint ba_zip (f : N -> N -> N) (a b : bytes) : bytes :=
  match a, b with x :: a', y :: b' => f x y :: ba_zip f a' b' | _, _ => a end.
(** operator& and &= (ba 174-185). *)
Definition ba_and := ba_zip N.land.
(** operator| and |= (ba 194-205). *)
Definition ba_or := ba_zip N.lor.
(** negate_ (ba 317-322), operator~ (ba 207-212). *)
Definition ba_not (l : bytes) : bytes := map (fun x => 255 - x) l.

(** Objects: every object has its own storage (data_ss_ or data_ls_, ba 327-330) and the pointer data_ (ba 333)
    into the storage of some object. Objects are numbered; storage is never reallocated here (assignment between
    arrays of equal size, so std::vector keeps its buffer). *)
Record baheap := mkBAH { bh_store : nat -> bytes; bh_ptr : nat -> nat }.
(** Update. *)
Definition upf {A} (f : nat -> A) (i : nat) (x : A) : nat -> A := fun j => if (j =? i)%nat then x else f j.
(** What object [o] shows: the bytes at data_. *)
Definition bah_read (h : baheap) (o : nat) : bytes := bh_store h (bh_ptr h o).
(** Construction of a fresh object (ba 60-68). *)
Definition bah_new (h : baheap) (o : nat) (l : bytes) : baheap := mkBAH (upf (bh_store h) o l) (upf (bh_ptr h) o o).
(** Copy construction (ba 86-90). *)
Definition bah_copy (h : baheap) (o from : nat) : baheap := bah_new h o (bah_read h from).
(** Copy assignment, defaulted (ba 92): memberwise, so the storage is copied and so is the pointer. *)
Definition bah_assign (h : baheap) (o from : nat) : baheap :=
  mkBAH (upf (bh_store h) o (bh_store h from)) (upf (bh_ptr h) o (bh_ptr h from)).
(** An in-place operation on object [o], writing through data_ (ba 148-152, 161-165, 181-185, 201-205). *)
Definition bah_modify (h : baheap) (o : nat) (f : bytes -> bytes) : baheap :=
  mkBAH (upf (bh_store h) (bh_ptr h o) (f (bah_read h o))) (bh_ptr h).
