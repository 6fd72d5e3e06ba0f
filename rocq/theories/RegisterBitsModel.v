(** sparta::RegisterBits (sparta/sparta/functional/RegisterBits.hpp, cited as "rb"). The host is little-endian and
    takes unaligned accesses; num_bytes_ / 8 and all indices fit 32 bits. *)
From Coq Require Import List NArith ZArith Arith Bool Lia.
From Verif Require Import BitArrayModel.
Import ListNotations.
Open Scope N_scope.

(** *reinterpret_cast<const SizeT*>(p): the little-endian integer in the bytes (rb 34-36). Same as reading with
    memcpy. *)
Definition rd (l : bytes) : N := le_value l.
(** Storing an integer of [s] bytes (rb 34, 43, 51, 59). *)
Fixpoint wr (s : nat) (v : N) : bytes := match s with O => [] | S s' => v mod 256 :: wr s' (v / 256) end.
(** The 64-bit words of a register of more than 8 bytes (rb 324-326). *)
Fixpoint words (n : nat) (l : bytes) : list N := match n with O => [] | S n' => rd (firstn 8 l) :: words n' (skipn 8 l) end.
(** Their bytes. *)
Definition unwords (ws : list N) : bytes := concat (map (wr 8) ws).
(** Wrap to 64 bits. *)
Definition u64 (x : N) : N := x mod 2 ^ 64.
(** The sizes with a single-word implementation (rb 211-234 and the like). *)
Definition small (n : nat) : bool := (n =? 8)%nat || (n =? 4)%nat || (n =? 2)%nat || (n =? 1)%nat.

(** operator| (rb 209-238) and operator& (rb 245-274), bitMerge_ (rb 32-38), in-place |= (rb 491-520): [None] for
    accesses outside the operands. A size without implementation gives RegisterBits(nullptr), here the empty list. *)
Definition rb_merge (f : N -> N -> N) (a b : bytes) : option bytes :=
  let n := length a in
  if small n then (if (length b <? n)%nat then None else Some (wr n (f (rd a) (rd (firstn n b)))))
  else if (8 <? n)%nat
       then (if negb (n mod 8 =? 0)%nat || (length b <? n)%nat then None
             else Some (unwords (ba_zip f (words (n / 8) a) (words (n / 8) b))))
       else Some [].
(** operator~ (rb 280-306), bitNot_ (rb 41-46). *)
Definition rb_not (a : bytes) : option bytes :=
  let n := length a in
  if small n then Some (wr n (2 ^ (8 * N.of_nat n) - 1 - rd a))
  else if (8 <? n)%nat
       then (if negb (n mod 8 =? 0)%nat then None else Some (unwords (map (fun x => 2 ^ 64 - 1 - x) (words (n / 8) a))))
       else Some [].

(** The shift of a word of [s] bytes (rb 52, 60, 530-535, 608-613): types below int are promoted to int, so the
    amount must be below 32 there and, for <<, the result must fit 32 bits; otherwise below the width. *)
Definition word_shr (s : nat) (v k : N) : option N :=
  if k <? (if (s =? 8)%nat then 64 else 32) then Some (N.shiftr v k) else None.
(** Left shift of a word; see word_shr (rb 60). *)
Definition word_shl (s : nat) (v k : N) : option N :=
  if k <? (if (s =? 8)%nat then 64 else 32)
  then (if (s <? 4)%nat && (2 ^ 32 <=? N.shiftl v k) then None else Some (N.shiftl v k))
  else None.

(** int >> c of the int expression -1 >> (64 - n) (rb 373): undefined for c >= 32; with [x86] the processor's
    behaviour is taken instead (amount modulo 32). *)
Definition int_sar (x86 : bool) (v : Z) (c : N) : option Z :=
  if c <? 32 then Some (Z.shiftr v (Z.of_N c)) else if x86 then Some (Z.shiftr v (Z.of_N (c mod 32))) else None.
(** prev_dbl_word_bits_dropped_mask of operator>> (rb 371-373), for a non-zero remainder. *)
Definition shr_mask (x86 : bool) (rem : N) : option N :=
  option_map (fun z => Z.to_N (Z.land (-1) z mod 2 ^ 64)) (int_sar x86 (-1) (64 - rem)).
(** The micro shift to the right (rb 375-385). *)
Fixpoint shr_loop (rem mask : N) (ws : list N) : list N :=
  match ws with
  | [] => []
  | x :: r => N.lor (N.shiftr x rem)
                    (match r with [] => 0 | y :: _ => u64 (N.shiftl (N.land y mask) (64 - rem)) end) :: shr_loop rem mask r
  end.
(** operator>> on double words (rb 323-388): copy, then micro shift of the num_dbl_words - count lowest words, a
    32-bit difference: if the count exceeds the number of words it wraps and the loop leaves the array. *)
Definition words_shr (x86 : bool) (ws : list N) (k : N) : option (list N) :=
  let n := length ws in let d := N.to_nat (k / 64) in let rem := k mod 64 in
  let final := skipn d ws ++ repeat 0 (Nat.min d n) in
  if (d =? n)%nat then Some final
  else if rem =? 0 then Some final
  else if (n <? d)%nat then None
  else match shr_mask x86 rem with
       | None => None
       | Some m => Some (shr_loop rem m (firstn (n - d) final) ++ skipn (n - d) final)
       end.
(** operator>> (rb 313-398). *)
Definition rb_shr (x86 : bool) (a : bytes) (k : N) : option bytes :=
  let n := length a in
  if small n then option_map (wr n) (word_shr n (rd a) k)
  else if (8 <? n)%nat
       then (if negb (n mod 8 =? 0)%nat then None else option_map unwords (words_shr x86 (words (n / 8) a) k))
       else Some [].

(** The micro shift to the left (rb 467-476, 594-603), from the highest word down: [ws] is highest first. *)
Fixpoint shl_loop (rem : N) (ws : list N) : list N :=
  match ws with
  | [] => []
  | x :: r => N.lor (u64 (N.shiftl x rem))
                    (match r with [] => 0 | y :: _ => N.shiftr (N.land y (u64 (N.shiftl (2 ^ 64 - 1) (64 - rem)))) (64 - rem) end)
              :: shl_loop rem r
  end.
(** The micro-shift step of << and <<= (rb 457-478, 584-605): skipped if the word count reaches the size (a signed
    difference here). *)
Definition shl_micro (ws : list N) (k : N) : list N :=
  if k mod 64 =? 0 then ws
  else if (length ws <=? N.to_nat (k / 64))%nat then ws else rev (shl_loop (k mod 64) (rev ws)).
(** operator<< on double words (rb 415-479). *)
Definition words_shl (ws : list N) (k : N) : list N :=
  let n := length ws in let d := N.to_nat (k / 64) in
  shl_micro (repeat 0 (Nat.min d n) ++ firstn (n - d) ws) k.
(** operator<< (rb 405-489). *)
Definition rb_shl (a : bytes) (k : N) : option bytes :=
  let n := length a in
  if small n then option_map (wr n) (word_shl n (rd a) k)
  else if (8 <? n)%nat
       then (if negb (n mod 8 =? 0)%nat then None else Some (unwords (words_shl (words (n / 8) a) k)))
       else Some [].
(** Assignment to a word. *)
Definition wset (ws : list N) (i : nat) (x : N) : list N := firstn i ws ++ x :: skipn (S i) ws.
(** The copy loop of <<= (rb 571-578), in place and upwards, [fuel] iterations from [src]. *)
Fixpoint shl_copy (ws : list N) (d src fuel : nat) : list N :=
  match fuel with
  | O => ws
  | S f => if (src + d <? length ws)%nat then shl_copy (wset (wset ws (src + d) (nth src ws 0)) src 0) d (S src) f else ws
  end.
(** operator<<= on double words (rb 539-605). *)
Definition words_shl_in (ws : list N) (k : N) : list N :=
  let d := N.to_nat (k / 64) in
  shl_micro (if (0 <? d)%nat then shl_copy ws d 0 (length ws) else ws) k.
(** operator<<= (rb 526-615); other sizes are left unchanged. *)
Definition rb_shl_in (a : bytes) (k : N) : option bytes :=
  let n := length a in
  if small n then option_map (wr n) (word_shl n (rd a) k)
  else if (8 <? n)%nat
       then (if negb (n mod 8 =? 0)%nat then None else Some (unwords (words_shl_in (words (n / 8) a) k)))
       else Some a.

(** operator== with RegisterBits (rb 634-637). *)
Definition rb_eq (a b : bytes) : bool := bytes_eqb a b.
(** operator== with an integer of [s] bytes (rb 622-627): [None] if it reads past the register. *)
Definition rb_eq_int (s : nat) (a : bytes) (v : N) : option bool :=
  if (length a <? s)%nat then None else Some (rd (firstn s a) =? v).
(** set (rb 646-651): memcpy of sizeof(DataT) bytes. *)
Definition rb_set (s : nat) (a : bytes) (v : N) : option bytes :=
  if (length a <? s)%nat then None else Some (wr s v ++ skipn s a).
(** fill (rb 660-663). *)
Definition rb_fill (a : bytes) (x : N) : bytes := map (fun _ => x) a.
(** dataAs<T> (rb 697-701). *)
Definition rb_as (s : nat) (a : bytes) : N := rd (firstn s a).
(** none (rb 713-717): memcmp of the bytes with the bytes one further; the size must be positive. *)
Definition rb_none (a : bytes) : option bool :=
  match a with [] => None | _ :: _ => Some (bytes_eqb (removelast a) (tl a)) end.
(** any (rb 723-725). *)
Definition rb_any (a : bytes) : option bool := option_map negb (rb_none a).

(** Objects (rb 729-733): the bytes of the object's own storage ([None] if none was ever filled in), and where
    local_data_ and remote_data_ point. External bytes are given by the environment. *)
Inductive rbptr := PNull | POwn | PExt.
(** See rbptr. *)
Record rbobj := mkRBO { ro_n : nat; ro_own : option bytes; ro_local : rbptr; ro_remote : rbptr }.
(** RegisterBits(num_bytes, data) (rb 107-122): owned bytes. *)
Definition ro_owned (l : bytes) : rbobj := mkRBO (length l) (Some l) POwn POwn.
(** RegisterBits(uint8_t*, n) (rb 131-135): a mutable wrapper. *)
Definition ro_wrap (n : nat) : rbobj := mkRBO n None PExt PExt.
(** RegisterBits(const uint8_t*, n) (rb 144-147): a constant wrapper. *)
Definition ro_cwrap (n : nat) : rbobj := mkRBO n None PNull PExt.
(** The value: the bytes at remote_data_ (rb 678-680); [None] if null or never written. *)
Definition ro_value (ext : bytes) (o : rbobj) : option bytes :=
  match ro_remote o with PNull => None | POwn => ro_own o | PExt => Some ext end.
(** Equality of pointers within one object: the two external pointers of a wrapper are equal. *)
Definition ptr_eqb (a b : rbptr) : bool := match a, b with PNull, PNull | POwn, POwn | PExt, PExt => true | _, _ => false end.
(** Copy construction (rb 160-176). *)
Definition ro_copy (ext : bytes) (o : rbobj) : rbobj :=
  let '(own, loc) :=
    if (ro_n o <=? 8)%nat then (ro_own o, if ptr_eqb (ro_local o) PNull then PNull else POwn)
    else match ro_local o with
         | PNull => (None, PNull)
         | POwn => (ro_own o, POwn)
         | PExt => (Some ext, POwn)
         end in
  mkRBO (ro_n o) own loc (if ptr_eqb (ro_local o) (ro_remote o) then loc else ro_remote o).
(** Move construction (rb 185-202): the new object. local_storage_alt_ is null unless the storage was owned. *)
Definition ro_move (o : rbobj) : rbobj :=
  let '(own, loc) :=
    if (ro_n o <=? 8)%nat then (ro_own o, if ptr_eqb (ro_local o) PNull then PNull else POwn)
    else match ro_local o with
         | PNull => (None, PNull)
         | _ => match ro_own o with None => (None, PNull) | Some l => (Some l, POwn) end
         end in
  mkRBO (ro_n o) own loc (if ptr_eqb (ro_local o) (ro_remote o) then loc else ro_remote o).
