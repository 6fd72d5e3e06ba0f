(** Model of sparta::Array and sparta::FrontArray.
    Source: /repo/sparta/sparta/resources/Array.hpp and FrontArray.hpp.
    Left out: the statistics and collectors, the name, the valid and to_validate flags of a
    position (never read). uint32_t and uint64_t arithmetic wraps. *)
From Coq Require Import List NArith Bool.
From Verif Require Import PipeModel.
Import ListNotations.
Open Scope N_scope.

Section ARRAY.
Context {A : Type}.

(** Data members (Array.hpp 976-1007). The positions (61-76) live in malloc'ed memory: [None] is
    memory that holds no object yet. aged_list_ is a list of indexes, youngest first; the node a
    position's list_pointer refers to is the node holding its index, which is in the list once.
    [a_cons] and [a_dest] count constructor and destructor runs of positions; they are not in the code. *)
Record arr := mkA {
  a_n : N;                (* num_entries_ *)
  a_ty : bool;            (* ArrayT == ArrayType::AGED *)
  a_valid : N -> bool;    (* valid_index_set_ *)
  a_nv : N;               (* num_valid_ *)
  a_aged : list N;        (* aged_list_ *)
  a_data : N -> option A; (* array_[].data *)
  a_abs : N -> N;         (* array_[].age_abs_id *)
  a_rel : N -> N;         (* array_[].age_rel_id *)
  a_next : N;             (* next_age_abs_id_ *)
  a_cons : N; a_dest : N
}.
(** Constructor (Array.hpp 1019-1048). *)
Definition a_init (n : N) (ty : bool) : arr :=
  mkA n ty (fun _ => false) 0 [] (fun _ => None) (fun _ => 0) (fun _ => 0) 0 0 0.

(** Assignment at one index. *)
Definition at_upd {B} (f : N -> B) (i : N) (x : B) : N -> B := fun j => if j =? i then x else f j.

(** invalid_entry_ (Array.hpp 986). *)
Definition a_invalid (a : arr) : N := (a_n a + 1) mod 2 ^ 32.
(** isValid (Array.hpp 541-543). *)
Definition a_isvalid (a : arr) (i : N) : bool := a_valid a i.
(** read and access (Array.hpp 550-564); [None]: the assertion. *)
Definition a_read (a : arr) (i : N) : option A := if a_valid a i then a_data a i else None.
(** numValid (Array.hpp 688). *)
Definition a_numvalid (a : arr) : N := a_nv a.

(** Loop of updateRelativeAge_ (Array.hpp 919-927) over the list from the oldest; [None]: the assertion at 924. *)
Fixpoint rel_loop (valid : N -> bool) (l : list N) (i : N) (rel : N -> N) : option (N -> N) :=
  match l with
  | [] => Some rel
  | x :: r => if valid x then rel_loop valid r ((i + 1) mod 2 ^ 32) (at_upd rel x i) else None
  end.
(** updateRelativeAge_ (Array.hpp 908-928). *)
Definition update_rel (valid : N -> bool) (aged : list N) (rel : N -> N) : option (N -> N) := rel_loop valid (rev aged) 0 rel.

(** aged_list_.erase of the node of an index. *)
Fixpoint unlink (i : N) (l : list N) : list N :=
  match l with [] => [] | x :: r => if x =? i then r else x :: unlink i r end.

(** erase (Array.hpp 719-743). *)
Definition a_erase (a : arr) (i : N) : option arr :=
  if a_valid a i then
    if 0 <? a_nv a then
      let nv := dec32 (a_nv a) in
      let fin aged rel := mkA (a_n a) (a_ty a) (at_upd (a_valid a) i false) nv aged (a_data a) (a_abs a) rel (a_next a)
                              (a_cons a) (a_dest a + 1) in
      if a_ty a then
        let aged := unlink i (a_aged a) in
        option_map (fin aged) (update_rel (a_valid a) aged (a_rel a))
      else Some (fin (a_aged a) (a_rel a))
    else None
  else None.

(** clear (Array.hpp 748-760): runs a destructor for every member of the set of valid indexes. *)
Definition a_clear (a : arr) : arr :=
  mkA (a_n a) (a_ty a) (fun _ => false) 0 [] (a_data a) (a_abs a) (a_rel a) (a_next a) (a_cons a)
      (a_dest a + N.of_nat (length (filter (fun j => a_valid a (N.of_nat j)) (seq 0 (N.to_nat (a_n a)))))).

(** writeImpl_ (Array.hpp 930-974); the placement new at 947 does not destroy the object it overwrites. *)
Definition a_write (a : arr) (i : N) (x : A) : option arr :=
  if i <? a_n a then
    let nv := if a_valid a i then dec32 (a_nv a) else a_nv a in
    let aged := if a_valid a i && a_ty a then unlink i (a_aged a) else a_aged a in
    let valid := at_upd (a_valid a) i true in
    let fin aged rel := mkA (a_n a) (a_ty a) valid (inc32 nv) aged (at_upd (a_data a) i (Some x))
                            (at_upd (a_abs a) i (a_next a)) rel ((a_next a + 1) mod 2 ^ 64) (a_cons a + 1) (a_dest a) in
    let rel := at_upd (a_rel a) i 0 in
    if a_ty a then option_map (fin (i :: aged)) (update_rel valid (i :: aged) rel)
    else Some (fin aged rel)
  else None.

(** getOldestIndex (Array.hpp 578-604): the index of the returned iterator. *)
Definition a_oldest (a : arr) (nth : N) : option N :=
  if a_ty a && (nth <? a_nv a) then
    match nth_error (rev (a_aged a)) (N.to_nat nth) with Some i => if a_valid a i then Some i else None | None => None end
  else None.
(** getYoungestIndex (Array.hpp 616-638). *)
Definition a_youngest (a : arr) (nth : N) : option N :=
  if a_ty a && (nth <? a_nv a) then
    match nth_error (a_aged a) (N.to_nat nth) with Some i => if a_valid a i then Some i else None | None => None end
  else None.
(** The element before [i] in a list, the result of find, -- and *; the last element when [i] is absent. *)
Fixpoint before (prev : option N) (i : N) (l : list N) : option N :=
  match l with [] => prev | x :: r => if x =? i then prev else before (Some x) i r end.
(** getNextOldestIndex (Array.hpp 645-653); [None]: it returns false. *)
Definition a_next_oldest (a : arr) (i : N) : option N := before None i (a_aged a).
(** getAge (Array.hpp 659-664). *)
Definition a_age (a : arr) (i : N) : option N := if a_ty a && a_valid a i then Some (a_rel a i) else None.
(** isYounger (Array.hpp 821-827). *)
Definition a_is_younger (a : arr) (l r : N) : option bool :=
  if negb (l =? r) && ((l <? a_n a) && (r <? a_n a)) then Some (a_abs a r <? a_abs a l) else None.
(** isOlder (Array.hpp 836-842). *)
Definition a_is_older (a : arr) (l r : N) : option bool :=
  if negb (l =? r) && ((l <? a_n a) && (r <? a_n a)) then Some (a_abs a l <? a_abs a r) else None.

(** abegin (Array.hpp 441-449), as an index; aend is [a_invalid]. *)
Definition a_abegin (a : arr) : option N := if a_nv a =? 0 then Some (a_invalid a) else a_oldest a 0.
(** operator++ of an aged iterator (Array.hpp 314-355); the fuel bounds the recursion at 343. *)
Fixpoint a_incr (fuel : nat) (a : arr) (i : N) : option N :=
  match fuel with
  | O => None
  | S fuel =>
      if i =? a_invalid a then None
      else match (match a_next_oldest a i with Some j => Some j | None => a_oldest a 0 end) with
           | None => None
           | Some j => match a_abegin a with
                       | None => None
                       | Some b => if j =? b then Some (a_invalid a)
                                   else if a_valid a j then Some j else a_incr fuel a j
                       end
           end
  end.
(** for(auto it = abegin(); it != aend(); ++it): the indexes visited. *)
Fixpoint a_walk_from (fuel : nat) (a : arr) (i : N) : option (list N) :=
  match fuel with
  | O => None
  | S fuel => if i =? a_invalid a then Some []
              else match a_incr 1 a i with
                   | Some j => option_map (cons i) (a_walk_from fuel a j)
                   | None => None end
  end.
(** The whole loop. *)
Definition a_walk (fuel : nat) (a : arr) : option (list N) :=
  match a_abegin a with Some i => a_walk_from fuel a i | None => None end.

(** Loop of writeFrontImpl_ (FrontArray.hpp 155-164). *)
Fixpoint front_loop (valid : N -> bool) (k : nat) (i : N) : option N :=
  match k with O => None | S k => if valid i then front_loop valid k (i + 1) else Some i end.
(** writeFront (FrontArray.hpp 79, 152-167). *)
Definition fa_write_front (a : arr) (x : A) : option (N * arr) :=
  match front_loop (a_valid a) (N.to_nat (a_n a)) 0 with
  | Some i => option_map (pair i) (a_write a i x)
  | None => None
  end.
(** Loop of writeBackImpl_ (FrontArray.hpp 172-180), from [k - 1] down to 0. *)
Fixpoint back_loop (valid : N -> bool) (k : nat) : option N :=
  match k with O => None | S k => if valid (N.of_nat k) then back_loop valid k else Some (N.of_nat k) end.
(** writeBack (FrontArray.hpp 103, 169-183): the index is an int32_t, negative for capacities above 2^31. *)
Definition fa_write_back (a : arr) (x : A) : option (N * arr) :=
  if 2 ^ 31 <? a_n a then None
  else match back_loop (a_valid a) (N.to_nat (a_n a)) with
       | Some i => option_map (pair i) (a_write a i x)
       | None => None
       end.
(** Loop of readValid (FrontArray.hpp 56-65); [None]: still running when the fuel is used up. *)
Fixpoint rv_loop (fuel : nat) (valid : N -> bool) (nth n i : N) : option N :=
  match fuel with
  | O => None
  | S fuel => if n <=? nth then rv_loop fuel valid nth (if valid n then (n + 1) mod 2 ^ 32 else n) ((i + 1) mod 2 ^ 32)
              else Some i
  end.
(** readValid (FrontArray.hpp 49-70): [None] is a failed assertion or a loop longer than the fuel. *)
Definition fa_read_valid (fuel : nat) (a : arr) (nth : N) : option A :=
  if (nth <? a_n a) && (nth <? a_nv a) then
    match rv_loop fuel (a_valid a) nth 0 0 with
    | Some i => if 0 <? i then a_read a (i - 1) else None
    | None => None
    end
  else None.

(** Calls that change an array; [AWriteFront] and [AWriteBack] for FrontArray. *)
Inductive aop := AWrite (i : N) (x : A) | AErase (i : N) | AClear | AWriteFront (x : A) | AWriteBack (x : A).
(** One call; [None]: a failed assertion. *)
Definition a_step (a : arr) (o : aop) : option arr :=
  match o with
  | AWrite i x => a_write a i x
  | AErase i => a_erase a i
  | AClear => Some (a_clear a)
  | AWriteFront x => option_map snd (fa_write_front a x)
  | AWriteBack x => option_map snd (fa_write_back a x)
  end.
(** A sequence of calls. *)
Fixpoint a_run (a : arr) (ops : list aop) : option arr :=
  match ops with [] => Some a | o :: r => match a_step a o with Some a' => a_run a' r | None => None end end.
End ARRAY.
Arguments arr : clear implicits.
Arguments aop : clear implicits.
