(** Model of sparta::utils::FastList. Source: /repo/sparta/sparta/utils/FastList.hpp.
    An iterator is the index of its node, -1 for end() (the list an iterator belongs to is left out).
    Capacities are below 2^31, so node indexes fit in an int. *)
From Coq Require Import List ZArith Bool.
Import ListNotations.
Open Scope Z_scope.

Section FL.
Context {A : Type}.

(** Data members (420-430) and the nodes (48-70); [None]: no object in the storage of the node. *)
Record fl := mkF {
  f_n : Z;              (* nodes_.size() *)
  f_nx : Z -> Z;        (* nodes_[i].next *)
  f_pv : Z -> Z;        (* nodes_[i].prev *)
  f_dat : Z -> option A;(* nodes_[i].type_storage *)
  f_first : Z;          (* first_node_ *)
  f_last : Z;           (* last_node_ *)
  f_free : Z;           (* free_head_ *)
  f_size : Z            (* size_ *)
}.
(** Assignment at one index. *)
Definition zupd {B} (f : Z -> B) (i : Z) (x : B) : Z -> B := fun j => if j =? i then x else f j.

(** Constructor (191-205); [None]: the assertion. *)
Definition f_init (n : Z) : option fl :=
  if n <=? 0 then None
  else Some (mkF n (zupd (fun i => i + 1) (n - 1) (-1)) (fun i => i - 1) (fun _ => None) (-1) (-1) 0 0).

(** advanceNode_ (72-75), operator++ (137-142); [None]: the assertion. *)
Definition f_incr (f : fl) (i : Z) : option Z := if i =? -1 then None else Some (f_nx f i).
(** begin (214), end is -1. *)
Definition f_begin (f : fl) : Z := f_first f.
(** operator* (125-134). *)
Definition f_deref (f : fl) (i : Z) : option A := if i =? -1 then None else f_dat f i.

(** erase (257-293); [None]: no object to destroy at this node, or no such node: undefined behaviour. *)
Definition f_erase (f : fl) (i : Z) : option (fl * Z) :=
  match f_dat f i with
  | None => None
  | Some _ =>
      if i =? -1 then None else
      let nx := f_nx f i in
      let pv := f_pv f i in
      let first := if f_first f =? i then nx else f_first f in
      let last := if f_last f =? i then pv else f_last f in
      let pvs := if nx =? -1 then f_pv f else zupd (f_pv f) nx pv in
      let next_elem := if nx =? -1 then -1 else nx in
      let nxs := if pv =? -1 then f_nx f else zupd (f_nx f) pv nx in
      let pvs := zupd pvs i (-1) in
      let nxs := zupd nxs i (-1) in
      let pvs := if f_free f =? -1 then pvs else zupd pvs (f_free f) i in
      let nxs := if f_free f =? -1 then nxs else zupd nxs i (f_free f) in
      Some (mkF (f_n f) nxs pvs (zupd (f_dat f) i None) first last i (f_size f - 1), next_elem)
  end.

(** emplace_back (373-397). *)
Definition f_back (f : fl) (x : A) : option (fl * Z) :=
  if f_free f =? -1 then None
  else
    let i := f_free f in
    let free := f_nx f i in
    let nxs := zupd (f_nx f) i (-1) in
    let pvs := zupd (f_pv f) i (-1) in
    let nxs := if f_last f =? -1 then nxs else zupd nxs (f_last f) i in
    let pvs := if f_last f =? -1 then pvs else zupd pvs i (f_last f) in
    Some (mkF (f_n f) nxs pvs (zupd (f_dat f) i (Some x)) (if f_first f =? -1 then i else f_first f) i free (f_size f + 1), i).

(** emplace_front (340-365). *)
Definition f_front (f : fl) (x : A) : option (fl * Z) :=
  if f_free f =? -1 then None
  else
    let i := f_free f in
    let free := f_nx f i in
    let nxs := zupd (f_nx f) i (-1) in
    let pvs := zupd (f_pv f) i (-1) in
    let pvs := if f_first f =? -1 then pvs else zupd pvs (f_first f) i in
    let nxs := if f_first f =? -1 then nxs else zupd nxs i (f_first f) in
    Some (mkF (f_n f) nxs pvs (zupd (f_dat f) i (Some x)) i (if f_last f =? -1 then i else f_last f) free (f_size f + 1), i).

(** emplace (296-332), insert (401-404). *)
Definition f_emplace (f : fl) (pos : Z) (x : A) : option (fl * Z) :=
  if f_free f =? -1 then None
  else if pos =? -1 then f_back f x
  else
    let i := f_free f in
    let free := f_nx f i in
    let nxs := zupd (f_nx f) i (-1) in
    let pvs := zupd (f_pv f) i (-1) in
    let nxs := zupd nxs i pos in
    let pvs := zupd pvs i (pvs pos) in
    let pvs := zupd pvs pos i in
    let nxs := if pvs i =? -1 then nxs else zupd nxs (pvs i) i in
    let first := if (f_first f =? pos) || (f_first f =? -1) then i else f_first f in
    Some (mkF (f_n f) nxs pvs (zupd (f_dat f) i (Some x)) first (f_last f) free (f_size f + 1), i).

(** pop_back (407-411). *)
Definition f_pop_back (f : fl) : option (fl * Z) := if f_last f =? -1 then None else f_erase f (f_last f).
(** pop_front (414-418). *)
Definition f_pop_front (f : fl) : option (fl * Z) := if f_first f =? -1 then None else f_erase f (f_first f).

(** Loop of clear (246-251); [None]: still running when the fuel is used up, or undefined behaviour. *)
Fixpoint f_clear_loop (fuel : nat) (f : fl) (i : Z) : option fl :=
  match fuel with
  | O => None
  | S fuel => if i =? -1 then Some f
              else match f_incr f i, f_erase f i with
                   | Some j, Some (f', _) => f_clear_loop fuel f' j
                   | _, _ => None end
  end.
(** clear (246-251). *)
Definition f_clear (f : fl) : option fl := f_clear_loop (S (Z.to_nat (f_n f))) f (f_begin f).

(** for(it = begin(); it != end(); ++it): the iterators visited, with what they denote. *)
Fixpoint f_walk (fuel : nat) (f : fl) (i : Z) : option (list (Z * A)) :=
  match fuel with
  | O => None
  | S fuel => if i =? -1 then Some []
              else match f_deref f i, f_incr f i with
                   | Some x, Some j => option_map (cons (i, x)) (f_walk fuel f j)
                   | _, _ => None end
  end.
(** The whole loop. *)
Definition f_contents (f : fl) : option (list (Z * A)) := f_walk (S (Z.to_nat (f_n f))) f (f_begin f).

(** Calls that change the list. *)
Inductive fop := FEmplace (pos : Z) (x : A) | FFront (x : A) | FBack (x : A) | FErase (pos : Z) | FPopBack | FPopFront | FClear.
(** One call, with the iterator it returns (-1 if none). *)
Definition f_step (f : fl) (o : fop) : option (fl * Z) :=
  match o with
  | FEmplace p x => f_emplace f p x
  | FFront x => f_front f x
  | FBack x => f_back f x
  | FErase p => f_erase f p
  | FPopBack => f_pop_back f
  | FPopFront => f_pop_front f
  | FClear => option_map (fun f' => (f', -1)) (f_clear f)
  end.
End FL.
Arguments fl : clear implicits.
Arguments fop : clear implicits.
