(* Models of the replacement policies sparta/cache/LRUReplacement.hpp and
   sparta/cache/TreePLRUReplacement.hpp. *)
Require Import List Bool Arith.
Import ListNotations.

(* LRUReplacement.hpp:24-30: lru_stack_ is initially 0,1,...,num_ways-1 (front = LRU). way_map_[i] is the
   list iterator of the element with value i; splice never changes values, so it is represented by the
   value itself. *)
Definition lru_init (num_ways : nat) : list nat := seq 0 num_ways.

(* The list without (the unique occurrence of) way: what splice unlinks, LRUReplacement.hpp:45, :56. *)
Definition unlink (way : nat) (s : list nat) : list nat := filter (fun x => negb (x =? way)) s.

(* LRUReplacement.hpp:42-46, touchLRU; way_map_[way] out of range is undefined (None). *)
Definition lru_touch_lru (way : nat) (s : list nat) : option (list nat) :=
  if way <? length s then Some (way :: unlink way s) else None.
(* LRUReplacement.hpp:53-57, touchMRU. *)
Definition lru_touch_mru (way : nat) (s : list nat) : option (list nat) :=
  if way <? length s then Some (unlink way s ++ [way]) else None.
(* LRUReplacement.hpp:64, getLRUWay (front of an empty list is undefined). *)
Definition lru_victim (s : list nat) : option nat := hd_error s.
(* LRUReplacement.hpp:71, getMRUWay. *)
Definition lru_mru (s : list nat) : option nat := match s with [] => None | x :: t => Some (last t x) end.

(* The touch calls of the ReplacementIF interface (ReplacementIF.hpp:33, :37). *)
Inductive touch := TouchLRU (way : nat) | TouchMRU (way : nat).
(* Dispatch of one touch call. *)
Definition lru_step (t : touch) (s : list nat) : option (list nat) :=
  match t with TouchLRU w => lru_touch_lru w s | TouchMRU w => lru_touch_mru w s end.
(* A history of touch calls. *)
Fixpoint lru_run (ts : list touch) (s : list nat) : option (list nat) :=
  match ts with
  | [] => Some s
  | t :: ts' => match lru_step t s with None => None | Some s' => lru_run ts' s' end
  end.

(* --- Tree PLRU. plru_bits_ (TreePLRUReplacement.hpp:165) is a map from index to bit; only indices
   1..num_ways-1 < 128 are ever accessed, so the 128-bit bound is not represented. num_ways = 2^k. *)
Definition bits := nat -> bool.
(* plru_bits_[i] = v. *)
Definition set_bit (b : bits) (i : nat) (v : bool) : bits := fun j => if j =? i then v else b j.
Definition b2n (b : bool) : nat := if b then 1 else 0.

(* TreePLRUReplacement.hpp:55-58, reset. *)
Definition plru_reset : bits := fun _ => false.
(* TreePLRUReplacement.hpp:82-86, descent of k levels from idx following the bits. *)
Fixpoint descend (k : nat) (b : bits) (idx : nat) : nat :=
  match k with 0 => idx | S k' => descend k' b (2 * idx + b2n (b idx)) end.
(* TreePLRUReplacement.hpp:62-68, descent following the inverted bits. *)
Fixpoint descend_not (k : nat) (b : bits) (idx : nat) : nat :=
  match k with 0 => idx | S k' => descend_not k' b (2 * idx + b2n (negb (b idx))) end.
(* TreePLRUReplacement.hpp:80-91, getLRUWay. *)
Definition plru_victim (k : nat) (b : bits) : nat := descend k b 1 - 2 ^ k.
(* TreePLRUReplacement.hpp:60-73, getMRUWay. *)
Definition plru_mru (k : nat) (b : bits) : nat := descend_not k b 1 - 2 ^ k.
(* TreePLRUReplacement.hpp:102-109 (inv = true) and 121-126 (inv = false): the climb of k levels. *)
Fixpoint climb (inv : bool) (k : nat) (idx : nat) (b : bits) : bits :=
  match k with
  | 0 => b
  | S k' => climb inv k' (idx / 2) (set_bit b (idx / 2) (xorb inv (Nat.odd idx)))
  end.
(* TreePLRUReplacement.hpp:98-110, touchMRU (None: failed assert way < num_ways_). *)
Definition plru_touch_mru (k way : nat) (b : bits) : option bits :=
  if way <? 2 ^ k then Some (climb true k (way + 2 ^ k) b) else None.
(* TreePLRUReplacement.hpp:117-127, touchLRU. *)
Definition plru_touch_lru (k way : nat) (b : bits) : option bits :=
  if way <? 2 ^ k then Some (climb false k (way + 2 ^ k) b) else None.

(* Repeatedly replace: take getLRUWay() and touchMRU() it, n times, as BasicCacheSet users do
   (e.g. sparta/cache/SimpleCache2.hpp:212-226); returns the successive victims. *)
Fixpoint plru_replace (n k : nat) (b : bits) : option (list nat) :=
  match n with
  | 0 => Some []
  | S n' =>
      let v := plru_victim k b in
      match plru_touch_mru k v b with
      | None => None
      | Some b' => match plru_replace n' k b' with None => None | Some vs => Some (v :: vs) end
      end
  end.
