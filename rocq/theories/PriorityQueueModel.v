(* Model of sparta/sparta/resources/PriorityQueue.hpp. The container (std::list, or FastList when
   bounded) is a Coq list; the capacity of the bounded variant is not modelled. *)
Require Import List Bool Arith.
Import ListNotations.

Section PQ.
Context {A : Type}.
(* PriorityQueue.hpp:53-55: SortingAlgorithmT; and operator== of DataT, used by remove. *)
Variable lt : A -> A -> bool.
Variable eqb : A -> A -> bool.

(* PriorityQueue.hpp:94-104, insert. *)
Fixpoint pq_insert (x : A) (q : list A) : list A :=
  match q with
  | [] => [x]
  | y :: q' => if lt x y then x :: y :: q' else y :: pq_insert x q'
  end.

(* PriorityQueue.hpp:118-121, top (None: failed assert). *)
Definition pq_top (q : list A) : option A := hd_error q.
(* PriorityQueue.hpp:124-127, back (None: failed assert). *)
Definition pq_back (q : list A) : option A := match q with [] => None | y :: q' => Some (last q' y) end.
(* PriorityQueue.hpp:130-133, pop (None: failed assert); also returns what was popped. *)
Definition pq_pop (q : list A) : option (A * list A) :=
  match q with [] => None | y :: q' => Some (y, q') end.
(* PriorityQueue.hpp:141-143, remove: std::list::remove drops every equal element; also returns them. *)
Definition pq_remove (x : A) (q : list A) : list A * list A :=
  (filter (fun y => eqb x y) q, filter (fun y => negb (eqb x y)) q).
(* PriorityQueue.hpp:146-148, erase of the i-th element (None: not a dereferenceable iterator). *)
Fixpoint pq_erase (i : nat) (q : list A) : option (A * list A) :=
  match i, q with
  | _, [] => None
  | O, y :: q' => Some (y, q')
  | S i', y :: q' => match pq_erase i' q' with Some (r, q'') => Some (r, y :: q'') | None => None end
  end.
(* PriorityQueue.hpp:161-163, forceFront. *)
Definition pq_force_front (x : A) (q : list A) : list A := x :: q.

(* The public operations. *)
Inductive pq_op := Insert (x : A) | Pop | Remove (x : A) | Erase (i : nat) | Clear | ForceFront (x : A).

(* One operation: the elements that left, and the new queue. *)
Definition pq_step (o : pq_op) (q : list A) : option (list A * list A) :=
  match o with
  | Insert x => Some ([], pq_insert x q)
  | Pop => match pq_pop q with None => None | Some (y, q') => Some ([y], q') end
  | Remove x => Some (pq_remove x q)
  | Erase i => match pq_erase i q with None => None | Some (y, q') => Some ([y], q') end
  | Clear => Some (q, [])   (* PriorityQueue.hpp:136-138 *)
  | ForceFront x => Some ([], pq_force_front x q)
  end.

(* A history of calls: the elements that left in order, and the final queue. *)
Fixpoint pq_run (os : list pq_op) (q : list A) : option (list A * list A) :=
  match os with
  | [] => Some ([], q)
  | o :: os' =>
      match pq_step o q with
      | None => None
      | Some (out, q') =>
          match pq_run os' q' with None => None | Some (out', q'') => Some (out ++ out', q'') end
      end
  end.
End PQ.
Arguments pq_op : clear implicits.
