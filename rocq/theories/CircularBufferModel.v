(** Model of sparta::CircularBuffer.
    Source: /repo/sparta/sparta/resources/CircularBuffer.hpp.
    The std::list is a list of nodes with identities, so that a std::list iterator is a node
    identity (or end). num_valid_ (uint32_t) and start_idx_/end_idx_ (uint64_t) are unbounded;
    the conversion to uint32_t in isValidIterator_ is written out. Utilization counters and
    collection are left out; const and reverse iterators behave as the forward ones. *)
From Coq Require Import List NArith Bool.
Import ListNotations.
Open Scope N_scope.

Section CB.
Context {A : Type}.

(** CircularBufferData (101-117) inside a std::list node. *)
Record cell := mkCell { c_node : nat; c_data : A; c_win : N }.
(** Data members (769-776) and a supply of node identities. *)
Record cb := mkCB {
  b_max : nat;            (* max_size_ *)
  b_cells : list cell;    (* circularbuffer_data_ *)
  b_valid : nat;          (* num_valid_ *)
  b_start : N;            (* start_idx_ *)
  b_end : N;              (* end_idx_ *)
  b_fresh : nat
}.
(** CircularBufferIterator (139-329): circularbuffer_entry_ ([None] is end()) and window_idx_. *)
Record iter := mkIt { it_node : option nat; it_win : N }.

(** Constructor (796-830). *)
Definition cb_init (n : nat) : cb := mkCB n [] 0 0 0 0.

(** size (477), numFree (487). *)
Definition cb_size (b : cb) : nat := b_valid b.
(** isValidIterator_ (692-694): the parameter is uint32_t. *)
Definition valid_win (b : cb) (w : N) : bool :=
  let w := w mod 2 ^ 32 in (b_start b <=? w) && (w <? b_end b).
(** isValid (251-257). *)
Definition it_valid (b : cb) (it : iter) : bool := valid_win b (it_win it).
(** end (615-617). *)
Definition cb_end (b : cb) : iter := mkIt None (b_end b).
(** begin (602-609). *)
Definition cb_begin (b : cb) : iter :=
  if Nat.eqb (cb_size b) 0 then cb_end b
  else match b_cells b with
       | [] => cb_end b
       | c :: _ => mkIt (Some (c_node c)) (c_win c)
       end.

(** The cell of a node. [None]: the std::list iterator dangles or is end(). *)
Definition lookup (b : cb) (n : option nat) : option cell :=
  match n with None => None | Some n => find (fun c => Nat.eqb (c_node c) n) (b_cells b) end.
(** ++ on a std::list iterator; outer [None]: undefined behaviour. *)
Fixpoint next_of (l : list cell) (n : nat) : option (option nat) :=
  match l with
  | [] => None
  | c :: r => if Nat.eqb (c_node c) n
              then Some (match r with [] => None | d :: _ => Some (c_node d) end)
              else next_of r n
  end.

(** operator* (260-265). [None]: failed assertion or undefined behaviour. *)
Definition it_deref (b : cb) (it : iter) : option A :=
  if it_valid b it then option_map c_data (lookup b (it_node it)) else None.
(** operator++ (283-294). *)
Definition it_incr (b : cb) (it : iter) : option iter :=
  if it_valid b it then
    match it_node it with
    | None => None
    | Some n => match next_of (b_cells b) n with Some m => Some (mkIt m (it_win it + 1)) | None => None end
    end
  else None.
(** std::advance(begin(), i) (683-684). *)
Fixpoint advance (b : cb) (it : iter) (i : nat) : option iter :=
  match i with O => Some it | S i => match it_incr b it with Some it' => advance b it' i | None => None end end.
(** begin() advanced by [i]. *)
Definition it_at (b : cb) (i : nat) : option iter := advance b (cb_begin b) i.
(** operator[] (681-686). *)
Definition cb_index (b : cb) (i : nat) : option A :=
  if Nat.ltb i (cb_size b) then match it_at b i with Some it => it_deref b it | None => None end else None.

(** push_backImpl_ (705-722); [None]: the assertion at 719. *)
Definition cb_push (b : cb) (a : A) : option cb :=
  let cells := b_cells b ++ [mkCell (b_fresh b) a (b_end b)] in
  let b' :=
    if Nat.eqb (b_valid b) (b_max b)
    then mkCB (b_max b) (tl cells) (b_valid b) (b_start b + 1) (b_end b + 1) (S (b_fresh b))
    else mkCB (b_max b) cells (S (b_valid b)) (b_start b) (b_end b + 1) (S (b_fresh b)) in
  if Nat.leb (length (b_cells b')) (cb_size b') then Some b' else None.

(** The loop of invalidateIndexes_ (749-752). *)
Fixpoint renumber (l : list cell) (w : N) : list cell :=
  match l with [] => [] | c :: r => mkCell (c_node c) (c_data c) w :: renumber r (w + 1) end.
(** invalidateIndexes_ (742-753). *)
Definition invalidate (b : cb) : cb :=
  let s := b_end b + 1 in
  mkCB (b_max b) (renumber (b_cells b) s) (b_valid b) s (s + N.of_nat (length (b_cells b))) (b_fresh b).

(** std::list::erase of a node; [None]: undefined behaviour. *)
Fixpoint remove_node (l : list cell) (n : nat) : option (list cell) :=
  match l with
  | [] => None
  | c :: r => if Nat.eqb (c_node c) n then Some r else option_map (cons c) (remove_node r n)
  end.
(** std::list::insert before a node. *)
Fixpoint insert_before (l : list cell) (n : nat) (c : cell) : option (list cell) :=
  match l with
  | [] => None
  | d :: r => if Nat.eqb (c_node d) n then Some (c :: d :: r) else option_map (cons d) (insert_before r n c)
  end.

(** erase (563-568), eraseEntry_ (696-703). *)
Definition cb_erase (b : cb) (it : iter) : option cb :=
  if it_valid b it then
    match it_node it with
    | None => None
    | Some n => match remove_node (b_cells b) n with
                | None => None
                | Some l => Some (invalidate (mkCB (b_max b) l (b_valid b - 1) (b_start b) (b_end b) (b_fresh b)))
                end
    end
  else None.

(** insert (524-557), insertEntry_ (724-740). *)
Definition cb_insert (b : cb) (it : iter) (a : A) : option (cb * iter) :=
  match b_cells b with
  | [] => match cb_push b a with Some b' => Some (b', cb_begin b') | None => None end
  | _ =>
      if it_valid b it then
        match it_node it with
        | None => None
        | Some n =>
            match insert_before (b_cells b) n (mkCell (b_fresh b) a (b_end b)) with
            | None => None
            | Some l =>
                let b' := invalidate (mkCB (b_max b) l (S (b_valid b)) (b_start b) (b_end b) (S (b_fresh b))) in
                match lookup b' (Some (b_fresh b)) with
                | Some c => Some (b', mkIt (Some (b_fresh b)) (c_win c))
                | None => None
                end
            end
        end
      else None
  end.

(** clear (588-594). *)
Definition cb_clear (b : cb) : cb := mkCB (b_max b) [] 0 (b_end b) (b_end b) (b_fresh b).

(** Calls of the API, with positions given as begin() advanced by i. *)
Inductive cop := CPush (a : A) | CInsert (i : nat) (a : A) | CErase (i : nat) | CClear.
(** One call. *)
Definition cb_step (b : cb) (o : cop) : option cb :=
  match o with
  | CPush a => cb_push b a
  | CInsert i a => match it_at b i with Some it => option_map fst (cb_insert b it a) | None => None end
  | CErase i => match it_at b i with Some it => cb_erase b it | None => None end
  | CClear => Some (cb_clear b)
  end.
(** A sequence of calls. *)
Fixpoint cb_run (b : cb) (ops : list cop) : option cb :=
  match ops with [] => Some b | o :: r => match cb_step b o with Some b' => cb_run b' r | None => None end end.
End CB.
Arguments cell : clear implicits.
Arguments cb : clear implicits.
Arguments cop : clear implicits.
